(* What a reader of a saved state relies on: where each body's shape is found, and which lists are stored under which
   names. Independent of how the file was written. *)
From Coq Require Import String Ascii List Bool Arith ZArith.
Import ListNotations.
From Verif Require Import Outcome Hdf_Model Hdf_Spec Out_Model.
Local Open Scope string_scope. Local Open Scope list_scope.

Section Spec.
Context {A : Type}.
(* column i of the 2 x n table of shape references: type of the shape, position among the shapes of that type *)
Definition shape_reference (h : h5 A) (i : nat) : option (Z * Z) :=
  match stored h "geometry/geometry_indices" with
  | Some (PMatrix SUnsigned 2 n data) =>
      if Nat.ltb i n then match nth_error data i, nth_error data (n + i) with
                          | Some (EInt t), Some (EInt l) => Some (t, l)
                          | _, _ => None
                          end
      else None
  | _ => None
  end.
(* struct number k of an array of structs with the given member names *)
Definition record_at (h : h5 A) (name : string) (fields : list string) (k : Z) : option (list (member A)) :=
  match stored h name with
  | Some (PRecords fs recs) => if list_eq_dec string_dec fs fields then nth_error recs (Z.to_nat k) else None
  | _ => None
  end.
(* the shape a reader reconstructs for body i: 0 box, 1 sphere, 3 mesh in 3D; 0 circle, 1 box in 2D *)
Definition read_shape3 (h : h5 A) (i : nat) : option (shape3 A) :=
  match shape_reference h i with
  | Some (0%Z, k) => match record_at h "geometry/boxes" ["r"] k with Some [MArray r] => Some (GBox r) | _ => None end
  | Some (1%Z, k) => match record_at h "geometry/spheres" ["r"] k with Some [MNum r] => Some (GSphere r) | _ => None end
  | Some (3%Z, k) => match record_at h "geometry/meshes" ["file_name"] k with Some [MText f] => Some (GMesh f) | _ => None end
  | _ => None
  end.
Definition read_shape2 (h : h5 A) (i : nat) : option (shape2 A) :=
  match shape_reference h i with
  | Some (0%Z, k) => match record_at h "geometry/circles" ["r"] k with Some [MNum r] => Some (HCircle r) | _ => None end
  | Some (1%Z, k) => match record_at h "geometry/boxes" ["r"] k with Some [MArray r] => Some (HBox r) | _ => None end
  | _ => None
  end.
(* the shape of body i of a simulation: its index into the list of shapes; names of mesh files end at a zero byte *)
Definition shape_of {S} (geometry : list S) (indices : list nat) (i : nat) : option S :=
  match nth_error indices i with Some g => nth_error geometry g | None => None end.
Definition named (s : shape3 A) : shape3 A := match s with GMesh f => GMesh (c_string f) | _ => s end.
Definition indices_ok {S} (geometry : list S) (indices : list nat) : Prop := forall g, In g indices -> g < List.length geometry.

(* an array of structs stored under a name exactly when it is not empty *)
Definition stored_records (h : h5 A) (name : string) (fields : list string) (recs : list (list (member A))) : Prop :=
  stored h name = match recs with [] => None | _ => Some (PRecords fields recs) end.
(* a column of numbers stored under a name *)
Definition stored_column (h : h5 A) (name : string) (t : scalar_type) (l : list (elem A)) : Prop :=
  stored h name = Some (PMatrix t (List.length l) 1 l).

(* the general facts every saved file holds *)
Definition has_header (h : h5 A) (dt time : A) (iteration : Z) (hash : string) : Prop :=
  stored_column h "timestep" SDouble [ENum dt] /\ stored_column h "iteration" SUnsigned [EInt iteration] /\
  stored_column h "time" SDouble [ENum time] /\ stored h "git_hash" = Some (PText (c_string hash)).
End Spec.
