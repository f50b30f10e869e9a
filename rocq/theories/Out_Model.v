(* Saving the state of a simulation to an HDF5 file: /repo/rigidbody3d/StateOutput.cpp, /repo/rigidbody2d/StateOutput.cpp,
   writeBinaryState of the three simulations and saveState of the three command line programs.
   Floating point numbers are of an arbitrary type A: they are only copied. The number of bodies and of shapes is below
   2^32, so the unsigned counters do not wrap (simplification). *)
From Coq Require Import String Ascii List Bool Arith ZArith.
Import ListNotations.
From Verif Require Import Outcome Hdf_Model.
Local Open Scope string_scope. Local Open Scope list_scope.

Section Out.
Context {A : Type}.
Notation vec := (list A).

(* RigidBodyGeometryType, RigidBodyGeometry.h:13-19, and what the output reads of each shape; a staple is not output *)
Inductive shape3 := GBox (half_widths : vec) | GSphere (r : A) | GStaple | GMesh (file_name : string).
Definition type3 (s : shape3) : nat := match s with GBox _ => 0 | GSphere _ => 1 | GStaple => 2 | GMesh _ => 3 end.
(* RigidBody2DGeometryType, RigidBody2DGeometry.h:12-15 *)
Inductive shape2 := HCircle (r : A) | HBox (r : vec).
Definition type2 (s : shape2) : nat := match s with HCircle _ => 0 | HBox _ => 1 end.

(* the mapping from shapes to their position among the shapes of their type, 3D StateOutput.cpp:27-36, 2D 22-34:
   geo_type_local_indices( type )++ *)
Fixpoint local_indices (types : list nat) (count : nat -> nat) : list nat :=
  match types with
  | [] => []
  | t :: ts => count t :: local_indices ts (fun u => if Nat.eqb u t then S (count t) else count u)
  end.

Fixpoint set_nth {B} (k : nat) (x : B) (l : list B) : list B :=
  match l, k with
  | [], _ => []
  | _ :: t, 0 => x :: t
  | y :: t, S k => y :: set_nth k x t
  end.

(* the loop of writeGeometryIndices, 3D StateOutput.cpp:62-78, 2D 60-76: one column per body, written through a hyperslab
   of the 2 x n data set; an index that is not that of a shape reads outside the vectors *)
Fixpoint index_columns (dset : list string) (types locals : list nat) (n k : nat) (data : list (elem A)) (indices : list nat) : act A unit :=
  match indices with
  | [] => ret tt
  | g :: gs =>
      match nth_error types g, nth_error locals g with
      | Some t, Some l =>
          let data' := set_nth k (EInt (Z.of_nat t)) (set_nth (n + k) (EInt (Z.of_nat l)) data) in
          bind (write_data dset (PMatrix SUnsigned 2 n data')) (fun _ => index_columns dset types locals n (S k) data' gs)
      | _, _ => undefined
      end
  end.
(* writeGeometryIndices, 3D StateOutput.cpp:25-79, 2D StateOutput.cpp:16-77 *)
Definition writeGeometryIndices (group : string) (types : list nat) (indices : list nat) : act A unit :=
  let locals := local_indices types (fun _ => 0) in
  let n := List.length indices in
  bind call_ok (fun _ => (* H5Screate_simple *)
  bind (findOrCreateGroup group) (fun grp =>
  bind (create_data grp "geometry_indices" (blank SUnsigned 2 n)) (fun dset =>
  bind call_ok (fun _ => (* H5Screate_simple *)
  index_columns dset types locals n 0 (repeat zero_elem (2 * n)) indices)))).

(* the writers of arrays of structs all have this form: a data set of [count] structs, then one H5Dwrite per struct
   through a hyperslab at the next position, which fails outside the data set. The calls that build the struct type
   (H5Tcreate, H5Tinsert, ...) come before anything is created and throw like H5Screate_simple: one entry of the schedule
   stands for all of them (simplification). *)
Fixpoint record_loop (dset : list string) (fields : list string) (count k : nat) (data : list (list (member A))) (recs : list (list (member A))) : act A unit :=
  match recs with
  | [] => ret tt
  | r :: rs =>
      if Nat.ltb k count then
        let data' := set_nth k r data in
        bind (write_data dset (PRecords fields data')) (fun _ => record_loop dset fields count (S k) data' rs)
      else throw
  end.
Definition write_records (group name : string) (fields : list string) (count : nat) (recs : list (list (member A))) : act A unit :=
  bind call_ok (fun _ => (* H5Screate_simple *)
  bind (findOrCreateGroup group) (fun grp =>
  bind (create_data grp name (PRecords fields (repeat [] count))) (fun dset =>
  bind call_ok (fun _ => (* H5Screate_simple *)
  record_loop dset fields count 0 (repeat [] count) recs)))).

(* writeBoxGeometry, writeSphereGeometry, writeMeshGeometry, 3D StateOutput.cpp:81-290: the shapes of one type, in order *)
Definition box3_record (s : shape3) : list (list (member A)) := match s with GBox r => [[MArray r]] | _ => [] end.
Definition sphere_record (s : shape3) : list (list (member A)) := match s with GSphere r => [[MNum r]] | _ => [] end.
Definition mesh_record (s : shape3) : list (list (member A)) := match s with GMesh f => [[MText (c_string f)]] | _ => [] end.
Definition count_type (types : list nat) (t : nat) : nat := List.length (filter (Nat.eqb t) types).
Definition unless_zero (n : nat) (a : act A unit) : act A unit := if Nat.eqb n 0 then ret tt else a.
(* writeGeometry, 3D StateOutput.cpp:292-333; a staple ends the program *)
Definition writeGeometry3 (group : string) (geometry : list shape3) : act A unit :=
  let count := count_type (map type3 geometry) in
  bind (unless_zero (count 0) (write_records group "boxes" ["r"] (count 0) (flat_map box3_record geometry))) (fun _ =>
  bind (unless_zero (count 1) (write_records group "spheres" ["r"] (count 1) (flat_map sphere_record geometry))) (fun _ =>
  bind (unless_zero (count 2) throw) (fun _ =>
  unless_zero (count 3) (write_records group "meshes" ["file_name"] (count 3) (flat_map mesh_record geometry))))).
(* writeCircleGeometry, writeBoxGeometry, writeGeometry, 2D StateOutput.cpp:80-269 *)
Definition circle_record (s : shape2) : list (list (member A)) := match s with HCircle r => [[MNum r]] | _ => [] end.
Definition box2_record (s : shape2) : list (list (member A)) := match s with HBox r => [[MArray r]] | _ => [] end.
Definition writeGeometry2 (group : string) (geometry : list shape2) : act A unit :=
  let count := count_type (map type2 geometry) in
  bind (unless_zero (count 0) (write_records group "circles" ["r"] (count 0) (flat_map circle_record geometry))) (fun _ =>
  unless_zero (count 1) (write_records group "boxes" ["r"] (count 1) (flat_map box2_record geometry))).

(* writeStaticPlanes, 3D StateOutput.cpp:335-449 *)
Record plane3 := mkPlane3 { p3_x : vec; p3_n : vec; p3_v : vec; p3_omega : vec }.
Definition plane3_record (p : plane3) : list (member A) := [MArray (p3_x p); MArray (p3_n p); MArray (p3_v p); MArray (p3_omega p)].
Definition writeStaticPlanes3 (ps : list plane3) : act A unit :=
  write_records "static_geometry" "static_planes" ["x"; "n"; "v"; "omega"] (List.length ps) (map plane3_record ps).
(* writeStaticCylinders, 3D StateOutput.cpp:451-577; the orientation as x, y, z, w *)
Record cylinder := mkCyl { c_x : vec; c_R : A * A * A * A; c_v : vec; c_omega : vec; c_r : A }.   (* R as w, x, y, z *)
Definition cylinder_record (c : cylinder) : list (member A) :=
  let '(w, x, y, z) := c_R c in [MArray (c_x c); MArray [x; y; z; w]; MArray (c_v c); MArray (c_omega c); MNum (c_r c)].
Definition writeStaticCylinders (cs : list cylinder) : act A unit :=
  write_records "static_geometry" "static_cylinders" ["x"; "R"; "v"; "omega"; "r"] (List.length cs) (map cylinder_record cs).
(* writeStaticPlanes, 2D StateOutput.cpp:272-362: the velocities of a plane are not output *)
Record plane2 := mkPlane2 { p2_x : vec; p2_n : vec; p2_v : vec; p2_omega : A }.
Definition plane2_record (p : plane2) : list (member A) := [MArray (p2_x p); MArray (p2_n p)].
Definition writeStaticPlanes2 (ps : list plane2) : act A unit :=
  write_records "static_geometry" "static_planes" ["x"; "n"] (List.length ps) (map plane2_record ps).
(* writePlanarPortals, 2D StateOutput.cpp:364-507 *)
Record portal := mkPortal { po_a : plane2; po_b : plane2; po_v : A; po_bounds : A; po_delta : A }.
Definition portal_record (p : portal) : list (member A) :=
  [MArray (p2_x (po_a p)); MArray (p2_n (po_a p)); MArray (p2_x (po_b p)); MArray (p2_n (po_b p)); MNum (po_v p); MNum (po_bounds p); MNum (po_delta p)].
Definition writePlanarPortals (ps : list portal) : act A unit :=
  write_records "static_geometry" "planar_portals" ["x0"; "n0"; "x1"; "n1"; "v"; "width"; "delta"] (List.length ps) (map portal_record ps).

Definition vector (l : list (elem A)) : emat A := mkMat false (List.length l) 1 l.
Definition nums (l : vec) : list (elem A) := map ENum l.
Definition flags (l : list bool) : list (elem A) := map (fun b : bool => EInt (if b then 1 else 0)) l.

(* RigidBody3DSim::writeBinaryState, RigidBody3DSim.cpp:1560-1591; the portals of the state are not output *)
Record state3 := mkState3 { s3_geometry : list shape3; s3_indices : list nat; s3_planes : list plane3; s3_cylinders : list cylinder;
  s3_portals : nat; s3_q : vec; s3_v : vec; s3_M0 : vec; s3_scripted : list bool }.
Definition writeBinaryState3 (s : state3) : act A unit :=
  bind (writeGeometryIndices "geometry" (map type3 (s3_geometry s)) (s3_indices s)) (fun _ =>
  bind (writeGeometry3 "geometry" (s3_geometry s)) (fun _ =>
  bind (unless_zero (List.length (s3_planes s)) (writeStaticPlanes3 (s3_planes s))) (fun _ =>
  bind (unless_zero (List.length (s3_cylinders s)) (writeStaticCylinders (s3_cylinders s))) (fun _ =>
  bind (write_matrix "state/q" SDouble (vector (nums (s3_q s)))) (fun _ =>
  bind (write_matrix "state/v" SDouble (vector (nums (s3_v s)))) (fun _ =>
  bind (write_matrix "state/M0" SDouble (vector (nums (s3_M0 s)))) (fun _ =>
  write_matrix "state/kinematically_scripted" SUnsigned (vector (flags (s3_scripted s)))))))))).

(* RigidBody2DSim::writeBinaryState, RigidBody2DSim.cpp:1104-1137: the mass is a view of q.size() values of the mass matrix *)
Record state2 := mkState2 { s2_q : vec; s2_v : vec; s2_M : vec; s2_scripted : list bool; s2_geometry : list shape2; s2_indices : list nat;
  s2_planes : list plane2; s2_portals : list portal }.
Definition write_mass (M q : vec) : act A unit :=
  if Nat.ltb (List.length M) (List.length q) then undefined else write_matrix "m" SDouble (vector (nums (firstn (List.length q) M))).
Definition writeBinaryState2 (s : state2) : act A unit :=
  bind (write_matrix "q" SDouble (vector (nums (s2_q s)))) (fun _ =>
  bind (write_matrix "v" SDouble (vector (nums (s2_v s)))) (fun _ =>
  bind (write_mass (s2_M s) (s2_q s)) (fun _ =>
  bind (write_matrix "kinematically_scripted" SUnsigned (vector (flags (s2_scripted s)))) (fun _ =>
  bind (writeGeometryIndices "geometry" (map type2 (s2_geometry s)) (s2_indices s)) (fun _ =>
  bind (writeGeometry2 "geometry" (s2_geometry s)) (fun _ =>
  bind (unless_zero (List.length (s2_planes s)) (writeStaticPlanes2 (s2_planes s))) (fun _ =>
  unless_zero (List.length (s2_portals s)) (writePlanarPortals (s2_portals s))))))))).

(* Ball2DSim::writeBinaryState, Ball2DSim.cpp:766-806; drums and portals of the state are not output. Planes by centre and
   normal, each two numbers. *)
Record stateb := mkStateB { sb_q : vec; sb_v : vec; sb_r : vec; sb_M : vec; sb_planes : list (A * A * (A * A)); sb_drums : nat; sb_portals : nat }.
Definition columns2 (l : list (A * A)) : emat A := mkMat false 2 (List.length l) (flat_map (fun c => [ENum (fst c); ENum (snd c)]) l).
Definition writeBinaryStateB (s : stateb) : act A unit :=
  bind (unless_zero (List.length (sb_q s))
         (bind (write_matrix "q" SDouble (vector (nums (sb_q s)))) (fun _ =>
          bind (write_matrix "v" SDouble (vector (nums (sb_v s)))) (fun _ =>
          bind (write_matrix "r" SDouble (vector (nums (sb_r s)))) (fun _ =>
          write_mass (sb_M s) (sb_q s)))))) (fun _ =>
  bind (unless_zero (List.length (sb_planes s)) (write_matrix "static_plane_centers" SDouble (columns2 (map fst (sb_planes s))))) (fun _ =>
  unless_zero (List.length (sb_planes s)) (write_matrix "static_plane_normals" SDouble (columns2 (map snd (sb_planes s)))))).

(* saveState, ball2d_cli.cpp:166-196, rigidbody2d_cli.cpp:157-187, rigidbody3d_cli.cpp:172-203: dt and time are the doubles
   scalar( g_dt ) and scalar( g_dt ) * g_iteration; Exit is EXIT_FAILURE or the end of the program *)
Definition save (dt time : A) (iteration : Z) (git_hash : string) (writeBinaryState : act A unit) (disk : node A) (calls : list (call A)) : h5 A * outcome unit :=
  match open_file true disk calls with
  | (h, Ok _) =>
      bind (write_scalar "timestep" SDouble (ENum dt)) (fun _ =>
      bind (write_scalar "iteration" SUnsigned (EInt iteration)) (fun _ =>
      bind (write_scalar "time" SDouble (ENum time)) (fun _ =>
      bind (write_text "git_hash" git_hash) (fun _ =>
      writeBinaryState)))) h
  | r => r
  end.
End Out.
Arguments shape3 : clear implicits. Arguments shape2 : clear implicits. Arguments plane3 : clear implicits. Arguments plane2 : clear implicits.
Arguments cylinder : clear implicits. Arguments portal : clear implicits. Arguments state3 : clear implicits. Arguments state2 : clear implicits.
Arguments stateb : clear implicits.
