(* What a reader of a force file relies on: how many contacts there were, who met whom, where, along which direction and with
   which force; and how the forces on one body add up. Independent of how the file was written. *)
From Coq Require Import String Ascii List Reals Arith Bool ZArith.
Import ListNotations.
From Verif Require Import Outcome Ccd_Model Lin_Model ContactBall_Model ContactRb2_Model ContactRb3_Model Contact_Spec Sob_Model Hdf_Model Hdf_Spec.
Local Open Scope string_scope. Local Open Scope list_scope. Local Open Scope R_scope.

(* the second party of a contact: a body (simulated or scripted), or an immovable object of the scene with its number *)
Inductive partner := Body (k : nat) | Obstacle (k : nat).
Record report := Report { rp_first : nat; rp_second : partner; rp_point : list R; rp_normal : list R; rp_force : list R }.

(* ---------- reading a file ---------- *)
Fixpoint all_some {X} (l : list (option X)) : option (list X) :=
  match l with
  | [] => Some []
  | o :: l => match o, all_some l with Some x, Some r => Some (x :: r) | _, _ => None end
  end.
(* column i of a table with the given number of rows and n columns *)
Definition column (h : h5 R) (name : string) (t : scalar_type) (rows n i : nat) : option (list (elem R)) :=
  match stored h name with
  | Some (PMatrix t' r c data) =>
      if scalar_eqb t' t && Nat.eqb r rows && Nat.eqb c n && Nat.ltb i n then all_some (map (fun k => nth_error data (k * n + i)%nat) (seq 0 rows)) else None
  | _ => None
  end.
Definition real_of (e : elem R) : option R := match e with ENum x => Some x | EInt _ => None end.
Definition real_column (h : h5 R) (name : string) (d n i : nat) : option (list R) :=
  match column h name SDouble d n i with Some l => all_some (map real_of l) | None => None end.
(* bodies are numbered from zero; -2 is object 0, -3 is object 1 and so on *)
Definition decode (z : Z) : option partner :=
  if (0 <=? z)%Z then Some (Body (Z.to_nat z)) else if (z <=? -2)%Z then Some (Obstacle (Z.to_nat (-2 - z))) else None.
Definition read_report (h : h5 R) (d n i : nat) : option report :=
  match column h "collision_indices" SInt 2 n i, real_column h "collision_points" d n i, real_column h "collision_normals" d n i,
        real_column h "collision_forces" d n i with
  | Some [EInt a; EInt b], Some p, Some m, Some f =>
      match decode a, decode b with Some (Body i), Some w => Some (Report i w p m f) | _, _ => None end
  | _, _, _, _ => None
  end.
Definition read_forces (h : h5 R) (d : nat) : option (list report) :=
  match stored h "collision_count" with
  | Some (PMatrix SUnsigned 1 1 [EInt n]) => all_some (map (read_report h d (Z.to_nat n)) (seq 0 (Z.to_nat n)))
  | _ => None
  end.

(* ---------- what the contacts are ---------- *)
Definition one_or_obstacle (ij : nat * option nat) (k : N) : nat * partner :=
  (fst ij, match snd ij with Some j => Body j | None => Obstacle (N.to_nat k) end).
Definition ball_parties (c : ball_contact * N) : nat * partner := one_or_obstacle (b_bodies (fst c)) (snd c).
Definition rb2_parties (c : rb2_contact * N) : nat * partner :=
  match fst c with KinCircle i _ _ k _ _ _ => (i, Body k) | x => one_or_obstacle (rb2_bodies x) (snd c) end.
Definition rb3_parties (c : rb3_contact * N) : nat * partner :=
  match fst c with
  | KinBody i k _ _ | KinSphere i _ _ k => (i, Body k)
  | PlaneBody3 i _ _ k => (i, Obstacle k)
  | x => one_or_obstacle (rb3_bodies x) (snd c)
  end.
(* the numbers fit *)
Definition small (p : nat * partner) : Prop :=
  (Z.of_nat (fst p) < 2147483648)%Z /\ match snd p with Body j => (Z.of_nat j < 2147483648)%Z | Obstacle k => (Z.of_nat k < 2147483647)%Z end.

(* a contact with its frame (normal first, as lists of numbers), its impulses in that frame and where it is *)
Record acting (C : Type) := Acting { ac_c : C; ac_E : list (list R); ac_imp : list R }.
Arguments Acting {C}. Arguments ac_c {C}. Arguments ac_E {C}. Arguments ac_imp {C}.

(* the report of a contact: the force is the combination of the frame with the impulses as coefficients *)
Definition reports {C} (d : nat) (parties : C -> nat * partner) (point : C -> outcome (list R)) (a : acting C) (r : report) : Prop :=
  parties (ac_c a) = (rp_first r, rp_second r) /\ point (ac_c a) = Ok (rp_point r) /\ rp_normal r = nth 0 (ac_E a) [] /\
  length (rp_force r) = d /\ forall e, (e < d)%nat -> at_ (rp_force r) e = rsum d (fun k => at_ (ac_imp a) k * at_ (nth k (ac_E a) []) e).

(* the arguments of the export hold the frames and the impulses of the contacts *)
Definition holds {C} (d : nat) (acts : list (acting C)) (bases : nat -> nat -> R) (alpha beta : dvec) : Prop :=
  forall i a, nth_error acts i = Some a ->
    (forall k e, (k < d)%nat -> (e < d)%nat -> bases e (d * i + k)%nat = at_ (nth k (ac_E a) []) e) /\
    alpha i = at_ (ac_imp a) 0 /\ forall s, (s < d - 1)%nat -> beta ((d - 1) * i + s)%nat = at_ (ac_imp a) (s + 1).

(* ---------- adding up the forces of a file ---------- *)
Definition total_R (l : list R) : R := fold_right Rplus 0 l.
(* entry e of the force on body b: forces act on the first body and the opposite ones on the second *)
Definition names (w : partner) (b : nat) : bool := match w with Body j => Nat.eqb j b | Obstacle _ => false end.
Definition signed (b : nat) (r : report) (x : R) : R :=
  (if Nat.eqb (rp_first r) b then x else 0) - (if names (rp_second r) b then x else 0).
Definition force_on (b e : nat) (rs : list report) : R := total_R (map (fun r => signed b r (at_ (rp_force r) e)) rs).
(* the torque about the point x *)
Definition torque_on2 (b : nat) (x : vec) (rs : list report) : R :=
  total_R (map (fun r => signed b r (vcross (vsub (to2 (rp_point r)) x) (to2 (rp_force r)))) rs).
Definition moment3 (x : v3) (r : report) : v3 := cross3 (sub3 (to3 (rp_point r)) x) (to3 (rp_force r)).
Definition torque_on3 (b : nat) (x : v3) (rs : list report) : v3 :=
  V3 (total_R (map (fun r => signed b r (c0 (moment3 x r))) rs)) (total_R (map (fun r => signed b r (c1 (moment3 x r))) rs))
     (total_R (map (fun r => signed b r (c2 (moment3 x r))) rs)).

(* the contacts a scripted body takes part in name it second, though it takes no momentum; through a portal the second body
   is touched at another place than the first *)
Definition not_scripted2 (b : nat) (c : rb2_contact) : Prop := match c with KinCircle _ _ _ k _ _ _ => k <> b | _ => True end.
Definition not_scripted3 (b : nat) (c : rb3_contact) : Prop := match c with KinBody _ k _ _ | KinSphere _ _ _ k => k <> b | _ => True end.
Definition not_through_portal2 (b : nat) (c : rb2_contact) : Prop :=
  match c with TeleCircleCircle _ j _ _ _ | KickCircleCircle _ j _ _ _ _ => j <> b | _ => True end.
Definition not_through_portal3 (b : nat) (c : rb3_contact) : Prop := match c with TeleSphereSphere _ j _ _ _ => j <> b | _ => True end.
(* the same for the export of impacts, where there is one normal and one impulse for each contact *)
Definition holds_normals {C} (d : nat) (acts : list (acting C)) (bases : nat -> nat -> R) (alpha : dvec) : Prop :=
  forall i a, nth_error acts i = Some a ->
    (forall e, (e < d)%nat -> bases e i = at_ (nth 0 (ac_E a) []) e) /\ ac_imp a = [alpha i].

(* ---------- the impulses as the solvers apply them ---------- *)
(* with friction: the columns of the contact in its frame, one impulse each; without: the gradient of its gap *)
Definition ball_framed (a : acting (ball_contact * N)) : list col :=
  let '(n, t) := b_hcols (fst (ac_c a)) (to2 (nth 0 (ac_E a) []), to2 (nth 1 (ac_E a) [])) in [n; t].
Definition rb2_framed (q : dvec) (a : acting (rb2_contact * N)) : list col :=
  let '(n, t) := rb2_hcols q (fst (ac_c a)) (to2 (nth 0 (ac_E a) []), to2 (nth 1 (ac_E a) [])) in [n; t].
(* every velocity entry changes as the mass matrix and the impulses along the columns say *)
Definition moved {C} (n : nat) (Minv : dvec -> dvec) (cols : acting C -> list col) (acts : list (acting C)) (v0 v1 : dvec) : Prop :=
  forall k, (k < n)%nat -> v1 k = v0 k + Minv (impulse (flat_map (fun a => combine (cols a) (ac_imp a)) acts)) k.
Definition only_ok {X} (o : outcome X) : list X := match o with Ok x => [x] | _ => [] end.
Definition rb3_framed (ng : nat) (q : dvec) (a : acting (rb3_contact * N)) : list col :=
  concat (only_ok (rb3_hcols ng q (fst (ac_c a)) (to3 (nth 0 (ac_E a) [])) (to3 (nth 1 (ac_E a) [])) (to3 (nth 2 (ac_E a) [])))).
(* the contacts of a call of the friction solver with the impulses it reported, in the frames it used *)
Definition solved {C} (its : list (item C)) (imps : list (list R)) (acts : list (acting (C * N))) : Prop :=
  map (fun a => fst (ac_c a)) acts = map it_c its /\ map ac_E acts = map it_E its /\ map ac_imp acts = imps.
