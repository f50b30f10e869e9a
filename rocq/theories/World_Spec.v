(* Words for what happens over a whole run: impulses along the directions of the contacts, closed scenes. *)
From Coq Require Import List Reals Arith NArith Bool.
From Verif Require Import Outcome Ccd_Model Flow_Model Flow_Spec Geom_Model Integr_Model Integr_Spec Lin_Model ContactRb3_Model Rot_Model Rot_Spec Sob_Model Sob_Spec World_Model.
Import ListNotations.
Open Scope R_scope.

(* The directions along which contact c can push the bodies when they are at q and the contact bases were computed with
   velocity v: along the normal; in a step with friction also along any tangent, and along the rows of H in the basis of
   the contact. *)
Inductive pushes {C S} (U : simulator C S) (friction : bool) (q v : dvec) (c : C) : col -> Prop :=
| push_normal g : u_normal U q c = Ok g -> pushes U friction q v c g
| push_tangent t g : friction = true -> u_tangent U q c t = Ok g -> pushes U friction q v c g
| push_h E ij h0 h1 g : friction = true -> u_basis U q v c = Ok E -> k_bodies (u_sim U) c = Ok ij ->
    k_H0 (u_sim U) q c E = Ok h0 -> k_H1 (u_sim U) q c E = Ok h1 ->
    In g (hcols (u_sim U) (k_vslot (u_sim U) (u_n U)) ij h0 h1) -> pushes U friction q v c g.
Definition pushed {C S} (U : simulator C S) (friction : bool) (q v : dvec) (cs : list C) (imps : list (col * R)) : Prop :=
  Forall (fun gx => exists c, In c cs /\ pushes U friction q v c (fst gx)) imps.

(* the script leaves the state alone; it may still choose the coefficients *)
Definition hands_off {W C Mem} (sc : script W C Mem) : Prop :=
  runs sc (sc_start_step sc) = false /\ runs sc (sc_end_step sc) = false.
(* a So-bogus solver inverts the mass blocks correctly *)
Definition inverts_masses {C S K} (U : simulator C S) (G : settings C S K) (M : dvec) : Prop :=
  match g_solver G with Bogus inv _ _ => blocks_inverted (u_sim U) inv (u_n U) M | _ => True end.
(* the linear momentum of all bodies of a 3D state and their angular momentum about the origin *)
Definition linear3 (s : rb3) : v3 := sum3 (s3_n s) (linear_momentum s).
Definition angular3 (s : rb3) : v3 := sum3 (s3_n s) (fun i => add3 (cross3 (position s i) (linear_momentum s i)) (angular_momentum s i)).
(* the bodies of a 3D state are free, and the mass arrays belong to their orientations *)
Definition free_bodies (s : rb3) : Prop := consistent s /\ forall i, (i < s3_n s)%nat -> s3_fixed s i = false.
(* the unconstrained maps: SplitHamMap, DMVMap, ExponentialEulerMap *)
Definition rotates_bodies (map_ : rb3 -> R -> dvec * dvec) : Prop := map_ = split_ham \/ map_ = dmv.
Definition moves_bodies (map_ : rb3 -> R -> dvec * dvec) : Prop :=
  rotates_bodies map_ \/ exists svd, svd_ok svd /\ map_ = exp_euler_map svd.
