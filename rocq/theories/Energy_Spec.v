(* Words for the energy of a whole run. *)
From Coq Require Import List Reals Arith NArith Bool.
From Verif Require Import Outcome Ccd_Model Flow_Model Flow_Spec Integr_Model Integr_Spec Quad_Model Lin_Model Sob_Model ContactRb3_Model Rot_Model Rot_Spec World_Model.
Import ListNotations.
Open Scope R_scope.

(* how fast contact i, with generalized normal N_i, opens at the velocities v; nrel is the share of a moving obstacle *)
Definition opening {C S} (U : simulator C S) (N : list col) (nrel : list R) (i : nat) (v : dvec) : R :=
  rsum (u_nv U) (fun k => entry (nth i N []) k * v k) + nth i nrel 0.
(* the velocities after impulses of sizes alpha along the normals *)
Definition struck {C S} (U : simulator C S) (s : S) (N : list col) (alpha : dvec) : dvec :=
  vplus (u_v U s) (u_minv U s (fun k => rsum (length N) (fun i => entry (nth i N []) k * alpha i))).
(* The impact operator solves the complementarity problem of the impact: no impulse pulls, every contact opens at least as
   fast as its coefficient of restitution demands, and no faster where there is an impulse. *)
Definition resolves_impacts {C S K} (U : simulator C S) (G : settings C S K) : Prop :=
  forall s cs N nrel cor a alpha,
  omapM (u_normal U (u_q U s)) cs = Ok N -> omapM (u_gdotN U (u_q U s)) cs = Ok nrel -> g_impact G s cs nrel cor a = Ok alpha ->
  forall i, (i < length cs)%nat ->
  let rest := opening U N nrel i (struck U s N alpha) + nth i cor 0 * opening U N nrel i (u_v U s) in
  0 <= alpha i /\ 0 <= rest /\ alpha i * rest = 0.
(* flows without friction *)
Definition frictionless (m : method) : Prop := m = MFree \/ m = MImpact.
(* the script sets no coefficients of restitution of its own *)
Definition scene_restitution {W C Mem} (sc : script W C Mem) : Prop := runs sc (sc_restitution sc) = false.

(* kinetic energy plus the potential in uniform gravity g of n planar bodies with s numbers each, the third being an angle *)
Definition spin_energy (n : nat) (M v : dvec) : R := rsum n (fun i => / 2 * M (3 * i + 2)%nat * (v (3 * i + 2)%nat * v (3 * i + 2)%nat)).
(* the energy gravity g takes from bodies of total mass m in each step of symplectic Euler; Verlet loses none *)
Definition step_loss (verlet : bool) (dt m : R) (g : vec) : R := if verlet then 0 else / 2 * m * (dt * dt) * vdot g g.

(* 3D rigid bodies: kinetic energy of the centres and of the rotations, and the potential in uniform gravity *)
Definition energy3 (s : rb3) : R := rsum (s3_n s) (fun i =>
  / 2 * mass s i * dot3 (velocity s i) (velocity s i) + / 2 * dot3 (spin s i) (angular_momentum s i) - mass s i * dot3 (total (s3_g s)) (position s i)).
(* every axis of the body is a principal axis, as in balls and cubes *)
Definition round_bodies (s : rb3) : Prop := forall i, (i < s3_n s)%nat -> exists a, inertia0 s i = all3 a.
(* planes and cylinders that do not move *)
Definition planes_at_rest (planes : list rb3_plane) : Prop := Forall (fun p => tp_v p = zero3 /\ tp_omega p = zero3) planes.
Definition cylinders_at_rest (cyls : list rb3_cyl) : Prop := Forall (fun c => cy_v c = zero3 /\ cy_omega c = zero3) cyls.
(* planar bodies: the scripted ones do not move *)
Definition scripted_at_rest (w : bodies) (v : dvec) : Prop :=
  forall i, (i < rb_n w)%nat -> rb_fixed w i = true -> body 3 v i = vzero /\ v (3 * i + 2)%nat = 0.
Definition unscripted_mass (w : bodies) : R := rsum (rb_n w) (fun i => if rb_fixed w i then 0 else rb_M w (3 * i)%nat).
