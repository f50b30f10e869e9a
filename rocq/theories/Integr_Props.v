(* C26, C27, C45 (planar part): integrators, momenta, energies. *)
From Coq Require Import List Reals Arith Bool Lia Lra.
From Verif Require Import Ccd_Model Lin_Model Lin_Proofs ContactBall_Model ContactRb2_Model Integr_Model Integr_Spec Integr_Proofs Integr_Thms Integr_Grad Integr_Ex.
Import ListNotations.
Open Scope R_scope.

(* ---------- C26 ---------- *)
(* Verlet: after any number of steps every ball is on its exact parabola with the exact velocity. *)
Theorem C26_ball_verlet : forall w gs dt q0 v0 k, masses_ok 2 (bl_n w) (bl_M w) -> bl_forces w = map Gravity gs ->
  exists q v, steps (ball_verlet w dt) k (q0, v0) = Some (q, v)
  /\ forall i, (i < bl_n w)%nat ->
     body 2 q i = parabola (body 2 q0 i) (body 2 v0 i) (vsum gs) (INR k * dt)
     /\ body 2 v i = straight (body 2 v0 i) (vsum gs) (INR k * dt).
Proof. exact ball_verlet_parabola. Qed.
Print Assumptions C26_ball_verlet.

(* Symplectic Euler: exact velocity, and a place ahead of the parabola by exactly t dt / 2 * g. *)
Theorem C26_ball_euler : forall w gs dt q0 v0 k, masses_ok 2 (bl_n w) (bl_M w) -> bl_forces w = map Gravity gs ->
  exists q v, steps (ball_euler w dt) k (q0, v0) = Some (q, v)
  /\ forall i, (i < bl_n w)%nat ->
     body 2 q i = vadd (parabola (body 2 q0 i) (body 2 v0 i) (vsum gs) (INR k * dt)) (vscale (INR k * dt * dt / 2) (vsum gs))
     /\ body 2 v i = straight (body 2 v0 i) (vsum gs) (INR k * dt).
Proof. exact ball_euler_parabola. Qed.
Print Assumptions C26_ball_euler.

(* Planar rigid bodies: moving ones follow the parabola, fixed ones their prescribed velocity, all spin uniformly. *)
Theorem C26_rb2_verlet : forall w dt q0 v0 k, masses_ok 3 (rb_n w) (rb_M w) ->
  exists q v, steps (rb2_verlet w dt) k (q0, v0) = Some (q, v)
  /\ forall i, (i < rb_n w)%nat ->
     (rb_fixed w i = false ->
        body 3 q i = parabola (body 3 q0 i) (body 3 v0 i) (vsum (rb_gravity w)) (INR k * dt)
        /\ body 3 v i = straight (body 3 v0 i) (vsum (rb_gravity w)) (INR k * dt))
     /\ (rb_fixed w i = true -> body 3 q i = straight (body 3 q0 i) (body 3 v0 i) (INR k * dt) /\ body 3 v i = body 3 v0 i)
     /\ q (3 * i + 2)%nat = q0 (3 * i + 2)%nat + INR k * dt * v0 (3 * i + 2)%nat
     /\ v (3 * i + 2)%nat = v0 (3 * i + 2)%nat.
Proof. exact rb2_verlet_closed. Qed.
Print Assumptions C26_rb2_verlet.

Theorem C26_rb2_euler : forall w dt q0 v0 k, masses_ok 3 (rb_n w) (rb_M w) ->
  exists q v, steps (rb2_euler w dt) k (q0, v0) = Some (q, v)
  /\ forall i, (i < rb_n w)%nat ->
     (rb_fixed w i = false ->
        body 3 q i = vadd (parabola (body 3 q0 i) (body 3 v0 i) (vsum (rb_gravity w)) (INR k * dt))
                          (vscale (INR k * dt * dt / 2) (vsum (rb_gravity w)))
        /\ body 3 v i = straight (body 3 v0 i) (vsum (rb_gravity w)) (INR k * dt))
     /\ (rb_fixed w i = true -> body 3 q i = straight (body 3 q0 i) (body 3 v0 i) (INR k * dt) /\ body 3 v i = body 3 v0 i)
     /\ q (3 * i + 2)%nat = q0 (3 * i + 2)%nat + INR k * dt * v0 (3 * i + 2)%nat
     /\ v (3 * i + 2)%nat = v0 (3 * i + 2)%nat.
Proof. exact rb2_euler_closed. Qed.
Print Assumptions C26_rb2_euler.

Example C26_balls_case : masses_ok 2 (bl_n (two_balls [Gravity (0, -10)])) (bl_M (two_balls [Gravity (0, -10)])).
Proof. apply two_masses. Qed.
Example C26_bodies_case : masses_ok 3 (rb_n three_bodies) (rb_M three_bodies) /\ rb_fixed three_bodies 1%nat = true
  /\ rb_fixed three_bodies 0%nat = false.
Proof. split; [apply three_masses|split; reflexivity]. Qed.

(* The scene format requires a "fixed" attribute on every ball, but the ball simulation ignores it: a fixed ball falls. *)
Theorem C26_fixed_ball_refuted : exists w dt s s', masses_ok 2 (bl_n w) (bl_M w) /\ (0 < bl_n w)%nat /\ bl_fixed w 0%nat = true
  /\ ball_euler w dt s = Some s' /\ body 2 (fst s') 0 <> straight (body 2 (fst s) 0) (body 2 (snd s) 0) dt.
Proof. exact fixed_ball_falls. Qed.
Print Assumptions C26_fixed_ball_refuted.

(* ---------- C27 ---------- *)
(* Run any number of Verlet steps, turn the velocities round, run as many again: back at the start. *)
Theorem C27_ball_verlet_reversible : forall w dt k s s',
  steps (ball_verlet w dt) k s = Some s' -> steps (ball_verlet w dt) k (reverse s') = Some (reverse s).
Proof. intros w dt. exact (reverse_many _ (ball_verlet_reverse w dt)). Qed.
Print Assumptions C27_ball_verlet_reversible.

Theorem C27_rb2_verlet_reversible : forall w dt k s s',
  steps (rb2_verlet w dt) k s = Some s' -> steps (rb2_verlet w dt) k (reverse s') = Some (reverse s).
Proof. intros w dt. exact (reverse_many _ (rb2_verlet_reverse w dt)). Qed.
Print Assumptions C27_rb2_verlet_reversible.

(* The step is defined whenever no two centres coincide (penalty exponents above one). *)
Theorem C27_force_defined : forall w q v, stiff w ->
  (forall i j, (i < j < bl_n w)%nat -> body 2 q i <> body 2 q j) -> exists F, ball_compute_force w q v = Some F.
Proof. exact ball_force_defined. Qed.
Print Assumptions C27_force_defined.

(* Total momentum changes by total mass * gravity * elapsed time, whatever penalty forces act between the balls. *)
Theorem C27_ball_euler_momentum : forall w dt k s s', masses_ok 2 (bl_n w) (bl_M w) ->
  steps (ball_euler w dt) k s = Some s' ->
  b_momentum (bl_n w) (bl_M w) (snd s')
  = vadd (b_momentum (bl_n w) (bl_M w) (snd s))
         (vscale (INR k * dt * total_mass 2 (bl_n w) (bl_M w)) (vsum (map gravity_of (bl_forces w)))).
Proof.
  intros w dt k s s' HM E.
  assert (forall n M v, b_momentum n M v = momentum 2 n M v) as B
    by (intros; unfold b_momentum, momentum; f_equal; apply rsum_ext; intros; rewrite seg2_body; reflexivity).
  rewrite !B. exact (momentum_many w dt _ HM (fun s s' => ball_euler_momentum1 w dt s s' HM) k s s' E).
Qed.
Print Assumptions C27_ball_euler_momentum.

Theorem C27_ball_verlet_momentum : forall w dt k s s', masses_ok 2 (bl_n w) (bl_M w) ->
  steps (ball_verlet w dt) k s = Some s' ->
  b_momentum (bl_n w) (bl_M w) (snd s')
  = vadd (b_momentum (bl_n w) (bl_M w) (snd s))
         (vscale (INR k * dt * total_mass 2 (bl_n w) (bl_M w)) (vsum (map gravity_of (bl_forces w)))).
Proof.
  intros w dt k s s' HM E.
  assert (forall n M v, b_momentum n M v = momentum 2 n M v) as B
    by (intros; unfold b_momentum, momentum; f_equal; apply rsum_ext; intros; rewrite seg2_body; reflexivity).
  rewrite !B. exact (momentum_many w dt _ HM (fun s s' => ball_verlet_momentum1 w dt s s' HM) k s s' E).
Qed.
Print Assumptions C27_ball_verlet_momentum.

(* Without gravity total angular momentum never changes either, over any number of steps of either integrator. *)
Theorem C27_ball_angular_momentum : forall w dt k s s', masses_ok 2 (bl_n w) (bl_M w) ->
  vsum (map gravity_of (bl_forces w)) = vzero ->
  (steps (ball_euler w dt) k s = Some s' \/ steps (ball_verlet w dt) k s = Some s') ->
  b_angular (bl_n w) (bl_M w) (fst s') (snd s') = b_angular (bl_n w) (bl_M w) (fst s) (snd s).
Proof.
  intros w dt k s s' HM Hg E.
  assert (forall n M q v, b_angular n M q v = orbital 2 n M q v) as B
    by (intros; unfold b_angular, orbital; apply rsum_ext; intros; rewrite !seg2_body; reflexivity).
  rewrite !B. destruct E as [E|E].
  - apply (orbital_many w (ball_euler w dt)) with (k := k); [|exact E]. intros t t' Et.
    rewrite (ball_euler_orbital1 w dt t t' HM Et), Hg, cross_zero_sum. ring.
  - apply (orbital_many w (ball_verlet w dt)) with (k := k); [|exact E]. intros t t' Et.
    rewrite (ball_verlet_orbital1 w dt t t' HM Et), Hg, !cross_zero_sum. ring.
Qed.
Print Assumptions C27_ball_angular_momentum.

(* With gravity one Euler step adds dt times the moment of the weights about the origin. *)
Theorem C27_ball_euler_torque : forall w dt s s', masses_ok 2 (bl_n w) (bl_M w) -> ball_euler w dt s = Some s' ->
  orbital 2 (bl_n w) (bl_M w) (fst s') (snd s')
  = orbital 2 (bl_n w) (bl_M w) (fst s) (snd s)
    + dt * rsum (bl_n w) (fun i => bl_M w (2 * i)%nat * vcross (body 2 (fst s) i) (vsum (map gravity_of (bl_forces w)))).
Proof. exact ball_euler_orbital1. Qed.
Print Assumptions C27_ball_euler_torque.

Example C27_case : (exists s, ball_verlet (two_balls [Penalty 4 2]) (/ 10) (two_q, two_v) = Some s)
  /\ vsum (map gravity_of (bl_forces (two_balls [Penalty 4 2]))) = vzero.
Proof. split; [exact two_step|]. unfold vsum, vadd, vzero. cbn. f_equal; lra. Qed.
Example C27_force_case : exists F, ball_compute_force (two_balls [Gravity (0, -10); Penalty 4 2]) two_q two_v = Some F
  /\ F 2%nat = 4 /\ F 0%nat = -4 /\ F 1%nat = -20 /\ F 3%nat = -30.
Proof. apply two_force. Qed.

(* ---------- C45, planar part ---------- *)
Theorem C45_ball_kinetic : forall n M v, masses_ok 2 n M -> b_kinetic n M v = kinetic 2 n M v.
Proof. exact b_kinetic_spec. Qed.
Print Assumptions C45_ball_kinetic.

Theorem C45_rb2_kinetic : forall n M v, masses_ok 3 n M ->
  rb2_kinetic n M v = kinetic 3 n M v + rsum n (fun i => / 2 * M (3 * i + 2)%nat * (v (3 * i + 2)%nat * v (3 * i + 2)%nat)).
Proof. exact rb2_kinetic_spec. Qed.
Print Assumptions C45_rb2_kinetic.

Theorem C45_ball_momenta : forall n M q v,
  b_momentum n M v = momentum 2 n M v /\ b_angular n M q v = orbital 2 n M q v.
Proof.
  intros. split; [unfold b_momentum, momentum; f_equal; apply rsum_ext; intros; rewrite seg2_body; reflexivity|].
  unfold b_angular, orbital. apply rsum_ext. intros. rewrite !seg2_body. reflexivity.
Qed.
Print Assumptions C45_ball_momenta.

Theorem C45_rb2_momenta : forall n M q v,
  rb2_momentum n M v = momentum 3 n M v
  /\ rb2_angular n M q v = orbital 3 n M q v + rsum n (fun i => M (3 * i + 2)%nat * v (3 * i + 2)%nat).
Proof.
  intros. split; [unfold rb2_momentum, momentum; f_equal; apply rsum_ext; intros; rewrite seg2_body; reflexivity|].
  unfold rb2_angular, orbital. f_equal. apply rsum_ext. intros. rewrite !seg2_body. reflexivity.
Qed.
Print Assumptions C45_rb2_momenta.

Theorem C45_ball_gravity_potential : forall w gs q, bl_forces w = map Gravity gs ->
  ball_potential w q = Some (gravity_potential 2 (bl_n w) (bl_M w) (vsum gs) q).
Proof. exact ball_potential_gravity. Qed.
Print Assumptions C45_ball_gravity_potential.

Theorem C45_rb2_gravity_potential : forall w q,
  rb2_potential w q = Some (gravity_potential 3 (rb_n w) (rb_M w) (vsum (rb_gravity w)) q).
Proof. exact rb2_potential_spec. Qed.
Print Assumptions C45_rb2_gravity_potential.

(* The force is minus the gradient of the reported potential energy, gravity and penalty forces together. *)
Theorem C45_ball_force_is_minus_gradient : forall w q v F i, stiff w -> radii_ok w -> ball_compute_force w q v = Some F ->
  exists U, (forall x, ball_potential w (put q i x) = Some (U x)) /\ derivable_pt_lim U (q i) (- F i).
Proof. exact ball_gradient. Qed.
Print Assumptions C45_ball_force_is_minus_gradient.

Theorem C45_rb2_force_is_minus_gradient : forall w q v i,
  exists U, (forall x, rb2_potential w (put q i x) = Some (U x)) /\ derivable_pt_lim U (q i) (- rb2_compute_force w q v i).
Proof. exact rb2_gradient. Qed.
Print Assumptions C45_rb2_force_is_minus_gradient.

(* Under gravity Verlet keeps the reported total energy for ever; symplectic Euler loses exactly m |g|^2 dt / 2 per unit time. *)
Theorem C45_ball_verlet_energy : forall w gs dt k s s', masses_ok 2 (bl_n w) (bl_M w) -> bl_forces w = map Gravity gs ->
  steps (ball_verlet w dt) k s = Some s' -> ball_energy w s' = ball_energy w s.
Proof. exact ball_verlet_energy. Qed.
Print Assumptions C45_ball_verlet_energy.

Theorem C45_ball_euler_energy : forall w gs dt k s s', masses_ok 2 (bl_n w) (bl_M w) -> bl_forces w = map Gravity gs ->
  steps (ball_euler w dt) k s = Some s' ->
  exists e e', ball_energy w s = Some e /\ ball_energy w s' = Some e'
  /\ e' = e - INR k * dt * dt / 2 * (total_mass 2 (bl_n w) (bl_M w) * vdot (vsum gs) (vsum gs)).
Proof. exact ball_euler_energy. Qed.
Print Assumptions C45_ball_euler_energy.

Theorem C45_rb2_verlet_energy : forall w dt k s s', masses_ok 3 (rb_n w) (rb_M w) ->
  (forall i, (i < rb_n w)%nat -> rb_fixed w i = true -> vdot (vsum (rb_gravity w)) (body 3 (snd s) i) = 0) ->
  steps (rb2_verlet w dt) k s = Some s' -> rb2_energy w s' = rb2_energy w s.
Proof. exact rb2_verlet_energy. Qed.
Print Assumptions C45_rb2_verlet_energy.

Example C45_case : stiff (two_balls [Gravity (0, -10); Penalty 4 2]) /\ radii_ok (two_balls [Gravity (0, -10); Penalty 4 2])
  /\ exists F, ball_compute_force (two_balls [Gravity (0, -10); Penalty 4 2]) two_q two_v = Some F /\ F 2%nat = 4.
Proof.
  split; [apply two_stiff|]. split; [apply two_radii|]. destruct (two_force two_v) as (F & E & H & _). exists F. split; assumption.
Qed.
