(* C58: momentum over whole runs. *)
From Coq Require Import List Reals Arith NArith Bool Lia Lra.
From Verif Require Import Outcome Grid_Model Ccd_Model Flow_Model Flow_Spec Geom_Model Integr_Model Integr_Spec Wall_Model Narrow_Model Narrow_Ex Lin_Model ContactBall_Model ContactRb2_Model ContactRb3_Model
  Rot_Model Rot_Spec Sob_Model Sob_Spec World_Model World_Spec World_Proofs World_Thms World_Ball World_Rb2 World_Rb3 World_Ex.
Import ListNotations.
Open Scope R_scope.

(* Balls, no planes and no drums: after any number of steps of any flow the momentum is that of the start plus what gravity
   gives to the whole mass, whatever the impact and friction operators, the solver, the coefficients and the warm starts. *)
Theorem C58_ball_momentum : forall {K Mem} (w : balls) verlet dt (G : settings ball_contact phase K) (sc : script (phase * K) ball_contact Mem) m steps it x c f lv x' c' f' lv',
  masses_ok 2 (bl_n w) (bl_M w) -> (N.of_nat (bl_n w) <= 4294967296)%N ->
  let U := ball_simulator w [] [] verlet dt in
  g_dt G = dt -> (with_friction m = true -> inverts_masses U G (bl_M w)) -> hands_off sc ->
  run U G sc true m steps it (x, c, f, lv) = Ok (x', c', f', lv') ->
  momentum 2 (bl_n w) (bl_M w) (snd x')
    = vadd (momentum 2 (bl_n w) (bl_M w) (snd x)) (vscale (INR steps * dt * total_mass 2 (bl_n w) (bl_M w)) (vsum (map gravity_of (bl_forces w)))).
Proof. intros K Mem w verlet dt G sc m steps it x c f lv x' c' f' lv' HM Hn. exact (ball_run_momentum w verlet dt HM Hn G sc m steps it x c f lv x' c' f' lv'). Qed.
Print Assumptions C58_ball_momentum.
(* without friction and gravity also the moment of momentum about the origin *)
Theorem C58_ball_angular : forall {K Mem} (w : balls) verlet dt (G : settings ball_contact phase K) (sc : script (phase * K) ball_contact Mem) m steps it x c f lv x' c' f' lv',
  masses_ok 2 (bl_n w) (bl_M w) -> (N.of_nat (bl_n w) <= 4294967296)%N ->
  with_friction m = false -> vsum (map gravity_of (bl_forces w)) = vzero -> hands_off sc ->
  run (ball_simulator w [] [] verlet dt) G sc true m steps it (x, c, f, lv) = Ok (x', c', f', lv') ->
  orbital 2 (bl_n w) (bl_M w) (fst x') (snd x') = orbital 2 (bl_n w) (bl_M w) (fst x) (snd x).
Proof. intros K Mem w verlet dt G sc m steps it x c f lv x' c' f' lv' HM Hn. exact (ball_run_angular w verlet dt HM Hn G sc m steps it x c f lv x' c' f' lv'). Qed.
Print Assumptions C58_ball_angular.

(* planar bodies, all free, no planes *)
Theorem C58_planar_momentum : forall {K Mem} (w : bodies) shape verlet dt (G : settings rb2_contact phase K) (sc : script (phase * K) rb2_contact Mem) m steps it x c f lv x' c' f' lv',
  masses_ok 3 (rb_n w) (rb_M w) -> (forall i, (i < rb_n w)%nat -> 0 < rb_M w (3 * i + 2)%nat) -> (N.of_nat (rb_n w) <= 4294967296)%N ->
  (forall i, (i < rb_n w)%nat -> rb_fixed w i = false) ->
  let U := rb2_simulator w shape [] verlet dt in
  (with_friction m = true -> inverts_masses U G (rb_M w)) -> hands_off sc ->
  run U G sc true m steps it (x, c, f, lv) = Ok (x', c', f', lv') ->
  momentum 3 (rb_n w) (rb_M w) (snd x')
    = vadd (momentum 3 (rb_n w) (rb_M w) (snd x)) (vscale (INR steps * dt * total_mass 3 (rb_n w) (rb_M w)) (vsum (rb_gravity w))).
Proof. intros K Mem w shape verlet dt G sc m steps it x c f lv x' c' f' lv' HM HI Hn Fr. exact (rb2_run_momentum w shape verlet dt HM HI Hn Fr G sc m steps it x c f lv x' c' f' lv'). Qed.
Print Assumptions C58_planar_momentum.
(* with or without friction: the orbital part plus moment of inertia times spin *)
Theorem C58_planar_angular : forall {K Mem} (w : bodies) shape verlet dt (G : settings rb2_contact phase K) (sc : script (phase * K) rb2_contact Mem) m steps it x c f lv x' c' f' lv',
  masses_ok 3 (rb_n w) (rb_M w) -> (forall i, (i < rb_n w)%nat -> 0 < rb_M w (3 * i + 2)%nat) -> (N.of_nat (rb_n w) <= 4294967296)%N ->
  (forall i, (i < rb_n w)%nat -> rb_fixed w i = false) ->
  let U := rb2_simulator w shape [] verlet dt in
  let spins v := rsum (rb_n w) (fun i => rb_M w (3 * i + 2)%nat * v (3 * i + 2)%nat) in
  (with_friction m = true -> inverts_masses U G (rb_M w)) -> vsum (rb_gravity w) = vzero -> hands_off sc ->
  run U G sc true m steps it (x, c, f, lv) = Ok (x', c', f', lv') ->
  orbital 3 (rb_n w) (rb_M w) (fst x') (snd x') + spins (snd x') = orbital 3 (rb_n w) (rb_M w) (fst x) (snd x) + spins (snd x).
Proof. intros K Mem w shape verlet dt G sc m steps it x c f lv x' c' f' lv' HM HI Hn Fr. exact (rb2_run_angular w shape verlet dt HM HI Hn Fr G sc m steps it x c f lv x' c' f' lv'). Qed.
Print Assumptions C58_planar_angular.
(* the flow with SymplecticEulerImpactFrictionMap is no use to planar bodies: every run of at least one step ends the process *)
Theorem C58_planar_symplectic_refuted : forall {K Mem} w shape planes verlet dt (G : settings rb2_contact phase K) (sc : script (phase * K) rb2_contact Mem) steps it x,
  hands_off sc -> run (rb2_simulator w shape planes verlet dt) G sc true MSymplectic (S steps) it x = Exit.
Proof. intros K Mem. exact rb2_symplectic_exits. Qed.
Print Assumptions C58_planar_symplectic_refuted.

(* bodies in space, all free, no planes and no cylinders *)
Theorem C58_spatial_momentum : forall {K Mem} o n shape map_ box dt (G : settings rb3_contact rb3 K) (sc : script (rb3 * K) rb3_contact Mem) m steps it s c f lv s' c' f' lv',
  (N.of_nat n <= 4294967296)%N -> moves_bodies map_ -> g_dt G = dt -> hands_off sc -> s3_n s = n -> free_bodies s ->
  let U := rb3_simulator o n shape [] [] map_ box dt in
  (with_friction m = true -> forall t, free_bodies t -> s3_n t = n -> inverts_masses U G (s3_M t)) ->
  run U G sc false m steps it (s, c, f, lv) = Ok (s', c', f', lv') ->
  free_bodies s' /\ linear3 s' = add3 (linear3 s) (scale3 (INR steps * dt * rsum n (mass s)) (total (s3_g s))).
Proof. intros K Mem. exact rb3_run_linear. Qed.
Print Assumptions C58_spatial_momentum.
(* the rotation maps that turn bodies exactly also keep the angular momentum *)
Theorem C58_spatial_angular : forall {K Mem} o n shape map_ box dt (G : settings rb3_contact rb3 K) (sc : script (rb3 * K) rb3_contact Mem) m steps it s c f lv s' c' f' lv',
  (N.of_nat n <= 4294967296)%N -> rotates_bodies map_ -> moves_linearly m = false -> hands_off sc -> s3_n s = n -> free_bodies s -> total (s3_g s) = zero3 ->
  let U := rb3_simulator o n shape [] [] map_ box dt in
  (with_friction m = true -> forall t, free_bodies t -> s3_n t = n -> inverts_masses U G (s3_M t)) ->
  run U G sc false m steps it (s, c, f, lv) = Ok (s', c', f', lv') -> angular3 s' = angular3 s.
Proof. intros K Mem. exact rb3_run_angular. Qed.
Print Assumptions C58_spatial_angular.

(* runs that meet the hypotheses, with contacts: ball_run, disc_run and sphere_run of World_Ex.v; their scenes *)
Example C58_disc_scene : masses_ok 3 (rb_n ex_discs) (rb_M ex_discs) /\ (forall i, (i < rb_n ex_discs)%nat -> 0 < rb_M ex_discs (3 * i + 2)%nat)
  /\ (forall i, (i < rb_n ex_discs)%nat -> rb_fixed ex_discs i = false)
  /\ (exists cs, rb2_active_set 2 (fun _ => false) (fun _ => Circle2 1) [] (fst ex_disc_state) ex_disc_end (snd ex_disc_state) = Ok cs /\ cs <> [])
  /\ exists r, run ex_disc_sim (plain 1 bounce no_solver) (silent _ _ unit) true MImpact 1 0 (ex_disc_state, tt, (0%nat, fun _ => 0), mkLive tt []) = Ok r.
Proof.
  split; [intros i _; cbn; split; [lra|reflexivity]|]. split; [intros; cbn; lra|]. split; [reflexivity|].
  split; [destruct ex_disc_active as [cs [E [N _]]]; exists cs; now split|exact disc_run].
Qed.
Example C58_sphere_scene : forall o, free_bodies ex_spheres /\ s3_n ex_spheres = 2%nat /\ rotates_bodies split_ham /\ total (s3_g ex_spheres) = zero3
  /\ (forall q1 v1, split_ham ex_spheres 1 = (q1, v1) -> exists cs, rb3_active_set o 2 (fun _ => false) (two ball ball) [] [] (s3_q ex_spheres) q1 = Ok cs /\ cs <> [])
  /\ exists r, run (ex_sphere_sim o) (plain 1 bounce no_solver) (silent _ _ unit) false MImpact 1 0 (ex_spheres, tt, (0%nat, fun _ => 0), mkLive tt []) = Ok r.
Proof.
  intros o. split; [exact ex_spheres_ok|]. split; [reflexivity|]. split; [now left|]. split; [reflexivity|].
  split; [intros q1 v1 E; destruct (ex_sphere_active o q1 v1 E) as [cs [A [N _]]]; exists cs; now split|exact (sphere_run o)].
Qed.
