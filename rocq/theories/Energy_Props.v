(* C59: energy over whole runs without friction. *)
From Coq Require Import List Reals Arith NArith Bool Lia Lra.
From Verif Require Import Outcome Grid_Model Ccd_Model Flow_Model Flow_Spec Geom_Model Integr_Model Integr_Spec Integr_Proofs Wall_Model Narrow_Model Narrow_Ex Lin_Model ContactBall_Model ContactRb2_Model ContactRb3_Model
  Rot_Model Rot_Spec Rot_Alg Rot_Proofs Rot_Thms Sob_Model Sob_Spec World_Model World_Spec World_Proofs World_Thms World_Ex Energy_Spec Energy_Proofs Energy_Planar Energy_Space Energy_Ex.
Import ListNotations.
Open Scope R_scope.

(* Balls under gravity, with drums and with planes at rest: if the impact operator solves its complementarity problem for one
   coefficient of restitution between 0 and 1, then after any number of steps of the unconstrained or the impact flow the
   kinetic energy plus the potential is at most that of the start; symplectic Euler loses a fixed amount in each step. *)
Theorem C59_ball_energy : forall {K Mem} (w : balls) drums planes verlet dt gs (G : settings ball_contact phase K) (sc : script (phase * K) ball_contact Mem) m steps it x c f lv x' c' f' lv',
  let U := ball_simulator w drums planes verlet dt in
  masses_ok 2 (bl_n w) (bl_M w) -> bl_forces w = map Gravity gs -> Forall (fun p => bp_v p = vzero) planes ->
  resolves_impacts U G -> 0 <= g_CoR G <= 1 -> scene_restitution sc -> frictionless m -> hands_off sc ->
  run U G sc true m steps it (x, c, f, lv) = Ok (x', c', f', lv') ->
  kinetic 2 (bl_n w) (bl_M w) (snd x') + gravity_potential 2 (bl_n w) (bl_M w) (vsum gs) (fst x')
  <= kinetic 2 (bl_n w) (bl_M w) (snd x) + gravity_potential 2 (bl_n w) (bl_M w) (vsum gs) (fst x)
     - INR steps * step_loss verlet dt (total_mass 2 (bl_n w) (bl_M w)) (vsum gs).
Proof. intros K Mem w drums planes verlet dt gs G sc m steps it x c f lv x' c' f' lv' U HM Gr Hp Hg H1 Ho. exact (ball_run_energy w drums planes verlet dt gs G sc HM Gr Hp Hg H1 Ho m steps it x c f lv x' c' f' lv'). Qed.
Print Assumptions C59_ball_energy.

(* Planar bodies, planes at rest, scripted bodies at rest: they stay at rest, and the energy, now with that of the rotations,
   is at most that of the start. *)
Theorem C59_planar_energy : forall {K Mem} (w : bodies) shape planes verlet dt (G : settings rb2_contact phase K) (sc : script (phase * K) rb2_contact Mem) m steps it x c f lv x' c' f' lv',
  let U := rb2_simulator w shape planes verlet dt in let g := vsum (rb_gravity w) in
  masses_ok 3 (rb_n w) (rb_M w) -> (forall i, (i < rb_n w)%nat -> 0 < rb_M w (3 * i + 2)%nat) -> (N.of_nat (rb_n w) <= 4294967296)%N ->
  Forall (fun p => rp_v p = vzero /\ rp_omega p = 0) planes ->
  resolves_impacts U G -> 0 <= g_CoR G <= 1 -> scene_restitution sc -> frictionless m -> hands_off sc -> scripted_at_rest w (snd x) ->
  run U G sc true m steps it (x, c, f, lv) = Ok (x', c', f', lv') ->
  scripted_at_rest w (snd x')
  /\ kinetic 3 (rb_n w) (rb_M w) (snd x') + spin_energy (rb_n w) (rb_M w) (snd x') + gravity_potential 3 (rb_n w) (rb_M w) g (fst x')
     <= kinetic 3 (rb_n w) (rb_M w) (snd x) + spin_energy (rb_n w) (rb_M w) (snd x) + gravity_potential 3 (rb_n w) (rb_M w) g (fst x)
        - INR steps * step_loss verlet dt (unscripted_mass w) g.
Proof.
  intros K Mem w shape planes verlet dt G sc m steps it x c f lv x' c' f' lv' U g HM HI Hn Hp Hg H1 Ho.
  exact (rb2_run_energy w shape planes verlet dt G sc HM HI Hn Hp Hg H1 Ho m steps it x c f lv x' c' f' lv').
Qed.
Print Assumptions C59_planar_energy.

(* 3D bodies, all free, with planes and cylinders at rest, split Hamiltonian or Moser-Veselov map: the energy does not grow if
   every body has three equal principal inertias. *)
Theorem C59_spatial_energy : forall {K Mem} o n shape planes cyls map_ box dt (G : settings rb3_contact rb3 K) (sc : script (rb3 * K) rb3_contact Mem) m steps it s c f lv s' c' f' lv',
  let U := rb3_simulator o n shape planes cyls map_ box dt in
  planes_at_rest planes -> cylinders_at_rest cyls -> resolves_impacts U G -> 0 <= g_CoR G <= 1 -> scene_restitution sc -> rotates_bodies map_ ->
  frictionless m -> hands_off sc -> s3_n s = n -> free_bodies s -> round_bodies s ->
  run U G sc false m steps it (s, c, f, lv) = Ok (s', c', f', lv') -> energy3 s' <= energy3 s.
Proof. intros K Mem o n shape planes cyls map_ box dt G sc. exact (rb3_run_energy o n shape planes cyls map_ box dt G sc). Qed.
Print Assumptions C59_spatial_energy.
(* the exponential Euler map adds at most a fixed amount per step *)
Theorem C59_spatial_exponential : forall {K Mem} o n shape planes cyls svd box dt (G : settings rb3_contact rb3 K) (sc : script (rb3 * K) rb3_contact Mem) m steps it s c f lv s' c' f' lv',
  let U := rb3_simulator o n shape planes cyls (exp_euler_map svd) box dt in
  planes_at_rest planes -> cylinders_at_rest cyls -> resolves_impacts U G -> 0 <= g_CoR G <= 1 -> scene_restitution sc -> svd_ok svd ->
  frictionless m -> hands_off sc -> s3_n s = n -> free_bodies s -> round_bodies s ->
  run U G sc false m steps it (s, c, f, lv) = Ok (s', c', f', lv') ->
  energy3 s' <= energy3 s + INR steps * (/ 2 * rsum n (mass s) * (dt * dt) * dot3 (total (s3_g s)) (total (s3_g s))).
Proof. intros K Mem o n shape planes cyls svd box dt G sc. exact (rb3_exp_energy o n shape planes cyls svd box dt G sc). Qed.
Print Assumptions C59_spatial_exponential.

(* Equal inertias are needed: a free brick with principal inertias 1, 2, 2 gains energy in one step of the split map. *)
Theorem C59_tumbling_refuted : exists s dt, free_bodies s /\ s3_g s = [] /\ energy3 s < energy3 (rb3_step split_ham dt s).
Proof. exists ex_brick, 1. split; [exact brick_ok|]. split; [reflexivity|exact tumble_energy]. Qed.
Print Assumptions C59_tumbling_refuted.
(* A ball in free fall gains energy in every step of the exponential Euler map. *)
Theorem C59_exponential_euler_refuted : exists s, free_bodies s /\ round_bodies s /\ forall svd dt, svd_ok svd -> 0 < dt -> energy3 s < energy3 (rb3_step (exp_euler_map svd) dt s).
Proof.
  exists ex_fall3. destruct ex_fall3_ok as [A B]. split; [exact A|]. split; [exact B|]. intros svd dt HV Hd. rewrite (exp_energy dt svd ex_fall3 HV A B).
  assert (M : mass ex_fall3 0 = 1) by (apply (set_state_views 1 (fun _ => V3 0 2 0) (fun _ => V3 1 (-4) 0) (fun _ => 1) (fun _ => id3) (fun _ => V3 0 1 2) (fun _ => V3 1 1 1) (fun _ => false) [V3 0 (-2) 0] 0 ltac:(lia))).
  change (s3_n ex_fall3) with 1%nat. change (s3_g ex_fall3) with [V3 0 (-2) 0]. cbn [rsum]. rewrite M.
  assert (0 < dt * dt) by (apply Rmult_lt_0_compat; exact Hd). unfold total, dot3, add3, zero3. cbn [fold_right c0 c1 c2]. lra.
Qed.
Print Assumptions C59_exponential_euler_refuted.

(* ---------- cases: bodies that hit each other, a ball that hits a floor under gravity ---------- *)
Example C59_ball_case : resolves_impacts ex_ball_sim (plain 1 (one_contact ex_ball_sim) no_solver)
  /\ exists r, run ex_ball_sim (plain 1 (one_contact ex_ball_sim) no_solver) (silent _ _ unit) true MImpact 1 0 (ex_ball_state, tt, (0%nat, fun _ => 0), mkLive tt []) = Ok r.
Proof. exact ball_hit. Qed.
Example C59_planar_case : resolves_impacts ex_disc_sim (plain 1 (one_contact ex_disc_sim) no_solver)
  /\ exists r, run ex_disc_sim (plain 1 (one_contact ex_disc_sim) no_solver) (silent _ _ unit) true MImpact 1 0 (ex_disc_state, tt, (0%nat, fun _ => 0), mkLive tt []) = Ok r.
Proof. exact disc_hit. Qed.
Example C59_spatial_case : forall o, planes_at_rest [ex_ground3] /\ free_bodies ex_fall3 /\ round_bodies ex_fall3
  /\ resolves_impacts (ex_fall3_sim o) (plain 1 (one_contact (ex_fall3_sim o)) no_solver)
  /\ exists r, run (ex_fall3_sim o) (plain 1 (one_contact (ex_fall3_sim o)) no_solver) (silent _ _ unit) false MImpact 1 0 (ex_fall3, tt, (0%nat, fun _ => 0), mkLive tt []) = Ok r.
Proof.
  intros o. split; [constructor; [split; reflexivity|constructor]|]. split; [apply ex_fall3_ok|]. split; [apply ex_fall3_ok|]. exact (sphere_hit o).
Qed.
Example C59_silent_case : scene_restitution (silent (phase * unit) ball_contact unit) /\ 0 <= g_CoR (plain (C := ball_contact) (S := phase) 1 bounce no_solver) <= 1.
Proof. split; [reflexivity|]. cbn. lra. Qed.
