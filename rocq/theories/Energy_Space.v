(* The energy of whole runs of 3D rigid body scenes. *)
From Coq Require Import List Reals Arith NArith Bool Lia Lra.
From Verif Require Import Outcome Ccd_Model Flow_Model Flow_Spec Flow_Proofs Quad_Model Integr_Model Integr_Spec Integr_Proofs
  Wall_Model Wall_Thms Geom_Model Narrow_Model ContactBall_Model ContactRb3_Model Frame_Model
  Rot_Model Rot_Spec Rot_Alg Rot_Proofs Rot_Thms Lin_Model Lin_Proofs Sob_Model World_Model World_Spec World_Proofs World_Thms World_Rb3 Energy_Spec Energy_Proofs.
Import ListNotations.
Open Scope R_scope.

Lemma mass_mul_add : forall n V x y k, mass_mul n V (vplus x y) k = mass_mul n V x k + mass_mul n V y k.
Proof.
  intros n V x y k. unfold mass_mul, vplus. destruct (Nat.ltb k (3 * n)); [ring|]. cbv zeta. unfold mul3, dot3, seg3. cbn [c0 c1 c2].
  destruct ((k - 3 * n) mod 3)%nat as [|[|r]]; ring.
Qed.
Lemma dotn_ext : forall n x y x' y', agree n x x' -> agree n y y' -> Rot_Spec.dotn n x y = Rot_Spec.dotn n x' y'.
Proof. intros n x y x' y' H H'. apply rsum_ext. intros k Hk. now rewrite (H k Hk), (H' k Hk). Qed.
Lemma dotn_add_l : forall n x y z, Rot_Spec.dotn n (vplus x y) z = Rot_Spec.dotn n x z + Rot_Spec.dotn n y z.
Proof. intros n x y z. unfold Rot_Spec.dotn. rewrite <- rsum_plus. apply rsum_ext. intros k _. unfold vplus. ring. Qed.
Lemma dotn_comm_ : forall n x y, Rot_Spec.dotn n x y = Rot_Spec.dotn n y x.
Proof. intros n x y. apply rsum_ext. intros k _. ring. Qed.
Lemma turned_round : forall A a x, rotation A -> mul3 (turned A (all3 a)) x = scale3 a x.
Proof.
  intros A a x H. unfold turned. rewrite !mul3_mm.
  assert (D : forall y, mul3 (diag3 (all3 a)) y = scale3 a y) by (intros [x0 x1 x2]; unfold mul3, diag3, all3, dot3, scale3; cbn [c0 c1 c2 row0 row1 row2_]; f_equal; ring).
  assert (L : forall B y, mul3 B (scale3 a y) = scale3 a (mul3 B y)) by (intros B [x0 x1 x2]; unfold mul3, dot3, scale3; cbn [c0 c1 c2]; f_equal; ring).
  rewrite D, L, <- mul3_mm, (proj1 H). f_equal. apply mul3_id.
Qed.

Section Impulse.
Context (s : rb3).
Hypothesis HS : consistent s.
Let n := s3_n s.
Let T (v : dvec) := / 2 * Rot_Spec.dotn n v (mass_mul n (s3_M s) v).
Lemma rb3_work : forall v p, T (vplus v (mass_mul n (s3_Minv s) p)) = T v + / 2 * rsum (6 * n) (fun k => p k * (v k + vplus v (mass_mul n (s3_Minv s) p) k)).
Proof.
  intros v p. set (w := mass_mul n (s3_Minv s) p). unfold T.
  assert (B : agree n (mass_mul n (s3_M s) w) p) by (apply (mass_inverse s p HS)).
  rewrite dotn_add_l.
  assert (X : forall z, Rot_Spec.dotn n z (mass_mul n (s3_M s) (vplus v w)) = Rot_Spec.dotn n z (mass_mul n (s3_M s) v) + Rot_Spec.dotn n z p).
  { intros z. rewrite (dotn_comm_ n z p), <- (dotn_ext n _ z p z B (fun k _ => eq_refl)), dotn_comm_, (dotn_comm_ n z), <- dotn_add_l.
    apply dotn_ext; [intros k _; apply mass_mul_add|intros k _; reflexivity]. }
  pose proof (proj1 (mass_symmetric s w v HS)) as Y. fold n in Y. rewrite !X, Y.
  rewrite (dotn_ext n v (mass_mul n (s3_M s) w) v p (fun k _ => eq_refl) B).
  replace (rsum (6 * n) (fun k => p k * (v k + vplus v w k))) with (Rot_Spec.dotn n v p + (Rot_Spec.dotn n v p + Rot_Spec.dotn n w p)); [lra|].
  unfold Rot_Spec.dotn. rewrite <- !rsum_plus. apply rsum_ext. intros k _. unfold vplus. ring.
Qed.
Lemma rb3_minv_pos : forall p, 0 <= rsum (6 * n) (fun k => p k * mass_mul n (s3_Minv s) p k).
Proof.
  intros p. set (w := mass_mul n (s3_Minv s) p).
  assert (B : agree n (mass_mul n (s3_M s) w) p) by (apply (mass_inverse s p HS)).
  change (0 <= Rot_Spec.dotn n p w). rewrite dotn_comm_, <- (dotn_ext n w _ w p (fun k _ => eq_refl) B).
  destruct (Classical_Prop.classic (exists k, (k < 6 * n)%nat /\ w k <> 0)) as [E|E]; [left; now apply mass_positive|].
  right. symmetry. apply rsum_zero. intros k Hk. destruct (Req_dec (w k) 0) as [Z|Z]; [rewrite Z; ring|]. elim E. now exists k.
Qed.
End Impulse.

Lemma energy3_split : forall s v, consistent s ->
  energy3 (put3 s v) = / 2 * Rot_Spec.dotn (s3_n s) v (mass_mul (s3_n s) (s3_M s) v) + rsum (s3_n s) (fun i => - (mass s i * dot3 (total (s3_g s)) (position s i))).
Proof.
  intros s v HS. rewrite dotn_segs, <- rsum_plus, <- rsum_scal, <- rsum_plus. unfold energy3. cbn [put3 rb3_put s3_n]. apply rsum_ext. intros i Hi.
  destruct (consistent_segs s v i HS Hi) as (E1 & _ & E3 & _). rewrite E1, E3. unfold velocity, spin, angular_momentum. cbn [put3 rb3_put s3_n s3_v s3_q s3_g].
  assert (D : forall m x, dot3 x (scale3 m x) = m * dot3 x x) by (intros; unfold dot3, scale3; cbn [c0 c1 c2]; ring). rewrite D.
  change (mass (put3 s v) i) with (mass s i). change (position (put3 s v) i) with (position s i). change (orientation (put3 s v) i) with (orientation s i). change (inertia0 (put3 s v) i) with (inertia0 s i). unfold spin. cbn [put3 rb3_put s3_n s3_v]. lra.
Qed.

Section Runs.
Context {K Mem : Type} (o : narrow3) (n : nat) (shape : nat -> shape3) (planes : list rb3_plane) (cyls : list rb3_cyl) (map_ : rb3 -> R -> dvec * dvec)
  (box : option (v3 * v3)) (dt : R) (gs : list v3) (ms : nat -> R) (G : settings rb3_contact rb3 K) (sc : script (rb3 * K) rb3_contact Mem).
Let U := rb3_simulator o n shape planes cyls map_ box dt.
Hypothesis still : planes_at_rest planes.
Hypothesis still' : cylinders_at_rest cyls.
Hypothesis solves : resolves_impacts U G.
Hypothesis cor1 : 0 <= g_CoR G <= 1.
Hypothesis own : scene_restitution sc.

Lemma rb3_obstacles : forall fixed q0 q1 cs c x, rb3_active_set o n fixed shape planes cyls q0 q1 = Ok cs -> In c cs -> rb3_gdotN q0 c = Ok x -> x = 0.
Proof.
  intros fixed q0 q1 cs c x HA Hc Hx. unfold rb3_active_set in HA. step_let HA. step_let HA. step_let HA. apply ok_eq in HA. subst cs.
  apply in_app_iff in Hc. destruct Hc as [Hc|Hc].
  - unfold body_body_set3 in E. step_let E. pose proof (gather_ok _ _ E) as Gk. apply Gk in Hc. destruct Hc as [l [Il Ic]]. apply in_map_iff in Il. destruct Il as [p [D _]].
    unfold dispatch3 in D. destruct (_ && _); [apply ok_eq in D; subst l; destruct Ic|].
    assert (C3 : forall i j ps, In c (contacts3 fixed i j q0 ps) -> x = 0).
    { intros i j ps H. apply in_map_iff in H. destruct H as [pn [H _]]. destruct (negb (fixed j)); subst c; cbn [mk_body_body3 mk_kin_body rb3_gdotN] in Hx; now apply ok_eq in Hx. }
    destruct (shape _), (shape _); try discriminate.
    + apply ok_eq in D. subst l. eapply C3. exact Ic.
    + apply ok_eq in D. subst l. unfold sphere_sphere_narrow in Ic. destruct (balls_active _ _ _ _); [|destruct Ic]. destruct Ic as [<-|[]].
      destruct (fixed _) in Hx; cbn [mk_sphere_sphere rb3_gdotN] in Hx; now apply ok_eq in Hx.
    + destruct (staple_staple _ _ _ _ _ _); [discriminate|]. apply ok_eq in D. subst l. destruct Ic.
    + apply ok_eq in D. subst l. eapply C3. exact Ic.
  - apply in_app_iff in Hc. destruct Hc as [Hc|Hc]; apply in_map_iff in Hc; destruct Hc as [[k0 c'] [D Hc]]; cbn [snd] in D; subst c'.
    + unfold rb3_plane_set in E0. pose proof (gather_ok _ _ E0) as Gk. apply Gk in Hc. destruct Hc as [l [Il Ic]]. apply all_pairs_in in Il. destruct Il as [k' [p [i [Hp [_ Hl]]]]].
      destruct Hl as [Hl|[]]. destruct (fixed i); [apply ok_eq in Hl; subst l; destruct Ic|]. unfold rb3_plane_one in Hl. apply nth_error_In in Hp.
      destruct (shape i); try discriminate; apply ok_eq in Hl; subst l.
      * apply in_map_iff in Ic. destruct Ic as [c' [Q _]]. apply (f_equal snd) in Q. cbn [snd] in Q. subst c. cbn [rb3_gdotN] in Hx. now apply ok_eq in Hx.
      * destruct (ball_plane_active3 _ _ _ _); [|destruct Ic]. destruct Ic as [Q|[]]. apply (f_equal snd) in Q. cbn [snd] in Q. subst c. cbn [rb3_gdotN] in Hx. apply ok_eq in Hx. subst x.
        unfold planes_at_rest in still. rewrite Forall_forall in still. destruct (still p Hp) as [V W]. unfold plane_point_velocity3. rewrite V, W.
        unfold dot3, add3, cross3, zero3. cbn [c0 c1 c2]. ring.
      * apply in_map_iff in Ic. destruct Ic as [c' [Q _]]. apply (f_equal snd) in Q. cbn [snd] in Q. subst c. unfold mk_plane_body3 in Hx. cbn [rb3_gdotN] in Hx. now apply ok_eq in Hx.
    + unfold rb3_cylinder_set in E1. pose proof (gather_ok _ _ E1) as Gk. apply Gk in Hc. destruct Hc as [l [Il Ic]]. apply all_pairs_in in Il. destruct Il as [k' [p [i [Hp [_ Hl]]]]].
      destruct Hl as [Hl|[]]. destruct (fixed i); [apply ok_eq in Hl; subst l; destruct Ic|]. unfold rb3_cylinder_one in Hl. apply nth_error_In in Hp.
      destruct (shape i); try discriminate; apply ok_eq in Hl; subst l.
      * destruct (ball_cylinder_active _ _ _ _ _); [|destruct Ic]. destruct Ic as [Q|[]]. apply (f_equal snd) in Q. cbn [snd] in Q. subst c. cbn [rb3_gdotN] in Hx. apply ok_eq in Hx. subst x.
        unfold cylinders_at_rest in still'. rewrite Forall_forall in still'. destruct (still' p Hp) as [V W]. unfold cyl_point_velocity. cbv zeta. rewrite V, W.
        unfold dot3, add3, cross3, zero3. cbn [c0 c1 c2]. ring.
      * apply in_map_iff in Ic. destruct Ic as [c' [Q _]]. apply (f_equal snd) in Q. cbn [snd] in Q. subst c. unfold mk_cyl_body in Hx. cbn [rb3_gdotN] in Hx. discriminate.
Qed.

Definition round3 (s : rb3) : Prop := closed3 n gs ms s /\ round_bodies s.
Lemma spin_kept : forall s s' i a, consistent s -> consistent s' -> (i < s3_n s)%nat -> (i < s3_n s')%nat -> inertia0 s i = all3 a -> inertia0 s' i = inertia0 s i ->
  angular_momentum s' i = angular_momentum s i -> dot3 (spin s' i) (angular_momentum s' i) = dot3 (spin s i) (angular_momentum s i).
Proof.
  intros s s' i a (HC & HR & _) (_ & HR' & _) Hi Hi' Ea Ea' EL. rewrite EL. unfold angular_momentum in EL. rewrite Ea', Ea, !turned_round in EL by auto.
  destruct (HC i Hi) as (_ & P & _). rewrite Ea in P. destruct P as [P _]. unfold all3 in P. cbn [c0] in P.
  assert (X : spin s' i = spin s i) by (rewrite <- (proj2 (scale_inv a (spin s' i) P)), <- (proj2 (scale_inv a (spin s i) P)), EL; reflexivity). now rewrite X.
Qed.
Lemma fall_energy : forall m g x v h, / 2 * m * dot3 (add3 v (scale3 h g)) (add3 v (scale3 h g)) - m * dot3 g (add3 x (add3 (scale3 h v) (scale3 (/ 2 * h * h) g)))
  = / 2 * m * dot3 v v - m * dot3 g x.
Proof. intros m [g0 g1 g2] [x0 x1 x2] [v0 v1 v2] h. unfold dot3, add3, scale3. cbn [c0 c1 c2]. field. Qed.
Lemma euler_energy : forall m g x v h, / 2 * m * dot3 (add3 v (scale3 h g)) (add3 v (scale3 h g)) - m * dot3 g (add3 x (scale3 h v))
  = / 2 * m * dot3 v v - m * dot3 g x + / 2 * m * (h * h * dot3 g g).
Proof. intros m [g0 g1 g2] [x0 x1 x2] [v0 v1 v2] h. unfold dot3, add3, scale3. cbn [c0 c1 c2]. field. Qed.

(* one unconstrained step *)
Lemma ham_energy : forall rotate s, keeps_rotations rotate -> free_bodies s -> round_bodies s -> energy3 (rb3_step (hamiltonian_flow rotate) dt s) = energy3 s.
Proof.
  intros rotate s HK [HC HF] HR. pose proof (ham_step_consistent rotate dt s HK HC) as HC'. set (s' := rb3_step (hamiltonian_flow rotate) dt s) in *.
  unfold energy3. change (s3_n s') with (s3_n s). apply rsum_ext. intros i Hi. destruct (HR i Hi) as [a Ea].
  destruct (ham_step_free rotate dt s i HK HC Hi (HF i Hi)) as (X & V & _ & L). fold s' in X, V, L.
  rewrite (spin_kept s s' i a HC HC' Hi Hi Ea eq_refl L), X, V. change (mass s' i) with (mass s i). change (s3_g s') with (s3_g s).
  pose proof (fall_energy (mass s i) (total (s3_g s)) (position s i) (velocity s i) dt). lra.
Qed.
Lemma exp_energy : forall svd s, svd_ok svd -> free_bodies s -> round_bodies s ->
  energy3 (rb3_step (exp_euler_map svd) dt s) = energy3 s + / 2 * rsum (s3_n s) (mass s) * (dt * dt) * dot3 (total (s3_g s)) (total (s3_g s)).
Proof.
  intros svd s HV [HC HF] HR. pose proof (exp_step_consistent svd dt s HV HC) as HC'. set (s' := rb3_step (exp_euler_map svd) dt s) in *.
  unfold energy3. change (s3_n s') with (s3_n s).
  replace (/ 2 * rsum (s3_n s) (mass s) * (dt * dt) * dot3 (total (s3_g s)) (total (s3_g s)))
    with (rsum (s3_n s) (fun i => mass s i * (/ 2 * (dt * dt) * dot3 (total (s3_g s)) (total (s3_g s))))) by (rewrite rsum_scal_r; ring).
  rewrite <- rsum_plus. apply rsum_ext. intros i Hi. destruct (HR i Hi) as [a Ea].
  destruct (exp_step_views svd dt s i HC Hi) as (X & V & W). fold s' in X, V, W.
  assert (L : angular_momentum s' i = angular_momentum s i).
  { unfold angular_momentum. change (inertia0 s' i) with (inertia0 s i). rewrite W, Ea, !turned_round; [reflexivity|now apply HC|now apply HC']. }
  rewrite W, L, X, V. change (mass s' i) with (mass s i). change (s3_g s') with (s3_g s).
  pose proof (euler_energy (mass s i) (total (s3_g s)) (position s i) (velocity s i) dt). lra.
Qed.

Lemma rb3_decays : forall loss, (forall s, round3 s -> consistent (rb3_step map_ dt s) /\ energy3 (rb3_step map_ dt s) <= energy3 s - loss) ->
  decays U G false sc (fun s _ => round3 s) (fun s v => energy3 (put3 s v)) loss.
Proof.
  intros loss HE. split.
  - intros s v q1 v1 Hs E. cbn [U rb3_simulator u_step u_q] in E. assert (E' : map_ (rb3_put s (s3_q s) v) dt = (q1, v1)) by congruence. clear E.
    pose proof (step_next o n shape map_ box dt s (s3_q s) v q1 v1 E') as N. change (next (rb3_simulator o n shape [] [] map_ box dt) false s q1 v1) with (next U false s q1 v1) in N.
    rewrite <- N. fold (put3 s v). assert (Hp : round3 (put3 s v)) by exact Hs. destruct (HE _ Hp) as [C1 C2].
    assert (V : s3_v (rb3_step map_ dt (put3 s v)) = v1) by (unfold put3; rewrite N; reflexivity). split.
    + destruct Hs as [(A & B & D & F & M) R]. split; [|exact R]. split; [exact C1|]. split; [exact B|]. split; [exact D|]. split; [exact F|exact M].
    + rewrite <- V, put3_same. exact C2.
  - intros s k0 q1 cs cor a a' v2 lv lv' Hs HA HC HI. split; [exact Hs|]. apply scene_coefficients in HC; [|exact own]. injection HC as -> _.
    destruct Hs as [(A & B & _) _]. cbn [U rb3_simulator u_v]. rewrite !(energy3_split s) by exact A. apply Rplus_le_compat_r. rewrite B.
    apply (lcp_dissipates U G s (fun v => / 2 * Rot_Spec.dotn n v (mass_mul n (s3_M s) v)) solves cor1) with (4 := HI).
    + intros v p. cbn [U rb3_simulator u_nv u_minv]. pose proof (rb3_work s A v p) as W. rewrite B in W. exact W.
    + intros p. cbn [U rb3_simulator u_nv u_minv]. pose proof (rb3_minv_pos s A p) as W. rewrite B in W. exact W.
    + intros c x Hc Hx. exact (rb3_obstacles (s3_fixed s) (s3_q s) q1 cs c x HA Hc Hx).
  - reflexivity.
  - intros s s' E. cbn [U rb3_simulator u_boundary] in E. destruct box as [[lo hi]|]; [step_let E|]; apply ok_eq in E; congruence.
Qed.
Lemma round_run : forall loss m steps it s c f lv s' c' f' lv', (forall s, round3 s -> consistent (rb3_step map_ dt s) /\ energy3 (rb3_step map_ dt s) <= energy3 s - loss) ->
  frictionless m -> hands_off sc -> round3 s -> run U G sc false m steps it (s, c, f, lv) = Ok (s', c', f', lv') ->
  round3 s' /\ energy3 s' <= energy3 s - INR steps * loss.
Proof.
  intros loss m steps it s c f lv s' c' f' lv' HE Hm Off Hs HR.
  destruct (run_decays U G false m sc _ _ _ (rb3_decays loss HE) Hm Off steps it (s, c) f lv (s', c') f' lv' Hs HR) as [Q0 Q].
  cbn [fst U rb3_simulator u_v] in *. rewrite !put3_same in Q. now split.
Qed.
End Runs.

Theorem rb3_run_energy : forall {K Mem} o n shape planes cyls map_ box dt (G : settings rb3_contact rb3 K) (sc : script (rb3 * K) rb3_contact Mem) m steps it s c f lv s' c' f' lv',
  let U := rb3_simulator o n shape planes cyls map_ box dt in
  planes_at_rest planes -> cylinders_at_rest cyls -> resolves_impacts U G -> 0 <= g_CoR G <= 1 -> scene_restitution sc -> rotates_bodies map_ ->
  frictionless m -> hands_off sc -> s3_n s = n -> free_bodies s -> round_bodies s ->
  run U G sc false m steps it (s, c, f, lv) = Ok (s', c', f', lv') -> energy3 s' <= energy3 s.
Proof.
  intros K Mem o n shape planes cyls map_ box dt G sc m steps it s c f lv s' c' f' lv' U Hp Hc Hg H1 Ho Hr Hm Off En Hs Hb HR.
  assert (R0 : round3 n (s3_g s) (mass s) s) by (split; [rewrite <- En; now apply free_closed|exact Hb]).
  destruct (round_run o n shape planes cyls map_ box dt (s3_g s) (mass s) G sc Hp Hc Hg H1 Ho 0 m steps it s c f lv s' c' f' lv') as [_ Q]; try assumption; [|lra].
  intros t [(A & B & D & _) R]. rewrite Rminus_0_r. assert (Fr : free_bodies t) by (split; [exact A|rewrite B; exact D]).
  destruct Hr as [-> | ->]; (split; [|right]).
  - exact (ham_step_consistent _ dt t split_keeps A).
  - exact (ham_energy dt _ t split_keeps Fr R).
  - exact (ham_step_consistent _ dt t dmv_keeps A).
  - exact (ham_energy dt _ t dmv_keeps Fr R).
Qed.
Theorem rb3_exp_energy : forall {K Mem} o n shape planes cyls svd box dt (G : settings rb3_contact rb3 K) (sc : script (rb3 * K) rb3_contact Mem) m steps it s c f lv s' c' f' lv',
  let U := rb3_simulator o n shape planes cyls (exp_euler_map svd) box dt in
  planes_at_rest planes -> cylinders_at_rest cyls -> resolves_impacts U G -> 0 <= g_CoR G <= 1 -> scene_restitution sc -> svd_ok svd ->
  frictionless m -> hands_off sc -> s3_n s = n -> free_bodies s -> round_bodies s ->
  run U G sc false m steps it (s, c, f, lv) = Ok (s', c', f', lv') ->
  energy3 s' <= energy3 s + INR steps * (/ 2 * rsum n (mass s) * (dt * dt) * dot3 (total (s3_g s)) (total (s3_g s))).
Proof.
  intros K Mem o n shape planes cyls svd box dt G sc m steps it s c f lv s' c' f' lv' U Hp Hc Hg H1 Ho Hr Hm Off En Hs Hb HR.
  assert (R0 : round3 n (s3_g s) (mass s) s) by (split; [rewrite <- En; now apply free_closed|exact Hb]).
  set (gain := / 2 * rsum n (mass s) * (dt * dt) * dot3 (total (s3_g s)) (total (s3_g s))).
  destruct (round_run o n shape planes cyls (exp_euler_map svd) box dt (s3_g s) (mass s) G sc Hp Hc Hg H1 Ho (- gain) m steps it s c f lv s' c' f' lv') as [_ Q]; try assumption; [|lra].
  intros t [(A & B & D & F & M) R]. assert (Fr : free_bodies t) by (split; [exact A|rewrite B; exact D]). split; [now apply exp_step_consistent|].
  rewrite (exp_energy dt svd t Hr Fr R), B, F. rewrite (rsum_ext n (mass t) (mass s) M). unfold gain. lra.
Qed.
