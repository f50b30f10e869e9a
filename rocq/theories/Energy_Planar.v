(* The energy of balls and planar bodies over whole runs without friction. *)
From Coq Require Import List Reals Arith NArith Bool Lia Lra.
From Verif Require Import Outcome Grid_Model Grid_Spec Grid_Dim Ccd_Model Ccd_Proofs Flow_Model Flow_Spec Flow_Proofs Quad_Model Integr_Model Integr_Spec Integr_Proofs Integr_Thms
  Wall_Model Wall_Thms Geom_Model Narrow_Model Narrow_Spec Narrow_Proofs Narrow_Thms ContactBall_Model ContactRb2_Model ContactRb3_Model Contact_Spec
  Lin_Model Lin_Proofs Sob_Model Sob_Spec World_Model World_Spec World_Proofs World_Thms Energy_Spec Energy_Proofs.
Import ListNotations.
Open Scope R_scope.

Lemma rsum_nonneg_ : forall n f, (forall i, (i < n)%nat -> 0 <= f i) -> 0 <= rsum n f.
Proof. induction n as [|n IH]; intros f H; cbn [rsum]; [lra|]. pose proof (IH f ltac:(intros; apply H; lia)). pose proof (H n ltac:(lia)). lra. Qed.

(* a diagonal mass matrix *)
Lemma diag_work : forall n M v p, (forall k, (k < n)%nat -> 0 < M k) ->
  / 2 * rsum n (fun k => vplus v (diag_minv M p) k * (M k * vplus v (diag_minv M p) k))
  = / 2 * rsum n (fun k => v k * (M k * v k)) + / 2 * rsum n (fun k => p k * (v k + vplus v (diag_minv M p) k)).
Proof.
  intros n M v p HM. rewrite <- Rmult_plus_distr_l, <- rsum_plus. f_equal. apply rsum_ext. intros k Hk. unfold vplus, diag_minv. pose proof (HM k Hk). field. lra.
Qed.
Lemma diag_pos : forall n M p, (forall k, (k < n)%nat -> 0 < M k) -> 0 <= rsum n (fun k => p k * diag_minv M p k).
Proof.
  intros n M p HM. apply rsum_nonneg_. intros k Hk. unfold diag_minv. replace (p k * (1 / M k * p k)) with (/ M k * (p k * p k)) by (unfold Rdiv; ring).
  apply Rmult_le_pos; [left; apply Rinv_0_lt_compat; now apply HM|apply Rle_0_sqr].
Qed.

(* ---------- balls ---------- *)
Section Ball.
Context {K Mem : Type} (w : balls) (drums : list (vec * R)) (planes : list ball_plane) (verlet : bool) (dt : R) (gs : list vec)
  (G : settings ball_contact phase K) (sc : script (phase * K) ball_contact Mem).
Let U := ball_simulator w drums planes verlet dt.
Let n := bl_n w. Let M := bl_M w.
Hypothesis HM : masses_ok 2 n M.
Hypothesis Gr : bl_forces w = map Gravity gs.
Hypothesis still : Forall (fun p => bp_v p = vzero) planes.
Hypothesis solves : resolves_impacts U G.
Hypothesis cor1 : 0 <= g_CoR G <= 1.
Hypothesis own : scene_restitution sc.

Definition ball_total (s : phase) (v : dvec) : R := b_kinetic n M v + gravity_potential 2 n M (vsum gs) (fst s).
Lemma ball_mass_pos : forall k, (k < 2 * n)%nat -> 0 < M k.
Proof.
  intros k Hk. destruct (Nat.Even_or_Odd k) as [[i ->]|[i ->]]; destruct (HM i ltac:(lia)) as [A B]; [exact A|rewrite B; exact A].
Qed.
Lemma ball_at_rest : forall s q1 cs c x, u_active U s (u_q U s) q1 (u_v U s) = Ok cs -> In c cs -> u_gdotN U (u_q U s) c = Ok x -> x = 0.
Proof.
  intros s q1 cs c x HA Hc Hx. cbn [U ball_simulator u_active u_gdotN] in *. apply ok_eq in Hx. subst x. unfold ball_active_set in HA. step_let HA. apply ok_eq in HA. subst cs.
  apply in_app_iff in Hc. destruct Hc as [Hc|Hc]; [apply in_map_iff in Hc; destruct Hc as [p [<- _]]; reflexivity|].
  apply in_app_iff in Hc. destruct Hc as [Hc|Hc]; apply in_map_iff in Hc; destruct Hc as [[k c'] [D Hc]]; cbn [snd] in D; subst c'.
  - unfold ball_drum_set in Hc. apply all_pairs_in in Hc. destruct Hc as [k' [d [i [_ [_ Hc]]]]]. destruct (disc_drum_active _ _ _ _); [|destruct Hc].
    destruct Hc as [Hc|[]]. injection Hc as _ <-. reflexivity.
  - unfold ball_plane_set in Hc. apply all_pairs_in in Hc. destruct Hc as [k' [p [i [Hp [_ Hc]]]]]. destruct (disc_plane_active _ _ _ _); [|destruct Hc].
    destruct Hc as [Hc|[]]. injection Hc as _ <-. cbn [b_gdotN]. apply nth_error_In in Hp. rewrite Forall_forall in still. rewrite (still p Hp). unfold vdot, vzero. cbn. ring.
Qed.
Lemma ball_decays : decays U G true sc (fun _ _ => True) ball_total (step_loss verlet dt (total_mass 2 n M) (vsum gs)).
Proof.
  split.
  - intros s v q1 v1 _ E. split; [exact Logic.I|]. destruct s as [q v0]. cbn [U ball_simulator u_step u_q fst] in E.
    unfold next, ball_total. cbn [U ball_simulator u_set fst]. rewrite !b_kinetic_spec by exact HM. destruct verlet.
    + destruct (ball_verlet_parabola w gs dt q v 1 HM Gr) as (q' & v' & Es & H). cbn [steps] in Es. rewrite E in Es. injection Es as <- <-.
      right. unfold step_loss, kinetic, gravity_potential. rewrite Rminus_0_r, <- !rsum_plus. apply rsum_ext. intros i Hi. destruct (H i Hi) as [-> ->]. apply parabola_energy.
    + destruct (ball_euler_parabola w gs dt q v 1 HM Gr) as (q' & v' & Es & H). cbn [steps] in Es. rewrite E in Es. injection Es as <- <-.
      right. unfold step_loss, kinetic, gravity_potential, total_mass. rewrite <- !rsum_plus.
      replace (/ 2 * rsum n (fun i => M (2 * i)%nat) * (dt * dt) * vdot (vsum gs) (vsum gs)) with (rsum n (fun i => M (2 * i)%nat) * (/ 2 * (dt * dt) * vdot (vsum gs) (vsum gs))) by ring.
      rewrite <- rsum_scal_r, <- rsum_minus. apply rsum_ext.
      intros i Hi. destruct (H i Hi) as [-> ->]. rewrite <- (parabola_energy _ (vsum gs) (body 2 q i) (body 2 v i) (INR 1 * dt)).
      cbn [INR]. unfold vdot, vadd, vscale. cbn [fst snd]. field.
  - intros s k0 q1 cs cor a a' v2 lv lv' _ HA HC HI. split; [exact Logic.I|]. apply scene_coefficients in HC; [|exact own]. injection HC as -> _. unfold ball_total. apply Rplus_le_compat_r.
    apply (lcp_dissipates U G s (b_kinetic n M) solves cor1) with (4 := HI).
    + intros v p. apply (diag_work (2 * n) M v p ball_mass_pos).
    + intros p. apply (diag_pos (2 * n) M p ball_mass_pos).
    + intros c x Hc Hx. exact (ball_at_rest s q1 cs c x HA Hc Hx).
  - reflexivity.
  - intros s s' E. apply ok_eq in E. congruence.
Qed.
Theorem ball_run_energy : forall m steps it x c f lv x' c' f' lv', frictionless m -> hands_off sc ->
  run U G sc true m steps it (x, c, f, lv) = Ok (x', c', f', lv') ->
  kinetic 2 n M (snd x') + gravity_potential 2 n M (vsum gs) (fst x')
  <= kinetic 2 n M (snd x) + gravity_potential 2 n M (vsum gs) (fst x) - INR steps * step_loss verlet dt (total_mass 2 n M) (vsum gs).
Proof.
  intros m steps it x c f lv x' c' f' lv' Hm Off HR.
  destruct (run_decays U G true m sc _ _ _ ball_decays Hm Off steps it (x, c) f lv (x', c') f' lv' Logic.I HR) as [_ Q].
  unfold ball_total in Q. cbn [fst U ball_simulator u_v] in Q. rewrite !b_kinetic_spec in Q by exact HM. exact Q.
Qed.
End Ball.

(* ---------- planar bodies ---------- *)
Section Rb2.
Context {K Mem : Type} (w : bodies) (shape : nat -> shape2) (planes : list rb2_plane) (verlet : bool) (dt : R)
  (G : settings rb2_contact phase K) (sc : script (phase * K) rb2_contact Mem).
Let U := rb2_simulator w shape planes verlet dt.
Let n := rb_n w. Let M := rb_M w. Let g := vsum (rb_gravity w).
Hypothesis HM : masses_ok 3 n M.
Hypothesis HI : forall i, (i < n)%nat -> 0 < M (3 * i + 2)%nat.
Hypothesis Hn : (N.of_nat n <= 4294967296)%N.
Hypothesis still : Forall (fun p => rp_v p = vzero /\ rp_omega p = 0) planes.
Hypothesis solves : resolves_impacts U G.
Hypothesis cor1 : 0 <= g_CoR G <= 1.
Hypothesis own : scene_restitution sc.

Definition rest2 (v : dvec) : Prop := forall i, (i < n)%nat -> rb_fixed w i = true -> body 3 v i = vzero /\ v (3 * i + 2)%nat = 0.
Definition rb2_total (s : phase) (v : dvec) : R := rb2_kinetic n M v + gravity_potential 3 n M g (fst s).
Lemma rb2_mass_pos : forall k, (k < 3 * n)%nat -> 0 < M k.
Proof.
  intros k Hk. pose proof (Nat.div_mod_eq k 3) as D. pose proof (Nat.mod_upper_bound k 3 ltac:(lia)) as B. set (i := (k / 3)%nat) in *. set (r := (k mod 3)%nat) in *.
  destruct (HM i ltac:(lia)) as [A E]. rewrite D. destruct r as [|[|[|r]]]; [| | |lia].
  - rewrite Nat.add_0_r. exact A.
  - rewrite E. exact A.
  - apply HI. lia.
Qed.
(* the contacts that have normals: their columns reach only free bodies, and the obstacles are at rest *)
Lemma rb2_columns : forall s q1 cs c col, rest2 (snd s) -> u_active U s (u_q U s) q1 (u_v U s) = Ok cs -> In c cs -> u_normal U (u_q U s) c = Ok col ->
  (forall k, (k < n)%nat -> rb_fixed w k = true -> entry col (3 * k) = 0 /\ entry col (3 * k + 1) = 0 /\ entry col (3 * k + 2) = 0)
  /\ forall x, u_gdotN U (u_q U s) c = Ok x -> x = 0.
Proof.
  intros [q v] q1 cs c col Hr HA Hc Hcol. cbn [U rb2_simulator u_active u_normal u_gdotN u_q u_v fst snd] in *.
  assert (E1 : forall i nn, rb_fixed w i = false -> forall k, (k < n)%nat -> rb_fixed w k = true ->
    entry (ins2 (3 * i) nn) (3 * k) = 0 /\ entry (ins2 (3 * i) nn) (3 * k + 1) = 0 /\ entry (ins2 (3 * i) nn) (3 * k + 2) = 0).
  { intros i nn Fi k _ Fk. assert (D : i <> k) by (intros ->; congruence). unfold ins2, entry. cbn [fold_right fst snd].
    repeat split; repeat match goal with |- context [Nat.eqb ?a ?b] => destruct (Nat.eqb_spec a b); [lia|] end; ring. }
  assert (E2 : forall i j nn, rb_fixed w i = false -> rb_fixed w j = false -> forall k, (k < n)%nat -> rb_fixed w k = true ->
    entry (ins2 (3 * i) nn ++ ins2 (3 * j) (vneg nn)) (3 * k) = 0 /\ entry (ins2 (3 * i) nn ++ ins2 (3 * j) (vneg nn)) (3 * k + 1) = 0
    /\ entry (ins2 (3 * i) nn ++ ins2 (3 * j) (vneg nn)) (3 * k + 2) = 0).
  { intros i j nn Fi Fj k Hk Fk. rewrite !entry_app. destruct (E1 i nn Fi k Hk Fk) as (A & B & D). destruct (E1 j (vneg nn) Fj k Hk Fk) as (A' & B' & D').
    rewrite A, B, D, A', B', D'. repeat split; ring. }
  unfold rb2_active_set in HA. step_let HA. apply ok_eq in HA. subst cs. apply in_app_iff in Hc. destruct Hc as [Hc|Hc].
  - unfold body_body_set2 in E. step_let E. pose proof (gather_ok _ _ E) as Gk. apply Gk in Hc. destruct Hc as [l [Il Ic]]. apply in_map_iff in Il. destruct Il as [[a b] [D Iab]]. cbn [fst snd] in D.
    apply (any_sound2 real _ _ _ a b) in E0; [|unfold indexable; rewrite !map_length, seq_length; exact Hn|exact Iab].
    destruct E0 as [[]|[_ [y [z [Ha [Hb _]]]]]]. apply box_at_seq in Ha, Hb. destruct Ha as [Ha _]. destruct Hb as [Hb _]. clear Gk E Iab y z.
    set (i := N.to_nat a) in *. set (j := N.to_nat b) in *. clearbody i j. clear a b.
    assert (Kin : forall i' r nn j' kx, rb_fixed w i' = false -> (j' < n)%nat -> rb_fixed w j' = true -> c = KinCircle i' r nn j' kx (seg2 v (3 * j')) (v (3 * j' + 2)%nat) ->
      (forall k, (k < n)%nat -> rb_fixed w k = true -> entry col (3 * k) = 0 /\ entry col (3 * k + 1) = 0 /\ entry col (3 * k + 2) = 0)
      /\ forall x, rb2_gdotN q c = Ok x -> x = 0).
    { intros i' r nn j' kx Fi Hj Fj ->. cbn [rb2_gradg] in Hcol. apply ok_eq in Hcol. subst col. split; [now apply E1|]. intros x9 Hx. cbn [rb2_gdotN] in Hx. apply ok_eq in Hx. subst x9.
      destruct (Hr j' Hj Fj) as [B0 B2]. assert (B0' : v (3 * j')%nat = 0) by exact (f_equal fst B0). assert (B1' : v (3 * j' + 1)%nat = 0) by exact (f_equal snd B0). rewrite B2. unfold kin_point_velocity, seg2. rewrite Nat.add_0_r, B0', B1'. unfold vdot, vadd, vscale, vperp. cbn [fst snd]. ring. }
    assert (Pair : forall i' j' ra rb, rb_fixed w i' = false -> rb_fixed w j' = false -> c = mk_circle_circle i' j' q ra rb ->
      (forall k, (k < n)%nat -> rb_fixed w k = true -> entry col (3 * k) = 0 /\ entry col (3 * k + 1) = 0 /\ entry col (3 * k + 2) = 0)
      /\ forall x, rb2_gdotN q c = Ok x -> x = 0).
    { intros i' j' ra rb Fi Fj ->. unfold mk_circle_circle in *. cbn [rb2_gradg] in Hcol. apply ok_eq in Hcol. subst col. split; [now apply E2|]. intros x9 Hx. cbn [rb2_gdotN] in Hx. now apply ok_eq in Hx. }
    unfold dispatch2 in D. destruct (rb_fixed w i && rb_fixed w j) eqn:Fij; [apply ok_eq in D; subst l; destruct Ic|].
    assert (Q : exists i' j', (i' < n)%nat /\ (j' < n)%nat /\ rb_fixed w i' = false /\ match shape i', shape j' with
      | Circle2 ra, Circle2 rb => Ok (circle_circle_narrow2 (rb_fixed w) i' j' ra rb q q1 v)
      | Circle2 r, Box2 w0 => box_circle_narrow2 (rb_fixed w) i' j' r w0 q q1 v
      | Box2 w0, Circle2 r => box_circle_narrow2 (rb_fixed w) j' i' r w0 q q1 v
      | Box2 wi, Box2 wj => box_box_narrow2 (rb_fixed w) i' j' wi wj q q1 end = Ok l).
    { destruct (rb_fixed w i) eqn:Fi; [exists j, i|exists i, j]; repeat split; try assumption. }
    clear D Fij. destruct Q as [i' [j' [Hi [Hj [Fi D]]]]].
    assert (BC : forall ic ib r w0, (ic < n)%nat -> (ib < n)%nat -> box_circle_narrow2 (rb_fixed w) ic ib r w0 q q1 v = Ok l ->
      (forall k, (k < n)%nat -> rb_fixed w k = true -> entry col (3 * k) = 0 /\ entry col (3 * k + 1) = 0 /\ entry col (3 * k + 2) = 0)
      /\ forall x, rb2_gdotN q c = Ok x -> x = 0).
    { intros ic ib r w0 Hic Hib B. unfold box_circle_narrow2 in B. destruct (rb_fixed w ic) eqn:Fc; [discriminate|]. destruct (circle_box _ _ _ _ _) as [[nn p]|]; [|apply ok_eq in B; subst l; destruct Ic].
      destruct (rb_fixed w ib) eqn:Fb; cbn [negb] in B.
      - apply ok_eq in B. subst l. destruct Ic as [<-|[]]. now apply (Kin ic r nn ib (seg2 q (3 * ib))).
      - destruct (Nat.ltb ic ib); apply ok_eq in B; subst l; destruct Ic as [<-|[]]; discriminate Hcol. }
    destruct (shape i') as [ra|wi]; destruct (shape j') as [rb|wj].
    + apply ok_eq in D. subst l. unfold circle_circle_narrow2 in Ic. destruct (ccd _ _ _ _ _ _); [|destruct Ic]. destruct (rb_fixed w j') eqn:Fj; cbn [negb] in Ic; destruct Ic as [<-|[]].
      * now apply (Kin i' ra (vnormalized (vsub (seg2 q (3 * i')) (seg2 q (3 * j')))) j' (seg2 q (3 * j'))).
      * now apply (Pair i' j' ra rb).
    + now apply (BC i' j' ra wj).
    + now apply (BC j' i' rb wi).
    + unfold box_box_narrow2 in D. destruct (rb_fixed w i' || rb_fixed w j'); [discriminate|]. step_let D. destruct x1 as [[nn ps]|]; apply ok_eq in D; subst l; [|destruct Ic].
      apply in_map_iff in Ic. destruct Ic as [p [<- _]]. discriminate Hcol.
  - apply in_map_iff in Hc. destruct Hc as [[k0 c'] [D Hc]]. cbn [snd] in D. subst c'. unfold rb2_plane_set in Hc. apply all_pairs_in in Hc. destruct Hc as [k' [p [i [Hp [_ Hc]]]]].
    destruct (rb_fixed w i) eqn:Fi; [destruct Hc|]. destruct (shape i) as [r|wi].
    + destruct (disc_plane_active _ _ _ _); [|destruct Hc]. destruct Hc as [Hc|[]]. injection Hc as _ <-. cbn [rb2_gradg] in Hcol. apply ok_eq in Hcol. subst col. split; [now apply E1|].
      intros x0 Hx. cbn [rb2_gdotN] in Hx. apply ok_eq in Hx. subst x0. apply nth_error_In in Hp. rewrite Forall_forall in still. destruct (still p Hp) as [Pv Po].
      unfold plane_point_velocity2. rewrite Pv, Po. unfold vdot, vadd, vscale, vperp, vzero. cbn [fst snd]. ring.
    + apply in_flat_map in Hc. destruct Hc as [arm [_ Hc]]. destruct (Rleb _ _); [|destruct Hc]. destruct Hc as [Hc|[]]. injection Hc as _ <-. discriminate Hcol.
Qed.

Lemma rb2_impact_rest : forall s k0 q1 cs cor a a' v2, rest2 (snd s) -> u_active U s (u_q U s) q1 (u_v U s) = Ok cs ->
  impact_part U G (s, k0) (u_q U s) (u_v U s) cs cor a = Ok (a', v2) -> rest2 v2.
Proof.
  intros s k0 q1 cs cor a a' v2 Hr HA H. unfold impact_part in H. cbn [fst] in H. step_let H. step_let H. step_let H. apply ok_eq in H. injection H as _ <-.
  assert (Z : forall k o, (k < n)%nat -> rb_fixed w k = true -> (o < 3)%nat -> mv (length cs) (cols_mat x) x1 (3 * k + o)%nat = 0).
  { intros k o Hk Fk Ho. apply rsum_zero. intros i Hi. unfold cols_mat. pose proof (omapM_length _ _ _ E) as L. assert (Ix : In (nth i x []) x) by (apply nth_In; lia).
    destruct (omapM_in _ _ _ _ E Ix) as [c [Ic Ec]]. destruct (rb2_columns s q1 cs c _ Hr HA Ic Ec) as [Q _]. destruct (Q k Hk Fk) as (A & B & D).
    destruct o as [|[|[|o]]]; [rewrite Nat.add_0_r, A|rewrite B|rewrite D|lia]; ring. }
  intros i Hi Fi. destruct (Hr i Hi Fi) as [A B]. cbn [U rb2_simulator u_minv u_v]. unfold vplus, body, diag_minv. split.
  - pose proof (Z i 0%nat Hi Fi ltac:(lia)) as Z0. rewrite Nat.add_0_r in Z0. rewrite Z0, (Z i 1%nat Hi Fi ltac:(lia)), !Rmult_0_r, !Rplus_0_r. exact A.
  - rewrite (Z i 2%nat Hi Fi ltac:(lia)), Rmult_0_r, Rplus_0_r. exact B.
Qed.

Definition free_mass : R := rsum n (fun i => if rb_fixed w i then 0 else M (3 * i)%nat).
Lemma rb2_decays : decays U G true sc (fun _ v => rest2 v) rb2_total (step_loss verlet dt free_mass g).
Proof.
  split.
  - intros s v q1 v1 Hr E. destruct s as [q v0]. cbn [U rb2_simulator u_step u_q fst] in E.
    unfold next, rb2_total. cbn [U rb2_simulator u_set fst]. rewrite !rb2_kinetic_spec by exact HM.
    assert (Fx : forall i, straight (body 3 q i) vzero (1 * dt) = body 3 q i) by (intros i; unfold straight, vzero, body; cbn [fst snd]; f_equal; ring).
    destruct verlet.
    + destruct (rb2_verlet_closed w dt q v 1 HM) as (q' & v' & Es & H). cbn [steps] in Es. rewrite E in Es. injection Es as <- <-. split.
      * intros i Hi Fi. destruct (H i Hi) as (_ & Hf & _ & ->). destruct (Hf Fi) as [_ ->]. now apply Hr.
      * right. unfold step_loss, kinetic, gravity_potential. rewrite Rminus_0_r, <- !rsum_plus. apply rsum_ext. intros i Hi. destruct (H i Hi) as (Hm & Hf & _ & ->). destruct (rb_fixed w i) eqn:Fi.
        -- destruct (Hf eq_refl) as [-> ->]. destruct (Hr i Hi Fi) as [-> _]. cbn [INR]. rewrite Fx. reflexivity.
        -- destruct (Hm eq_refl) as [-> ->]. pose proof (parabola_energy (M (3 * i)%nat) g (body 3 q i) (body 3 v i) (INR 1 * dt)) as PE. unfold M, g in *. lra.
    + destruct (rb2_euler_closed w dt q v 1 HM) as (q' & v' & Es & H). cbn [steps] in Es. rewrite E in Es. injection Es as <- <-. split.
      * intros i Hi Fi. destruct (H i Hi) as (_ & Hf & _ & ->). destruct (Hf Fi) as [_ ->]. now apply Hr.
      * right. unfold step_loss, kinetic, gravity_potential, free_mass. rewrite <- !rsum_plus.
        replace (/ 2 * rsum n (fun i => if rb_fixed w i then 0 else M (3 * i)%nat) * (dt * dt) * vdot g g)
          with (rsum n (fun i => if rb_fixed w i then 0 else M (3 * i)%nat) * (/ 2 * (dt * dt) * vdot g g)) by ring.
        rewrite <- rsum_scal_r, <- rsum_minus. apply rsum_ext. intros i Hi. destruct (H i Hi) as (Hm & Hf & _ & ->). destruct (rb_fixed w i) eqn:Fi.
        -- destruct (Hf eq_refl) as [-> ->]. destruct (Hr i Hi Fi) as [-> _]. cbn [INR]. rewrite Fx. ring.
        -- destruct (Hm eq_refl) as [-> ->]. pose proof (parabola_energy (M (3 * i)%nat) g (body 3 q i) (body 3 v i) (INR 1 * dt)) as PE. unfold M, g in *.
           assert (X : forall a p h, vdot a (vadd p (vscale h a)) = vdot a p + h * vdot a a) by (intros; unfold vdot, vadd, vscale; cbn [fst snd]; ring).
           rewrite X. cbn [INR] in *. lra.
  - intros s k0 q1 cs cor a a' v2 lv lv' Hr HA HC HI'. split; [exact (rb2_impact_rest s k0 q1 cs cor a a' v2 Hr HA HI')|].
    apply scene_coefficients in HC; [|exact own]. injection HC as -> _. unfold rb2_total. apply Rplus_le_compat_r.
    assert (Nrm : exists N, omapM (u_normal U (u_q U s)) cs = Ok N) by (pose proof HI' as T; unfold impact_part, form_N in T; cbn [fst] in T; step_let T; now exists x).
    apply (lcp_dissipates U G s (rb2_kinetic n M) solves cor1) with (4 := HI').
    + intros v p. apply (diag_work (3 * n) M v p rb2_mass_pos).
    + intros p. apply (diag_pos (3 * n) M p rb2_mass_pos).
    + intros c x Hc Hx. destruct Nrm as [N EN]. apply omapM_pairs in EN.
      assert (Y : exists col, u_normal U (u_q U s) c = Ok col).
      { clear - EN Hc. induction EN as [|a b l r E F IH]; [destruct Hc|]. destruct Hc as [<-|Hc]; [now exists b|now apply IH]. }
      destruct Y as [col Ec]. exact (proj2 (rb2_columns s q1 cs c col Hr HA Hc Ec) x Hx).
  - reflexivity.
  - intros s s' E. apply ok_eq in E. congruence.
Qed.
Theorem rb2_run_energy : forall m steps it x c f lv x' c' f' lv', frictionless m -> hands_off sc -> rest2 (snd x) ->
  run U G sc true m steps it (x, c, f, lv) = Ok (x', c', f', lv') ->
  rest2 (snd x')
  /\ kinetic 3 n M (snd x') + spin_energy n M (snd x') + gravity_potential 3 n M g (fst x')
     <= kinetic 3 n M (snd x) + spin_energy n M (snd x) + gravity_potential 3 n M g (fst x) - INR steps * step_loss verlet dt free_mass g.
Proof.
  intros m steps it x c f lv x' c' f' lv' Hm Off Hr HR.
  destruct (run_decays U G true m sc _ _ _ rb2_decays Hm Off steps it (x, c) f lv (x', c') f' lv' Hr HR) as [Q0 Q].
  unfold rb2_total in Q. cbn [fst U rb2_simulator u_v] in Q0, Q. rewrite !rb2_kinetic_spec in Q by exact HM. split; [exact Q0|exact Q].
Qed.
End Rb2.
