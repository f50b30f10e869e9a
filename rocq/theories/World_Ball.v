(* Whole runs of scenes of balls with nothing but balls in them. *)
From Coq Require Import List Reals Arith NArith Bool Lia Lra.
From Verif Require Import Outcome Grid_Model Grid_Spec Grid_Dim Ccd_Model Ccd_Proofs Flow_Model Flow_Spec Flow_Proofs Quad_Model Stagger_Model Integr_Model Integr_Spec Integr_Proofs Wall_Model
  ContactBall_Model ContactRb2_Model ContactRb3_Model Contact_Spec Contact_Proofs
  Lin_Model Lin_Proofs Sob_Model Sob_Spec Sob_Proofs Sob_Thms Sob_Sims Sob_Final World_Model World_Spec World_Proofs World_Thms.
Import ListNotations.
Open Scope R_scope.

Lemma mass2_of : forall n M, masses_ok 2 n M -> mass2_ok n M.
Proof. intros n M H i Hi. destruct (H i Hi) as [A B]. split; [lra|exact B]. Qed.

(* a diagonal matrix applied to a vector, as a matrix *)
Lemma rsum_pick : forall n i f, (i < n)%nat -> rsum n (fun j => (if Nat.eqb i j then 1 else 0) * f j) = f i.
Proof.
  induction n as [|n IH]; intros i f Hi; [lia|]. change (rsum n (fun j => (if Nat.eqb i j then 1 else 0) * f j) + (if Nat.eqb i n then 1 else 0) * f n = f i).
  destruct (Nat.eqb_spec i n) as [->|N].
  - rewrite rsum_zero; [ring|]. intros j Hj. destruct (Nat.eqb_spec n j); [lia|ring].
  - rewrite IH by lia. ring.
Qed.
Lemma diag_mat : forall n M x i, (i < n)%nat -> mv n (fun i j => diag_minv M (fun k => if Nat.eqb k j then 1 else 0) i) x i = diag_minv M x i.
Proof.
  intros n M x i Hi. unfold mv, diag_minv. rewrite <- (rsum_pick n i (fun j => 1 / M i * x j) Hi). apply rsum_ext. intros j _.
  destruct (Nat.eqb i j); ring.
Qed.

Lemma ball_active_closed : forall n r q0 q1 cs c, (N.of_nat n <= 4294967296)%N -> ball_active_set n r [] [] q0 q1 = Ok cs -> In c cs ->
  exists i j, (i < n)%nat /\ (j < n)%nat /\ c = mk_ball_ball i j (seg2 q0 (2 * i)) (seg2 q0 (2 * j)) (r i) (r j) false.
Proof.
  intros n r q0 q1 cs c Hn E I. unfold ball_active_set in E. step_let E. apply ok_eq in E. subst cs.
  assert (D : ball_drum_set q0 q1 r n [] = [] /\ ball_plane_set q1 r n [] = []) by (split; reflexivity). destruct D as [D1 D2]. rewrite D1, D2, !app_nil_r in I.
  apply in_map_iff in I. destruct I as [[a b] [<- I]]. cbn [fst snd]. unfold ball_ball_active_set in E0. step_let E0. apply ok_eq in E0. subst x.
  apply filter_In in I. destruct I as [I _]. apply (any_sound2 real _ _ _ a b) in E; [|unfold indexable; rewrite !map_length, seq_length; exact Hn|exact I].
  destruct E as [[]|[_ [x [y [Ha [Hb _]]]]]]. unfold box_at in Ha, Hb.
  assert (Ia : nth_error (map swept_box (map (fun i => Swept (seg2 q0 (2 * i)) (seg2 q1 (2 * i)) (r i)) (seq 0 n))) (N.to_nat a) <> None) by (rewrite Ha; discriminate).
  assert (Ib : nth_error (map swept_box (map (fun i => Swept (seg2 q0 (2 * i)) (seg2 q1 (2 * i)) (r i)) (seq 0 n))) (N.to_nat b) <> None) by (rewrite Hb; discriminate).
  apply nth_error_Some in Ia, Ib. rewrite !map_length, seq_length in Ia, Ib. now exists (N.to_nat a), (N.to_nat b).
Qed.

Section Ball.
Context (w : balls) (verlet : bool) (dt : R).
Let U := ball_simulator w [] [] verlet dt.
Let n := bl_n w. Let M := bl_M w.
Hypothesis HM : masses_ok 2 n M.
Hypothesis Hn : (N.of_nat n <= 4294967296)%N.

Lemma ball_sound : sound U (fun _ => True).
Proof.
  split.
  - exact ball_laws.
  - reflexivity.
  - intros s x i _ Hi. apply (diag_mat (2 * bl_n w)). exact Hi.
  - intros s x b o _ Hb Ho. destruct (mass2_of n M HM b Hb) as [N E]. cbn [U ball_simulator u_sim u_n u_M u_minv ball_sim k_s k_vslot k_mass] in *. unfold ball_block, diag_minv, slot_of.
    fold M. rewrite Nat.add_0_r. destruct o as [|[|o]]; [| |lia]; cbn [rsum Nat.eqb]; rewrite !Nat.add_0_r; rewrite ?E; field; exact N.
  - intros s q0 q1 v cs c _ HA Hc. destruct (ball_active_closed n (bl_r w) q0 q1 cs c Hn HA Hc) as [i [j [Hi [Hj ->]]]].
    exists i, (Some j). repeat split; assumption.
  - intros q v c E H. apply ok_eq in H. subst E. split; [reflexivity|]. intros r [<-|[<-|[]]]; reflexivity.
Qed.

Lemma ball_push_columns : forall friction q v cs imps q1, ball_active_set n (bl_r w) [] [] q q1 = Ok cs -> pushed U friction q v cs imps ->
  Forall (fun ci => exists c, in_range n (b_bodies c) /\ b_made_at q c /\ b_conserves_p c = true /\ b_conserves_L_impact c = true
    /\ b_column c (fst ci) /\ (friction = false -> b_normal_column c (fst ci))) imps.
Proof.
  intros friction q v cs imps q1 HA HP. eapply Forall_impl; [|exact HP]. clear HP imps. intros [g x] [c [Hc Hg]]. cbn [fst] in *. exists c.
  destruct (ball_active_closed n (bl_r w) q q1 cs c Hn HA Hc) as [i [j [Hi [Hj ->]]]].
  split; [split; assumption|]. split; [constructor|]. split; [reflexivity|]. split; [reflexivity|].
  destruct Hg as [g Hg|t g F Hg|E ij h0 h1 g F HE HB H0 H1 Hg].
  - apply ok_eq in Hg. subst g. split; [constructor|]. intros _. constructor.
  - apply ok_eq in Hg. subst g. split; [constructor|]. intros X. congruence.
  - split; [|intros X; congruence]. apply ok_eq in HE, HB, H0, H1. subst E ij h0 h1. 
    set (c := mk_ball_ball i j (seg2 q (2 * i)) (seg2 q (2 * j)) (bl_r w i) (bl_r w j) false) in *.
    cbn [U ball_simulator u_sim u_n ball_sim hcols k_d seq map In] in Hg. destruct Hg as [Hg|[Hg|[]]]; subst g.
    + exact (bcol_h_normal c (b_basis c)).
    + exact (bcol_h_tangent c (b_basis c)).
Qed.

Lemma seg2_body' : forall v i, seg2 v (2 * i) = body 2 v i.
Proof. intros v i. unfold seg2, body. now rewrite Nat.add_0_r. Qed.
Lemma b_momentum_spec : forall v, b_momentum n M v = momentum 2 n M v.
Proof. intros v. unfold b_momentum, momentum. f_equal; apply rsum_ext; intros; rewrite seg2_body'; reflexivity. Qed.
Lemma b_angular_spec : forall q v, b_angular n M q v = orbital 2 n M q v.
Proof. intros q v. unfold b_angular, orbital. apply rsum_ext; intros; rewrite !seg2_body'; reflexivity. Qed.

Definition ball_kick (p : vec) : vec := vadd p (vscale (dt * total_mass 2 n M) (vsum (map gravity_of (bl_forces w)))).

Lemma momentum_ext : forall v v', (forall k, (k < 2 * n)%nat -> v k = v' k) -> momentum 2 n M v = momentum 2 n M v'.
Proof. intros v v' H. unfold momentum. f_equal; apply rsum_ext; intros i Hi; unfold body; cbn [fst snd]; rewrite H by lia; reflexivity. Qed.

Lemma ball_momentum_follows : forall {K} (G : settings ball_contact phase K) m, g_dt G = dt -> (with_friction m = true -> inverts_masses U G M) ->
  follows U G true m (fun _ => True) (fun _ v => momentum 2 n M v) ball_kick.
Proof.
  intros K G m Hdt HI. split.
  - exact ball_sound.
  - intros Hf s _. exact (HI Hf).
  - intros s v v' _ H. now apply momentum_ext.
  - intros s q1 v vb cs imps v0 _ HA HP. rewrite <- !b_momentum_spec. apply b_momentum_kept; [now apply mass2_of|].
    eapply Forall_impl; [|exact (ball_push_columns _ _ _ _ _ _ HA HP)]. cbn beta. intros ci [c H]. exists c. tauto.
  - reflexivity.
  - intros s s' H. now apply ok_eq in H.
  - intros _ s v q1 v1 _ E. cbn [U ball_simulator u_step u_q] in E. 
    assert (X : momentum 2 n M v1 = ball_kick (momentum 2 n M v)).
    { destruct verlet; [apply (ball_verlet_momentum1 w dt (fst s, v) (q1, v1) HM E)|apply (ball_euler_momentum1 w dt (fst s, v) (q1, v1) HM E)]. }
    repeat split; intros; exact X.
  - intros _ s v _. split; [exact Logic.I|reflexivity].
  - intros _ s v0 F v _ E. cbn [U ball_simulator u_force u_q u_minv] in *. rewrite Hdt.
    destruct (ball_compute_force w (fst s) v0) as [F'|] eqn:EF; [|discriminate]. apply ok_eq in E. subst F'.
    change (momentum 2 n M (axpy v dt (diag_minv M F)) = ball_kick (momentum 2 n M v)). rewrite momentum_kick by exact HM. unfold n. rewrite (ball_net _ _ _ _ EF).
    unfold ball_kick, vadd, vscale. cbn [fst snd]. fold n M. f_equal; ring.
Qed.

Lemma ball_kicks : forall k p, Nat.iter k ball_kick p = vadd p (vscale (INR k * dt * total_mass 2 n M) (vsum (map gravity_of (bl_forces w)))).
Proof.
  intros k p. set (g := vsum (map gravity_of (bl_forces w))). induction k as [|k IH].
  - cbn [Nat.iter nat_rect INR]. unfold vadd, vscale. destruct p as [p0 p1]. cbn [fst snd]. f_equal; ring.
  - change (ball_kick (Nat.iter k ball_kick p) = vadd p (vscale (INR (S k) * dt * total_mass 2 n M) g)). rewrite IH, S_INR. unfold ball_kick, vadd, vscale. fold g. cbn [fst snd]. f_equal; ring.
Qed.

Theorem ball_run_momentum : forall {K Mem} (G : settings ball_contact phase K) (sc : script (phase * K) ball_contact Mem) m steps it x c f lv x' c' f' lv',
  g_dt G = dt -> (with_friction m = true -> inverts_masses U G M) -> hands_off sc ->
  run U G sc true m steps it (x, c, f, lv) = Ok (x', c', f', lv') ->
  momentum 2 n M (snd x') = vadd (momentum 2 n M (snd x)) (vscale (INR steps * dt * total_mass 2 n M) (vsum (map gravity_of (bl_forces w)))).
Proof.
  intros K Mem G sc m steps it x c f lv x' c' f' lv' Hdt HI Off HR. rewrite <- ball_kicks.
  destruct (run_follows U G true m _ _ _ (ball_momentum_follows G m Hdt HI) sc Off steps it (x, c) f lv (x', c') f' lv' Logic.I HR) as [_ Q]. exact Q.
Qed.

(* without friction the moment of momentum is kept as well *)
Lemma ball_angular_follows : forall {K} (G : settings ball_contact phase K) m, with_friction m = false ->
  vsum (map gravity_of (bl_forces w)) = vzero ->
  follows U G true m (fun _ => True) (fun s v => orbital 2 n M (fst s) v) (fun L => L).
Proof.
  intros K G m Hm Hg. split.
  - exact ball_sound.
  - intros X. congruence.
  - intros s v v' _ H. unfold orbital. apply rsum_ext. intros i Hi. unfold body. rewrite !H by (cbn; unfold n in *; lia). reflexivity.
  - intros s q1 v vb cs imps v0 _ HA HP. rewrite <- !b_angular_spec. apply b_angular_kept; [now apply mass2_of|].
    eapply Forall_impl; [|exact (ball_push_columns _ _ _ _ _ _ HA HP)]. cbn beta. intros ci [c H]. exists c. rewrite Hm in H. tauto.
  - reflexivity.
  - intros s s' H. now apply ok_eq in H.
  - intros _ s v q1 v1 _ E. cbn [U ball_simulator u_step u_q next u_set fst] in *. split; [exact Logic.I|]. split.
    + destruct verlet.
      * pose proof (ball_verlet_orbital1 w dt (fst s, v) (q1, v1) HM E) as X. rewrite Hg, !cross_zero_sum in X. cbn [fst snd] in X. fold n M in X. rewrite X. ring.
      * pose proof (ball_euler_orbital1 w dt (fst s, v) (q1, v1) HM E) as X. rewrite Hg, !cross_zero_sum in X. cbn [fst snd] in X. fold n M in X. rewrite X. ring.
    + intros ->. discriminate.
  - intros L. destruct m; discriminate.
  - intros ->. discriminate.
Qed.

Theorem ball_run_angular : forall {K Mem} (G : settings ball_contact phase K) (sc : script (phase * K) ball_contact Mem) m steps it x c f lv x' c' f' lv',
  with_friction m = false -> vsum (map gravity_of (bl_forces w)) = vzero -> hands_off sc ->
  run U G sc true m steps it (x, c, f, lv) = Ok (x', c', f', lv') ->
  orbital 2 n M (fst x') (snd x') = orbital 2 n M (fst x) (snd x).
Proof.
  intros K Mem G sc m steps it x c f lv x' c' f' lv' Hm Hg Off HR.
  destruct (run_follows U G true m _ _ _ (ball_angular_follows G m Hm Hg) sc Off steps it (x, c) f lv (x', c') f' lv' Logic.I HR) as [_ Q].
  cbn [fst snd U ball_simulator u_v] in Q. rewrite Q. clear. generalize (orbital 2 n M (fst x) (snd x)). induction steps as [|k IH]; intros r; [reflexivity|apply IH].
Qed.
End Ball.
