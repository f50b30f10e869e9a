(* Momentum is conserved by the impulses of contacts; contact Jacobians give the relative velocity. *)
From Coq Require Import List Reals Arith Bool Lia Lra.
From Verif Require Import Outcome Ccd_Model Lin_Model ContactBall_Model ContactRb2_Model ContactRb3_Model Lin_Proofs Contact_Spec.
Import ListNotations.
Open Scope R_scope.

Lemma Ok_inj : forall {A} (x y : A), Ok x = Ok y -> y = x.
Proof. intros A x y H. injection H. auto. Qed.

Definition one : nat -> R := fun _ => 1.

Lemma fold_zero : forall (l : list (col * R)) (F : col -> R),
  Forall (fun ci => F (fst ci) = 0) l ->
  fold_right (fun ci acc => snd ci * F (fst ci) + acc) 0 l = 0.
Proof.
  intros l F H. induction H as [|[c a] l Hc Hl IH]; cbn [fold_right fst snd] in *; [reflexivity|].
  rewrite IH, Hc. lra.
Qed.

(* sums of several coordinates at once *)
Lemma fold_plus : forall (l : list (col * R)) (F G : col -> R),
  fold_right (fun ci acc => snd ci * F (fst ci) + acc) 0 l + fold_right (fun ci acc => snd ci * G (fst ci) + acc) 0 l
  = fold_right (fun ci acc => snd ci * (F (fst ci) + G (fst ci)) + acc) 0 l.
Proof. intros l F G. induction l as [|[c a] l IH]; cbn [fold_right fst snd]; [lra|]. rewrite <- IH. lra. Qed.
Lemma fold_minus : forall (l : list (col * R)) (F G : col -> R),
  fold_right (fun ci acc => snd ci * F (fst ci) + acc) 0 l - fold_right (fun ci acc => snd ci * G (fst ci) + acc) 0 l
  = fold_right (fun ci acc => snd ci * (F (fst ci) - G (fst ci)) + acc) 0 l.
Proof. intros l F G. induction l as [|[c a] l IH]; cbn [fold_right fst snd]; [lra|]. rewrite <- IH. lra. Qed.

Lemma impulse_csum : forall s o k n w l,
  rsum n (fun i => impulse l (s * (o + i) + k)%nat * w i)
  = fold_right (fun ci acc => snd ci * csum s o k n w (fst ci) + acc) 0 l.
Proof. intros. apply (rsum_impulse (fun i => (s * (o + i) + k)%nat)). Qed.

(* momentum along coordinate k with weights w, before and after *)
Lemma momentum_change : forall s k n (M : dvec) w v f,
  (forall i, (i < n)%nat -> M (s * i + k)%nat = M (s * i)%nat /\ M (s * i)%nat <> 0) ->
  rsum n (fun i => M (s * i)%nat * (w i * vplus v (diag_minv M f) (s * i + k)%nat))
  = rsum n (fun i => M (s * i)%nat * (w i * v (s * i + k)%nat)) + rsum n (fun i => f (s * (0 + i) + k)%nat * w i).
Proof.
  intros s k n M w v f HM. rewrite <- rsum_plus. apply rsum_ext. intros i Hi.
  destruct (HM i Hi) as [HM1 HM2]. unfold vplus, diag_minv. rewrite Nat.add_0_l, HM1. field. assumption.
Qed.

Ltac nat_cases :=
  repeat match goal with
  | |- context [ (?a <? ?b)%nat ] => let E := fresh "E" in destruct (Nat.ltb_spec a b) as [E|E]; try lia
  | |- context [ (?a <=? ?b)%nat ] => let E := fresh "E" in destruct (Nat.leb_spec a b) as [E|E]; try lia
  end.
Ltac csums :=
  unfold hrow2, neg_row2, hrow3, neg_row3, two_body_column, one_body_column, ins1, ins2, ins3, vneg, neg3, vcross, cross3, vscale, scale3, vadd, add3, vsub, sub3, seg2, seg3;
  cbn [app fst snd c0 c1 c2];
  repeat rewrite csum_cons; rewrite ?csum_nil;
  repeat rewrite csum_one by lia;
  cbn [Nat.eqb andb fst snd]; nat_cases; cbn [andb]; rewrite ?Nat.sub_0_r.

(* ================= 2D balls ================= *)
Definition b_colp (n : nat) (d : nat) (c : col) : R := csum 2 0 d n one c.
Definition b_colL (n : nat) (q : dvec) (c : col) : R :=
  csum 2 0 1 n (fun i => q (2 * i + 0)%nat) c - csum 2 0 0 n (fun i => q (2 * i + 1)%nat) c.

Lemma b_column_p : forall n c g d, (d < 2)%nat -> in_range n (b_bodies c) -> b_conserves_p c = true -> b_column c g -> b_colp n d g = 0.
Proof.
  intros n c g d Hd [H0 H1] Hc Hg. unfold b_colp, one.
  assert (Hd' : (d = 0 \/ d = 1)%nat) by lia.
  destruct c; cbn in Hc; try discriminate; cbn in H0, H1;
    destruct Hg as [|t|[n1 t1]|[n1 t1]]; cbn [b_gradg b_friction b_hcols b_bodies b_H0 b_H1 fst snd ins2 vneg];
    destruct Hd' as [-> | ->]; csums; lra.
Qed.

Lemma b_column_L : forall n q c g, in_range n (b_bodies c) -> b_made_at q c -> b_conserves_L_impact c = true ->
  b_normal_column c g -> b_colL n q g = 0.
Proof.
  intros n q c g [H0 H1] Hm Hc Hg. unfold b_colL.
  destruct Hm; cbn in Hc; try discriminate; cbn in H0, H1.
  destruct (vnormalized_par (vsub (seg2 q (2 * i)) (seg2 q (2 * j)))) as [k Hk].
  destruct Hg; cbn [b_gradg mk_ball_ball b_hcols b_bodies b_basis b_H0 b_H1 fst snd ins2 vneg];
    rewrite Hk; cbn [vscale vsub seg2 fst snd]; csums; lra.
Qed.

Lemma b_momentum_kept : forall n m v imps,
  mass2_ok n m ->
  Forall (fun ci => exists c, in_range n (b_bodies c) /\ b_conserves_p c = true /\ b_column c (fst ci)) imps ->
  b_momentum n m (vplus v (diag_minv m (impulse imps))) = b_momentum n m v.
Proof.
  intros n m v imps Hm Himp. unfold b_momentum, seg2. cbn [fst snd].
  assert (HK : forall d, (d < 2)%nat ->
    rsum n (fun i => m (2 * i)%nat * vplus v (diag_minv m (impulse imps)) (2 * i + d)%nat)
    = rsum n (fun i => m (2 * i)%nat * v (2 * i + d)%nat)).
  { intros d Hd. pose proof (momentum_change 2 d n m one v (impulse imps)) as HC.
    rewrite (rsum_ext n (fun i => m (2 * i)%nat * vplus v (diag_minv m (impulse imps)) (2 * i + d)%nat)
      (fun i => m (2 * i)%nat * (one i * vplus v (diag_minv m (impulse imps)) (2 * i + d)%nat))) by (intros; unfold one; lra).
    rewrite HC, impulse_csum.
    - rewrite (fold_zero imps (fun c => csum 2 0 d n one c)).
      + rewrite Rplus_0_r. apply rsum_ext. intros. unfold one. lra.
      + eapply Forall_impl; [|exact Himp]. intros ci [c [Hr [Hc Hcol]]]. eapply b_column_p; eassumption.
    - intros i Hi. destruct (Hm i Hi) as [Ha Hb]. split; [|assumption].
      destruct d as [|[|d]]; [rewrite Nat.add_0_r; reflexivity|assumption|lia]. }
  f_equal; apply HK; lia.
Qed.

Lemma b_angular_kept : forall n m q v imps,
  mass2_ok n m ->
  Forall (fun ci => exists c, in_range n (b_bodies c) /\ b_made_at q c /\ b_conserves_L_impact c = true /\ b_normal_column c (fst ci)) imps ->
  b_angular n m q (vplus v (diag_minv m (impulse imps))) = b_angular n m q v.
Proof.
  intros n m q v imps Hm Himp. unfold b_angular.
  assert (Hsplit : forall u, rsum n (fun i => m (2 * i)%nat * vcross (seg2 q (2 * i)) (seg2 u (2 * i)))
    = rsum n (fun i => m (2 * i)%nat * (q (2 * i + 0)%nat * u (2 * i + 1)%nat))
      + (-1) * rsum n (fun i => m (2 * i)%nat * (q (2 * i + 1)%nat * u (2 * i + 0)%nat))).
  { intros u. rewrite <- rsum_scal, <- rsum_plus. apply rsum_ext. intros i Hi. unfold vcross, seg2. cbn [fst snd]. lra. }
  rewrite !Hsplit.
  rewrite (momentum_change 2 1 n m (fun i => q (2 * i + 0)%nat) v (impulse imps)), (momentum_change 2 0 n m (fun i => q (2 * i + 1)%nat) v (impulse imps)).
  - rewrite !impulse_csum.
    pose proof (fold_minus imps (csum 2 0 1 n (fun i => q (2 * i + 0)%nat)) (csum 2 0 0 n (fun i => q (2 * i + 1)%nat))) as HF.
    assert (HZ : fold_right (fun ci acc => snd ci * b_colL n q (fst ci) + acc) 0 imps = 0).
    { apply fold_zero. eapply Forall_impl; [|exact Himp]. intros ci [c [Hr [Hmd [Hc Hcol]]]]. eapply b_column_L; eassumption. }
    unfold b_colL in HZ. lra.
  - intros i Hi. destruct (Hm i Hi) as [Ha Hb]. rewrite Nat.add_0_r. auto.
  - intros i Hi. destruct (Hm i Hi) as [Ha Hb]. auto.
Qed.

(* ================= 2D rigid bodies ================= *)
Definition r2_colL (n : nat) (q : dvec) (c : col) : R :=
  csum 3 0 1 n (fun i => q (3 * i + 0)%nat) c - csum 3 0 0 n (fun i => q (3 * i + 1)%nat) c + csum 3 0 2 n one c.

Lemma rb2_column_p : forall n q c g d, (d < 2)%nat -> in_range n (rb2_bodies c) -> rb2_conserves_p c = true -> rb2_column q c g ->
  csum 3 0 d n one g = 0.
Proof.
  intros n q c g d Hd [H0 H1] Hc Hg. unfold one.
  assert (Hd' : (d = 0 \/ d = 1)%nat) by lia.
  destruct c; cbn in Hc; try discriminate; cbn in H0, H1;
    destruct Hg as [g Hg|t g Hg|[n1 t1]|[n1 t1]]; try (cbn [rb2_gradg rb2_friction mk_circle_circle mk_body_body2] in Hg; try discriminate; apply Ok_inj in Hg; subst g);
    cbn [rb2_hcols rb2_bodies rb2_H0 rb2_H1 hrow2 neg_row2 fst snd ins2 ins1 vneg];
    destruct Hd' as [-> | ->]; csums; lra.
Qed.

Lemma rb2_column_L : forall n q c g, in_range n (rb2_bodies c) -> rb2_made_at q c -> rb2_conserves_L_impact c = true ->
  rb2_normal_column q c g -> r2_colL n q g = 0.
Proof.
  intros n q c g [H0 H1] Hm Hc Hg. unfold r2_colL, one.
  destruct Hm; cbn in Hc; try discriminate; cbn in H0, H1;
    destruct Hg as [g Hg|]; try (cbn [rb2_gradg rb2_friction mk_circle_circle mk_body_body2] in Hg; try discriminate; apply Ok_inj in Hg; subst g);
    cbn [mk_circle_circle mk_body_body2 rb2_hcols rb2_bodies rb2_basis rb2_normal rb2_H0 rb2_H1 hrow2 neg_row2 fst snd ins2 ins1 vneg].
  - destruct (vnormalized_par (vsub (seg2 q (3 * i)) (seg2 q (3 * j)))) as [k Hk]. cbn [vsub seg2 fst snd] in Hk.
    rewrite Hk. cbn [vscale vsub seg2 fst snd]. csums. lra.
  - destruct (vnormalized_par (vsub (seg2 q (3 * i)) (seg2 q (3 * j)))) as [k Hk].
    rewrite Hk. cbn [vscale vsub seg2 fst snd]. csums. lra.
  - cbn [vsub seg2 vcross fst snd]. csums. lra.
Qed.

Lemma rb2_column_Lf : forall n q c g, in_range n (rb2_bodies c) -> rb2_made_at q c -> rb2_conserves_L_friction c = true ->
  rb2_contact_column q c g -> r2_colL n q g = 0.
Proof.
  intros n q c g Hr Hm Hc Hg.
  destruct Hg as [g Hg|t g Hg|].
  - apply (rb2_column_L n q c g Hr Hm Hc Hg).
  - destruct Hr as [H0 H1]. unfold r2_colL, one.
    destruct Hm; cbn in Hc; try discriminate; cbn in H0, H1; cbn [rb2_gradg rb2_friction mk_circle_circle mk_body_body2] in Hg; try discriminate; apply Ok_inj in Hg; subst g.
    unfold vcross, vsub. cbn [seg2 vadd vscale vsub fst snd]. csums. lra.
  - destruct Hr as [H0 H1]. unfold r2_colL, one.
    destruct Hm; cbn in Hc; try discriminate; cbn in H0, H1;
      cbn [mk_circle_circle mk_body_body2 rb2_hcols rb2_bodies rb2_basis rb2_normal rb2_H0 rb2_H1 hrow2 neg_row2 fst snd ins2 ins1 vneg];
      unfold vcross; cbn [seg2 vadd vscale vsub fst snd]; csums; lra.
Qed.

Lemma rb2_momentum_kept : forall n M q v imps,
  mass_rb2_ok n M ->
  Forall (fun ci => exists c, in_range n (rb2_bodies c) /\ rb2_conserves_p c = true /\ rb2_column q c (fst ci)) imps ->
  rb2_momentum n M (vplus v (diag_minv M (impulse imps))) = rb2_momentum n M v.
Proof.
  intros n m q v imps Hm Himp. unfold rb2_momentum, seg2. cbn [fst snd].
  assert (HK : forall d, (d < 2)%nat ->
    rsum n (fun i => m (3 * i)%nat * vplus v (diag_minv m (impulse imps)) (3 * i + d)%nat)
    = rsum n (fun i => m (3 * i)%nat * v (3 * i + d)%nat)).
  { intros d Hd. pose proof (momentum_change 3 d n m one v (impulse imps)) as HC.
    rewrite (rsum_ext n (fun i => m (3 * i)%nat * vplus v (diag_minv m (impulse imps)) (3 * i + d)%nat)
      (fun i => m (3 * i)%nat * (one i * vplus v (diag_minv m (impulse imps)) (3 * i + d)%nat))) by (intros; unfold one; lra).
    rewrite HC, impulse_csum.
    - rewrite (fold_zero imps (fun c => csum 3 0 d n one c)).
      + rewrite Rplus_0_r. apply rsum_ext. intros. unfold one. lra.
      + eapply Forall_impl; [|exact Himp]. intros ci [c [Hr [Hc Hcol]]]. eapply rb2_column_p; eassumption.
    - intros i Hi. destruct (Hm i Hi) as [Ha [Hb _]]. split; [|assumption].
      destruct d as [|[|d]]; [rewrite Nat.add_0_r; reflexivity|assumption|lia]. }
  f_equal; apply HK; lia.
Qed.

Lemma rb2_angular_gen : forall n M q v imps,
  mass_rb2_ok n M ->
  Forall (fun ci => r2_colL n q (fst ci) = 0) imps ->
  rb2_angular n M q (vplus v (diag_minv M (impulse imps))) = rb2_angular n M q v.
Proof.
  intros n m q v imps Hm Himp. unfold rb2_angular.
  assert (Hsplit : forall u, rsum n (fun i => m (3 * i)%nat * vcross (seg2 q (3 * i)) (seg2 u (3 * i)))
    = rsum n (fun i => m (3 * i)%nat * (q (3 * i + 0)%nat * u (3 * i + 1)%nat))
      + (-1) * rsum n (fun i => m (3 * i)%nat * (q (3 * i + 1)%nat * u (3 * i + 0)%nat))).
  { intros u. rewrite <- rsum_scal, <- rsum_plus. apply rsum_ext. intros i Hi. unfold vcross, seg2. cbn [fst snd]. lra. }
  rewrite !Hsplit.
  rewrite (momentum_change 3 1 n m (fun i => q (3 * i + 0)%nat) v (impulse imps)), (momentum_change 3 0 n m (fun i => q (3 * i + 1)%nat) v (impulse imps)).
  - assert (HI : rsum n (fun i => m (3 * i + 2)%nat * vplus v (diag_minv m (impulse imps)) (3 * i + 2)%nat)
      = rsum n (fun i => m (3 * i + 2)%nat * v (3 * i + 2)%nat) + rsum n (fun i => impulse imps (3 * (0 + i) + 2)%nat * one i)).
    { rewrite <- rsum_plus. apply rsum_ext. intros i Hi. destruct (Hm i Hi) as [_ [_ Hc]].
      unfold vplus, diag_minv, one. rewrite Nat.add_0_l. field. assumption. }
    rewrite HI, !impulse_csum.
    pose proof (fold_minus imps (csum 3 0 1 n (fun i => q (3 * i + 0)%nat)) (csum 3 0 0 n (fun i => q (3 * i + 1)%nat))) as HF.
    pose proof (fold_plus imps (fun c => csum 3 0 1 n (fun i => q (3 * i + 0)%nat) c - csum 3 0 0 n (fun i => q (3 * i + 1)%nat) c) (csum 3 0 2 n one)) as HG.
    pose proof (fold_zero imps (r2_colL n q) Himp) as HZ. unfold r2_colL in HZ. lra.
  - intros i Hi. destruct (Hm i Hi) as [Ha [Hb _]]. rewrite Nat.add_0_r. auto.
  - intros i Hi. destruct (Hm i Hi) as [Ha [Hb _]]. auto.
Qed.

