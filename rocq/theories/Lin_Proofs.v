(* Facts about finite sums, segments and sparse columns. *)
From Coq Require Import List Reals Arith Bool Lia Lra.
From Verif Require Import Outcome Ccd_Model Lin_Model.
Import ListNotations.
Open Scope R_scope.

Lemma rsum_ext : forall n f g, (forall i, (i < n)%nat -> f i = g i) -> rsum n f = rsum n g.
Proof.
  induction n as [|n IH]; intros f g H; cbn [rsum]; [reflexivity|].
  rewrite (IH f g) by (intros; apply H; lia). rewrite (H n) by lia. reflexivity.
Qed.

Lemma rsum_plus : forall n f g, rsum n (fun i => f i + g i) = rsum n f + rsum n g.
Proof. induction n as [|n IH]; intros f g; cbn [rsum]; [lra|]. rewrite IH. lra. Qed.

Lemma rsum_scal : forall n a f, rsum n (fun i => a * f i) = a * rsum n f.
Proof. induction n as [|n IH]; intros a f; cbn [rsum]; [lra|]. rewrite IH. lra. Qed.

Lemma rsum_zero : forall n f, (forall i, (i < n)%nat -> f i = 0) -> rsum n f = 0.
Proof.
  induction n as [|n IH]; intros f H; cbn [rsum]; [reflexivity|].
  rewrite (IH f) by (intros; apply H; lia). rewrite (H n) by lia. lra.
Qed.

Lemma rsum_one : forall n f j, (j < n)%nat -> (forall i, (i < n)%nat -> i <> j -> f i = 0) -> rsum n f = f j.
Proof.
  induction n as [|n IH]; intros f j Hj H; [lia|]. cbn [rsum].
  destruct (Nat.eq_dec j n) as [->|Hne].
  - rewrite rsum_zero; [lra|]. intros i Hi. apply H; lia.
  - rewrite (IH f j) by (try lia; intros; apply H; lia). rewrite (H n) by lia. lra.
Qed.

Lemma rsum_nonneg : forall n f, (forall i, (i < n)%nat -> 0 <= f i) -> 0 <= rsum n f.
Proof.
  induction n as [|n IH]; intros f H; cbn [rsum]; [lra|].
  pose proof (IH f ltac:(intros; apply H; lia)). pose proof (H n ltac:(lia)). lra.
Qed.

Lemma rsum_split : forall n k f, rsum (n + k) f = rsum n f + rsum k (fun i => f (n + i)%nat).
Proof.
  induction k as [|k IH]; intros f; [rewrite Nat.add_0_r; cbn [rsum]; lra|].
  rewrite Nat.add_succ_r. cbn [rsum]. rewrite IH. cbv beta. apply Rplus_assoc.
Qed.

(* ---------- columns ---------- *)
Lemma entry_app : forall a b k, entry (a ++ b) k = entry a k + entry b k.
Proof. unfold entry. induction a as [|e a IH]; intros b k; cbn [app fold_right]; [lra|]. rewrite IH. lra. Qed.

Lemma col_dot_app : forall a b w, col_dot (a ++ b) w = col_dot a w + col_dot b w.
Proof. unfold col_dot. induction a as [|e a IH]; intros b w; cbn [app fold_right]; [lra|]. rewrite IH. lra. Qed.

(* sum over the bodies o, o+1, .., o+n-1 of the entry at coordinate k (of s) times a weight *)
Definition csum (s o k n : nat) (w : nat -> R) (c : col) : R :=
  rsum n (fun i => entry c (s * (o + i) + k) * w i).

Lemma csum_nil : forall s o k n w, csum s o k n w [] = 0.
Proof. intros. apply rsum_zero. intros. cbn. lra. Qed.

Lemma csum_app : forall s o k n w a b, csum s o k n w (a ++ b) = csum s o k n w a + csum s o k n w b.
Proof.
  intros. unfold csum. rewrite <- rsum_plus. apply rsum_ext. intros. rewrite entry_app. lra.
Qed.

Lemma csum_cons : forall s o k n w e e' a, csum s o k n w (e :: e' :: a) = csum s o k n w [e] + csum s o k n w (e' :: a).
Proof. intros. apply (csum_app s o k n w [e] (e' :: a)). Qed.

Lemma row_inj : forall s i j k k', (k < s)%nat -> (k' < s)%nat -> (s * i + k = s * j + k')%nat -> i = j /\ k = k'.
Proof.
  intros s i j k k' Hk Hk' H.
  assert (i = j) by nia. subst. lia.
Qed.

Lemma csum_one : forall s o k n w j k' x, (k < s)%nat -> (k' < s)%nat ->
  csum s o k n w [((s * j + k')%nat, x)]
  = if (k' =? k)%nat && (o <=? j)%nat && (j <? o + n)%nat then x * w (j - o)%nat else 0.
Proof.
  intros s o k n w j k' x Hk Hk'. unfold csum. cbn [entry fold_right fst snd].
  destruct ((k' =? k)%nat && (o <=? j)%nat && (j <? o + n)%nat) eqn:E.
  - apply andb_true_iff in E. destruct E as [E E3]. apply andb_true_iff in E. destruct E as [E1 E2].
    apply Nat.eqb_eq in E1. apply Nat.leb_le in E2. apply Nat.ltb_lt in E3. subst k'.
    rewrite (rsum_one n _ (j - o)%nat).
    + replace (o + (j - o))%nat with j by lia. rewrite Nat.eqb_refl. lra.
    + lia.
    + intros i Hi Hne. destruct (Nat.eqb_spec (s * j + k) (s * (o + i) + k)) as [He|He]; [|lra].
      apply row_inj in He; [|assumption|assumption]. lia.
  - apply rsum_zero. intros i Hi.
    destruct (Nat.eqb_spec (s * j + k') (s * (o + i) + k)) as [He|He]; [|lra].
    apply row_inj in He; [|assumption|assumption]. destruct He as [He1 He2]. exfalso.
    assert (Hb : (k' =? k)%nat && (o <=? j)%nat && (j <? o + n)%nat = true).
    { rewrite !andb_true_iff. repeat split; [apply Nat.eqb_eq|apply Nat.leb_le|apply Nat.ltb_lt]; lia. }
    congruence.
Qed.

Lemma rsum_impulse : forall (row : nat -> nat) n w l,
  rsum n (fun i => impulse l (row i) * w i)
  = fold_right (fun ci acc => snd ci * rsum n (fun i => entry (fst ci) (row i) * w i) + acc) 0 l.
Proof.
  intros row n w l. induction l as [|[c a] l IH]; cbn [impulse fold_right fst snd].
  - apply rsum_zero. intros. lra.
  - rewrite <- IH, <- rsum_scal, <- rsum_plus. apply rsum_ext. intros i Hi. unfold impulse. lra.
Qed.

(* ---------- small vectors ---------- *)
Lemma v3_eq : forall a b, c0 a = c0 b -> c1 a = c1 b -> c2 a = c2 b -> a = b.
Proof. intros [a0 a1 a2] [b0 b1 b2]; cbn; intros; subst; reflexivity. Qed.

Lemma vnormalized_par : forall a, exists k, vnormalized a = vscale k a.
Proof.
  intros a. unfold vnormalized. destruct (Rlt_dec 0 (vdot a a)) as [H|H].
  - exists (/ sqrt (vdot a a)). reflexivity.
  - exists 1. destruct a as [x y]. unfold vscale. cbn. f_equal; lra.
Qed.

Lemma normalized3_par : forall a, exists k, normalized3 a = scale3 k a.
Proof.
  intros a. unfold normalized3. destruct (Rlt_dec 0 (dot3 a a)) as [H|H].
  - exists (/ sqrt (dot3 a a)). reflexivity.
  - exists 1. apply v3_eq; cbn; lra.
Qed.

Lemma vnormalized_unit : forall a, a <> (0, 0) -> vdot (vnormalized a) (vnormalized a) = 1.
Proof.
  intros [x y] H. unfold vnormalized.
  assert (Hp : 0 < vdot (x, y) (x, y)).
  { unfold vdot; cbn [fst snd].
    assert (x <> 0 \/ y <> 0).
    { destruct (Req_dec x 0), (Req_dec y 0); subst; auto. }
    pose proof (Rle_0_sqr x) as Hx. pose proof (Rle_0_sqr y) as Hy. unfold Rsqr in Hx, Hy.
    destruct H0 as [H0|H0]; apply Rsqr_pos_lt in H0; unfold Rsqr in H0; lra. }
  destruct (Rlt_dec 0 (vdot (x, y) (x, y))) as [_|Hn]; [|contradiction].
  set (d := vdot (x, y) (x, y)) in *.
  assert (Hs : sqrt d * sqrt d = d) by (apply sqrt_sqrt; lra).
  assert (Hs0 : sqrt d <> 0) by (intro E; rewrite E in Hs; lra).
  unfold vdot, vscale; cbn [fst snd].
  replace (/ sqrt d * x * (/ sqrt d * x) + / sqrt d * y * (/ sqrt d * y))
    with ((x * x + y * y) / (sqrt d * sqrt d)) by (field; assumption).
  rewrite Hs. unfold d, vdot; cbn [fst snd]. field. unfold d, vdot in Hp; cbn [fst snd] in Hp. lra.
Qed.
