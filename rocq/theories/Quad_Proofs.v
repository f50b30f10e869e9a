From Coq Require Import Reals Arith Lra Lia.
From Verif Require Import Lin_Model Lin_Proofs Rot_Alg Quad_Model.
Open Scope R_scope.

Lemma rsum_le : forall n f g, (forall i, (i < n)%nat -> f i <= g i) -> rsum n f <= rsum n g.
Proof. induction n as [|n IH]; intros f g H; cbn [rsum]; [lra|]. pose proof (IH f g ltac:(intros; apply H; lia)). specialize (H n ltac:(lia)). lra. Qed.
Lemma rsum_swap : forall n m (f : nat -> nat -> R), rsum n (fun i => rsum m (fun j => f i j)) = rsum m (fun j => rsum n (fun i => f i j)).
Proof.
  induction n as [|n IH]; intros m f; cbn [rsum]; [symmetry; apply rsum_zero; reflexivity|]. rewrite IH. rewrite <- rsum_plus. reflexivity.
Qed.
Lemma rsum_minus : forall n f g, rsum n (fun i => f i - g i) = rsum n f - rsum n g.
Proof. induction n as [|n IH]; intros f g; cbn [rsum]; [lra|]. rewrite IH. lra. Qed.
Lemma rsum_scale : forall n c f, rsum n (fun i => c * f i) = c * rsum n f.
Proof. induction n as [|n IH]; intros c f; cbn [rsum]; [lra|]. rewrite IH. lra. Qed.
Lemma rsum_term_le : forall n f k, (forall i, (i < n)%nat -> 0 <= f i) -> (k < n)%nat -> f k <= rsum n f.
Proof.
  induction n as [|n IH]; intros f k P Hk; [lia|]. cbn [rsum]. destruct (Nat.eq_dec k n) as [->|N].
  - assert (0 <= rsum n f) by (apply rsum_nonneg; intros; apply P; lia). lra.
  - pose proof (IH f k ltac:(intros; apply P; lia) ltac:(lia)). pose proof (P n ltac:(lia)). lra.
Qed.
Lemma rsum_same : forall n f g, (forall i, (i < n)%nat -> f i = g i) -> rsum n f = rsum n g.
Proof. induction n as [|n IH]; intros f g H; cbn [rsum]; [reflexivity|]. rewrite (IH f g) by (intros; apply H; lia). rewrite H by lia. reflexivity. Qed.

Lemma dotn_comm : forall n x y, dotn n x y = dotn n y x.
Proof. intros n x y. apply rsum_same. intros. ring. Qed.
Lemma dotn_plus : forall n x y z, dotn n x (fun i => y i + z i) = dotn n x y + dotn n x z.
Proof. intros n x y z. unfold dotn. rewrite <- rsum_plus. apply rsum_same. intros. ring. Qed.
Lemma dotn_minus : forall n x y z, dotn n x (fun i => y i - z i) = dotn n x y - dotn n x z.
Proof. intros n x y z. unfold dotn. rewrite <- rsum_minus. apply rsum_same. intros. ring. Qed.
Lemma dotn_scale : forall n x c y, dotn n x (fun i => c * y i) = c * dotn n x y.
Proof. intros n x c y. unfold dotn. rewrite <- rsum_scale. apply rsum_same. intros. ring. Qed.
Lemma dotn_ext : forall n x y x' y', (forall i, (i < n)%nat -> x i = x' i) -> (forall i, (i < n)%nat -> y i = y' i) -> dotn n x y = dotn n x' y'.
Proof. intros n x y x' y' H K. apply rsum_same. intros i Hi. rewrite H, K by exact Hi. reflexivity. Qed.
Lemma dotn_nn : forall n x, 0 <= dotn n x x.
Proof. intros n x. apply rsum_nonneg. intros. apply sq_nn. Qed.
Lemma dotn_zero : forall n x, dotn n x x = 0 -> forall i, (i < n)%nat -> x i = 0.
Proof.
  intros n x H i Hi. pose proof (rsum_term_le n (fun i => x i * x i) i ltac:(intros; apply sq_nn) Hi) as L. cbv beta in L. unfold dotn in H. rewrite H in L.
  pose proof (sq_nn (x i)). apply Rsqr_0_uniq. unfold Rsqr. lra.
Qed.
Lemma mv_plus : forall n A x y i, mv n A (fun j => x j + y j) i = mv n A x i + mv n A y i.
Proof. intros n A x y i. unfold mv. rewrite <- rsum_plus. apply rsum_same. intros. ring. Qed.
Lemma mv_minus : forall n A x y i, mv n A (fun j => x j - y j) i = mv n A x i - mv n A y i.
Proof. intros n A x y i. unfold mv. rewrite <- rsum_minus. apply rsum_same. intros. ring. Qed.
Lemma mv_ext : forall n A x y i, (forall j, (j < n)%nat -> x j = y j) -> mv n A x i = mv n A y i.
Proof. intros n A x y i H. apply rsum_same. intros j Hj. rewrite H by exact Hj. reflexivity. Qed.
Lemma mv_mm : forall n m A B x i, mv m (mm n A B) x i = mv n A (mv m B x) i.
Proof.
  intros n m A B x i. unfold mv, mm.
  transitivity (rsum m (fun j => rsum n (fun k => A i k * B k j * x j))).
  - apply rsum_same. intros j _. rewrite (Rmult_comm _ (x j)), <- rsum_scale. apply rsum_same. intros. ring.
  - rewrite rsum_swap. apply rsum_same. intros k _. rewrite <- rsum_scale. apply rsum_same. intros. ring.
Qed.
(* x . ( A y ) = ( A^T x ) . y *)
Lemma dotn_transpose : forall n m A x y, dotn n x (mv m A y) = dotn m (mv n (transpose A) x) y.
Proof.
  intros n m A x y. unfold dotn, mv, transpose.
  transitivity (rsum n (fun i => rsum m (fun j => A i j * x i * y j))).
  - apply rsum_same. intros i _. rewrite <- rsum_scale. apply rsum_same. intros. ring.
  - rewrite rsum_swap. apply rsum_same. intros j _. rewrite (Rmult_comm _ (y j)), <- rsum_scale. apply rsum_same. intros. ring.
Qed.
Lemma mv_transpose_sym : forall n A x i, symmetric n A -> (i < n)%nat -> mv n (transpose A) x i = mv n A x i.
Proof. intros n A x i S Hi. apply rsum_same. intros j Hj. unfold transpose. rewrite (S j i) by assumption. reflexivity. Qed.
Lemma dotn_sym : forall n A x y, symmetric n A -> dotn n x (mv n A y) = dotn n (mv n A x) y.
Proof. intros n A x y S. rewrite dotn_transpose. apply dotn_ext; [|reflexivity]. intros i Hi. apply mv_transpose_sym; assumption. Qed.

(* a bound on the quadratic form *)
Definition mat_bound (n : nat) (A : mat) : R := rsum n (fun i => rsum n (fun j => Rabs (A i j))).
Lemma mat_bound_nn : forall n A, 0 <= mat_bound n A.
Proof. intros n A. apply rsum_nonneg. intros. apply rsum_nonneg. intros. apply Rabs_pos. Qed.
Lemma form_bound : forall n A d, dotn n d (mv n A d) <= mat_bound n A * dotn n d d.
Proof.
  intros n A d. unfold mat_bound. rewrite Rmult_comm, <- rsum_scale. unfold dotn at 1. apply rsum_le. intros i Hi. rewrite <- rsum_scale. unfold mv.
  rewrite <- rsum_scale. apply rsum_le. intros j Hj.
  pose proof (rsum_term_le n (fun i => d i * d i) i ltac:(intros; apply sq_nn) Hi) as Li. cbv beta in Li.
  pose proof (rsum_term_le n (fun i => d i * d i) j ltac:(intros; apply sq_nn) Hj) as Lj. cbv beta in Lj. fold (dotn n d d) in Li, Lj.
  pose proof (sq_nn (d i - d j)) as S1. pose proof (sq_nn (d i + d j)) as S2.
  apply Rle_trans with (Rabs (d i * (A i j * d j))); [apply Rle_abs|]. replace (d i * (A i j * d j)) with (d i * d j * A i j) by ring. rewrite Rabs_mult.
  apply Rmult_le_compat_r; [apply Rabs_pos|]. apply Rabs_le. lra.
Qed.
