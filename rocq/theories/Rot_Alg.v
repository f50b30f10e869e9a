(* 3x3 matrices, rotations, unit quaternions. *)
From Coq Require Import List Reals Arith Bool Lia Lra.
From Verif Require Import Ccd_Model Lin_Model ContactRb3_Model Rot_Model Rot_Spec Lin_Proofs.
Import ListNotations.
Open Scope R_scope.

Ltac m3u := unfold turned, id3, mm, vmul, mul3, tr, inv3, all3, diag3, det3, dot3, cross3, scale3, add3, sub3, neg3, zero3, ex3, ey3, ez3 in *;
  cbn [row0 row1 row2_ c0 c1 c2] in *.
Ltac m3r := intros; m3u; repeat (apply f_equal2 || f_equal); ring.

Lemma m3_eta : forall A, M3 (V3 (c0 (row0 A)) (c1 (row0 A)) (c2 (row0 A))) (V3 (c0 (row1 A)) (c1 (row1 A)) (c2 (row1 A)))
  (V3 (c0 (row2_ A)) (c1 (row2_ A)) (c2 (row2_ A))) = A.
Proof. intros [[? ? ?] [? ? ?] [? ? ?]]. reflexivity. Qed.
Lemma mm_assoc : forall A B C, mm A (mm B C) = mm (mm A B) C.
Proof. intros [[a b c] [d e f] [g h i]] [[a' b' c'] [d' e' f'] [g' h' i']] [[a2 b2 c2'] [d2 e2 f2] [g2 h2 i2]]. m3u. f_equal; f_equal; ring. Qed.
Lemma mm_id_l : forall A, mm id3 A = A.
Proof. intros [[a b c] [d e f] [g h i]]. m3u. f_equal; f_equal; ring. Qed.
Lemma mm_id_r : forall A, mm A id3 = A.
Proof. intros [[a b c] [d e f] [g h i]]. m3u. f_equal; f_equal; ring. Qed.
Lemma tr_tr : forall A, tr (tr A) = A.
Proof. intros [[a b c] [d e f] [g h i]]. reflexivity. Qed.
Lemma tr_mm : forall A B, tr (mm A B) = mm (tr B) (tr A).
Proof. intros [[a b c] [d e f] [g h i]] [[a' b' c'] [d' e' f'] [g' h' i']]. m3u. f_equal; f_equal; ring. Qed.
Lemma tr_diag : forall d, tr (diag3 d) = diag3 d.
Proof. reflexivity. Qed.
Lemma tr_id : tr id3 = id3.
Proof. reflexivity. Qed.
Lemma mul3_mm : forall A B x, mul3 (mm A B) x = mul3 A (mul3 B x).
Proof. intros [[a b c] [d e f] [g h i]] [[a' b' c'] [d' e' f'] [g' h' i']] [x y z]. m3u. f_equal; ring. Qed.
Lemma mul3_id : forall x, mul3 id3 x = x.
Proof. intros [x y z]. m3u. f_equal; ring. Qed.
Lemma mul3_add : forall A x y, mul3 A (add3 x y) = add3 (mul3 A x) (mul3 A y).
Proof. intros [[a b c] [d e f] [g h i]] [x y z] [x' y' z']. m3u. f_equal; ring. Qed.
Lemma mul3_scale : forall A k x, mul3 A (scale3 k x) = scale3 k (mul3 A x).
Proof. intros [[a b c] [d e f] [g h i]] k [x y z]. m3u. f_equal; ring. Qed.
Lemma mul3_zero : forall A, mul3 A zero3 = zero3.
Proof. intros [[a b c] [d e f] [g h i]]. m3u. f_equal; ring. Qed.
Lemma dot_mul3 : forall A x y, dot3 x (mul3 A y) = dot3 (mul3 (tr A) x) y.
Proof. intros [[a b c] [d e f] [g h i]] [x y z] [x' y' z']. m3u. ring. Qed.
Lemma det_mm : forall A B, det3 (mm A B) = det3 A * det3 B.
Proof. intros [[a b c] [d e f] [g h i]] [[a' b' c'] [d' e' f'] [g' h' i']]. m3u. ring. Qed.
Lemma det_tr : forall A, det3 (tr A) = det3 A.
Proof. intros [[a b c] [d e f] [g h i]]. m3u. ring. Qed.
Lemma det_id : det3 id3 = 1.
Proof. m3u. ring. Qed.
Lemma det_diag : forall d, det3 (diag3 d) = c0 d * c1 d * c2 d.
Proof. intros [x y z]. m3u. ring. Qed.
Lemma diag_diag : forall d e, mm (diag3 d) (diag3 e) = diag3 (V3 (c0 d * c0 e) (c1 d * c1 e) (c2 d * c2 e)).
Proof. intros [x y z] [x' y' z']. m3u. f_equal; f_equal; ring. Qed.
Lemma diag_inv : forall d, positive3 d -> mm (diag3 d) (diag3 (inv3 d)) = id3.
Proof. intros d (H0 & H1 & H2). rewrite diag_diag. unfold id3, inv3. cbn [c0 c1 c2]. rewrite !Rinv_r by lra. reflexivity. Qed.
Lemma diag_inv_l : forall d, positive3 d -> mm (diag3 (inv3 d)) (diag3 d) = id3.
Proof. intros d (H0 & H1 & H2). rewrite diag_diag. unfold id3, inv3. cbn [c0 c1 c2]. rewrite !Rinv_l by lra. reflexivity. Qed.

(* adjugate *)
Definition adj3 (A : m3) : m3 := tr (M3 (cross3 (row1 A) (row2_ A)) (cross3 (row2_ A) (row0 A)) (cross3 (row0 A) (row1 A))).
Lemma adj_r : forall A, mm A (adj3 A) = diag3 (all3 (det3 A)).
Proof. intros [[a b c] [d e f] [g h i]]. unfold adj3. m3u. f_equal; f_equal; ring. Qed.
Lemma adj_l : forall A, mm (adj3 A) A = diag3 (all3 (det3 A)).
Proof. intros [[a b c] [d e f] [g h i]]. unfold adj3. m3u. f_equal; f_equal; ring. Qed.
Lemma rotation_adj : forall A, rotation A -> tr A = adj3 A.
Proof.
  intros A [H D]. transitivity (mm (mm (adj3 A) A) (tr A)).
  - rewrite adj_l, D. change (diag3 (all3 1)) with id3. symmetry. apply mm_id_l.
  - rewrite <- mm_assoc, H. apply mm_id_r.
Qed.
Lemma rotation_left : forall A, rotation A -> mm (tr A) A = id3.
Proof. intros A H. rewrite (rotation_adj A H), adj_l, (proj2 H). reflexivity. Qed.
Lemma rotation_mm : forall A B, rotation A -> rotation B -> rotation (mm A B).
Proof.
  intros A B [HA DA] [HB DB]. split.
  - rewrite tr_mm, mm_assoc, <- (mm_assoc A B), HB, mm_id_r. exact HA.
  - rewrite det_mm, DA, DB. ring.
Qed.
Lemma rotation_tr : forall A, rotation A -> rotation (tr A).
Proof. intros A H. split; [rewrite tr_tr; apply rotation_left; exact H|rewrite det_tr; apply H]. Qed.
Lemma rotation_id : rotation id3.
Proof. split; [rewrite tr_id; apply mm_id_l|apply det_id]. Qed.
Lemma rotation_orthogonal : forall A, rotation A -> orthogonal A.
Proof. intros A H. split; [apply H|apply rotation_left; exact H]. Qed.

(* turned tensors *)
Lemma turned_tr : forall A d, tr (turned A d) = turned A d.
Proof. intros A d. unfold turned. rewrite !tr_mm, tr_tr, tr_diag, mm_assoc. reflexivity. Qed.
Lemma turned_mm : forall A d e, rotation A -> mm (turned A d) (turned A e) = mm (mm A (mm (diag3 d) (diag3 e))) (tr A).
Proof.
  intros A d e H. unfold turned. rewrite !mm_assoc. f_equal. rewrite <- (mm_assoc _ (tr A) A), (rotation_left A H), mm_id_r, <- !mm_assoc. reflexivity.
Qed.
Lemma turned_inv : forall A d, rotation A -> positive3 d -> mm (turned A d) (turned A (inv3 d)) = id3.
Proof. intros A d H P. rewrite turned_mm, diag_inv, mm_id_r by assumption. apply H. Qed.
Lemma turned_inv_l : forall A d, rotation A -> positive3 d -> mm (turned A (inv3 d)) (turned A d) = id3.
Proof. intros A d H P. rewrite turned_mm, diag_inv_l, mm_id_r by assumption. apply H. Qed.
Lemma turned_form : forall A d x, dot3 x (mul3 (turned A d) x) =
  c0 d * (c0 (mul3 (tr A) x) * c0 (mul3 (tr A) x)) + c1 d * (c1 (mul3 (tr A) x) * c1 (mul3 (tr A) x)) + c2 d * (c2 (mul3 (tr A) x) * c2 (mul3 (tr A) x)).
Proof.
  intros A d x. unfold turned. rewrite !mul3_mm, dot_mul3. set (y := mul3 (tr A) x). destruct d, y. m3u. ring.
Qed.
Lemma rotation_kernel : forall A x, rotation A -> mul3 (tr A) x = zero3 -> x = zero3.
Proof. intros A x H E. rewrite <- (mul3_id x), <- (proj1 H), mul3_mm, E. apply mul3_zero. Qed.
Lemma sq_pos : forall x, x <> 0 -> 0 < x * x.
Proof. intros x H. apply Rsqr_pos_lt. exact H. Qed.
Lemma sq_nn : forall x, 0 <= x * x.
Proof. intros x. apply Rle_0_sqr. Qed.
Lemma form_pos : forall d y, positive3 d -> y <> zero3 -> 0 < c0 d * (c0 y * c0 y) + c1 d * (c1 y * c1 y) + c2 d * (c2 y * c2 y).
Proof.
  intros d y (H0 & H1 & H2) Hy.
  pose proof (Rmult_le_pos _ _ (Rlt_le _ _ H0) (sq_nn (c0 y))). pose proof (Rmult_le_pos _ _ (Rlt_le _ _ H1) (sq_nn (c1 y))).
  pose proof (Rmult_le_pos _ _ (Rlt_le _ _ H2) (sq_nn (c2 y))).
  destruct (Req_dec (c0 y) 0) as [E0|N]; [|pose proof (Rmult_lt_0_compat _ _ H0 (sq_pos _ N)); lra].
  destruct (Req_dec (c1 y) 0) as [E1|N]; [|pose proof (Rmult_lt_0_compat _ _ H1 (sq_pos _ N)); lra].
  destruct (Req_dec (c2 y) 0) as [E2|N]; [|pose proof (Rmult_lt_0_compat _ _ H2 (sq_pos _ N)); lra].
  exfalso. apply Hy. apply v3_eq; assumption.
Qed.
Lemma turned_pos : forall A d x, rotation A -> positive3 d -> x <> zero3 -> 0 < dot3 x (mul3 (turned A d) x).
Proof. intros A d x H P N. rewrite turned_form. apply form_pos; [exact P|]. intro E. apply N. exact (rotation_kernel A x H E). Qed.

(* quaternions *)
Definition hom (q : quat) : m3 :=
  let w := qw q in let x := qx q in let y := qy q in let z := qz q in
  M3 (V3 (w * w + x * x - y * y - z * z) (2 * (x * y - w * z)) (2 * (x * z + w * y)))
     (V3 (2 * (x * y + w * z)) (w * w - x * x + y * y - z * z) (2 * (y * z - w * x)))
     (V3 (2 * (x * z - w * y)) (2 * (y * z + w * x)) (w * w - x * x - y * y + z * z)).
Definition qmul (p q : quat) : quat :=
  Quat (qw p * qw q - qx p * qx q - qy p * qy q - qz p * qz q)
       (qw p * qx q + qx p * qw q + qy p * qz q - qz p * qy q)
       (qw p * qy q - qx p * qz q + qy p * qw q + qz p * qx q)
       (qw p * qz q + qx p * qy q - qy p * qx q + qz p * qw q).
Lemma hom_mul : forall p q, hom (qmul p q) = mm (hom p) (hom q).
Proof. intros [w x y z] [w' x' y' z']. unfold hom, qmul. cbn [qw qx qy qz]. m3u. f_equal; f_equal; ring. Qed.
Lemma norm2_mul : forall p q, quat_norm2 (qmul p q) = quat_norm2 p * quat_norm2 q.
Proof. intros [w x y z] [w' x' y' z']. unfold quat_norm2, qmul. cbn [qw qx qy qz]. ring. Qed.
Lemma hom_orth : forall q, mm (hom q) (tr (hom q)) = diag3 (all3 (quat_norm2 q * quat_norm2 q)).
Proof. intros [w x y z]. unfold hom, quat_norm2. cbn [qw qx qy qz]. m3u. f_equal; f_equal; ring. Qed.
Lemma hom_det : forall q, det3 (hom q) = quat_norm2 q * quat_norm2 q * quat_norm2 q.
Proof. intros [w x y z]. unfold hom, quat_norm2. cbn [qw qx qy qz]. m3u. ring. Qed.
Lemma quat_mat_hom : forall q, quat_norm2 q = 1 -> quat_mat q = hom q.
Proof.
  intros [w x y z] H. unfold quat_norm2 in H. cbn [qw qx qy qz] in H. unfold quat_mat, hom. cbn [qw qx qy qz].
  f_equal; f_equal; try ring; lra.
Qed.
Lemma quat_mat_rotation : forall q, quat_norm2 q = 1 -> rotation (quat_mat q).
Proof.
  intros q H. rewrite (quat_mat_hom q H). split.
  - rewrite hom_orth, H, Rmult_1_l. reflexivity.
  - rewrite hom_det, H. ring.
Qed.
Lemma norm2_nonneg : forall q, 0 <= quat_norm2 q.
Proof. intros [w x y z]. unfold quat_norm2. cbn [qw qx qy qz]. pose proof (sq_nn w). pose proof (sq_nn x). pose proof (sq_nn y). pose proof (sq_nn z). lra. Qed.
Lemma normalize_norm2 : forall q, 0 < quat_norm2 q -> quat_norm2 (quat_normalize q) = 1.
Proof.
  intros q H. unfold quat_normalize. set (n := sqrt (quat_norm2 q)). assert (n * n = quat_norm2 q) as E by (apply sqrt_sqrt; lra).
  assert (n <> 0) as N by (intro Z; rewrite Z in E; lra).
  unfold quat_norm2 at 1. cbn [qw qx qy qz].
  replace (qw q / n * (qw q / n) + qx q / n * (qx q / n) + qy q / n * (qy q / n) + qz q / n * (qz q / n))
    with (quat_norm2 q / (n * n)) by (unfold quat_norm2; field; exact N).
  rewrite E. apply Rinv_r. lra.
Qed.
(* the matrix of a normalised quaternion, without square roots *)
Definition scale_m3 (k : R) (A : m3) : m3 := M3 (scale3 k (row0 A)) (scale3 k (row1 A)) (scale3 k (row2_ A)).
Lemma normalize_hom : forall q, 0 < quat_norm2 q -> quat_mat (quat_normalize q) = scale_m3 (/ quat_norm2 q) (hom q).
Proof.
  intros q H. rewrite quat_mat_hom by (apply normalize_norm2; exact H).
  unfold quat_normalize. set (n := sqrt (quat_norm2 q)). assert (n * n = quat_norm2 q) as E by (apply sqrt_sqrt; lra).
  assert (n <> 0) as N by (intro Z; rewrite Z in E; lra). rewrite <- E. unfold hom, scale_m3, scale3. cbn [qw qx qy qz row0 row1 row2_ c0 c1 c2].
  f_equal; f_equal; field; exact N.
Qed.

(* angle and axis *)
Lemma sin_half : forall t, sin t = 2 * (sin (t / 2) * cos (t / 2)).
Proof. intros t. replace t with (2 * (t / 2)) at 1 by field. rewrite sin_2a. ring. Qed.
Lemma cos_half : forall t, cos t = 1 - 2 * (sin (t / 2) * sin (t / 2)).
Proof. intros t. replace t with (2 * (t / 2)) at 1 by field. rewrite cos_2a_sin. ring. Qed.
Lemma sc1 : forall t, cos t * cos t + sin t * sin t = 1.
Proof. intros t. pose proof (sin2_cos2 t) as H. unfold Rsqr in H. lra. Qed.
Definition half_turn (t : R) (a : v3) : quat := Quat (cos (t / 2)) (sin (t / 2) * c0 a) (sin (t / 2) * c1 a) (sin (t / 2) * c2 a).
Lemma half_turn_norm : forall t a, dot3 a a = 1 -> quat_norm2 (half_turn t a) = 1.
Proof.
  intros t a H. unfold half_turn, quat_norm2. cbn [qw qx qy qz]. pose proof (sc1 (t / 2)).
  replace (_ + _) with (cos (t/2) * cos (t/2) + sin (t/2) * sin (t/2) * dot3 a a) by (unfold dot3; ring). rewrite H. lra.
Qed.
Lemma angle_axis_quat : forall t a, dot3 a a = 1 -> angle_axis t a = quat_mat (half_turn t a).
Proof.
  intros t [x y z] H. unfold angle_axis, quat_mat, half_turn. cbn [qw qx qy qz]. rewrite (sin_half t), (cos_half t).
  set (s := sin (t / 2)). set (c := cos (t / 2)). unfold dot3 in H. m3u.
  assert (s * s = s * s * x * x + s * s * y * y + s * s * z * z) as E by (transitivity (s * s * (x * x + y * y + z * z)); [rewrite H; ring|ring]).
  f_equal; f_equal; try ring; lra.
Qed.
Lemma angle_axis_rotation : forall t a, dot3 a a = 1 -> rotation (angle_axis t a).
Proof. intros t a H. rewrite angle_axis_quat by exact H. apply quat_mat_rotation, half_turn_norm, H. Qed.
Lemma angle_axis_0 : forall a, angle_axis 0 a = id3.
Proof. intros [x y z]. unfold angle_axis. rewrite sin_0, cos_0. m3u. f_equal; f_equal; ring. Qed.
Lemma angle_axis_zero_axis : forall t, t = 0 -> rotation (angle_axis t zero3).
Proof. intros t ->. rewrite angle_axis_0. apply rotation_id. Qed.
Lemma angle_axis_tr : forall t a, angle_axis (- t) a = tr (angle_axis t a).
Proof. intros t [x y z]. unfold angle_axis. rewrite sin_neg, cos_neg. m3u. f_equal; f_equal; ring. Qed.
Lemma angle_axis_neg : forall t a, angle_axis (- t) (neg3 a) = angle_axis t a.
Proof. intros t [x y z]. unfold angle_axis. rewrite sin_neg, cos_neg. m3u. f_equal; f_equal; ring. Qed.
Lemma angle_axis_fixes : forall t a, dot3 a a = 1 -> mul3 (angle_axis t a) a = a.
Proof.
  intros t [x y z] H. unfold angle_axis. unfold dot3 in H. cbn [c0 c1 c2] in H. m3u. set (s := sin t). set (c := cos t).
  f_equal.
  - transitivity ((1 - c) * x * (x * x + y * y + z * z) + c * x); [ring|rewrite H; ring].
  - transitivity ((1 - c) * y * (x * x + y * y + z * z) + c * y); [ring|rewrite H; ring].
  - transitivity ((1 - c) * z * (x * x + y * y + z * z) + c * z); [ring|rewrite H; ring].
Qed.

(* a rotation matrix read back from its quaternion *)
Lemma rot_eqs : forall A, rotation A ->
  let m00 := c0 (row0 A) in let m01 := c1 (row0 A) in let m02 := c2 (row0 A) in
  let m10 := c0 (row1 A) in let m11 := c1 (row1 A) in let m12 := c2 (row1 A) in
  let m20 := c0 (row2_ A) in let m21 := c1 (row2_ A) in let m22 := c2 (row2_ A) in
  (m00 * m00 + m01 * m01 + m02 * m02 = 1 /\ m10 * m10 + m11 * m11 + m12 * m12 = 1 /\ m20 * m20 + m21 * m21 + m22 * m22 = 1
   /\ m00 * m10 + m01 * m11 + m02 * m12 = 0 /\ m00 * m20 + m01 * m21 + m02 * m22 = 0 /\ m10 * m20 + m11 * m21 + m12 * m22 = 0)
  /\ (m00 * m00 + m10 * m10 + m20 * m20 = 1 /\ m01 * m01 + m11 * m11 + m21 * m21 = 1 /\ m02 * m02 + m12 * m12 + m22 * m22 = 1
   /\ m00 * m01 + m10 * m11 + m20 * m21 = 0 /\ m00 * m02 + m10 * m12 + m20 * m22 = 0 /\ m01 * m02 + m11 * m12 + m21 * m22 = 0)
  /\ (m00 = m11 * m22 - m12 * m21 /\ m01 = m12 * m20 - m10 * m22 /\ m02 = m10 * m21 - m11 * m20
   /\ m10 = m21 * m02 - m22 * m01 /\ m11 = m22 * m00 - m20 * m02 /\ m12 = m20 * m01 - m21 * m00
   /\ m20 = m01 * m12 - m02 * m11 /\ m21 = m02 * m10 - m00 * m12 /\ m22 = m00 * m11 - m01 * m10).
Proof.
  intros A H. pose proof (proj1 H) as E. pose proof (rotation_left A H) as L. pose proof (rotation_adj A H) as J. clear H.
  destruct A as [[a b c] [d e f] [g h i]]. unfold adj3 in J. m3u.
  injection E as E1 E2 E3 E4 E5 E6 E7 E8 E9. injection L as L1 L2 L3 L4 L5 L6 L7 L8 L9. injection J as J1 J2 J3 J4 J5 J6 J7 J8 J9.
  repeat split; lra.
Qed.
Lemma sq_quot : forall a b s k, s * s = k -> k <> 0 -> (a * (/ 2 / s)) * (b * (/ 2 / s)) = a * b / (4 * k).
Proof. intros a b s k E H. assert (s <> 0) as N by (intro Z; rewrite Z in E; lra). rewrite <- E. field. exact N. Qed.
Lemma sq_lin : forall a s k, s * s = k -> k <> 0 -> (/ 2 * s) * (a * (/ 2 / s)) = a / 4.
Proof. intros a s k E H. assert (s <> 0) as N by (intro Z; rewrite Z in E; lra). field. exact N. Qed.
Lemma sq_sq : forall s k, s * s = k -> (/ 2 * s) * (/ 2 * s) = k / 4.
Proof. intros s k E. rewrite <- E. field. Qed.
Lemma div4 : forall x k y, k <> 0 -> x = 4 * k * y -> x / (4 * k) = y.
Proof. intros x k y H ->. field. exact H. Qed.
Definition products (A : m3) (q : quat) : Prop :=
  let m00 := c0 (row0 A) in let m01 := c1 (row0 A) in let m02 := c2 (row0 A) in
  let m10 := c0 (row1 A) in let m11 := c1 (row1 A) in let m12 := c2 (row1 A) in
  let m20 := c0 (row2_ A) in let m21 := c1 (row2_ A) in let m22 := c2 (row2_ A) in
  (qw q * qw q = (1 + m00 + m11 + m22) / 4 /\ qx q * qx q = (1 + m00 - m11 - m22) / 4
   /\ qy q * qy q = (1 - m00 + m11 - m22) / 4 /\ qz q * qz q = (1 - m00 - m11 + m22) / 4)
  /\ (qw q * qx q = (m21 - m12) / 4 /\ qw q * qy q = (m02 - m20) / 4 /\ qw q * qz q = (m10 - m01) / 4)
  /\ (qx q * qy q = (m01 + m10) / 4 /\ qx q * qz q = (m02 + m20) / 4 /\ qy q * qz q = (m12 + m21) / 4).
Lemma products_ok : forall A q, products A q -> quat_norm2 q = 1 /\ quat_mat q = A.
Proof.
  intros A q ((Eww & Exx & Eyy & Ezz) & (Ewx & Ewy & Ewz) & (Exy & Exz & Eyz)). split.
  - unfold quat_norm2. rewrite Eww, Exx, Eyy, Ezz. field.
  - rewrite <- (m3_eta A). unfold quat_mat. f_equal; f_equal; lra.
Qed.
Lemma quot4 : forall X Y s k N, s * s = k -> k <> 0 -> X * Y = k * N -> (X * (/ 2 / s)) * (Y * (/ 2 / s)) = N / 4.
Proof. intros X Y s k N E H EN. rewrite (sq_quot X Y s k E H), EN. field. exact H. Qed.
Ltac quat_case s k Ek Nk :=
  first [ rewrite (sq_sq s k Ek); unfold k; lra
        | rewrite (sq_lin _ s k Ek Nk); lra
        | rewrite Rmult_comm, (sq_lin _ s k Ek Nk); lra
        | apply (quot4 _ _ s k _ Ek Nk); unfold k; lra ].
Lemma mat_quat_products : forall A, rotation A -> products A (mat_quat A).
Proof.
  intros A H. pose proof (rot_eqs A H) as E. clear H. unfold products, mat_quat. cbv zeta in *.
  destruct A as [[m00 m01 m02] [m10 m11 m12] [m20 m21 m22]]. cbn [row0 row1 row2_ c0 c1 c2] in *.
  destruct E as ((E1 & E2 & E3 & E4 & E5 & E6) & (L1 & L2 & L3 & L4 & L5 & L6) & (J1 & J2 & J3 & J4 & J5 & J6 & J7 & J8 & J9)).
  assert (forall k, 0 < k -> sqrt k * sqrt k = k /\ k <> 0) as SQ by (intros k Hk; split; [apply sqrt_sqrt|]; lra).
  destruct (Rlt_dec 0 (m00 + m11 + m22)) as [Ht|Ht].
  - set (k := m00 + m11 + m22 + 1). destruct (SQ k ltac:(unfold k; lra)) as [Ek Nk]. set (s := sqrt k) in *.
    cbn [qw qx qy qz]. repeat split; quat_case s k Ek Nk.
  - destruct (Rlt_dec m00 m11) as [H01|H01]; [destruct (Rlt_dec m11 m22) as [H12|H12]|destruct (Rlt_dec m00 m22) as [H02|H02]].
    + set (k := m22 - m00 - m11 + 1). destruct (SQ k ltac:(unfold k; lra)) as [Ek Nk]. set (s := sqrt k) in *.
      cbn [qw qx qy qz]. repeat split; quat_case s k Ek Nk.
    + set (k := m11 - m22 - m00 + 1). destruct (SQ k ltac:(unfold k; lra)) as [Ek Nk]. set (s := sqrt k) in *.
      cbn [qw qx qy qz]. repeat split; quat_case s k Ek Nk.
    + set (k := m22 - m00 - m11 + 1). destruct (SQ k ltac:(unfold k; lra)) as [Ek Nk]. set (s := sqrt k) in *.
      cbn [qw qx qy qz]. repeat split; quat_case s k Ek Nk.
    + set (k := m00 - m11 - m22 + 1). destruct (SQ k ltac:(unfold k; lra)) as [Ek Nk]. set (s := sqrt k) in *.
      cbn [qw qx qy qz]. repeat split; quat_case s k Ek Nk.
Qed.
Lemma mat_quat_ok : forall A, rotation A -> quat_norm2 (mat_quat A) = 1 /\ quat_mat (mat_quat A) = A.
Proof. intros A H. apply products_ok, mat_quat_products, H. Qed.
