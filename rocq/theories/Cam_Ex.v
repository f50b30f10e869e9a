(* Cameras: an orientation function that meets the hypotheses, and the cases in which a camera does not show what it should. *)
From Coq Require Import List Reals Lra Psatz Bool Nsatz.
From Verif Require Import Outcome Ccd_Model Lin_Model ContactRb3_Model Rot_Model Rot_Spec Rot_Alg Geom_Model Geom_Spec Geom_Sets Wall_Model Cam_Model Cam_Spec Cam_Plane Cam_Space Cam_Space2 Cam_Fit.
Import ListNotations.
Open Scope R_scope.

(* the shortest rotation from the y axis to the direction of u *)
Definition shortest (u : v3) : m3 :=
  let n := sqrt (dot3 u u) in
  let a := c0 u / n in let b := c1 u / n in let c := c2 u / n in
  if Req_EM_T b (- 1) then diag3 (V3 1 (- 1) (- 1))
  else
    let h := / (1 + b) in
    M3 (V3 (1 - h * a * a) a (- h * a * c)) (V3 (- a) b (- c)) (V3 (- h * a * c) c (1 - h * c * c)).
Lemma shortest_rot : forall a b c h, a * a + b * b + c * c = 1 -> h * (1 + b) = 1 ->
  rotation (M3 (V3 (1 - h * a * a) a (- h * a * c)) (V3 (- a) b (- c)) (V3 (- h * a * c) c (1 - h * c * c))).
Proof.
  intros a b c h N H. split.
  - unfold mm, vmul, mul3, tr, id3, diag3, dot3. cbn [row0 row1 row2_ c0 c1 c2]. apply f_equal3; apply f_equal3; nsatz.
  - unfold det3, cross3, dot3. cbn [row0 row1 row2_ c0 c1 c2]. nsatz.
Qed.
Lemma shortest_turns : turns_y shortest.
Proof.
  split.
  - unfold shortest. cbv zeta. replace (dot3 (V3 0 1 0) (V3 0 1 0)) with 1 by (unfold dot3; cbn; ring). rewrite sqrt_1. cbn [c0 c1 c2].
    destruct (Req_EM_T (1 / 1) (- 1)) as [E|E]; [lra|]. unfold id3, diag3. cbn [c0 c1 c2]. apply f_equal3; apply f_equal3; field.
  - intros u U. set (n := sqrt (dot3 u u)). assert (N : 0 < n) by (apply sqrt_lt_R0; exact U).
    assert (NN : n * n = dot3 u u) by (apply sqrt_sqrt; lra). unfold dot3 in NN.
    assert (S : c0 u / n * (c0 u / n) + c1 u / n * (c1 u / n) + c2 u / n * (c2 u / n) = 1).
    { replace (c0 u / n * (c0 u / n) + c1 u / n * (c1 u / n) + c2 u / n * (c2 u / n)) with ((c0 u * c0 u + c1 u * c1 u + c2 u * c2 u) / (n * n)) by (field; nz).
      rewrite NN. field. rewrite <- NN. nra. }
    split; [|split].
    + unfold shortest. cbv zeta. fold n. destruct (Req_EM_T (c1 u / n) (- 1)) as [E|E].
      * split; unfold mm, vmul, mul3, tr, id3, diag3, det3, cross3, dot3; cbn [row0 row1 row2_ c0 c1 c2]; [apply f_equal3; apply f_equal3; ring|ring].
      * apply shortest_rot; [exact S|]. field. split; [lra|]. intros Q. apply E. apply (Rmult_eq_reg_r n); [|lra]. unfold Rdiv. rewrite Rmult_assoc, Rinv_l by lra. lra.
    + unfold shortest. cbv zeta. fold n. destruct (Req_EM_T (c1 u / n) (- 1)) as [E|E].
      * rewrite E in S. pose proof (Rle_0_sqr (c0 u / n)) as A0. pose proof (Rle_0_sqr (c2 u / n)) as A2. unfold Rsqr in A0, A2.
        assert (Z0 : c0 u / n = 0) by (apply Rsqr_0_uniq; unfold Rsqr; lra). assert (Z2 : c2 u / n = 0) by (apply Rsqr_0_uniq; unfold Rsqr; lra).
        assert (Q0 : c0 u = 0) by (replace (c0 u) with (c0 u / n * n) by (field; nz); rewrite Z0; ring).
        assert (Q2 : c2 u = 0) by (replace (c2 u) with (c2 u / n * n) by (field; nz); rewrite Z2; ring).
        assert (Q1 : c1 u = - n) by (replace (c1 u) with (c1 u / n * n) by (field; nz); rewrite E; ring).
        apply v3_eq; unfold scale3, mul3, diag3, dot3; cbn [row0 row1 row2_ c0 c1 c2]; rewrite ?Q0, ?Q1, ?Q2; ring.
      * generalize (/ (1 + c1 u / n)). intros h. apply v3_eq; unfold scale3, mul3, dot3; cbn [row0 row1 row2_ c0 c1 c2]; field; nz.
    + intros k K.
      assert (E : sqrt (dot3 (scale3 k u) (scale3 k u)) = k * n).
      { replace (dot3 (scale3 k u) (scale3 k u)) with ((k * n) * (k * n)); [apply sqrt_square; nra|].
        replace (k * n * (k * n)) with (k * k * (n * n)) by ring. rewrite NN. unfold dot3, scale3. cbn. ring. }
      unfold shortest. cbv zeta. rewrite E. fold n. cbn [c0 c1 c2 scale3].
      replace (k * c0 u / (k * n)) with (c0 u / n) by (field; nz). replace (k * c1 u / (k * n)) with (c1 u / n) by (field; nz). replace (k * c2 u / (k * n)) with (c2 u / n) by (field; nz). reflexivity.
Qed.

(* ---------- bodies and their spheres ---------- *)
Definition cube_box (r : R) : box3 := (V3 (- r) (- r) (- r), V3 r r r).
Definition lone_ball (r : R) : list body3 := [Body3 zero3 id3 (Sphere3 r)].
Lemma lone_ball_box : forall r, rb3_bounding_box (lone_ball r) = Some (cube_box r).
Proof. intros r. unfold cube_box. unfold rb3_bounding_box, lone_ball. cbn [fold_left body3_aabb b3_shape b3_x b3_R grow3]. unfold sphere_aabb, sub3, add3, zero3. cbn [c0 c1 c2]. f_equal. f_equal; f_equal; ring. Qed.
Lemma sym_sphere : forall w, bounding_sphere (neg3 w, w) = (zero3, sqrt (dot3 w w)).
Proof.
  intros w. unfold bounding_sphere. cbv zeta. cbn [fst snd]. f_equal.
  - unfold scale3, add3, neg3, zero3. cbn [c0 c1 c2]. f_equal; ring.
  - f_equal. unfold dot3, sub3, scale3, add3, neg3. cbn [c0 c1 c2]. field.
Qed.
Lemma lone_ball_sphere : forall r, 0 <= r -> bounding_sphere (cube_box r) = (zero3, r * sqrt 3).
Proof.
  intros r R. unfold cube_box. change (V3 (- r) (- r) (- r)) with (neg3 (V3 r r r)). rewrite sym_sphere. f_equal.
  replace (dot3 (V3 r r r) (V3 r r r)) with (r * r * 3) by (unfold dot3; cbn; ring).
  rewrite sqrt_mult by nra. rewrite sqrt_square by exact R. reflexivity.
Qed.
Definition lone_box (w : v3) : list body3 := [Body3 zero3 id3 (Box3 w)].
Lemma lone_box_box : forall w, rb3_bounding_box (lone_box w) = Some (neg3 w, w).
Proof.
  intros w. unfold rb3_bounding_box, lone_box. cbn [fold_left body3_aabb b3_shape b3_x b3_R grow3]. unfold box3_aabb, abs3, id3, diag3, dot3, sub3, add3, zero3, neg3. cbn [row0 row1 row2_ c0 c1 c2].
  rewrite Rabs_R1, Rabs_R0. f_equal. f_equal; apply v3_eq; cbn [c0 c1 c2]; ring.
Qed.
Lemma sqrt3_pos : 1 < sqrt 3.
Proof. rewrite <- sqrt_1 at 1. apply sqrt_lt_1; lra. Qed.
Lemma sqrt3_le : sqrt 3 <= 2.
Proof. replace 2 with (sqrt (2 * 2)) by (apply sqrt_square; lra). apply sqrt_le_1; lra. Qed.
