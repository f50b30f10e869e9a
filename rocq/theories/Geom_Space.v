(* Closest points in space. *)
From Coq Require Import List Reals Arith Bool Lra Lia Psatz.
From Verif Require Import Outcome Ccd_Model Lin_Model ContactRb3_Model Rot_Model Rot_Spec Rot_Alg Geom_Model Geom_Spec Geom_Circle.
Import ListNotations.
Open Scope R_scope.

Lemma clamp_spec : forall v lo hi, lo <= hi -> lo <= clamp v lo hi <= hi
  /\ (v < lo -> clamp v lo hi = lo) /\ (hi < v -> clamp v lo hi = hi) /\ (lo <= v <= hi -> clamp v lo hi = v).
Proof.
  intros v lo hi H. unfold clamp.
  destruct (Rltb_spec v lo); [repeat split; intros; lra|].
  destruct (Rltb_spec hi v); repeat split; intros; lra.
Qed.
(* the clamped value is the nearest of the interval *)
Lemma clamp_near : forall v lo hi y, lo <= hi -> lo <= y <= hi -> (clamp v lo hi - v) * (clamp v lo hi - v) <= (y - v) * (y - v).
Proof.
  intros v lo hi y H Hy. destruct (clamp_spec v lo hi H) as (_ & A & B & C).
  destruct (Rlt_dec v lo) as [L|L]; [rewrite (A L)|].
  - apply Rmult_le_compat; lra.
  - destruct (Rlt_dec hi v) as [L'|L']; [rewrite (B L')|].
    + replace ((hi - v) * (hi - v)) with ((v - hi) * (v - hi)) by ring.
      replace ((y - v) * (y - v)) with ((v - y) * (v - y)) by ring.
      apply Rmult_le_compat; lra.
    + rewrite C by lra. replace ((v - v) * (v - v)) with 0 by ring. apply Rle_0_sqr.
Qed.

(* ---------- C38 ---------- *)
Lemma v3_ext : forall a b, c0 a = c0 b -> c1 a = c1 b -> c2 a = c2 b -> a = b.
Proof. intros [x0 y0 z0] [x1 y1 z1]. cbn [c0 c1 c2]. intros -> -> ->. reflexivity. Qed.
Lemma dot3_nn : forall v, 0 <= dot3 v v.
Proof.
  intros [a b c]. unfold dot3. cbn [c0 c1 c2].
  pose proof (sq_nn a). pose proof (sq_nn b). pose proof (sq_nn c). lra.
Qed.
Lemma rot_back : forall M v, rotation M -> mul3 M (mul3 (tr M) v) = v.
Proof. intros M v H. rewrite <- mul3_mm, (proj1 H). apply mul3_id. Qed.
Lemma rot_forth : forall M v, rotation M -> mul3 (tr M) (mul3 M v) = v.
Proof. intros M v H. rewrite <- mul3_mm, (rotation_left M H). apply mul3_id. Qed.
Lemma rot_dot : forall M v w, rotation M -> dot3 (mul3 M v) (mul3 M w) = dot3 v w.
Proof. intros M v w H. rewrite dot_mul3, rot_forth by exact H. reflexivity. Qed.
Lemma mul3_sub : forall M v w, mul3 M (sub3 v w) = sub3 (mul3 M v) (mul3 M w).
Proof. intros [[a b c] [d e f] [g h i]] [x y z] [x' y' z']. m3u. f_equal; ring. Qed.
Lemma sub_add3 : forall a b, sub3 (add3 a b) a = b.
Proof. intros [x2 y2 z2] [x3 y3 z3]. unfold sub3, add3. cbn [c0 c1 c2]. f_equal; ring. Qed.
Lemma add_sub3 : forall a b, add3 a (sub3 b a) = b.
Proof. intros [x4 y4 z4] [x5 y5 z5]. unfold sub3, add3. cbn [c0 c1 c2]. f_equal; ring. Qed.

Lemma in_box3_local : forall x M w p, in_box3 x M w p <->
  let y := mul3 (tr M) (sub3 p x) in Rabs (c0 y) <= c0 w /\ Rabs (c1 y) <= c1 w /\ Rabs (c2 y) <= c2 w.
Proof. intros. reflexivity. Qed.

Definition clamp3 (y w : v3) : v3 :=
  V3 (clamp (c0 y) (- c0 w) (c0 w)) (clamp (c1 y) (- c1 w) (c1 w)) (clamp (c2 y) (- c2 w) (c2 w)).
Lemma closest_local : forall xb M wb p,
  closest_point_box xb M wb p = add3 xb (mul3 M (clamp3 (mul3 (tr M) (sub3 p xb)) wb)).
Proof.
  intros xb M wb p. unfold closest_point_box, clamp3, mcol3. cbn [c0 c1 c2].
  set (y := mul3 (tr M) (sub3 p xb)).
  change (dot3 (row0 (tr M)) (sub3 p xb)) with (c0 y).
  change (dot3 (row1 (tr M)) (sub3 p xb)) with (c1 y).
  change (dot3 (row2_ (tr M)) (sub3 p xb)) with (c2 y).
  generalize (clamp (c0 y) (- c0 wb) (c0 wb)) (clamp (c1 y) (- c1 wb) (c1 wb)) (clamp (c2 y) (- c2 wb) (c2 wb)).
  intros u v w. clearbody y. destruct xb as [xx xy xz], M as [[a b c] [d e f] [g h i]]. m3u. f_equal; ring.
Qed.

Theorem closest_in_box : forall xb M wb p, rotation M -> 0 <= c0 wb -> 0 <= c1 wb -> 0 <= c2 wb ->
  in_box3 xb M wb (closest_point_box xb M wb p).
Proof.
  intros xb M wb p H H0 H1 H2. apply in_box3_local. rewrite closest_local, sub_add3, rot_forth by exact H.
  unfold clamp3. cbn [c0 c1 c2].
  split; [|split]; apply abs_in; apply clamp_spec; lra.
Qed.
Theorem closest_is_nearest : forall xb M wb p z, rotation M -> 0 <= c0 wb -> 0 <= c1 wb -> 0 <= c2 wb ->
  in_box3 xb M wb z -> dist2 (closest_point_box xb M wb p) p <= dist2 z p.
Proof.
  intros xb M wb p z H H0 H1 H2 Hz. apply in_box3_local in Hz.
  rewrite closest_local. set (y := mul3 (tr M) (sub3 p xb)). set (yz := mul3 (tr M) (sub3 z xb)) in Hz.
  cbv zeta in Hz. destruct Hz as (Z0 & Z1 & Z2). apply abs_inv in Z0. apply abs_inv in Z1. apply abs_inv in Z2.
  assert (Ep : p = add3 xb (mul3 M y)) by (unfold y; rewrite rot_back, add_sub3 by exact H; reflexivity).
  assert (Ez : z = add3 xb (mul3 M yz)) by (unfold yz; rewrite rot_back, add_sub3 by exact H; reflexivity).
  assert (D : forall u, dist2 (add3 xb (mul3 M u)) p = dot3 (sub3 u y) (sub3 u y)).
  { intros u. unfold dist2. rewrite Ep.
    replace (sub3 (add3 xb (mul3 M u)) (add3 xb (mul3 M y))) with (mul3 M (sub3 u y)).
    - apply rot_dot. exact H.
    - rewrite mul3_sub. generalize (mul3 M u) (mul3 M y). intros [x6 y6 z6] [x7 y7 z7]. destruct xb as [xx xy xz].
      unfold sub3, add3. cbn [c0 c1 c2]. f_equal; ring. }
  rewrite Ez at 1. rewrite !D. unfold clamp3, dot3, sub3. cbn [c0 c1 c2].
  change (- c0 wb <= c0 yz <= c0 wb) in Z0. change (- c1 wb <= c1 yz <= c1 wb) in Z1.
  change (- c2 wb <= c2 yz <= c2 wb) in Z2. clearbody y yz.
  pose proof (clamp_near (c0 y) (- c0 wb) (c0 wb) (c0 yz) ltac:(lra) ltac:(lra)).
  pose proof (clamp_near (c1 y) (- c1 wb) (c1 wb) (c1 yz) ltac:(lra) ltac:(lra)).
  pose proof (clamp_near (c2 y) (- c2 wb) (c2 wb) (c2 yz) ltac:(lra) ltac:(lra)).
  lra.
Qed.

Lemma dist2_sym : forall a b, dist2 a b = dist2 b a.
Proof. intros [x8 y8 z8] [x9 y9 z9]. unfold dist2, dot3, sub3. cbn [c0 c1 c2]. ring. Qed.

Lemma dot_scale_sq : forall k v, dot3 (scale3 k v) (scale3 k v) = k * k * dot3 v v.
Proof. intros k [x y z]. unfold dot3, scale3. cbn [c0 c1 c2]. ring. Qed.
Theorem box_sphere_spec : forall xb M wb xs rs, rotation M -> 0 <= c0 wb -> 0 <= c1 wb -> 0 <= c2 wb ->
  match box_sphere xb M wb xs rs with
  | Ok None => ~ (exists z, in_box3 xb M wb z /\ in_ball3 xs rs z)
  | Ok (Some (p, n)) =>
      in_box3 xb M wb p /\ in_ball3 xs rs p /\ (forall z, in_box3 xb M wb z -> dist2 p xs <= dist2 z xs)
      /\ dot3 n n = 1 /\ exists d, 0 < d /\ sub3 p xs = scale3 d n
  | Exit => exists z, in_box3 xb M wb z /\ in_ball3 xs rs z /\ dist2 z xs <= / 1000000000
  | UB => False
  end.
Proof.
  intros xb M wb xs rs H H0 H1 H2. unfold box_sphere.
  set (cp := closest_point_box xb M wb xs).
  pose proof (closest_in_box xb M wb xs H H0 H1 H2) as I. fold cp in I.
  assert (N : forall z, in_box3 xb M wb z -> dist2 cp xs <= dist2 z xs).
  { intros z Hz. apply closest_is_nearest; assumption. }
  change (dot3 (sub3 cp xs) (sub3 cp xs)) with (dist2 cp xs).
  destruct (Rltb_spec (rs * rs) (dist2 cp xs)) as [L|L].
  - intros (z & Z1 & Z2). specialize (N z Z1). unfold in_ball3 in Z2. fold (dist2 z xs) in Z2. lra.
  - assert (B : in_ball3 xs rs cp) by (unfold in_ball3; fold (dist2 cp xs); lra).
    destruct (Rltb_spec (/ 1000000000) (dist2 cp xs)) as [D|D].
    + assert (P : 0 < dist2 cp xs) by lra.
      destruct (sqrt_pos_sq _ P) as [Sp Ss].
      split; [exact I|]. split; [exact B|]. split; [exact N|]. split.
      * rewrite dot_scale_sq. fold (dist2 cp xs). rewrite <- Ss at 3. field. lra.
      * exists (sqrt (dist2 cp xs)). split; [exact Sp|].
        generalize (sub3 cp xs). intros [x10 y10 z10]. unfold scale3. cbn [c0 c1 c2]. f_equal; field; lra.
    + exists cp. split; [exact I|]. split; [exact B|]. lra.
Qed.

(* ---------- C37 ---------- *)
Section segments.
Variables (p1 q1 p2 q2 : v3).
Let d1 := sub3 q1 p1.
Let d2 := sub3 q2 p2.
Let r := sub3 p1 p2.
Let a := dot3 d1 d1.
Let e := dot3 d2 d2.
Let f := dot3 d2 r.
Let c := dot3 d1 r.
Let b := dot3 d1 d2.

Lemma seg_dist : forall s t, dist2 (along p1 q1 s) (along p2 q2 t)
  = dot3 r r + 2 * s * c - 2 * t * f + s * s * a - 2 * s * t * b + t * t * e.
Proof.
  intros s t. unfold dist2, along, a, b, c, e, f, r, d1, d2. destruct p1 as [k0 k1 k2], q1 as [k3 k4 k5], p2 as [k6 k7 k8], q2 as [k9 k10 k11].
  unfold dot3, sub3, add3, scale3. cbn [c0 c1 c2]. ring.
Qed.
Lemma seg_form_nn : forall u v, 0 <= u * u * a - 2 * u * v * b + v * v * e.
Proof.
  intros u v. replace (u * u * a - 2 * u * v * b + v * v * e) with (dot3 (sub3 (scale3 u d1) (scale3 v d2)) (sub3 (scale3 u d1) (scale3 v d2))).
  - apply dot3_nn.
  - unfold a, b, e. generalize d1 d2. intros [x11 y11 z11] [x12 y12 z12]. unfold dot3, sub3, scale3. cbn [c0 c1 c2]. ring.
Qed.

(* the first-order conditions on the unit interval *)
Definition first_order (g x : R) : Prop := forall y, 0 <= y <= 1 -> 0 <= g * (y - x).
Lemma kkt : forall s t, first_order (a * s - b * t + c) s -> first_order (e * t - b * s - f) t ->
  forall s' t', 0 <= s' <= 1 -> 0 <= t' <= 1 ->
  dist2 (along p1 q1 s) (along p2 q2 t) <= dist2 (along p1 q1 s') (along p2 q2 t').
Proof.
  intros s t Ks Kt s' t' Hs Ht. specialize (Ks s' Hs). specialize (Kt t' Ht).
  rewrite !seg_dist. pose proof (seg_form_nn (s' - s) (t' - t)). lra.
Qed.

Lemma clamp_first_order : forall k g, 0 < k -> first_order (k * clamp g 0 1 - k * g) (clamp g 0 1).
Proof.
  intros k g Hk y Hy. destruct (clamp_spec g 0 1 Rle_0_1) as (R0 & A & B & C).
  destruct (Rlt_dec g 0) as [L|L]; [rewrite (A L)|].
  - replace ((k * 0 - k * g) * (y - 0)) with (k * (- g) * y) by ring.
    apply Rmult_le_pos; [apply Rmult_le_pos|]; lra.
  - destruct (Rlt_dec 1 g) as [L'|L']; [rewrite (B L')|].
    + replace ((k * 1 - k * g) * (y - 1)) with (k * (g - 1) * (1 - y)) by ring.
      apply Rmult_le_pos; [apply Rmult_le_pos|]; lra.
    + rewrite C by lra. replace (k * g - k * g) with 0 by ring. lra.
Qed.
Lemma first_order_zero : forall x, first_order 0 x.
Proof. intros x y _. lra. Qed.
Lemma first_order_lo : forall g, 0 <= g -> first_order g 0.
Proof. intros g H y Hy. apply Rmult_le_pos; lra. Qed.
Lemma first_order_hi : forall g, g <= 0 -> first_order g 1.
Proof. intros g H y Hy. replace (g * (y - 1)) with ((- g) * (1 - y)) by ring. apply Rmult_le_pos; lra. Qed.
Lemma fo_eq : forall g g' x, g = g' -> first_order g x -> first_order g' x.
Proof. intros g g' x ->. auto. Qed.

Lemma parallel : e <> 0 -> a * e - b * b = 0 -> e * c = b * f.
Proof.
  intros He D.
  assert (Z : sub3 (scale3 e d1) (scale3 b d2) = zero3).
  { assert (N : dot3 (sub3 (scale3 e d1) (scale3 b d2)) (sub3 (scale3 e d1) (scale3 b d2)) = 0).
    { transitivity (e * (a * e - b * b)); [|rewrite D; ring].
      unfold a, b, e. generalize d1 d2. intros [x13 y13 z13] [x14 y14 z14]. unfold dot3, sub3, scale3. cbn [c0 c1 c2]. ring. }
    revert N. generalize (sub3 (scale3 e d1) (scale3 b d2)). intros [x y z]. unfold dot3. cbn [c0 c1 c2]. intros N.
    pose proof (sq_nn x). pose proof (sq_nn y). pose proof (sq_nn z).
    assert (x * x = 0) by lra. assert (y * y = 0) by lra. assert (z * z = 0) by lra.
    assert (x = 0) by (apply Rsqr_0_uniq; assumption). assert (y = 0) by (apply Rsqr_0_uniq; assumption).
    assert (z = 0) by (apply Rsqr_0_uniq; assumption). subst. reflexivity. }
  assert (K : dot3 (sub3 (scale3 e d1) (scale3 b d2)) r = 0).
  { rewrite Z. destruct r as [k0 k1 k2]. unfold dot3, zero3. cbn [c0 c1 c2]. ring. }
  assert (dot3 (sub3 (scale3 e d1) (scale3 b d2)) r = e * c - b * f).
  { unfold c, f. generalize d1 d2 r e b. intros [x15 y15 z15] [x16 y16 z16] [x17 y17 z17] ? ?. unfold dot3, sub3, scale3. cbn [c0 c1 c2]. ring. }
  lra.
Qed.

(* the general case: s minimises along the first segment with t free *)
Lemma s_first_order : 0 < a -> 0 < e ->
  let s := if Req_EM_T (a * e - b * b) 0 then 0 else clamp ((b * f - c * e) / (a * e - b * b)) 0 1 in
  0 <= s <= 1 /\ 0 <= a * e - b * b /\ first_order ((a * e - b * b) * s + c * e - b * f) s.
Proof.
  intros Ha He s.
  assert (Dn : 0 <= a * e - b * b).
  { apply Rmult_le_reg_l with e; [exact He|]. rewrite Rmult_0_r. pose proof (seg_form_nn e b) as K.
    replace (e * (a * e - b * b)) with (e * e * a - 2 * e * b * b + b * b * e) by ring. exact K. }
  unfold s. destruct (Req_EM_T (a * e - b * b) 0) as [Z|Z].
  - split; [lra|]. split; [exact Dn|]. pose proof (parallel ltac:(lra) Z) as P. rewrite Z.
    apply (fo_eq 0); [lra|]. apply first_order_zero.
  - split; [apply clamp_spec; lra|]. split; [exact Dn|].
    apply (fo_eq ((a * e - b * b) * clamp ((b * f - c * e) / (a * e - b * b)) 0 1 - (a * e - b * b) * ((b * f - c * e) / (a * e - b * b)))).
    + field. exact Z.
    + apply clamp_first_order. lra.
Qed.

Lemma clamp_le : forall g y, g <= y -> 0 <= y -> clamp g 0 1 <= y.
Proof.
  intros g y H H0. destruct (clamp_spec g 0 1 Rle_0_1) as (R0 & A & B & C).
  destruct (Rlt_dec g 0) as [L|L]; [rewrite (A L); exact H0|].
  destruct (Rlt_dec 1 g) as [L'|L']; [rewrite (B L'); lra|]. rewrite C by lra. exact H.
Qed.
Lemma clamp_ge : forall g y, y <= g -> y <= 1 -> y <= clamp g 0 1.
Proof.
  intros g y H H0. destruct (clamp_spec g 0 1 Rle_0_1) as (R0 & A & B & C).
  destruct (Rlt_dec g 0) as [L|L]; [rewrite (A L); lra|].
  destruct (Rlt_dec 1 g) as [L'|L']; [rewrite (B L'); lra|]. rewrite C by lra. exact H.
Qed.

(* if the free t at s is below t0, then it is still not above t0 at the s that is best for t0 *)
Lemma free_t_below : forall t0 s, 0 < a -> 0 < e -> 0 <= s <= 1 -> 0 <= a * e - b * b ->
  first_order ((a * e - b * b) * s + c * e - b * f) s -> b * s + f < e * t0 ->
  b * clamp ((b * t0 - c) / a) 0 1 + f <= e * t0.
Proof.
  intros t0 s Ha He Hs Dn Fo L.
  set (g := (b * t0 - c) / a). set (s' := clamp g 0 1).
  assert (Ga : a * g = b * t0 - c) by (unfold g; field; lra).
  assert (S' : 0 <= s' <= 1) by (apply clamp_spec; lra).
  destruct (Rle_dec (b * s' + f) (e * t0)) as [G|G]; [exact G|exfalso].
  assert (Bn : b <> 0) by (intros Z; rewrite Z in *; lra).
  (* the point where the free t is t0 *)
  set (x := (e * t0 - f) / b).
  assert (Bx : b * x = e * t0 - f) by (unfold x; field; exact Bn).
  (* derivative along the valley at x: (ae - bb) x + ce - bf = e (a x + c - b t0) *)
  assert (V : (a * e - b * b) * x + c * e - b * f = e * (a * x + c - b * t0)).
  { transitivity (a * e * x - b * (b * x) + c * e - b * f); [ring|]. rewrite Bx. ring. }
  destruct (Rlt_dec 0 b) as [Bp|Bp].
  - assert (Xs : s < x) by (apply Rmult_lt_reg_l with b; lra).
    assert (Xs' : x < s') by (apply Rmult_lt_reg_l with b; lra).
    assert (F1 := Fo 1 ltac:(lra)).
    assert (D1 : 0 <= (a * e - b * b) * s + c * e - b * f).
    { destruct (Rle_dec 0 ((a * e - b * b) * s + c * e - b * f)) as [P|P]; [exact P|exfalso].
      assert (0 < (- ((a * e - b * b) * s + c * e - b * f)) * (1 - s)) by (apply Rmult_lt_0_compat; lra). lra. }
    assert (D2 : 0 <= (a * e - b * b) * (x - s)) by (apply Rmult_le_pos; lra).
    assert (D3 : 0 <= e * (a * x + c - b * t0)) by lra.
    assert (D4 : 0 <= a * x + c - b * t0).
    { apply Rmult_le_reg_l with e; [exact He|]. lra. }
    assert (g <= x) by (apply Rmult_le_reg_l with a; lra).
    pose proof (clamp_le g x ltac:(lra) ltac:(lra)) as K. fold s' in K. lra.
  - assert (Bm : b < 0) by lra.
    assert (Xs : x < s) by (apply Rmult_lt_reg_l with (- b); lra).
    assert (Xs' : s' < x) by (apply Rmult_lt_reg_l with (- b); lra).
    assert (F0 := Fo 0 ltac:(lra)).
    assert (D1 : (a * e - b * b) * s + c * e - b * f <= 0).
    { destruct (Rle_dec ((a * e - b * b) * s + c * e - b * f) 0) as [P|P]; [exact P|exfalso].
      assert (0 < ((a * e - b * b) * s + c * e - b * f) * s) by (apply Rmult_lt_0_compat; lra). lra. }
    assert (D2 : 0 <= (a * e - b * b) * (s - x)) by (apply Rmult_le_pos; lra).
    assert (D3 : e * (a * x + c - b * t0) <= 0) by lra.
    assert (D4 : a * x + c - b * t0 <= 0).
    { apply Rmult_le_reg_l with e; [exact He|]. lra. }
    assert (x <= g) by (apply Rmult_le_reg_l with a; lra).
    pose proof (clamp_ge g x ltac:(lra) ltac:(lra)) as K. fold s' in K. lra.
Qed.
Lemma free_t_above : forall t0 s, 0 < a -> 0 < e -> 0 <= s <= 1 -> 0 <= a * e - b * b ->
  first_order ((a * e - b * b) * s + c * e - b * f) s -> e * t0 < b * s + f ->
  e * t0 <= b * clamp ((b * t0 - c) / a) 0 1 + f.
Proof.
  intros t0 s Ha He Hs Dn Fo L.
  set (g := (b * t0 - c) / a). set (s' := clamp g 0 1).
  assert (Ga : a * g = b * t0 - c) by (unfold g; field; lra).
  assert (S' : 0 <= s' <= 1) by (apply clamp_spec; lra).
  destruct (Rle_dec (e * t0) (b * s' + f)) as [G|G]; [exact G|exfalso].
  assert (Bn : b <> 0) by (intros Z; rewrite Z in *; lra).
  set (x := (e * t0 - f) / b).
  assert (Bx : b * x = e * t0 - f) by (unfold x; field; exact Bn).
  assert (V : (a * e - b * b) * x + c * e - b * f = e * (a * x + c - b * t0)).
  { transitivity (a * e * x - b * (b * x) + c * e - b * f); [ring|]. rewrite Bx. ring. }
  destruct (Rlt_dec b 0) as [Bp|Bp].
  - assert (Xs : s < x) by (apply Rmult_lt_reg_l with (- b); lra).
    assert (Xs' : x < s') by (apply Rmult_lt_reg_l with (- b); lra).
    assert (F1 := Fo 1 ltac:(lra)).
    assert (D1 : 0 <= (a * e - b * b) * s + c * e - b * f).
    { destruct (Rle_dec 0 ((a * e - b * b) * s + c * e - b * f)) as [P|P]; [exact P|exfalso].
      assert (0 < (- ((a * e - b * b) * s + c * e - b * f)) * (1 - s)) by (apply Rmult_lt_0_compat; lra). lra. }
    assert (D2 : 0 <= (a * e - b * b) * (x - s)) by (apply Rmult_le_pos; lra).
    assert (D3 : 0 <= e * (a * x + c - b * t0)) by lra.
    assert (D4 : 0 <= a * x + c - b * t0).
    { apply Rmult_le_reg_l with e; [exact He|]. lra. }
    assert (g <= x) by (apply Rmult_le_reg_l with a; lra).
    pose proof (clamp_le g x ltac:(lra) ltac:(lra)) as K. fold s' in K. lra.
  - assert (Bm : 0 < b) by lra.
    assert (Xs : x < s) by (apply Rmult_lt_reg_l with b; lra).
    assert (Xs' : s' < x) by (apply Rmult_lt_reg_l with b; lra).
    assert (F0 := Fo 0 ltac:(lra)).
    assert (D1 : (a * e - b * b) * s + c * e - b * f <= 0).
    { destruct (Rle_dec ((a * e - b * b) * s + c * e - b * f) 0) as [P|P]; [exact P|exfalso].
      assert (0 < ((a * e - b * b) * s + c * e - b * f) * s) by (apply Rmult_lt_0_compat; lra). lra. }
    assert (D2 : 0 <= (a * e - b * b) * (s - x)) by (apply Rmult_le_pos; lra).
    assert (D3 : e * (a * x + c - b * t0) <= 0) by lra.
    assert (D4 : a * x + c - b * t0 <= 0).
    { apply Rmult_le_reg_l with e; [exact He|]. lra. }
    assert (x <= g) by (apply Rmult_le_reg_l with a; lra).
    pose proof (clamp_ge g x ltac:(lra) ltac:(lra)) as K. fold s' in K. lra.
Qed.

Lemma eps_pos : 0 < dist_eps.
Proof. unfold dist_eps. lra. Qed.

Definition long_or_point (l : R) : Prop := l = 0 \/ dist_eps < l.

Lemma zero_seg : forall v w, dot3 v v = 0 -> dot3 v w = 0.
Proof.
  intros [x y z] [x' y' z']. unfold dot3. cbn [c0 c1 c2]. intros N.
  pose proof (sq_nn x). pose proof (sq_nn y). pose proof (sq_nn z).
  assert (x * x = 0) by lra. assert (y * y = 0) by lra. assert (z * z = 0) by lra.
  assert (x = 0) by (apply Rsqr_0_uniq; assumption). assert (y = 0) by (apply Rsqr_0_uniq; assumption).
  assert (z = 0) by (apply Rsqr_0_uniq; assumption). subst. ring.
Qed.

Lemma parameters_range : 0 <= fst (segment_parameters p1 q1 p2 q2) <= 1 /\ 0 <= snd (segment_parameters p1 q1 p2 q2) <= 1.
Proof.
  assert (Cl : forall g, 0 <= clamp g 0 1 <= 1) by (intros g; apply clamp_spec; lra).
  unfold segment_parameters. fold d1 d2 r. fold a b c e f. pose proof eps_pos as Ep.
  destruct (Rltb_spec dist_eps a) as [A|A]; destruct (Rltb_spec dist_eps e) as [E|E].
  - destruct (s_first_order ltac:(lra) ltac:(lra)) as (S1 & _). cbv zeta in S1.
    set (s := if Req_EM_T (a * e - b * b) 0 then 0 else clamp ((b * f - c * e) / (a * e - b * b)) 0 1) in *.
    destruct (Rltb_spec ((b * s + f) / e) 0) as [T|T]; [cbn [fst snd]; split; [apply Cl|lra]|].
    destruct (Rltb_spec 1 ((b * s + f) / e)) as [T'|T']; cbn [fst snd]; split; try apply Cl; lra.
  - cbn [fst snd]. split; [apply Cl|lra].
  - cbn [fst snd]. split; [lra|apply Cl].
  - cbn [fst snd]. lra.
Qed.

Lemma parameters_nearest : long_or_point a -> long_or_point e ->
  forall s' t', 0 <= s' <= 1 -> 0 <= t' <= 1 ->
  dist2 (along p1 q1 (fst (segment_parameters p1 q1 p2 q2))) (along p2 q2 (snd (segment_parameters p1 q1 p2 q2)))
  <= dist2 (along p1 q1 s') (along p2 q2 t').
Proof.
  intros La Le. pose proof eps_pos as Ep.
  assert (Za : a = 0 -> b = 0 /\ c = 0) by (intros Z; split; apply zero_seg; exact Z).
  assert (Ze : e = 0 -> b = 0 /\ f = 0).
  { intros Z. split; [|apply zero_seg; exact Z]. unfold b. pose proof (zero_seg d2 d1 Z) as K.
    rewrite <- K. destruct d1 as [k0 k1 k2], d2 as [k3 k4 k5]. unfold dot3. cbn [c0 c1 c2]. ring. }
  unfold segment_parameters. fold d1 d2 r. fold a b c e f.
  destruct (Rltb_spec dist_eps a) as [A|A]; destruct (Rltb_spec dist_eps e) as [E|E].
  - destruct (s_first_order ltac:(lra) ltac:(lra)) as (S1 & Dn & Fo). cbv zeta in S1, Fo.
    set (s := if Req_EM_T (a * e - b * b) 0 then 0 else clamp ((b * f - c * e) / (a * e - b * b)) 0 1) in *.
    assert (Et : e * ((b * s + f) / e) = b * s + f) by (field; lra).
    destruct (Rltb_spec ((b * s + f) / e) 0) as [T|T]; [|destruct (Rltb_spec 1 ((b * s + f) / e)) as [T'|T']]; cbn [fst snd].
    + assert (L : b * s + f < e * 0).
      { rewrite <- Et. apply Rmult_lt_compat_l; lra. }
      pose proof (free_t_below 0 s ltac:(lra) ltac:(lra) S1 Dn Fo L) as K.
      replace ((b * 0 - c) / a) with (- c / a) in K by (field; lra).
      apply kkt.
      * apply (fo_eq (a * clamp (- c / a) 0 1 - a * (- c / a))); [field; lra|]. apply clamp_first_order. lra.
      * apply first_order_lo. lra.
    + assert (L : e * 1 < b * s + f).
      { rewrite <- Et. apply Rmult_lt_compat_l; lra. }
      pose proof (free_t_above 1 s ltac:(lra) ltac:(lra) S1 Dn Fo L) as K.
      replace ((b * 1 - c) / a) with ((b - c) / a) in K by (field; lra).
      apply kkt.
      * apply (fo_eq (a * clamp ((b - c) / a) 0 1 - a * ((b - c) / a))); [field; lra|]. apply clamp_first_order. lra.
      * apply first_order_hi. lra.
    + apply kkt.
      * intros y Hy. specialize (Fo y Hy).
        apply Rmult_le_reg_l with e; [lra|]. rewrite Rmult_0_r.
        replace (e * ((a * s - b * ((b * s + f) / e) + c) * (y - s)))
          with (((a * e - b * b) * s + c * e - b * f) * (y - s)) by (field; lra). exact Fo.
      * apply (fo_eq 0); [lra|]. apply first_order_zero.
  - destruct Le as [Z|Z]; [|lra]. destruct (Ze Z) as [Bz Fz]. cbn [fst snd]. apply kkt.
    + rewrite Bz. apply (fo_eq (a * clamp (- c / a) 0 1 - a * (- c / a))); [field; lra|]. apply clamp_first_order. lra.
    + rewrite Z, Bz, Fz. apply (fo_eq 0); [ring|]. apply first_order_zero.
  - destruct La as [Z|Z]; [|lra]. destruct (Za Z) as [Bz Cz]. cbn [fst snd]. apply kkt.
    + rewrite Z, Bz, Cz. apply (fo_eq 0); [ring|]. apply first_order_zero.
    + rewrite Bz. apply (fo_eq (e * clamp (f / e) 0 1 - e * (f / e))); [field; lra|]. apply clamp_first_order. lra.
  - destruct La as [Z|Z]; [|lra]. destruct Le as [Z'|Z']; [|lra].
    destruct (Za Z) as [Bz Cz]. destruct (Ze Z') as [_ Fz]. cbn [fst snd]. apply kkt.
    + rewrite Z, Bz, Cz. apply (fo_eq 0); [ring|]. apply first_order_zero.
    + rewrite Z', Bz, Fz. apply (fo_eq 0); [ring|]. apply first_order_zero.
Qed.
End segments.

Theorem closest_segments_spec : forall p1 q1 p2 q2 s t x1 x2 d,
  closest_segments p1 q1 p2 q2 = (s, t, x1, x2, d) ->
  0 <= s <= 1 /\ 0 <= t <= 1 /\ x1 = along p1 q1 s /\ x2 = along p2 q2 t /\ d = dist2 x1 x2
  /\ (long_or_point (dist2 q1 p1) -> long_or_point (dist2 q2 p2) ->
      forall s' t', 0 <= s' <= 1 -> 0 <= t' <= 1 -> d <= dist2 (along p1 q1 s') (along p2 q2 t')).
Proof.
  intros p1 q1 p2 q2 s t x1 x2 d H. unfold closest_segments in H.
  destruct (parameters_range p1 q1 p2 q2) as [R1 R2].
  pose proof (parameters_nearest p1 q1 p2 q2) as N.
  destruct (segment_parameters p1 q1 p2 q2) as [s0 t0]. cbn [fst snd] in *.
  inversion H. subst. repeat (split; [first [assumption|reflexivity]|]). exact N.
Qed.
