(* The contacts of a face with a box, for two frames of unit vectors: the face has normal z and edges e1 and e2, the face of the
   other box that looks against it has edges v and w and points inwards along c. *)
From Coq Require Import List Reals Arith Bool Lra Lia.
From Verif Require Import Ccd_Model Lin_Model ContactRb3_Model Rot_Model Boxes_Model Boxes_Zono Boxes_Facet Boxes_Sat Boxes_Geom Boxes_Clip.
Import ListNotations.
Local Open Scope R_scope.

Lemma hull2_attain : forall l y g, hull2 l y -> exists x, In x l /\ ev g x <= ev g y.
Proof.
  intros l y g H.
  assert (K : (exists x, In x l /\ ev g x <= ev g y) \/ exists e, 0 < e /\ forall x, In x l -> ev g y + e <= ev g x).
  { clear H. induction l as [|a l IH]; [right; exists 1; split; [lra|intros x []]|].
    destruct IH as [(x & I & L)|(e & E & F)]; [left; exists x; split; [right; exact I|exact L]|].
    destruct (Rle_dec (ev g a) (ev g y)) as [L|L]; [left; exists a; split; [left; reflexivity|exact L]|].
    right. exists (Rmin e (ev g a - ev g y)). split; [apply Rmin_glb_lt; lra|].
    pose proof (Rmin_l e (ev g a - ev g y)). pose proof (Rmin_r e (ev g a - ev g y)).
    intros x [<-|I]; [lra|specialize (F x I); lra]. }
  destruct K as [K|(e & E & F)]; [exact K|exfalso].
  specialize (H (Aff (fa g) (fb g) (fc g - ev g y - e))). unfold ev in H at 1 2. cbn [fa fb fc] in H.
  assert (0 <= fa g * fst y + fb g * snd y + (fc g - ev g y - e)).
  { apply H. intros p I. specialize (F p I). unfold ev in *. lra. }
  unfold ev in *. lra.
Qed.

Lemma sq_le : forall x y, 0 <= y -> x * x <= y * y -> Rabs x <= y.
Proof. intros x y Y L. apply Rsqr_le_abs_0 in L. rewrite (Rabs_pos_eq y Y) in L. exact L. Qed.
Lemma frame_of : forall u v w x, ortho u v w ->
  x = add3 (add3 (scale3 (dot3 x u) u) (scale3 (dot3 x v) v)) (scale3 (dot3 x w) w).
Proof.
  intros u v w x (U & V & W & UV & UW & VW).
  (* the difference is orthogonal to the three vectors *)
  set (y := sub3 x (add3 (add3 (scale3 (dot3 x u) u) (scale3 (dot3 x v) v)) (scale3 (dot3 x w) w))).
  assert (VU := UV). rewrite dot3_comm in VU. assert (WU := UW). rewrite dot3_comm in WU. assert (WV := VW). rewrite dot3_comm in WV.
  assert (Yu : dot3 y u = 0) by (unfold y; autorewrite with dots; rewrite U, VU, WU; ring).
  assert (Yv : dot3 y v = 0) by (unfold y; autorewrite with dots; rewrite UV, V, WV; ring).
  assert (Yw : dot3 y w = 0) by (unfold y; autorewrite with dots; rewrite UW, VW, W; ring).
  assert (Z : y = zero3).
  { destruct (Req_dec (dot3 y y) 0) as [E|E]; [apply dot3_sq_zero, E|exfalso].
    assert (Cr : cross3 u v <> zero3) by (apply ortho_cross; assumption).
    assert (Nz : w <> zero3) by (apply unit_nonzero, W).
    destruct (parallel_normals y w u v Yu Yv WU WV Cr Nz) as [k K]. rewrite K in Yw. rewrite dot3_scale_l, W in Yw.
    assert (k = 0) by lra. subst k. apply E. rewrite K. rewrite dot3_scale_l. ring. }
  replace x with (add3 y (add3 (add3 (scale3 (dot3 x u) u) (scale3 (dot3 x v) v)) (scale3 (dot3 x w) w))) at 1.
  - rewrite Z. unfold add3, zero3. cbn [c0 c1 c2]. f_equal; ring.
  - unfold y, add3, sub3. destruct x as [xa xb xc]. cbn [c0 c1 c2]. f_equal; ring.
Qed.
Lemma frame_pair : forall u v w x y, ortho u v w -> dot3 x y = dot3 x u * dot3 y u + dot3 x v * dot3 y v + dot3 x w * dot3 y w.
Proof.
  intros u v w x y O. rewrite (frame_of u v w x O) at 1. autorewrite with dots. rewrite !(dot3_comm _ y). ring.
Qed.

Section Face.
Variables (z e1 e2 c v w : v3) (h0 h1 h2 r0 r1 r2 : R) (q : v3).
Hypothesis OA : ortho z e1 e2.
Hypothesis OB : ortho c v w.
Hypothesis H0 : 0 < h0.
Hypothesis H1 : 0 < h1.
Hypothesis H2 : 0 < h2.
Hypothesis R0 : 0 < r0.
Hypothesis R1 : 0 < r1.
Hypothesis R2 : 0 < r2.
(* the overlap along a direction *)
Definition lap (n : v3) : R :=
  h0 * Rabs (dot3 n z) + h1 * Rabs (dot3 n e1) + h2 * Rabs (dot3 n e2)
  + (r0 * Rabs (dot3 n c) + r1 * Rabs (dot3 n v) + r2 * Rabs (dot3 n w)) - dot3 n q.
Local Notation d := (lap z).
Hypothesis D0 : 0 <= d.
Hypothesis least : forall n, d * norm3 n <= 105 / 100 * lap n.
Hypothesis Cz : 0 < dot3 c z.
Hypothesis Cmax : 1 <= 3 * (dot3 c z * dot3 c z).
Local Notation center := (sub3 q (scale3 r0 c)).
Local Notation face k1 k2 := (add3 (add3 center (scale3 k1 v)) (scale3 k2 w)).

Lemma depth_is : dot3 z q = h0 + r0 * dot3 c z + r1 * Rabs (dot3 z v) + r2 * Rabs (dot3 z w) - d.
Proof.
  unfold lap. destruct OA as (Z & _ & _ & Z1 & Z2 & _). rewrite Z, Z1, Z2, (dot3_comm z c), Rabs_R0, Rabs_R1, (Rabs_pos_eq (dot3 c z)) by lra. ring.
Qed.

(* a face point is at most d below the face *)
Lemma face_low : forall k1 k2, Rabs k1 <= r1 -> Rabs k2 <= r2 -> h0 - dot3 z (face k1 k2) <= d.
Proof.
  intros k1 k2 K1 K2. pose proof depth_is as Q. autorewrite with dots. rewrite (dot3_comm z c).
  assert (A1 : - (r1 * Rabs (dot3 z v)) <= k1 * dot3 z v).
  { pose proof (Rabs_pos (dot3 z v)). pose proof (Rle_abs (- (k1 * dot3 z v))) as L. rewrite Rabs_Ropp, Rabs_mult in L.
    assert (Rabs k1 * Rabs (dot3 z v) <= r1 * Rabs (dot3 z v)) by (apply Rmult_le_compat_r; assumption). lra. }
  assert (A2 : - (r2 * Rabs (dot3 z w)) <= k2 * dot3 z w).
  { pose proof (Rabs_pos (dot3 z w)). pose proof (Rle_abs (- (k2 * dot3 z w))) as L. rewrite Rabs_Ropp, Rabs_mult in L.
    assert (Rabs k2 * Rabs (dot3 z w) <= r2 * Rabs (dot3 z w)) by (apply Rmult_le_compat_r; assumption). lra. }
  lra.
Qed.

Lemma norm_parts : forall n, dot3 n z * dot3 n z + dot3 n e1 * dot3 n e1 + dot3 n e2 * dot3 n e2 = norm3 n * norm3 n.
Proof. intros n. rewrite norm_sq. symmetry. apply frame_pair, OA. Qed.
Lemma two_parts : forall n, Rabs (dot3 n e1) + Rabs (dot3 n e2) <= 3 / 2 * norm3 n.
Proof.
  intros n. pose proof (norm_parts n) as N. pose proof (norm_nn n) as P.
  set (a := dot3 n e1) in *. set (b := dot3 n e2) in *. set (k := dot3 n z) in *. set (m := norm3 n) in *.
  rewrite <- (Rabs_pos_eq (Rabs a + Rabs b)) by (pose proof (Rabs_pos a); pose proof (Rabs_pos b); lra). apply sq_le; [lra|].
  assert (Ea : Rabs a * Rabs a = a * a) by (rewrite <- Rabs_mult; apply Rabs_pos_eq; nra).
  assert (Eb : Rabs b * Rabs b = b * b) by (rewrite <- Rabs_mult; apply Rabs_pos_eq; nra).
  pose proof (Rle_0_sqr (Rabs a - Rabs b)) as S. unfold Rsqr in S. pose proof (Rle_0_sqr k) as Sk. unfold Rsqr in Sk. nra.
Qed.

(* the directions that would keep the face of the other box off *)
Definition eps : R := Rmin (d / 20) (Rmin (h1 / 2) (h2 / 2)).
Definition off (n : v3) : Prop :=
  r1 * Rabs (dot3 n v) + r2 * Rabs (dot3 n w) + (h1 - eps) * Rabs (dot3 n e1) + (h2 - eps) * Rabs (dot3 n e2) + d / 2 * Rabs (dot3 n z)
  < dot3 n (sub3 center (scale3 (h0 - d / 2) z)).

Lemma off_up : forall n, off n -> exists m, off m /\ 0 <= dot3 m z.
Proof.
  intros n O. destruct (Rle_dec 0 (dot3 n z)) as [L|L]; [exists n; split; assumption|].
  exists (sub3 n (scale3 (dot3 n z) z)). destruct OA as (Z & E1 & E2 & Z1 & Z2 & E12).
  assert (Z0 : dot3 (sub3 n (scale3 (dot3 n z) z)) z = 0) by (autorewrite with dots; rewrite Z; ring).
  split; [|rewrite Z0; lra].
  unfold off in *. rewrite Z0, Rabs_R0. pose proof depth_is as Q. autorewrite with dots in *. rewrite Z1, Z2 in *. rewrite Z in *.
  rewrite (Rabs_left (dot3 n z)) in O by lra. rewrite (dot3_comm z c).
  set (k := dot3 n z) in *. rewrite !Rmult_0_r, !Rminus_0_r.
  assert (T1 : Rabs (dot3 n v - k * dot3 z v) <= Rabs (dot3 n v) + - k * Rabs (dot3 z v)).
  { replace (dot3 n v - k * dot3 z v) with (dot3 n v + - k * dot3 z v) by ring.
    pose proof (Rabs_triang (dot3 n v) (- k * dot3 z v)) as T. rewrite (Rabs_mult (- k)), (Rabs_pos_eq (- k)) in T by lra. exact T. }
  assert (T2 : Rabs (dot3 n w - k * dot3 z w) <= Rabs (dot3 n w) + - k * Rabs (dot3 z w)).
  { replace (dot3 n w - k * dot3 z w) with (dot3 n w + - k * dot3 z w) by ring.
    pose proof (Rabs_triang (dot3 n w) (- k * dot3 z w)) as T. rewrite (Rabs_mult (- k)), (Rabs_pos_eq (- k)) in T by lra. exact T. }
  apply (Rmult_le_compat_l r1) in T1; [|lra]. apply (Rmult_le_compat_l r2) in T2; [|lra].
  assert (KQ : k * dot3 z q = k * (h0 + r0 * dot3 c z + r1 * Rabs (dot3 z v) + r2 * Rabs (dot3 z w) - d)) by (rewrite Q; reflexivity).
  set (d' := d) in *. clearbody d'. nra.
Qed.

Lemma not_off : 0 < d -> forall n, ~ off n.
Proof.
  intros Dp n0 O0. destruct (off_up n0 O0) as (n & O & Nz). clear O0 n0.
  pose proof (Rmin_l (d / 20) (Rmin (h1 / 2) (h2 / 2))) as Ee. fold eps in Ee.
  assert (Ep : 0 < eps) by (unfold eps; repeat apply Rmin_glb_lt; lra).
  unfold off in O. pose proof depth_is as Q. autorewrite with dots in O. rewrite (Rabs_pos_eq (dot3 n z)) in O by exact Nz.
  pose proof (two_parts n) as T2. pose proof (norm_nn n) as Nn.
  set (a := Rabs (dot3 n e1)) in *. set (b := Rabs (dot3 n e2)) in *.
  assert (Ap : 0 <= a) by apply Rabs_pos. assert (Bp : 0 <= b) by apply Rabs_pos.
  assert (O' : r0 * dot3 n c + h0 * dot3 n z + r1 * Rabs (dot3 n v) + r2 * Rabs (dot3 n w) + h1 * a + h2 * b - eps * (a + b) < dot3 n q) by lra.
  clear O. destruct (Rle_dec 0 (dot3 n c)) as [L|L].
  - assert (G : lap n < eps * (a + b)).
    { unfold lap. fold a b. rewrite (Rabs_pos_eq (dot3 n c)), (Rabs_pos_eq (dot3 n z)) by assumption. lra. }
    pose proof (least n) as Ln. set (d' := d) in *. clearbody d'.
    assert (eps * (a + b) <= d' / 20 * (3 / 2 * norm3 n)) by (apply Rmult_le_compat; lra). nra.
  - set (k := - dot3 n c) in *. set (m := add3 (scale3 (dot3 c z) n) (scale3 k z)).
    destruct OA as (Z & E1 & E2 & Z1 & Z2 & E12).
    assert (Mz : dot3 m z = dot3 c z * dot3 n z + k) by (unfold m; autorewrite with dots; rewrite Z; ring).
    assert (M1 : dot3 m e1 = dot3 c z * dot3 n e1) by (unfold m; autorewrite with dots; rewrite Z1; ring).
    assert (M2 : dot3 m e2 = dot3 c z * dot3 n e2) by (unfold m; autorewrite with dots; rewrite Z2; ring).
    assert (Mc : dot3 m c = 0) by (unfold m, k; autorewrite with dots; rewrite (dot3_comm z c); ring).
    assert (Mv : Rabs (dot3 m v) <= dot3 c z * Rabs (dot3 n v) + k * Rabs (dot3 z v)).
    { unfold m. autorewrite with dots. pose proof (Rabs_triang (dot3 c z * dot3 n v) (k * dot3 z v)) as T.
      rewrite !Rabs_mult, (Rabs_pos_eq (dot3 c z)), (Rabs_pos_eq k) in T by (unfold k; lra). exact T. }
    assert (Mw : Rabs (dot3 m w) <= dot3 c z * Rabs (dot3 n w) + k * Rabs (dot3 z w)).
    { unfold m. autorewrite with dots. pose proof (Rabs_triang (dot3 c z * dot3 n w) (k * dot3 z w)) as T.
      rewrite !Rabs_mult, (Rabs_pos_eq (dot3 c z)), (Rabs_pos_eq k) in T by (unfold k; lra). exact T. }
    assert (Mq : dot3 m q = dot3 c z * dot3 n q + k * dot3 z q) by (unfold m; autorewrite with dots; ring).
    pose proof (two_parts m) as T. pose proof (norm_parts m) as P. pose proof (norm_nn m) as Mn. pose proof (least m) as Lm.
    assert (Kp : 0 < k) by (unfold k; lra).
    assert (Gp : 0 <= dot3 m z) by (rewrite Mz; assert (0 <= dot3 c z * dot3 n z) by (apply Rmult_le_pos; lra); lra).
    (* the gap along m *)
    assert (G : lap m < dot3 c z * (eps * (a + b)) + k * d).
    { unfold lap at 1. rewrite Mc, Rabs_R0, M1, M2, !Rabs_mult, (Rabs_pos_eq (dot3 c z)), (Rabs_pos_eq (dot3 m z)) by lra. fold a b. rewrite Mz, Mq, Q.
      apply (Rmult_lt_compat_l (dot3 c z)) in O'; [|exact Cz].
      apply (Rmult_le_compat_l r1) in Mv; [|lra]. apply (Rmult_le_compat_l r2) in Mw; [|lra].
      replace (dot3 n c) with (- k) in O' by (unfold k; ring). set (d' := d) in *. clearbody d'. lra. }
    (* its slope *)
    assert (S : dot3 m z * dot3 m z <= 2 / 3 * (norm3 m * norm3 m)).
    { pose proof (frame_pair z e1 e2 n c OA) as Nc. pose proof (frame_pair z e1 e2 c c OA) as Cc. destruct OB as (CC & _). rewrite CC in Cc.
      assert (Gl : dot3 m z = - (dot3 n e1 * dot3 c e1 + dot3 n e2 * dot3 c e2)) by (rewrite Mz; unfold k; rewrite Nc; ring).
      rewrite <- P, M1, M2. set (g := dot3 m z) in *. set (cz := dot3 c z) in *. set (x := dot3 n e1) in *. set (y := dot3 n e2) in *.
      set (x' := dot3 c e1) in *. set (y' := dot3 c e2) in *. clearbody g cz x y x' y'.
      assert (CS : g * g <= (x * x + y * y) * (1 - cz * cz)).
      { replace (1 - cz * cz) with (x' * x' + y' * y') by lra. rewrite Gl. pose proof (Rle_0_sqr (x * y' - y * x')) as W. unfold Rsqr in W. lra. }
      assert (CC' : 0 <= cz * cz) by nra.
      assert (W : cz * cz * (g * g) <= cz * cz * ((x * x + y * y) * (1 - cz * cz))) by (apply Rmult_le_compat_l; assumption).
      assert (Cle : cz * cz <= 1) by (pose proof (Rle_0_sqr x'); pose proof (Rle_0_sqr y'); unfold Rsqr in *; lra).
      assert (Key : g * g <= (1 - cz * cz) * (g * g + cz * cz * (x * x + y * y))) by lra.
      assert (Nn' : 0 <= g * g + cz * cz * (x * x + y * y)).
      { assert (0 <= g * g) by nra. assert (0 <= x * x + y * y) by nra. assert (0 <= cz * cz * (x * x + y * y)) by (apply Rmult_le_pos; assumption). lra. }
      assert ((1 - cz * cz) * (g * g + cz * cz * (x * x + y * y)) <= 2 / 3 * (g * g + cz * cz * (x * x + y * y))) by (apply Rmult_le_compat_r; lra).
      lra. }
    assert (Sl : dot3 m z <= 82 / 100 * norm3 m).
    { rewrite <- (Rabs_pos_eq (dot3 m z)) by exact Gp. apply sq_le; [lra|]. nra. }
    assert (Kl : k <= 82 / 100 * norm3 m) by (assert (0 <= dot3 c z * dot3 n z) by (apply Rmult_le_pos; lra); lra).
    assert (Ab : dot3 c z * (a + b) <= 3 / 2 * norm3 m).
    { rewrite M1, M2, !Rabs_mult, (Rabs_pos_eq (dot3 c z)) in T by lra. fold a b in T. lra. }
    set (d' := d) in *. clearbody d'.
    assert (X1 : dot3 c z * (eps * (a + b)) <= d' / 20 * (3 / 2 * norm3 m)).
    { replace (dot3 c z * (eps * (a + b))) with (eps * (dot3 c z * (a + b))) by ring. apply Rmult_le_compat; try lra. apply Rmult_le_pos; lra. }
    assert (X2 : k * d' <= 82 / 100 * norm3 m * d') by (apply Rmult_le_compat_r; lra).
    nra.
Qed.

Theorem face_meets : 0 < d -> exists k1 k2, Rabs k1 <= r1 /\ Rabs k2 <= r2 /\ Rabs (dot3 (face k1 k2) e1) < h1 /\ Rabs (dot3 (face k1 k2) e2) < h2
  /\ 0 <= h0 - dot3 z (face k1 k2).
Proof.
  intros Dp. pose proof (not_off Dp) as No.
  assert (Ep : 0 < eps) by (unfold eps; repeat apply Rmin_glb_lt; lra).
  pose proof (Rmin_r (d / 20) (Rmin (h1 / 2) (h2 / 2))) as Er. fold eps in Er.
  pose proof (Rmin_l (h1 / 2) (h2 / 2)). pose proof (Rmin_r (h1 / 2) (h2 / 2)).
  assert (Z : zono [scale3 r1 v; scale3 r2 w; scale3 (h1 - eps) e1; scale3 (h2 - eps) e2; scale3 (d / 2) z] (sub3 center (scale3 (h0 - d / 2) z))).
  { apply zono_support. intros n. destruct (Rle_dec (dot3 n (sub3 center (scale3 (h0 - d / 2) z))) (width [scale3 r1 v; scale3 r2 w; scale3 (h1 - eps) e1; scale3 (h2 - eps) e2; scale3 (d / 2) z] n)) as [L|L]; [exact L|exfalso].
    apply (No n). unfold off. cbn [width] in L. rewrite !abs_scale in L by lra. set (d' := d) in *. clearbody d'. lra. }
  cbn [zono] in Z. destruct Z as (t1 & T1 & t2 & T2 & t3 & T3 & t4 & T4 & t5 & T5 & E).
  exists (- (t1 * r1)), (- (t2 * r2)). rewrite !Rabs_Ropp.
  split; [apply abs_le_mult; assumption|]. split; [apply abs_le_mult; assumption|].
  set (f := face (- (t1 * r1)) (- (t2 * r2))).
  assert (F : f = add3 (add3 (scale3 (t3 * (h1 - eps)) e1) (scale3 (t4 * (h2 - eps)) e2)) (scale3 (h0 - d / 2 + t5 * (d / 2)) z)).
  { unfold f. clear - E. set (d' := d) in *. clearbody d'. 
    pose proof (f_equal c0 E) as E0. pose proof (f_equal c1 E) as E1. pose proof (f_equal c2 E) as E2. clear E.
    unfold sub3, scale3, zero3, add3 in *. cbn [c0 c1 c2] in *. f_equal; lra. }
  rewrite F. destruct OA as (Zz & E1 & E2 & Z1 & Z2 & E12). autorewrite with dots.
  rewrite (dot3_comm e2 e1), E1, E2, Z1, Z2, E12, Zz, !Rmult_0_r, !Rmult_1_r, !Rplus_0_r, !Rplus_0_l.
  split; [apply Rle_lt_trans with (h1 - eps); [apply abs_le_mult; lra|lra]|].
  split; [apply Rle_lt_trans with (h2 - eps); [apply abs_le_mult; lra|lra]|].
  set (d' := d) in *. clearbody d'. nra.
Qed.
End Face.
