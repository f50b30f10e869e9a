(* The circle-box test. *)
From Coq Require Import List Reals Arith Bool Lra Psatz.
From Verif Require Import Outcome Ccd_Model Lin_Model Geom_Model Geom_Spec.
Open Scope R_scope.

Lemma Rltb_spec : forall x y, reflect (x < y) (Rltb x y).
Proof. intros x y. unfold Rltb. destruct (Rlt_dec x y); constructor; assumption. Qed.

Lemma abs_inv : forall a b, Rabs a <= b -> - b <= a <= b.
Proof. intros a b. unfold Rabs. destruct (Rcase_abs a); lra. Qed.
Lemma abs_in : forall a b, - b <= a <= b -> Rabs a <= b.
Proof. intros a b. unfold Rabs. destruct (Rcase_abs a); lra. Qed.

Lemma rot_unit : forall theta, cos theta * cos theta + sin theta * sin theta = 1.
Proof. intros theta. pose proof (sin2_cos2 theta) as H. unfold Rsqr in H. lra. Qed.

Lemma mapply_back : forall theta v, mapply (rotation2 theta) (mapply_t (rotation2 theta) v) = v.
Proof.
  intros theta [a b]. pose proof (rot_unit theta) as H.
  unfold mapply, mapply_t, rotation2, vadd, vscale, vdot. cbn [fst snd].
  set (c := cos theta) in *. set (s := sin theta) in *. clearbody c s. f_equal.
  - transitivity ((c * c + s * s) * a); [ring | rewrite H; ring].
  - transitivity ((c * c + s * s) * b); [ring | rewrite H; ring].
Qed.
Lemma mapply_t_back : forall theta v, mapply_t (rotation2 theta) (mapply (rotation2 theta) v) = v.
Proof.
  intros theta [a b]. pose proof (rot_unit theta) as H.
  unfold mapply, mapply_t, rotation2, vadd, vscale, vdot. cbn [fst snd].
  set (c := cos theta) in *. set (s := sin theta) in *. clearbody c s. f_equal.
  - transitivity ((c * c + s * s) * a); [ring | rewrite H; ring].
  - transitivity ((c * c + s * s) * b); [ring | rewrite H; ring].
Qed.
Lemma mapply_t_dot : forall theta v w,
  vdot (mapply_t (rotation2 theta) v) (mapply_t (rotation2 theta) w) = vdot v w.
Proof.
  intros theta [a b] [a' b']. pose proof (rot_unit theta) as H.
  unfold mapply_t, rotation2, vdot. cbn [fst snd].
  set (c := cos theta) in *. set (s := sin theta) in *. clearbody c s.
  transitivity ((c * c + s * s) * (a * a' + b * b')); [ring | rewrite H; ring].
Qed.
Lemma mapply_dot : forall theta v w,
  vdot (mapply (rotation2 theta) v) (mapply (rotation2 theta) w) = vdot v w.
Proof.
  intros theta v w. rewrite <- (mapply_t_dot theta), !mapply_t_back. reflexivity.
Qed.
Lemma mapply_t_sub : forall M v w, mapply_t M (vsub v w) = vsub (mapply_t M v) (mapply_t M w).
Proof. intros M v w. unfold mapply_t, vsub, vdot. cbn [fst snd]. f_equal; ring. Qed.
Lemma mapply_sub : forall M v w, mapply M (vsub v w) = vsub (mapply M v) (mapply M w).
Proof. intros M v w. unfold mapply, vsub, vadd, vscale. cbn [fst snd]. f_equal; ring. Qed.
Lemma mapply_add : forall M v w, mapply M (vadd v w) = vadd (mapply M v) (mapply M w).
Proof. intros M v w. unfold mapply, vadd, vscale. cbn [fst snd]. f_equal; ring. Qed.
Lemma mapply_scale : forall M s w, mapply M (vscale s w) = vscale s (mapply M w).
Proof. intros M s w. unfold mapply, vadd, vscale. cbn [fst snd]. f_equal; ring. Qed.

Lemma in_box2_local : forall x theta r p,
  in_box2 x theta r p <->
  (Rabs (fst (mapply_t (rotation2 theta) (vsub p x))) <= fst r /\
   Rabs (snd (mapply_t (rotation2 theta) (vsub p x))) <= snd r).
Proof. intros. unfold in_box2, mapply_t, rotation2, axis_x, axis_y. cbn [fst snd]. reflexivity. Qed.

(* ---------- the first quadrant ---------- *)
(* y is a point of the box [-r1, r1] with outward normal n, and xc = y + d n *)
Definition qsupport (xc r1 n y : vec) (d : R) : Prop :=
  0 <= fst y <= fst r1 /\ 0 <= snd y <= snd r1 /\ xc = vadd y (vscale d n)
  /\ vdot n n = 1 /\ 0 <= fst n /\ 0 <= snd n
  /\ (0 < fst n -> fst y = fst r1) /\ (0 < snd n -> snd y = snd r1)
  /\ (d < 0 -> fst xc <= fst r1 /\ snd xc <= snd r1).

Lemma sqrt_pos_sq : forall a, 0 < a -> 0 < sqrt a /\ sqrt a * sqrt a = a.
Proof. intros a H. split; [apply sqrt_lt_R0; exact H | apply sqrt_sqrt; lra]. Qed.

Lemma corner_support : forall xc r0 r1, 0 <= r0 -> 0 < fst r1 -> 0 < snd r1 ->
  fst r1 < fst xc -> snd r1 < snd xc ->
  let n := vsub xc r1 in
  let d2 := vdot n n in
  0 < d2 /\ qsupport xc r1 (vscale (/ sqrt d2) n) r1 (sqrt d2) /\
  (d2 <= r0 * r0 <-> sqrt d2 <= r0).
Proof.
  intros [a b] r0 [h k] H0 Hh Hk Ha Hb n d2. cbn [fst snd] in *.
  assert (P : 0 < d2).
  { unfold d2, n, vdot, vsub. cbn [fst snd].
    assert (0 < (a - h) * (a - h)) by (apply Rmult_lt_0_compat; lra).
    assert (0 < (b - k) * (b - k)) by (apply Rmult_lt_0_compat; lra). lra. }
  destruct (sqrt_pos_sq d2 P) as [Sp Ss].
  split; [exact P|]. split.
  - assert (Ip : 0 < / sqrt d2) by (apply Rinv_0_lt_compat; exact Sp).
    unfold qsupport. cbn [fst snd].
    split; [lra|]. split; [lra|]. split.
    + unfold vadd, vscale, n, vsub. cbn [fst snd]. f_equal; field; lra.
    + split.
      * transitivity (/ sqrt d2 * / sqrt d2 * d2).
        { unfold d2, vdot, vscale. cbn [fst snd]. ring. }
        { rewrite <- Ss at 3. field. lra. }
      * unfold n, vscale, vsub. cbn [fst snd].
        split; [apply Rlt_le, Rmult_lt_0_compat; lra|].
        split; [apply Rlt_le, Rmult_lt_0_compat; lra|].
        split; [reflexivity|]. split; [reflexivity|]. intros; lra.
  - split; intros H.
    + rewrite <- Ss in H. destruct (Rle_dec (sqrt d2) r0) as [L|L]; [exact L|].
      exfalso. assert (r0 * r0 < sqrt d2 * sqrt d2).
      { apply Rmult_le_0_lt_compat; lra. } lra.
    + rewrite <- Ss. apply Rmult_le_compat; lra.
Qed.

Lemma quadrant_spec : forall xc r0 r1, 0 <= r0 -> 0 < fst r1 -> 0 < snd r1 -> 0 <= fst xc -> 0 <= snd xc ->
  match quadrant_test xc r0 r1 with
  | None => exists n y d, qsupport xc r1 n y d /\ r0 < d
  | Some (n, pen) => exists y d, qsupport xc r1 n y d /\ pen = d - r0 /\ d <= r0
  end.
Proof.
  intros [a b] r0 [h k] H0 Hh Hk Ha Hb. cbn [fst snd] in *.
  assert (X : k < b -> h * b < k * a -> h < a).
  { intros A B. destruct (Rlt_dec h a) as [L|L]; [exact L|exfalso].
    assert (h * k < h * b) by (apply Rmult_lt_compat_l; lra).
    assert (k * a <= k * h) by (apply Rmult_le_compat_l; lra). lra. }
  assert (Y : h < a -> ~ h * b < k * a -> k < b).
  { intros A B. destruct (Rlt_dec k b) as [L|L]; [exact L|exfalso].
    assert (k * h < k * a) by (apply Rmult_lt_compat_l; lra).
    assert (h * b <= h * k) by (apply Rmult_le_compat_l; lra). lra. }
  assert (Z : ~ h < a -> ~ h * b < k * a -> True) by auto.
  assert (inx : ~ k < b -> qsupport (a, b) (h, k) (1, 0) (h, b) (a - h)).
  { intros A. unfold qsupport, vdot, vadd, vscale. cbn [fst snd].
    repeat split; try lra. f_equal; ring. }
  assert (iny : ~ h < a -> qsupport (a, b) (h, k) (0, 1) (a, k) (b - k)).
  { intros A. unfold qsupport, vdot, vadd, vscale. cbn [fst snd].
    repeat split; try lra. f_equal; ring. }
  pose proof (corner_support (a, b) r0 (h, k) H0 Hh Hk) as K. cbn [fst snd] in K.
  unfold quadrant_test. cbn [fst snd].
  destruct (Rltb_spec (h * b) (k * a)) as [D|D].
  - destruct (Rltb_spec k b) as [B|B].
    + destruct (K (X B D) B) as (P & Q & E). cbv zeta in P, Q, E.
      destruct (Rltb_spec (r0 * r0) (vdot (vsub (a, b) (h, k)) (vsub (a, b) (h, k)))) as [L|L].
      * eexists _, _, _. split; [exact Q|]. lra.
      * eexists _, _. split; [exact Q|]. split; [reflexivity|]. apply E. lra.
    + destruct (Rltb_spec 0 (a - r0 - h)) as [L|L].
      * eexists _, _, _. split; [exact (inx B)|]. lra.
      * eexists _, _. split; [exact (inx B)|]. lra.
  - destruct (Rltb_spec h a) as [B|B].
    + destruct (K B (Y B D)) as (P & Q & E). cbv zeta in P, Q, E.
      destruct (Rltb_spec (r0 * r0) (vdot (vsub (a, b) (h, k)) (vsub (a, b) (h, k)))) as [L|L].
      * eexists _, _, _. split; [exact Q|]. lra.
      * eexists _, _. split; [exact Q|]. split; [reflexivity|]. apply E. lra.
    + destruct (Rltb_spec 0 (b - r0 - k)) as [L|L].
      * eexists _, _, _. split; [exact (iny B)|]. lra.
      * eexists _, _. split; [exact (iny B)|]. lra.
Qed.

(* ---------- undoing the mirroring and the rotation ---------- *)
Lemma mirror_mirror : forall fx fy v, mirror fx fy (mirror fx fy v) = v.
Proof. intros [|] [|] [a b]; unfold mirror; cbn [fst snd]; f_equal; ring. Qed.
Lemma mirror_dot : forall fx fy v w, vdot (mirror fx fy v) (mirror fx fy w) = vdot v w.
Proof. intros [|] [|] [a b] [c d]; unfold mirror, vdot; cbn [fst snd]; ring. Qed.
Lemma mirror_add : forall fx fy v w, mirror fx fy (vadd v w) = vadd (mirror fx fy v) (mirror fx fy w).
Proof. intros [|] [|] [a b] [c d]; unfold mirror, vadd; cbn [fst snd]; f_equal; ring. Qed.
Lemma mirror_sub : forall fx fy v w, mirror fx fy (vsub v w) = vsub (mirror fx fy v) (mirror fx fy w).
Proof. intros [|] [|] [a b] [c d]; unfold mirror, vsub; cbn [fst snd]; f_equal; ring. Qed.
Lemma mirror_scale : forall fx fy s w, mirror fx fy (vscale s w) = vscale s (mirror fx fy w).
Proof. intros [|] [|] s [c d]; unfold mirror, vscale; cbn [fst snd]; f_equal; ring. Qed.
Lemma mirror_abs : forall fx fy v,
  Rabs (fst (mirror fx fy v)) = Rabs (fst v) /\ Rabs (snd (mirror fx fy v)) = Rabs (snd v).
Proof.
  intros fx fy [a b]. unfold mirror. cbn [fst snd].
  split; [destruct fx | destruct fy]; try reflexivity;
    [replace (a * -1) with (- a) by ring | replace (b * -1) with (- b) by ring]; apply Rabs_Ropp.
Qed.
Lemma mirror_nonneg : forall v, 0 <= fst (mirror (Rltb (fst v) 0) (Rltb (snd v) 0) v)
  /\ 0 <= snd (mirror (Rltb (fst v) 0) (Rltb (snd v) 0) v).
Proof.
  intros [a b]. unfold mirror. cbn [fst snd].
  destruct (Rltb_spec a 0); destruct (Rltb_spec b 0); lra.
Qed.

(* a support point of the box in world coordinates *)
Definition wsupport (x0 x1 : vec) (theta : R) (r1 n y : vec) (d : R) : Prop :=
  outward_normal (in_box2 x1 theta r1) y n /\ vdot n n = 1 /\ x0 = vadd y (vscale d n)
  /\ (d < 0 -> in_box2 x1 theta r1 x0).

Lemma support_back : forall x0 x1 theta r1 fx fy n y d,
  let M := rotation2 theta in
  (0 <= fst (mirror fx fy (mapply_t M (vsub x0 x1))) /\ 0 <= snd (mirror fx fy (mapply_t M (vsub x0 x1)))) ->
  qsupport (mirror fx fy (mapply_t M (vsub x0 x1))) r1 n y d ->
  wsupport x0 x1 theta r1 (mapply M (mirror fx fy n)) (vadd (mapply M (mirror fx fy y)) x1) d.
Proof.
  intros x0 x1 theta r1 fx fy n y d M Pos (B1 & B2 & E & N & N1 & N2 & T1 & T2 & T3).
  unfold wsupport. split; [|split; [|split]].
  - assert (L : vsub (vadd (mapply M (mirror fx fy y)) x1) x1 = mapply M (mirror fx fy y)).
    { unfold vsub, vadd. cbn [fst snd]. destruct (mapply M (mirror fx fy y)). cbn [fst snd]. f_equal; ring. }
    split.
    + apply in_box2_local. rewrite L. unfold M. rewrite mapply_t_back.
      destruct (mirror_abs fx fy y) as [-> ->].
      rewrite !Rabs_pos_eq by lra. lra.
    + intros z Hz. apply in_box2_local in Hz.
      set (u := mirror fx fy (mapply_t (rotation2 theta) (vsub z x1))).
      assert (U : Rabs (fst u) <= fst r1 /\ Rabs (snd u) <= snd r1).
      { unfold u. destruct (mirror_abs fx fy (mapply_t (rotation2 theta) (vsub z x1))) as [-> ->]. exact Hz. }
      assert (V : vsub z (vadd (mapply M (mirror fx fy y)) x1) = mapply M (mirror fx fy (vsub u y))).
      { unfold u. rewrite !mirror_sub, mirror_mirror, mapply_sub. unfold M. rewrite mapply_back.
        unfold vsub, vadd. cbn [fst snd]. f_equal; ring. }
      rewrite V. unfold M. rewrite mapply_dot, mirror_dot.
      destruct U as [U1 U2]. apply abs_inv in U1. apply abs_inv in U2.
      unfold vdot, vsub. cbn [fst snd].
      assert (A : fst n * (fst u - fst y) <= 0).
      { destruct N1 as [N1|N1]; [|rewrite <- N1; lra].
        rewrite (T1 N1). assert (0 <= fst n * (fst r1 - fst u)) by (apply Rmult_le_pos; lra). lra. }
      assert (B : snd n * (snd u - snd y) <= 0).
      { destruct N2 as [N2|N2]; [|rewrite <- N2; lra].
        rewrite (T2 N2). assert (0 <= snd n * (snd r1 - snd u)) by (apply Rmult_le_pos; lra). lra. }
      lra.
  - unfold M. rewrite mapply_dot, mirror_dot. exact N.
  - assert (E' : mapply M (mirror fx fy (mirror fx fy (mapply_t M (vsub x0 x1))))
      = mapply M (mirror fx fy (vadd y (vscale d n)))) by (rewrite E; reflexivity).
    rewrite mirror_mirror in E'. unfold M in E' at 1 2. rewrite mapply_back in E'.
    rewrite mirror_add, mirror_scale, mapply_add, mapply_scale in E'.
    destruct x0 as [a b], x1 as [a' b'].
    pose proof (f_equal fst E') as E1. pose proof (f_equal snd E') as E2.
    unfold vsub, vadd, vscale in *. cbn [fst snd] in *. f_equal; lra.
  - intros D. specialize (T3 D). apply in_box2_local.
    destruct (mirror_abs fx fy (mapply_t (rotation2 theta) (vsub x0 x1))) as [<- <-].
    fold M. assert (P : 0 <= fst (mirror fx fy (mapply_t M (vsub x0 x1))) /\ 0 <= snd (mirror fx fy (mapply_t M (vsub x0 x1)))) by exact Pos.
    rewrite !Rabs_pos_eq by lra. exact T3.
Qed.

(* ---------- distances from support points ---------- *)
Lemma vdot_nn : forall v : vec, 0 <= vdot v v.
Proof.
  intros [a b]. unfold vdot. cbn [fst snd].
  pose proof (Rle_0_sqr a) as A. pose proof (Rle_0_sqr b) as B. unfold Rsqr in *. lra.
Qed.
Lemma support_nearest : forall x0 x1 theta r1 n y d z, wsupport x0 x1 theta r1 n y d -> 0 <= d ->
  in_box2 x1 theta r1 z -> d * d <= vdot (vsub x0 z) (vsub x0 z).
Proof.
  intros x0 x1 theta r1 n y d z ((B & S) & N & E & _) D Hz. specialize (S z Hz).
  assert (K : vdot (vsub x0 z) (vsub x0 z)
    = d * d * vdot n n - 2 * d * vdot n (vsub z y) + vdot (vsub z y) (vsub z y)).
  { rewrite E. unfold vdot, vsub, vadd, vscale. cbn [fst snd]. ring. }
  rewrite K, N. pose proof (vdot_nn (vsub z y)).
  assert (0 <= d * (- vdot n (vsub z y))) by (apply Rmult_le_pos; lra). lra.
Qed.
Lemma support_distance : forall x0 x1 theta r1 n y d, wsupport x0 x1 theta r1 n y d ->
  vdot (vsub y x0) (vsub y x0) = d * d.
Proof.
  intros x0 x1 theta r1 n y d (_ & N & E & _).
  transitivity (d * d * vdot n n); [rewrite E; unfold vdot, vsub, vadd, vscale; cbn [fst snd]; ring|].
  rewrite N. ring.
Qed.

Lemma circle_box_spec : forall x0 r0 x1 theta r1, 0 <= r0 -> 0 < fst r1 -> 0 < snd r1 ->
  match circle_box x0 r0 x1 theta r1 with
  | None => exists n y d, wsupport x0 x1 theta r1 n y d /\ r0 < d
  | Some (n, p) => exists y d, wsupport x0 x1 theta r1 n y d /\ d <= r0
      /\ p = vscale (/ 2) (vadd y (vsub x0 (vscale r0 n)))
  end.
Proof.
  intros x0 r0 x1 theta r1 H0 Hh Hk. unfold circle_box.
  set (M := rotation2 theta). set (x := mapply_t M (vsub x0 x1)).
  set (fx := Rltb (fst x) 0). set (fy := Rltb (snd x) 0).
  pose proof (mirror_nonneg x) as [A B]. fold fx fy in A, B.
  pose proof (quadrant_spec (mirror fx fy x) r0 r1 H0 Hh Hk A B) as Q.
  destruct (quadrant_test (mirror fx fy x) r0 r1) as [[n pen]|].
  - destruct Q as (y & d & S & -> & D).
    pose proof (support_back x0 x1 theta r1 fx fy n y d (conj A B) S) as W.
    eexists _, _. split; [exact W|]. split; [exact D|].
    destruct S as (_ & _ & E & _). rewrite E.
    destruct W as (_ & _ & W & _). rewrite W at 1.
    fold M. unfold vadd, vsub, vscale, mapply, mirror. destruct fx, fy; cbn [fst snd]; unfold vadd, vscale; cbn [fst snd]; f_equal; field.
  - destruct Q as (n & y & d & S & D).
    pose proof (support_back x0 x1 theta r1 fx fy n y d (conj A B) S) as W.
    eexists _, _, _. split; [exact W|exact D].
Qed.

(* ---------- C35 ---------- *)
Theorem circle_box_exact : forall x0 r0 x1 theta r1, 0 <= r0 -> 0 < fst r1 -> 0 < snd r1 ->
  (circle_box x0 r0 x1 theta r1 <> None <-> exists z, in_box2 x1 theta r1 z /\ in_disc x0 r0 z).
Proof.
  intros x0 r0 x1 theta r1 H0 Hh Hk.
  pose proof (circle_box_spec x0 r0 x1 theta r1 H0 Hh Hk) as S.
  destruct (circle_box x0 r0 x1 theta r1) as [[n p]|].
  - split; [intros _|discriminate].
    destruct S as (y & d & W & D & _).
    destruct (Rle_dec 0 d) as [P|P].
    + exists y. split; [exact (proj1 (proj1 W))|].
      unfold in_disc. rewrite (support_distance x0 x1 theta r1 n y d W).
      apply Rmult_le_compat; lra.
    + (* the centre is in the box *)
      exists x0. split.
      2:{ unfold in_disc. replace (vdot (vsub x0 x0) (vsub x0 x0)) with 0
            by (unfold vdot, vsub; cbn [fst snd]; ring). apply Rmult_le_pos; lra. }
      destruct W as (_ & _ & _ & I). apply I. lra.
  - split; [intros H; contradiction|]. intros (z & Hz & D). exfalso.
    destruct S as (n & y & d & W & L).
    assert (P : 0 <= d) by lra.
    pose proof (support_nearest x0 x1 theta r1 n y d z W P Hz) as Q.
    unfold in_disc in D.
    replace (vdot (vsub z x0) (vsub z x0)) with (vdot (vsub x0 z) (vsub x0 z)) in D
      by (unfold vdot, vsub; cbn [fst snd]; ring).
    assert (r0 * r0 < d * d) by (apply Rmult_le_0_lt_compat; lra). lra.
Qed.

Theorem circle_box_contact : forall x0 r0 x1 theta r1 n p, 0 <= r0 -> 0 < fst r1 -> 0 < snd r1 ->
  circle_box x0 r0 x1 theta r1 = Some (n, p) ->
  vdot n n = 1 /\
  exists y d, outward_normal (in_box2 x1 theta r1) y n /\ x0 = vadd y (vscale d n) /\ d <= r0
    /\ p = vscale (/ 2) (vadd y (vsub x0 (vscale r0 n))).
Proof.
  intros x0 r0 x1 theta r1 n p H0 Hh Hk E.
  pose proof (circle_box_spec x0 r0 x1 theta r1 H0 Hh Hk) as S. rewrite E in S.
  destruct S as (y & d & (W1 & W2 & W3 & _) & D & P). split; [exact W2|].
  exists y, d. repeat (split; [assumption|]). exact P.
Qed.

Theorem circle_box_outside : forall x0 r0 x1 theta r1 n p, 0 <= r0 -> 0 < fst r1 -> 0 < snd r1 ->
  circle_box x0 r0 x1 theta r1 = Some (n, p) -> ~ in_box2 x1 theta r1 x0 ->
  exists y d, in_box2 x1 theta r1 y /\ 0 < d <= r0 /\ vsub x0 y = vscale d n
    /\ (forall z, in_box2 x1 theta r1 z -> vdot (vsub x0 y) (vsub x0 y) <= vdot (vsub x0 z) (vsub x0 z)).
Proof.
  intros x0 r0 x1 theta r1 n p H0 Hh Hk E Out.
  pose proof (circle_box_spec x0 r0 x1 theta r1 H0 Hh Hk) as S. rewrite E in S.
  destruct S as (y & d & W & D & P). exists y, d.
  pose proof W as ((W1 & _) & W2 & W3 & W4).
  assert (K : vsub x0 y = vscale d n) by (rewrite W3; unfold vsub, vadd, vscale; cbn [fst snd]; f_equal; ring).
  assert (Dp : 0 < d).
  { destruct (Rlt_dec 0 d) as [L|L]; [exact L|exfalso]. apply Out.
    destruct (Req_dec d 0) as [Z|Z]; [|apply W4; lra].
    replace x0 with y; [exact W1|]. rewrite W3, Z. destruct y. unfold vadd, vscale. cbn [fst snd]. f_equal; ring. }
  split; [exact W1|]. split; [lra|]. split; [exact K|]. intros z Hz.
  replace (vdot (vsub x0 y) (vsub x0 y)) with (d * d)
    by (rewrite <- (support_distance _ _ _ _ _ _ _ W); unfold vdot, vsub; cbn [fst snd]; ring).
  apply (support_nearest x0 x1 theta r1 n y d z W); [lra|exact Hz].
Qed.
