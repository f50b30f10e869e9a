(* Small scenes for the contact sets between bodies. *)
From Coq Require Import List Reals Arith NArith Bool Lra Lia.
From Verif Require Import Outcome Ccd_Model Ccd_Spec ContactRb2_Model ContactRb3_Model Rot_Model Rot_Spec Rot_Alg Lin_Model Geom_Model Geom_Spec Geom_Sets Geom_Circle Geom_Space Geom_Aabb
  Wall_Model Wall_Spec Narrow_Model Narrow_Spec Narrow_Proofs Narrow_Thms Narrow_Space Narrow_Total.
Import ListNotations.
Local Open Scope R_scope.

Lemma side : forall a b r : R, a * a + b * b <= r * r -> 0 <= r -> - r <= a <= r /\ - r <= b <= r.
Proof.
  intros a b r H Hr. pose proof (sq_nn a) as A. pose proof (sq_nn b) as B.
  split; split; apply Rnot_lt_le; intros L.
  - assert (r * r < - a * - a) by (apply Rmult_le_0_lt_compat; lra). replace (- a * - a) with (a * a) in * by ring. lra.
  - assert (r * r < a * a) by (apply Rmult_le_0_lt_compat; lra). lra.
  - assert (r * r < - b * - b) by (apply Rmult_le_0_lt_compat; lra). replace (- b * - b) with (b * b) in * by ring. lra.
  - assert (r * r < b * b) by (apply Rmult_le_0_lt_compat; lra). lra.
Qed.
Definition vals (l : list R) : dvec := fun k => nth k l 0.

(* ---------- the plane: a disc of radius 1 and a square of half width 1 ---------- *)
Definition ex_shape2 (i : nat) : shape2 := match i with O => Circle2 1 | _ => Box2 (1, 1) end.
Lemma ex_sized2 : forall i, (i < 2)%nat -> sized2 (ex_shape2 i).
Proof. intros [|i] _; cbn [ex_shape2 sized2 fst snd]; lra. Qed.
Lemma box_at_origin : forall x y w p, in_box2 (x, y) 0 w p <-> Rabs (fst p - x) <= fst w /\ Rabs (snd p - y) <= snd w.
Proof.
  intros x y w p. unfold in_box2, axis_x, axis_y, vdot, vsub. cbn [fst snd]. rewrite cos_0, sin_0.
  replace (1 * (fst p - x) + 0 * (snd p - y)) with (fst p - x) by ring. replace (- 0 * (fst p - x) + 1 * (snd p - y)) with (snd p - y) by ring. reflexivity.
Qed.
(* the scene: the disc moves from (x0, y0) to (x1, y1), the square rests at (a, b) *)
Definition ex_q2 (x y a b : R) : dvec := vals [x; y; 0; a; b; 0].
Lemma ex_bounded2 : forall x0 y0 x1 y1 a b, Rabs x0 <= 18 -> Rabs y0 <= 18 -> Rabs x1 <= 18 -> Rabs y1 <= 18 -> Rabs a <= 18 -> Rabs b <= 18 ->
  (forall i p, (i < 2)%nat -> reach2 ex_shape2 (ex_q2 x0 y0 a b) (ex_q2 x1 y1 a b) i p -> Rabs (fst p) <= 20 /\ Rabs (snd p) <= 20)
  /\ (forall i, (i < 2)%nat -> exists p p', reach2 ex_shape2 (ex_q2 x0 y0 a b) (ex_q2 x1 y1 a b) i p
        /\ reach2 ex_shape2 (ex_q2 x0 y0 a b) (ex_q2 x1 y1 a b) i p' /\ 1 <= fst p' - fst p).
Proof.
  intros x0 y0 x1 y1 a b X0 Y0 X1 Y1 A B. apply abs_inv in X0, Y0, X1, Y1, A, B. split.
  - intros [|[|i]] p Hi H; [| |lia]; unfold reach2, ex_shape2 in H.
    + destruct H as (t & Ht & H). unfold in_disc, at_time, vdot, vsub, seg2, ex_q2, vals in H. cbn [fst snd nth Nat.mul Nat.add] in H.
      apply side in H; [|lra]. destruct p as [p0 p1]. cbn [fst snd] in *.
      assert (-18 <= (1 - t) * x0 + t * x1 <= 18) by (split; nra). assert (-18 <= (1 - t) * y0 + t * y1 <= 18) by (split; nra). split; apply abs_in; lra.
    + unfold seg2, ex_q2, vals in H. cbn [fst snd nth Nat.mul Nat.add] in H. apply box_at_origin in H. cbn [fst snd] in H. destruct H as [H0 H1].
      apply abs_inv in H0. apply abs_inv in H1. split; apply abs_in; lra.
  - intros [|[|i]] Hi; [| |lia]; unfold reach2, ex_shape2.
    + exists (x0 - 1, y0), (x0 + 1, y0). unfold in_disc, at_time, vdot, vsub, seg2, ex_q2, vals. cbn [fst snd nth Nat.mul Nat.add].
      split; [exists 0; lra|]. split; [exists 0; lra|]. lra.
    + exists (a - 1, b), (a + 1, b). unfold seg2, ex_q2, vals. cbn [fst snd nth Nat.mul Nat.add]. rewrite !box_at_origin. cbn [fst snd].
      repeat split; try (apply abs_in; lra). lra.
Qed.
Lemma ex_runs2 : forall fixed v x0 y0 x1 y1 a b, Rabs x0 <= 18 -> Rabs y0 <= 18 -> Rabs x1 <= 18 -> Rabs y1 <= 18 -> Rabs a <= 18 -> Rabs b <= 18 ->
  let stuck := exists i j, (i < j)%nat /\ (j < 2)%nat /\ unsupported2 fixed ex_shape2 i j /\ bounds_meet2 ex_shape2 (ex_q2 x0 y0 a b) (ex_q2 x1 y1 a b) i j in
  (stuck /\ rb2_active_set 2 fixed ex_shape2 [] (ex_q2 x0 y0 a b) (ex_q2 x1 y1 a b) v = Exit)
  \/ (~ stuck /\ exists set, rb2_active_set 2 fixed ex_shape2 [] (ex_q2 x0 y0 a b) (ex_q2 x1 y1 a b) v = Ok set).
Proof.
  intros fixed v x0 y0 x1 y1 a b X0 Y0 X1 Y1 A B. destruct (ex_bounded2 x0 y0 x1 y1 a b X0 Y0 X1 Y1 A B) as [In_ Wide].
  apply (set2_runs 2 fixed ex_shape2 [] _ _ v 20 1); [cbn; lia|exact ex_sized2|lia|lra|lra|exact In_|exact Wide].
Qed.

(* ---------- space ---------- *)
Definition ex_q3 (a b c x y z : R) : dvec := vals [a; b; c; x; y; z; 1; 0; 0; 0; 1; 0; 0; 0; 1; 1; 0; 0; 0; 1; 0; 0; 0; 1].
Lemma ex_turned3 : forall a b c x y z i, (i < 2)%nat -> ori3 2 (ex_q3 a b c x y z) i = id3.
Proof.
  intros a b c x y z [|[|i]] H; [| |lia]; unfold ori3, mat_at, seg3, ex_q3, vals, id3, diag3; cbn [nth Nat.mul Nat.add]; reflexivity.
Qed.
Lemma ex_rotation3 : forall a b c x y z i, (i < 2)%nat -> rotation (ori3 2 (ex_q3 a b c x y z) i).
Proof. intros. rewrite ex_turned3 by assumption. exact rotation_id. Qed.
Lemma ex_pos3 : forall a b c x y z, pos3 (ex_q3 a b c x y z) 0 = V3 a b c /\ pos3 (ex_q3 a b c x y z) 1 = V3 x y z.
Proof. intros. split; reflexivity. Qed.

Lemma mul3_id : forall v, mul3 id3 v = v.
Proof. intros [a b c]. unfold mul3, id3, diag3, dot3. cbn [row0 row1 row2_ c0 c1 c2]. f_equal; ring. Qed.
Lemma in_box3_id : forall x w p, in_box3 x id3 w p <-> Rabs (c0 p - c0 x) <= c0 w /\ Rabs (c1 p - c1 x) <= c1 w /\ Rabs (c2 p - c2 x) <= c2 w.
Proof.
  intros [x y z] w [a b c]. unfold in_box3, tr, id3, diag3, dot3, sub3. cbn [row0 row1 row2_ c0 c1 c2].
  replace (1 * (a - x) + 0 * (b - y) + 0 * (c - z)) with (a - x) by ring. replace (0 * (a - x) + 1 * (b - y) + 0 * (c - z)) with (b - y) by ring.
  replace (0 * (a - x) + 0 * (b - y) + 1 * (c - z)) with (c - z) by ring. reflexivity.
Qed.
(* a ball of radius 1, a cube of half width 1 and a staple of width and length 3 with wire of diameter 1 *)
Definition ball : shape3 := Sphere3 1.
Definition cube : shape3 := Box3 (V3 1 1 1).
Definition clip : shape3 := Staple3 (mk_staple 3 3 1).
Definition small (s : shape3) : Prop := s = ball \/ s = cube \/ s = clip.
Definition two (s t : shape3) (i : nat) : shape3 := match i with O => s | _ => t end.
Lemma ex_sized3 : forall s t i, small s -> small t -> sized3 (two s t i).
Proof.
  assert (K : forall s, small s -> sized3 s).
  { intros s [-> | [-> | ->]]; cbn [ball cube clip sized3 c0 c1 c2]; [lra|lra|]. exists 3, 3, 1. unfold dist_eps. repeat split; lra. }
  intros s t [|i] Hs Ht; apply K; assumption.
Qed.
Lemma clip_flat : forall p, hull (st_p (mk_staple 3 3 1)) p -> within3 (V3 (-1) (- (2 / 3)) 0, V3 1 (4 / 3) 0) p.
Proof.
  intros p H. remember (st_p (mk_staple 3 3 1)) as vs eqn:E. induction H as [vs v I|vs a b s Ha IHa Hb IHb Hs].
  - subst vs. unfold mk_staple in I. cbn [st_p In] in I. unfold within3. cbn [fst snd c0 c1 c2].
    destruct I as [<- | [<- | [<- | [<- | []]]]]; cbn [c0 c1 c2]; lra.
  - specialize (IHa E). specialize (IHb E). destruct a as [a0 a1 a2], b as [b0 b1 b2]. unfold within3, along, add3, scale3, sub3 in *. cbn [fst snd c0 c1 c2] in *.
    destruct IHa as ([A1 A2] & [A3 A4] & [A5 A6]), IHb as ([B1 B2] & [B3 B4] & [B5 B6]).
    assert (M : forall l u x y, l <= x -> x <= u -> l <= y -> y <= u -> l <= x + s * (y - x) <= u).
    { intros l u x y X1 X2 Y1 Y2. replace (x + s * (y - x)) with ((1 - s) * x + s * y) by ring.
      assert (0 <= (1 - s) * (x - l)) by (apply Rmult_le_pos; lra). assert (0 <= s * (y - l)) by (apply Rmult_le_pos; lra).
      assert (0 <= (1 - s) * (u - x)) by (apply Rmult_le_pos; lra). assert (0 <= s * (u - y)) by (apply Rmult_le_pos; lra). lra. }
    split; [|split]; apply M; assumption.
Qed.
Lemma small_near : forall s nb shape q i, small s -> shape i = s -> ori3 nb q i = id3 ->
  (forall p, reach3 nb shape q i p -> Rabs (c0 p - c0 (pos3 q i)) <= 2 /\ Rabs (c1 p - c1 (pos3 q i)) <= 2 /\ Rabs (c2 p - c2 (pos3 q i)) <= 2)
  /\ exists p p', reach3 nb shape q i p /\ reach3 nb shape q i p' /\ 1 <= c0 p' - c0 p.
Proof.
  intros s nb shape q i Sm Es Ei. unfold reach3, body3_points, body_at3. cbn [b3_shape b3_x b3_R]. rewrite Es, Ei. destruct (pos3 q i) as [x y z].
  destruct Sm as [-> | [-> | ->]]; cbn [ball cube clip].
  - split.
    + intros p H. apply ball_comps in H; [|lra]. destruct p as [a b c]. cbn [c0 c1 c2] in *. repeat split; apply abs_in; lra.
    + exists (V3 (x - 1) y z), (V3 (x + 1) y z). unfold in_ball3, dot3, sub3. cbn [c0 c1 c2]. repeat split; lra.
  - split.
    + intros p H. apply in_box3_id in H. cbn [c0 c1 c2] in *. destruct H as (A & B & C). repeat split; eapply Rle_trans; try eassumption; lra.
    + exists (V3 (x - 1) y z), (V3 (x + 1) y z). rewrite !in_box3_id. cbn [c0 c1 c2]. repeat split; try (apply abs_in; lra). lra.
  - split.
    + intros p (v & H & ->). apply clip_flat in H. destruct v as [a b c]. rewrite mul3_id. unfold within3, add3 in *. cbn [fst snd c0 c1 c2] in *.
      repeat split; apply abs_in; lra.
    + exists (add3 (V3 x y z) (V3 (-1) (4 / 3) 0)), (add3 (V3 x y z) (V3 1 (4 / 3) 0)). unfold add3, placed. cbn [c0 c1 c2].
      split; [|split; [|lra]].
      * exists (V3 (-1) (4 / 3) 0). rewrite mul3_id. split; [|reflexivity]. apply hull_vertex. unfold mk_staple. cbn [st_p In]. left. f_equal; field.
      * exists (V3 1 (4 / 3) 0). rewrite mul3_id. split; [|reflexivity]. apply hull_vertex. unfold mk_staple. cbn [st_p In]. right. right. right. left. f_equal; field.
Qed.
Definition no_narrow : narrow3 := {| n3_box_box := fun _ _ _ _ _ _ => []; n3_mesh_mesh := fun _ _ _ _ _ _ => [] |}.
Lemma ex_runs3 : forall o fixed s t q0 a b c x y z, small s -> small t ->
  Rabs a <= 18 -> Rabs b <= 18 -> Rabs c <= 18 -> Rabs x <= 18 -> Rabs y <= 18 -> Rabs z <= 18 ->
  let shape := two s t in let q1 := ex_q3 a b c x y z in
  let stuck := exists i j, (i < j)%nat /\ (j < 2)%nat /\ unsupported3 2 fixed shape q1 i j /\ bounds_meet3 2 shape q1 i j in
  (stuck /\ rb3_active_set o 2 fixed shape [] [] q0 q1 = Exit) \/ (~ stuck /\ exists set, rb3_active_set o 2 fixed shape [] [] q0 q1 = Ok set).
Proof.
  intros o fixed s t q0 a b c x y z Ss St A B C X Y Z shape q1 stuck. apply abs_inv in A, B, C, X, Y, Z.
  assert (N : forall i, (i < 2)%nat ->
    (forall p, reach3 2 shape q1 i p -> Rabs (c0 p - c0 (pos3 q1 i)) <= 2 /\ Rabs (c1 p - c1 (pos3 q1 i)) <= 2 /\ Rabs (c2 p - c2 (pos3 q1 i)) <= 2)
    /\ exists p p', reach3 2 shape q1 i p /\ reach3 2 shape q1 i p' /\ 1 <= c0 p' - c0 p).
  { intros [|[|i]] Hi; [| |lia]; (eapply small_near; [|reflexivity|apply ex_turned3; exact Hi]); assumption. }
  destruct (ex_pos3 a b c x y z) as [P0 P1].
  destruct (set3_runs o 2 fixed shape [] [] q0 q1 20 1) as [H|[H (bs & E)]].
  - cbn. lia.
  - intros i _. apply ex_sized3; assumption.
  - intros i Hi. apply ex_rotation3. exact Hi.
  - lia.
  - lra.
  - lra.
  - intros i p Hi H. destruct (N i Hi) as [K _]. specialize (K p H). destruct i as [|[|i]]; [| |lia]; unfold q1 in K; rewrite ?P0, ?P1 in K; cbn [c0 c1 c2] in K;
      destruct K as (K0 & K1 & K2); apply abs_inv in K0, K1, K2; repeat split; apply abs_in; lra.
  - intros i Hi. apply (N i Hi).
  - left. exact H.
  - right. split; [exact H|]. unfold rb3_active_set. rewrite E. cbn [obind]. eexists. reflexivity.
Qed.
