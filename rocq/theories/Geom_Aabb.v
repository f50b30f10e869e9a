(* Bounding boxes contain the bodies and are the smallest that do. *)
From Coq Require Import List Reals Arith Bool Lra Lia.
From Verif Require Import Outcome Ccd_Model Lin_Model ContactRb3_Model Rot_Model Rot_Spec Rot_Alg Geom_Model Geom_Spec Geom_Circle
  Geom_Sets Geom_Space.
Import ListNotations.
Open Scope R_scope.

Lemma sq_bound : forall a r, 0 <= r -> a * a <= r * r -> - r <= a <= r.
Proof.
  intros a r H L. split.
  - destruct (Rle_dec (- r) a) as [K|K]; [exact K|exfalso].
    assert (r * r < (- a) * (- a)) by (apply Rmult_le_0_lt_compat; lra). lra.
  - destruct (Rle_dec a r) as [K|K]; [exact K|exfalso].
    assert (r * r < a * a) by (apply Rmult_le_0_lt_compat; lra). lra.
Qed.

(* w with the sign of a *)
Definition sg (a w : R) : R := if Rle_dec 0 a then w else - w.
Lemma sg_mul : forall a w, a * sg a w = Rabs a * w.
Proof. intros a w. unfold sg, Rabs. destruct (Rle_dec 0 a), (Rcase_abs a); lra. Qed.
Lemma sg_bound : forall a w, 0 <= w -> - w <= sg a w <= w.
Proof. intros a w H. unfold sg. destruct (Rle_dec 0 a); lra. Qed.
Lemma abs_mul_bound : forall a y w, - w <= y <= w -> - (Rabs a * w) <= a * y <= Rabs a * w.
Proof.
  intros a y w H. unfold Rabs. destruct (Rcase_abs a) as [K|K].
  - assert (0 <= (- a) * (w - y)) by (apply Rmult_le_pos; lra).
    assert (0 <= (- a) * (w + y)) by (apply Rmult_le_pos; lra). lra.
  - assert (0 <= a * (w - y)) by (apply Rmult_le_pos; lra).
    assert (0 <= a * (w + y)) by (apply Rmult_le_pos; lra). lra.
Qed.

(* ---------- the plane ---------- *)
Lemma tight2_by : forall (b : box2) (S : vec -> Prop), encloses2 b S ->
  (exists p, S p /\ fst p = fst (fst b)) -> (exists p, S p /\ snd p = snd (fst b)) ->
  (exists p, S p /\ fst p = fst (snd b)) -> (exists p, S p /\ snd p = snd (snd b)) -> tight2 b S.
Proof.
  intros b S E (p1 & S1 & E1) (p2 & S2 & E2) (p3 & S3 & E3) (p4 & S4 & E4). split; [exact E|].
  intros b' E'. pose proof (E' _ S1) as [A1 _]. pose proof (E' _ S2) as [_ A2]. pose proof (E' _ S3) as [A3 _].
  pose proof (E' _ S4) as [_ A4]. lra.
Qed.
Lemma tight2_ext : forall b (S T : vec -> Prop), (forall p, S p <-> T p) -> tight2 b S -> tight2 b T.
Proof.
  intros b S T H [E M]. split.
  - intros p Hp. apply E, H, Hp.
  - intros b' E'. apply M. intros p Hp. apply E', H, Hp.
Qed.

Theorem circle_aabb_tight : forall r x theta, 0 <= r -> tight2 (circle_aabb r x theta) (in_disc x r).
Proof.
  intros r [x y] theta H. unfold circle_aabb, vsub, vadd. cbn [fst snd]. apply tight2_by; cbn [fst snd].
  - intros [px py] D. unfold in_disc, vdot, vsub in D. cbn [fst snd] in D. unfold within2. cbn [fst snd].
    pose proof (sq_nn (px - x)). pose proof (sq_nn (py - y)).
    pose proof (sq_bound (px - x) r H ltac:(lra)). pose proof (sq_bound (py - y) r H ltac:(lra)). lra.
  - exists (x - r, y). split; [|reflexivity]. unfold in_disc, vdot, vsub. cbn [fst snd]. apply Req_le. ring.
  - exists (x, y - r). split; [|reflexivity]. unfold in_disc, vdot, vsub. cbn [fst snd]. apply Req_le. ring.
  - exists (x + r, y). split; [|reflexivity]. unfold in_disc, vdot, vsub. cbn [fst snd]. apply Req_le. ring.
  - exists (x, y + r). split; [|reflexivity]. unfold in_disc, vdot, vsub. cbn [fst snd]. apply Req_le. ring.
Qed.

Theorem box_aabb_tight : forall r x theta, 0 <= fst r -> 0 <= snd r -> tight2 (box_aabb r x theta) (in_box2 x theta r).
Proof.
  intros [rx ry] [x y] theta Hx Hy. cbn [fst snd] in Hx, Hy. unfold box_aabb, rotation2, vsub, vadd. cbn [fst snd].
  pose proof (sin2_cos2 theta) as U. unfold Rsqr in U. set (c := cos theta) in *. set (s := sin theta) in *.
  assert (In : forall a b, - rx <= a <= rx -> - ry <= b <= ry -> in_box2 (x, y) theta (rx, ry) (x + (c * a + - s * b), y + (s * a + c * b))).
  { intros a b A B. unfold in_box2, axis_x, axis_y, vdot, vsub. cbn [fst snd]. fold c s. split; apply abs_in.
    - replace (c * (x + (c * a + - s * b) - x) + s * (y + (s * a + c * b) - y)) with ((s * s + c * c) * a) by ring.
      rewrite U, Rmult_1_l. exact A.
    - replace (- s * (x + (c * a + - s * b) - x) + c * (y + (s * a + c * b) - y)) with ((s * s + c * c) * b) by ring.
      rewrite U, Rmult_1_l. exact B. }
  apply tight2_by; cbn [fst snd].
  - intros [px py] [A B]. unfold axis_x, axis_y, vdot, vsub in A, B. cbn [fst snd] in A, B. fold c s in A, B.
    apply abs_inv in A. apply abs_inv in B. unfold within2. cbn [fst snd].
    set (a := c * (px - x) + s * (py - y)) in *. set (b := - s * (px - x) + c * (py - y)) in *.
    assert (E1 : px = x + (c * a + - s * b)).
    { transitivity (x + (s * s + c * c) * (px - x)); [rewrite U; ring|]. unfold a, b. ring. }
    assert (E2 : py = y + (s * a + c * b)).
    { transitivity (y + (s * s + c * c) * (py - y)); [rewrite U; ring|]. unfold a, b. ring. }
    pose proof (abs_mul_bound c a rx A). pose proof (abs_mul_bound (- s) b ry B).
    pose proof (abs_mul_bound s a rx A). pose proof (abs_mul_bound c b ry B).
    clearbody a b. lra.
  - exists (x + (c * (- sg c rx) + - s * (- sg (- s) ry)), y + (s * (- sg c rx) + c * (- sg (- s) ry))). split.
    + apply In; [pose proof (sg_bound c rx Hx)|pose proof (sg_bound (- s) ry Hy)]; lra.
    + cbn [fst]. pose proof (sg_mul c rx). pose proof (sg_mul (- s) ry). lra.
  - exists (x + (c * (- sg s rx) + - s * (- sg c ry)), y + (s * (- sg s rx) + c * (- sg c ry))). split.
    + apply In; [pose proof (sg_bound s rx Hx)|pose proof (sg_bound c ry Hy)]; lra.
    + cbn [snd]. pose proof (sg_mul s rx). pose proof (sg_mul c ry). lra.
  - exists (x + (c * sg c rx + - s * sg (- s) ry), y + (s * sg c rx + c * sg (- s) ry)). split.
    + apply In; [pose proof (sg_bound c rx Hx)|pose proof (sg_bound (- s) ry Hy)]; lra.
    + cbn [fst]. pose proof (sg_mul c rx). pose proof (sg_mul (- s) ry). lra.
  - exists (x + (c * sg s rx + - s * sg c ry), y + (s * sg s rx + c * sg c ry)). split.
    + apply In; [pose proof (sg_bound s rx Hx)|pose proof (sg_bound c ry Hy)]; lra.
    + cbn [snd]. pose proof (sg_mul s rx). pose proof (sg_mul c ry). lra.
Qed.

Lemma between : forall a b s, 0 <= s <= 1 -> Rmin a b <= a + s * (b - a) <= Rmax a b.
Proof.
  intros a b s H. unfold Rmin, Rmax. destruct (Rle_dec a b) as [K|K].
  - assert (0 <= s * (b - a)) by (apply Rmult_le_pos; lra).
    assert (0 <= (1 - s) * (b - a)) by (apply Rmult_le_pos; lra). lra.
  - assert (0 <= s * (a - b)) by (apply Rmult_le_pos; lra).
    assert (0 <= (1 - s) * (a - b)) by (apply Rmult_le_pos; lra). lra.
Qed.

Theorem circle_sweep_tight : forall r x0 t0 x1 t1, 0 <= r ->
  tight2 (circle_collision_aabb r x0 t0 x1 t1) (swept_disc x0 x1 r).
Proof.
  intros r [x0 y0] t0 [x1 y1] t1 H.
  assert (I0 : forall p, in_disc (x0, y0) r p -> swept_disc (x0, y0) (x1, y1) r p).
  { intros p D. exists 0. split; [lra|]. replace (vadd (x0, y0) (vscale 0 (vsub (x1, y1) (x0, y0)))) with (x0, y0); [exact D|].
    unfold vadd, vscale, vsub. cbn [fst snd]. f_equal; ring. }
  assert (I1 : forall p, in_disc (x1, y1) r p -> swept_disc (x0, y0) (x1, y1) r p).
  { intros p D. exists 1. split; [lra|]. replace (vadd (x0, y0) (vscale 1 (vsub (x1, y1) (x0, y0)))) with (x1, y1); [exact D|].
    unfold vadd, vscale, vsub. cbn [fst snd]. f_equal; ring. }
  assert (Px : forall x y k, k = r \/ k = - r -> in_disc (x, y) r (x + k, y)).
  { intros x y k K. unfold in_disc, vdot, vsub. cbn [fst snd]. destruct K as [-> | ->]; apply Req_le; ring. }
  assert (Py : forall x y k, k = r \/ k = - r -> in_disc (x, y) r (x, y + k)).
  { intros x y k K. unfold in_disc, vdot, vsub. cbn [fst snd]. destruct K as [-> | ->]; apply Req_le; ring. }
  unfold circle_collision_aabb. cbn [fst snd]. apply tight2_by; cbn [fst snd].
  - intros [px py] (s & Hs & D). unfold in_disc, vdot, vsub, vadd, vscale in D. cbn [fst snd] in D. unfold within2. cbn [fst snd].
    pose proof (between x0 x1 s Hs) as Bx. pose proof (between y0 y1 s Hs) as By.
    set (cx := x0 + s * (x1 - x0)) in *. set (cy := y0 + s * (y1 - y0)) in *.
    pose proof (sq_nn (px - cx)). pose proof (sq_nn (py - cy)).
    pose proof (sq_bound (px - cx) r H ltac:(lra)). pose proof (sq_bound (py - cy) r H ltac:(lra)). clearbody cx cy. lra.
  - unfold Rmin. destruct (Rle_dec x0 x1).
    + exists (x0 + - r, y0). split; [apply I0, Px; auto|cbn [fst]; ring].
    + exists (x1 + - r, y1). split; [apply I1, Px; auto|cbn [fst]; ring].
  - unfold Rmin. destruct (Rle_dec y0 y1).
    + exists (x0, y0 + - r). split; [apply I0, Py; auto|cbn [snd]; ring].
    + exists (x1, y1 + - r). split; [apply I1, Py; auto|cbn [snd]; ring].
  - unfold Rmax. destruct (Rle_dec x0 x1).
    + exists (x1 + r, y1). split; [apply I1, Px; auto|reflexivity].
    + exists (x0 + r, y0). split; [apply I0, Px; auto|reflexivity].
  - unfold Rmax. destruct (Rle_dec y0 y1).
    + exists (x1, y1 + r). split; [apply I1, Py; auto|reflexivity].
    + exists (x0, y0 + r). split; [apply I0, Py; auto|reflexivity].
Qed.

(* what a running box says of the points seen so far *)
Definition covers2 (acc : option box2) (S : vec -> Prop) : Prop :=
  match acc with Some b => tight2 b S | None => forall p, ~ S p end.
Lemma grow2_covers : forall acc b S T, covers2 acc S -> tight2 b T -> covers2 (grow2 acc b) (fun p => S p \/ T p).
Proof.
  intros [a|] b S T Ha Hb; cbn [covers2 grow2] in *.
  - destruct Ha as [E1 M1], Hb as [E2 M2]. split.
    + intros p [Hp|Hp]; [pose proof (E1 p Hp) as K|pose proof (E2 p Hp) as K]; unfold within2 in *; cbn [fst snd];
      unfold Rmin, Rmax; repeat match goal with |- context [Rle_dec ?x ?y] => destruct (Rle_dec x y) end; lra.
    + intros b' E'. pose proof (M1 b' (fun p Hp => E' p (or_introl Hp))) as K1.
      pose proof (M2 b' (fun p Hp => E' p (or_intror Hp))) as K2. cbn [fst snd].
      unfold Rmin, Rmax; repeat match goal with |- context [Rle_dec ?x ?y] => destruct (Rle_dec x y) end; lra.
  - eapply tight2_ext; [|exact Hb]. intros p. split; [tauto|]. intros [K|K]; [exfalso; exact (Ha p K)|exact K].
Qed.
Lemma covers2_ext : forall acc (S T : vec -> Prop), (forall p, S p <-> T p) -> covers2 acc S -> covers2 acc T.
Proof.
  intros [b|] S T H; cbn [covers2]; [apply tight2_ext; exact H|]. intros K p Hp. apply (K p), H, Hp.
Qed.
Lemma fold_covers2 : forall (X : Type) (box : X -> box2) (pts : X -> vec -> Prop) l acc S,
  (forall x, In x l -> tight2 (box x) (pts x)) -> covers2 acc S ->
  covers2 (fold_left (fun a x => grow2 a (box x)) l acc) (fun p => S p \/ exists x, In x l /\ pts x p).
Proof.
  intros X box pts. induction l as [|x l IH]; intros acc S H Ha; cbn [fold_left].
  - eapply covers2_ext; [|exact Ha]. intros p. split; [tauto|]. intros [K|(y & [] & _)]. exact K.
  - eapply covers2_ext; [|apply (IH _ (fun p => S p \/ pts x p))].
    + intros p. split.
      * intros [[K|K]|(y & Hy & K)]; [tauto|right; exists x; split; [left; reflexivity|exact K]|right; exists y; split; [right; exact Hy|exact K]].
      * intros [K|(y & [E|Hy] & K)]; [tauto|subst; tauto|right; exists y; split; assumption].
    + intros y Hy. apply H. right. exact Hy.
    + apply grow2_covers; [exact Ha|]. apply H. left. reflexivity.
Qed.

Theorem rb2_bounding_box_tight : forall bodies, Forall body2_valid bodies ->
  covers2 (rb2_bounding_box bodies) (fun p => exists b, In b bodies /\ body2_points b p).
Proof.
  intros bodies V. unfold rb2_bounding_box.
  eapply covers2_ext; [|apply (fold_covers2 body2 body2_aabb body2_points bodies None (fun _ => False))].
  - intros p. cbv beta. split; [intros [[]|K]; exact K|intros K; right; exact K].
  - intros b Hb. rewrite Forall_forall in V. specialize (V b Hb). unfold body2_valid, body2_aabb, body2_points in *.
    destruct (b2_shape b) as [r|r].
    + apply circle_aabb_tight. exact V.
    + apply box_aabb_tight; apply V.
  - intros p [].
Qed.
Theorem ball_bounding_box_tight : forall balls drums, Forall (fun b => 0 <= snd b) (balls ++ drums) ->
  covers2 (ball_bounding_box balls drums) (fun p => exists b, In b (balls ++ drums) /\ in_disc (fst b) (snd b) p).
Proof.
  intros balls drums V. unfold ball_bounding_box. rewrite <- fold_left_app.
  eapply covers2_ext; [|apply (fold_covers2 (vec * R) (fun b => circle_aabb (snd b) (fst b) 0) (fun b => in_disc (fst b) (snd b)) (balls ++ drums) None (fun _ => False))].
  - intros p. cbv beta. split; [intros [[]|K]; exact K|intros K; right; exact K].
  - intros b Hb. rewrite Forall_forall in V. apply circle_aabb_tight, (V b Hb).
  - intros p [].
Qed.

(* ---------- space ---------- *)
Lemma tight3_by : forall (b : box3) (S : v3 -> Prop), encloses3 b S ->
  (exists p, S p /\ c0 p = c0 (fst b)) -> (exists p, S p /\ c1 p = c1 (fst b)) -> (exists p, S p /\ c2 p = c2 (fst b)) ->
  (exists p, S p /\ c0 p = c0 (snd b)) -> (exists p, S p /\ c1 p = c1 (snd b)) -> (exists p, S p /\ c2 p = c2 (snd b)) -> tight3 b S.
Proof.
  intros b S E (p1 & S1 & E1) (p2 & S2 & E2) (p3 & S3 & E3) (p4 & S4 & E4) (p5 & S5 & E5) (p6 & S6 & E6). split; [exact E|].
  intros b' E'. pose proof (E' _ S1) as (A1 & _ & _). pose proof (E' _ S2) as (_ & A2 & _). pose proof (E' _ S3) as (_ & _ & A3).
  pose proof (E' _ S4) as (A4 & _ & _). pose proof (E' _ S5) as (_ & A5 & _). pose proof (E' _ S6) as (_ & _ & A6). lra.
Qed.
Lemma tight3_ext : forall b (S T : v3 -> Prop), (forall p, S p <-> T p) -> tight3 b S -> tight3 b T.
Proof.
  intros b S T H [E M]. split.
  - intros p Hp. apply E, H, Hp.
  - intros b' E'. apply M. intros p Hp. apply E', H, Hp.
Qed.
Lemma ball_comps : forall x r p, 0 <= r -> in_ball3 x r p ->
  - r <= c0 p - c0 x <= r /\ - r <= c1 p - c1 x <= r /\ - r <= c2 p - c2 x <= r.
Proof.
  intros [x y z] r [px py pz] H D. unfold in_ball3, dot3, sub3 in D. cbn [c0 c1 c2] in *.
  pose proof (sq_nn (px - x)). pose proof (sq_nn (py - y)). pose proof (sq_nn (pz - z)).
  pose proof (sq_bound (px - x) r H ltac:(lra)). pose proof (sq_bound (py - y) r H ltac:(lra)).
  pose proof (sq_bound (pz - z) r H ltac:(lra)). lra.
Qed.
Lemma ball_pole : forall x r d, dot3 d d = 1 -> in_ball3 x r (add3 x (scale3 r d)).
Proof.
  intros x r d H. unfold in_ball3. rewrite sub_add3, dot_scale_sq, H. lra.
Qed.
Theorem sphere_aabb_tight : forall r x M, 0 <= r -> tight3 (sphere_aabb r x M) (in_ball3 x r).
Proof.
  intros r x M H.
  assert (P : forall d, dot3 d d = 1 -> in_ball3 x r (add3 x (scale3 r d))) by (intros; apply ball_pole; assumption).
  unfold sphere_aabb. apply tight3_by; cbn [fst snd].
  - intros p D. pose proof (ball_comps x r p H D). unfold within3, sub3, add3. cbn [fst snd c0 c1 c2]. lra.
  - exists (add3 x (scale3 r (V3 (-1) 0 0))). split; [apply P; unfold dot3; cbn [c0 c1 c2]; ring|unfold add3, sub3, scale3; cbn [c0 c1 c2]; ring].
  - exists (add3 x (scale3 r (V3 0 (-1) 0))). split; [apply P; unfold dot3; cbn [c0 c1 c2]; ring|unfold add3, sub3, scale3; cbn [c0 c1 c2]; ring].
  - exists (add3 x (scale3 r (V3 0 0 (-1)))). split; [apply P; unfold dot3; cbn [c0 c1 c2]; ring|unfold add3, sub3, scale3; cbn [c0 c1 c2]; ring].
  - exists (add3 x (scale3 r (V3 1 0 0))). split; [apply P; unfold dot3; cbn [c0 c1 c2]; ring|unfold add3, sub3, scale3; cbn [c0 c1 c2]; ring].
  - exists (add3 x (scale3 r (V3 0 1 0))). split; [apply P; unfold dot3; cbn [c0 c1 c2]; ring|unfold add3, sub3, scale3; cbn [c0 c1 c2]; ring].
  - exists (add3 x (scale3 r (V3 0 0 1))). split; [apply P; unfold dot3; cbn [c0 c1 c2]; ring|unfold add3, sub3, scale3; cbn [c0 c1 c2]; ring].
Qed.

Definition sg3 (u w : v3) : v3 := V3 (sg (c0 u) (c0 w)) (sg (c1 u) (c1 w)) (sg (c2 u) (c2 w)).
Lemma dot_sg3 : forall u w, dot3 u (sg3 u w) = dot3 (abs3 u) w.
Proof.
  intros u w. unfold dot3, sg3, abs3. cbn [c0 c1 c2]. rewrite !sg_mul. reflexivity.
Qed.
Definition fits (w y : v3) : Prop := - c0 w <= c0 y <= c0 w /\ - c1 w <= c1 y <= c1 w /\ - c2 w <= c2 y <= c2 w.
Lemma dot_fits : forall u w y, fits w y -> - dot3 (abs3 u) w <= dot3 u y <= dot3 (abs3 u) w.
Proof.
  intros u w y (A & B & C). unfold dot3, abs3. cbn [c0 c1 c2].
  pose proof (abs_mul_bound (c0 u) _ _ A). pose proof (abs_mul_bound (c1 u) _ _ B). pose proof (abs_mul_bound (c2 u) _ _ C). lra.
Qed.
Lemma sg3_fits : forall u w, 0 <= c0 w -> 0 <= c1 w -> 0 <= c2 w -> fits w (sg3 u w).
Proof. intros. unfold fits, sg3. cbn [c0 c1 c2]. split; [|split]; apply sg_bound; assumption. Qed.
Lemma neg_fits : forall w y, fits w y -> fits w (scale3 (-1) y).
Proof. intros w y. unfold fits, scale3. cbn [c0 c1 c2]. lra. Qed.
Lemma in_box3_fits : forall x M w y, rotation M -> (in_box3 x M w (add3 x (mul3 M y)) <-> fits w y).
Proof.
  intros x M w y H. rewrite in_box3_local, sub_add3, rot_forth by exact H. cbv zeta. unfold fits. split.
  - intros (A & B & C). split; [|split]; apply abs_inv; assumption.
  - intros (A & B & C). split; [|split]; apply abs_in; assumption.
Qed.
Lemma dot3_neg_r : forall u y, dot3 u (scale3 (-1) y) = - dot3 u y.
Proof. intros u y. unfold dot3, scale3. cbn [c0 c1 c2]. ring. Qed.
Theorem box3_aabb_tight : forall w x M, rotation M -> 0 <= c0 w -> 0 <= c1 w -> 0 <= c2 w ->
  tight3 (box3_aabb w x M) (in_box3 x M w).
Proof.
  intros w x M H W0 W1 W2. unfold box3_aabb. apply tight3_by; cbn [fst snd].
  - intros p D.
    assert (Ep : p = add3 x (mul3 M (mul3 (tr M) (sub3 p x)))) by (rewrite rot_back, add_sub3 by exact H; reflexivity).
    rewrite Ep in D. apply in_box3_fits in D; [|exact H]. set (y := mul3 (tr M) (sub3 p x)) in *. rewrite Ep.
    pose proof (dot_fits (row0 M) w y D). pose proof (dot_fits (row1 M) w y D). pose proof (dot_fits (row2_ M) w y D).
    unfold within3, mul3, add3, sub3. cbn [fst snd c0 c1 c2]. lra.
  - exists (add3 x (mul3 M (scale3 (-1) (sg3 (row0 M) w)))). split; [apply in_box3_fits; [exact H|apply neg_fits, sg3_fits; assumption]|].
    unfold mul3, add3, sub3. cbn [c0 c1 c2]. rewrite dot3_neg_r, dot_sg3. ring.
  - exists (add3 x (mul3 M (scale3 (-1) (sg3 (row1 M) w)))). split; [apply in_box3_fits; [exact H|apply neg_fits, sg3_fits; assumption]|].
    unfold mul3, add3, sub3. cbn [c0 c1 c2]. rewrite dot3_neg_r, dot_sg3. ring.
  - exists (add3 x (mul3 M (scale3 (-1) (sg3 (row2_ M) w)))). split; [apply in_box3_fits; [exact H|apply neg_fits, sg3_fits; assumption]|].
    unfold mul3, add3, sub3. cbn [c0 c1 c2]. rewrite dot3_neg_r, dot_sg3. ring.
  - exists (add3 x (mul3 M (sg3 (row0 M) w))). split; [apply in_box3_fits; [exact H|apply sg3_fits; assumption]|].
    unfold mul3, add3, sub3. cbn [c0 c1 c2]. rewrite dot_sg3. ring.
  - exists (add3 x (mul3 M (sg3 (row1 M) w))). split; [apply in_box3_fits; [exact H|apply sg3_fits; assumption]|].
    unfold mul3, add3, sub3. cbn [c0 c1 c2]. rewrite dot_sg3. ring.
  - exists (add3 x (mul3 M (sg3 (row2_ M) w))). split; [apply in_box3_fits; [exact H|apply sg3_fits; assumption]|].
    unfold mul3, add3, sub3. cbn [c0 c1 c2]. rewrite dot_sg3. ring.
Qed.

Definition covers3 (acc : option box3) (S : v3 -> Prop) : Prop :=
  match acc with Some b => tight3 b S | None => forall p, ~ S p end.
Lemma covers3_ext : forall acc (S T : v3 -> Prop), (forall p, S p <-> T p) -> covers3 acc S -> covers3 acc T.
Proof.
  intros [b|] S T H; cbn [covers3]; [apply tight3_ext; exact H|]. intros K p Hp. apply (K p), H, Hp.
Qed.
Lemma grow3_covers : forall acc b S T, covers3 acc S -> tight3 b T -> covers3 (grow3 acc b) (fun p => S p \/ T p).
Proof.
  intros [a|] b S T Ha Hb; cbn [covers3 grow3] in *.
  - destruct Ha as [E1 M1], Hb as [E2 M2]. split.
    + intros p [Hp|Hp]; [pose proof (E1 p Hp) as K|pose proof (E2 p Hp) as K]; unfold within3, min3, max3 in *; cbn [fst snd c0 c1 c2];
      unfold Rmin, Rmax; repeat match goal with |- context [Rle_dec ?x ?y] => destruct (Rle_dec x y) end; lra.
    + intros b' E'. pose proof (M1 b' (fun p Hp => E' p (or_introl Hp))) as K1.
      pose proof (M2 b' (fun p Hp => E' p (or_intror Hp))) as K2. unfold min3, max3. cbn [fst snd c0 c1 c2].
      unfold Rmin, Rmax. split; [|split; [|split; [|split; [|split]]]];
      match goal with |- context [Rle_dec ?x ?y] => destruct (Rle_dec x y) end; lra.
  - eapply tight3_ext; [|exact Hb]. intros p. split; [tauto|]. intros [K|K]; [exfalso; exact (Ha p K)|exact K].
Qed.
Lemma fold_covers3 : forall (X : Type) (box : X -> option box3) (pts : X -> v3 -> Prop) l acc S,
  (forall x, In x l -> covers3 (box x) (pts x)) -> covers3 acc S ->
  covers3 (fold_left (fun a x => match box x with None => a | Some b => grow3 a b end) l acc) (fun p => S p \/ exists x, In x l /\ pts x p).
Proof.
  intros X box pts. induction l as [|x l IH]; intros acc S H Ha; cbn [fold_left].
  - eapply covers3_ext; [|exact Ha]. intros p. split; [tauto|]. intros [K|(y & [] & _)]. exact K.
  - eapply covers3_ext; [|apply (IH _ (fun p => S p \/ pts x p))].
    + intros p. split.
      * intros [[K|K]|(y & Hy & K)]; [tauto|right; exists x; split; [left; reflexivity|exact K]|right; exists y; split; [right; exact Hy|exact K]].
      * intros [K|(y & [E|Hy] & K)]; [tauto|subst; tauto|right; exists y; split; assumption].
    + intros y Hy. apply H. right. exact Hy.
    + pose proof (H x (or_introl eq_refl)) as Hx. destruct (box x) as [b|]; cbn [covers3] in Hx.
      * apply grow3_covers; [exact Ha|exact Hx].
      * eapply covers3_ext; [|exact Ha]. intros p. split; [tauto|]. intros [K|K]; [exact K|exfalso; exact (Hx p K)].
Qed.

Lemma point_tight3 : forall p, tight3 (p, p) (fun q => q = p).
Proof.
  intros p. apply tight3_by; cbn [fst snd]; try (exists p; split; reflexivity).
  intros q ->. unfold within3. cbn [fst snd]. lra.
Qed.
Lemma vertices_corners : forall vs x M, covers3 (vertices_aabb vs x M) (placed x M (fun v => In v vs)).
Proof.
  intros vs x M. unfold vertices_aabb.
  eapply covers3_ext; [|apply (fold_covers3 v3 (fun v => Some (add3 (mul3 M v) x, add3 (mul3 M v) x)) (fun v p => p = add3 (mul3 M v) x) vs None (fun _ => False))].
  - intros p. cbv beta. unfold placed. split.
    + intros [[]|(v & Hv & E)]. exists v. split; [exact Hv|]. rewrite E. apply v3_ext; unfold add3; cbn [c0 c1 c2]; ring.
    + intros (v & Hv & E). right. exists v. split; [exact Hv|]. rewrite E. apply v3_ext; unfold add3; cbn [c0 c1 c2]; ring.
  - intros v _. cbn [covers3]. apply point_tight3.
  - intros p [].
Qed.
Lemma along_within : forall b p q s, 0 <= s <= 1 -> within3 b p -> within3 b q -> within3 b (along p q s).
Proof.
  intros b p q s Hs (P0 & P1 & P2) (Q0 & Q1 & Q2). unfold within3, along, add3, scale3, sub3. cbn [c0 c1 c2].
  assert (K : forall lo hi u v, lo <= u <= hi -> lo <= v <= hi -> lo <= u + s * (v - u) <= hi).
  { intros lo hi u v U V.
    assert (0 <= (1 - s) * (u - lo)) by (apply Rmult_le_pos; lra). assert (0 <= s * (v - lo)) by (apply Rmult_le_pos; lra).
    assert (0 <= (1 - s) * (hi - u)) by (apply Rmult_le_pos; lra). assert (0 <= s * (hi - v)) by (apply Rmult_le_pos; lra). lra. }
  split; [|split]; apply K; assumption.
Qed.
Lemma placed_along : forall x M a b s, add3 x (mul3 M (along a b s)) = along (add3 x (mul3 M a)) (add3 x (mul3 M b)) s.
Proof.
  intros x M a b s. unfold along. rewrite mul3_add, mul3_scale, mul3_sub. generalize (mul3 M a) (mul3 M b). intros u v.
  apply v3_ext; unfold add3, scale3, sub3; cbn [c0 c1 c2]; ring.
Qed.
Lemma hull_within : forall b x M vs, encloses3 b (placed x M (fun v => In v vs)) -> encloses3 b (placed x M (hull vs)).
Proof.
  intros b x M vs E p (v & Hv & ->). induction Hv as [vs v I|vs a a' s A IA A' IA' Hs].
  - apply E. exists v. split; [exact I|reflexivity].
  - rewrite placed_along. apply along_within; auto.
Qed.
Theorem vertices_aabb_tight : forall vs x M, covers3 (vertices_aabb vs x M) (placed x M (hull vs)).
Proof.
  intros vs x M. pose proof (vertices_corners vs x M) as K. destruct (vertices_aabb vs x M) as [b|]; cbn [covers3] in *.
  - destruct K as [E N]. split; [apply hull_within, E|].
    intros b' E'. apply N. intros p (v & Hv & ->). apply E'. exists v. split; [apply hull_vertex; exact Hv|reflexivity].
  - intros p (v & Hv & _). assert (Z : forall w, ~ In w vs) by (intros w Hw; apply (K (add3 x (mul3 M w))); exists w; auto).
    clear K. induction Hv; [eapply Z; eassumption|auto].
Qed.

Theorem rb3_bounding_box_tight : forall bodies, Forall body3_valid bodies ->
  covers3 (rb3_bounding_box bodies) (fun p => exists b, In b bodies /\ body3_points b p).
Proof.
  intros bodies V. unfold rb3_bounding_box.
  eapply covers3_ext; [|apply (fold_covers3 body3 body3_aabb body3_points bodies None (fun _ => False))].
  - intros p. cbv beta. split; [intros [[]|K]; exact K|intros K; right; exact K].
  - intros b Hb. rewrite Forall_forall in V. specialize (V b Hb). unfold body3_valid, body3_aabb, body3_points in *.
    destruct V as [Rt V]. destruct (b3_shape b) as [w|r|s|vs].
    + cbn [covers3]. apply box3_aabb_tight; tauto.
    + cbn [covers3]. apply sphere_aabb_tight. exact V.
    + destruct V.
    + apply vertices_aabb_tight.
  - intros p [].
Qed.

(* ---------- staples ---------- *)
Lemma staple_p : forall w l D i, nth i (st_p (mk_staple w l D)) zero3 = if (i <? 4)%nat then staple_corner (w - D) (l - D) i else zero3.
Proof.
  intros w l D i. unfold mk_staple, staple_corner. cbn [st_p].
  destruct i as [|[|[|[|i]]]]; cbn [nth Nat.ltb Nat.leb]; try (f_equal; field); destruct i; reflexivity.
Qed.
Lemma staple_in : forall w l D v, In v (st_p (mk_staple w l D)) <-> exists i, (i < 4)%nat /\ v = staple_corner (w - D) (l - D) i.
Proof.
  intros w l D v. split.
  - intros H. destruct (In_nth _ _ zero3 H) as (i & Hi & E). exists i.
    change (length (st_p (mk_staple w l D))) with 4%nat in Hi. split; [exact Hi|].
    rewrite staple_p in E. destruct (Nat.ltb_spec i 4); [symmetry; exact E|lia].
  - intros (i & Hi & ->). pose proof (staple_p w l D i) as E. destruct (Nat.ltb_spec i 4); [|lia].
    rewrite <- E. apply nth_In. exact Hi.
Qed.
Lemma along0 : forall p q, along p q 0 = p.
Proof. intros. apply v3_ext; unfold along, add3, scale3, sub3; cbn [c0 c1 c2]; ring. Qed.
Lemma along1 : forall p q, along p q 1 = q.
Proof. intros. apply v3_ext; unfold along, add3, scale3, sub3; cbn [c0 c1 c2]; ring. Qed.
(* the ball of radius r at each corner belongs to the staple *)
Lemma corner_ball : forall w l r x M i z, (i < 4)%nat -> in_ball3 (add3 x (mul3 M (staple_corner w l i))) r z -> in_staple w l r x M z.
Proof.
  intros w l r x M i z Hi B. destruct (Nat.eq_dec i 3) as [->|N].
  - exists 2%nat. split; [lia|]. exists 1. split; [lra|]. rewrite along1. exact B.
  - exists i. split; [lia|]. exists 0. split; [lra|]. rewrite along0. exact B.
Qed.

Theorem staple_box : forall w l D x M, 0 <= D ->
  exists b, vertices_aabb (st_p (mk_staple w l D)) x M = Some b
    /\ tight3 (widened b (D / 2)) (in_staple (w - D) (l - D) (D / 2) x M).
Proof.
  intros w l D x M HD.
  pose proof (vertices_corners (st_p (mk_staple w l D)) x M) as K.
  destruct (vertices_aabb (st_p (mk_staple w l D)) x M) as [b|] eqn:V; cbn [covers3] in K.
  2:{ exfalso. apply (K (add3 x (mul3 M (nth 0 (st_p (mk_staple w l D)) zero3)))). eexists. split; [|reflexivity].
      apply nth_In. cbn. lia. }
  exists b. split; [reflexivity|]. destruct K as [E N].
  assert (Cb : forall i, (i < 4)%nat -> within3 b (add3 x (mul3 M (staple_corner (w - D) (l - D) i)))).
  { intros i Hi. apply E. exists (staple_corner (w - D) (l - D) i). split; [apply staple_in; exists i; auto|reflexivity]. }
  split.
  - intros z (e & He & s & Hs & B).
    assert (A : within3 b (along (add3 x (mul3 M (staple_corner (w - D) (l - D) e))) (add3 x (mul3 M (staple_corner (w - D) (l - D) (S e)))) s)).
    { apply along_within; [exact Hs|apply Cb; lia|apply Cb; lia]. }
    pose proof (ball_comps _ (D / 2) z ltac:(lra) B) as Bc.
    revert A Bc. generalize (along (add3 x (mul3 M (staple_corner (w - D) (l - D) e))) (add3 x (mul3 M (staple_corner (w - D) (l - D) (S e)))) s).
    intros y A Bc. unfold within3, widened, sub3, add3 in *. cbn [fst snd c0 c1 c2]. lra.
  - intros b' E'.
    (* the box b' drawn in by r encloses the corners *)
    pose (b2 := (add3 (fst b') (V3 (D / 2) (D / 2) (D / 2)), sub3 (snd b') (V3 (D / 2) (D / 2) (D / 2)))).
    assert (E2 : encloses3 b2 (placed x M (fun v => In v (st_p (mk_staple w l D))))).
    { intros p (v & Hv & ->). apply staple_in in Hv. destruct Hv as (i & Hi & ->).
      set (y := add3 x (mul3 M (staple_corner (w - D) (l - D) i))).
      assert (Q : forall d, dot3 d d = 1 -> within3 b' (add3 y (scale3 (D / 2) d))).
      { intros d Hd. apply E'. apply (corner_ball _ _ _ _ _ i); [exact Hi|]. fold y. apply ball_pole. exact Hd. }
      pose proof (Q (V3 1 0 0) ltac:(unfold dot3; cbn [c0 c1 c2]; ring)) as Q1.
      pose proof (Q (V3 (-1) 0 0) ltac:(unfold dot3; cbn [c0 c1 c2]; ring)) as Q2.
      pose proof (Q (V3 0 1 0) ltac:(unfold dot3; cbn [c0 c1 c2]; ring)) as Q3.
      pose proof (Q (V3 0 (-1) 0) ltac:(unfold dot3; cbn [c0 c1 c2]; ring)) as Q4.
      pose proof (Q (V3 0 0 1) ltac:(unfold dot3; cbn [c0 c1 c2]; ring)) as Q5.
      pose proof (Q (V3 0 0 (-1)) ltac:(unfold dot3; cbn [c0 c1 c2]; ring)) as Q6. clear Q. clearbody y.
      unfold within3, b2, add3, sub3, scale3 in *. cbn [fst snd c0 c1 c2] in *. lra. }
    pose proof (N b2 E2) as K. unfold b2, widened, add3, sub3 in *. cbn [fst snd c0 c1 c2] in *. lra.
Qed.
(* hence the box as computed misses part of every staple *)
Theorem staple_box_misses : forall w l D x M, 0 < D ->
  exists b z, vertices_aabb (st_p (mk_staple w l D)) x M = Some b
    /\ in_staple (w - D) (l - D) (D / 2) x M z /\ c0 (snd b) < c0 z.
Proof.
  intros w l D x M HD. destruct (staple_box w l D x M ltac:(lra)) as (b & E & T & N).
  exists b.
  assert (G : exists i, (i < 4)%nat /\ c0 (add3 x (mul3 M (staple_corner (w - D) (l - D) i))) = c0 (snd b)).
  { assert (Sp : st_p (mk_staple w l D) = map (staple_corner (w - D) (l - D)) [0; 1; 2; 3]%nat).
    { unfold mk_staple, staple_corner. cbn [st_p map]. repeat (f_equal; try field). }
    rewrite Sp in E. clear Sp. clear T N. revert E. generalize (staple_corner (w - D) (l - D)). intros f E.
    unfold vertices_aabb in E. cbn [map fold_left grow3] in E. injection E as <-. cbn [fst snd]. unfold max3. cbn [c0].
    assert (Sw : forall i, c0 (add3 x (mul3 M (f i))) = c0 (add3 (mul3 M (f i)) x)) by (intros; unfold add3; cbn [c0]; ring).
    assert (R4 : forall a b, Rmax a b = a \/ Rmax a b = b) by (intros a b; unfold Rmax; destruct (Rle_dec a b); auto).
    repeat match goal with |- context [Rmax ?a ?b] => lazymatch a with context [Rmax] => fail | _ => destruct (R4 a b) as [-> | ->] end end.
    all: first [exists 3%nat; split; [lia|apply Sw]|exists 2%nat; split; [lia|apply Sw]|exists 1%nat; split; [lia|apply Sw]|exists 0%nat; split; [lia|apply Sw]]. }
  destruct G as (i & Hi & Gi).
  exists (add3 (add3 x (mul3 M (staple_corner (w - D) (l - D) i))) (scale3 (D / 2) (V3 1 0 0))).
  split; [exact E|]. split.
  - apply (corner_ball _ _ _ _ _ i); [exact Hi|]. apply ball_pole. unfold dot3. cbn [c0 c1 c2]. ring.
  - rewrite <- Gi. generalize (add3 x (mul3 M (staple_corner (w - D) (l - D) i))). intros y.
    unfold add3, scale3. cbn [c0 c1 c2]. lra.
Qed.

(* ---------- staples against staples ---------- *)
Lemma dot_le : forall u v r s, 0 <= r -> 0 <= s -> dot3 u u <= r * r -> dot3 v v <= s * s -> dot3 u v <= r * s.
Proof.
  intros u v r s Hr Hs U V.
  assert (Cs : dot3 u v * dot3 u v <= dot3 u u * dot3 v v).
  { pose proof (dot3_nn (cross3 u v)) as K. destruct u as [a b c], v as [d e f]. unfold dot3, cross3 in *. cbn [c0 c1 c2] in *. lra. }
  assert (dot3 u u * dot3 v v <= (r * r) * (s * s)).
  { apply Rmult_le_compat; try assumption; apply dot3_nn. }
  assert (0 <= r * s) by (apply Rmult_le_pos; assumption).
  apply (sq_bound (dot3 u v) (r * s)); [assumption|]. lra.
Qed.
Lemma balls_meet : forall a b r s, 0 <= r -> 0 <= s -> 0 < r + s ->
  (dist2 a b <= (r + s) * (r + s) <-> exists z, in_ball3 a r z /\ in_ball3 b s z).
Proof.
  intros a b r s Hr Hs Hp. split.
  - intros L. exists (add3 a (scale3 (r / (r + s)) (sub3 b a))).
    assert (D0 : 0 <= dist2 a b) by apply dot3_nn.
    assert (F : dist2 a b * / ((r + s) * (r + s)) <= 1).
    { apply Rmult_le_reg_r with ((r + s) * (r + s)); [apply Rmult_lt_0_compat; lra|].
      rewrite Rmult_assoc, Rinv_l by (apply Rmult_integral_contrapositive; split; lra). lra. }
    split; unfold in_ball3.
    + rewrite sub_add3, dot_scale_sq. change (dot3 (sub3 b a) (sub3 b a)) with (dist2 b a). rewrite dist2_sym.
      replace (r / (r + s) * (r / (r + s)) * dist2 a b) with ((r * r) * (dist2 a b * / ((r + s) * (r + s)))) by (field; lra).
      replace (r * r) with (r * r * 1) at 2 by ring. apply Rmult_le_compat_l; [apply sq_nn|exact F].
    + replace (sub3 (add3 a (scale3 (r / (r + s)) (sub3 b a))) b) with (scale3 (s / (r + s)) (sub3 a b)).
      * rewrite dot_scale_sq. change (dot3 (sub3 a b) (sub3 a b)) with (dist2 a b).
        replace (s / (r + s) * (s / (r + s)) * dist2 a b) with ((s * s) * (dist2 a b * / ((r + s) * (r + s)))) by (field; lra).
        replace (s * s) with (s * s * 1) at 2 by ring. apply Rmult_le_compat_l; [apply sq_nn|exact F].
      * apply v3_ext; unfold add3, scale3, sub3; cbn [c0 c1 c2]; field; lra.
  - intros (z & A & B). unfold in_ball3 in *.
    assert (Sy : dot3 (sub3 a z) (sub3 a z) <= r * r).
    { change (dist2 a z <= r * r). rewrite dist2_sym. exact A. }
    pose proof (dot_le _ _ _ _ Hr Hs Sy B) as K.
    replace (dist2 a b) with (dot3 (sub3 a z) (sub3 a z) + 2 * dot3 (sub3 a z) (sub3 z b) + dot3 (sub3 z b) (sub3 z b)).
    + lra.
    + destruct a as [k0 k1 k2], b as [k3 k4 k5], z as [k6 k7 k8]. unfold dist2, dot3, sub3. cbn [c0 c1 c2]. ring.
Qed.

Lemma corner_gap : forall w l e, (e < 3)%nat ->
  dist2 (staple_corner w l (S e)) (staple_corner w l e) = if (e =? 1)%nat then w * w else l * l.
Proof.
  intros w l e He. destruct e as [|[|[|e]]]; [| | |lia]; cbn [staple_corner Nat.eqb]; unfold dist2, dot3, sub3; cbn [c0 c1 c2];
  generalize (l * l / (2 * l + w)); intros k; field.
Qed.
Lemma placed_gap : forall x M a b, rotation M -> dist2 (add3 x (mul3 M a)) (add3 x (mul3 M b)) = dist2 a b.
Proof.
  intros x M a b H. unfold dist2. rewrite <- (rot_dot M (sub3 a b) (sub3 a b) H), mul3_sub. f_equal;
  apply v3_ext; unfold sub3, add3; cbn [c0 c1 c2]; ring.
Qed.
Lemma staple_edges_are : forall w l D x M, staple_edges (mk_staple w l D) x M
  = map (fun e => (add3 x (mul3 M (staple_corner (w - D) (l - D) e)), add3 x (mul3 M (staple_corner (w - D) (l - D) (S e))))) [0; 1; 2]%nat.
Proof.
  intros w l D x M. unfold staple_edges. cbn [map]. rewrite !staple_p. cbn [Nat.ltb Nat.leb].
  assert (Sw : forall u, add3 (mul3 M u) x = add3 x (mul3 M u)) by (intros u; apply v3_ext; unfold add3; cbn [c0 c1 c2]; ring).
  rewrite !Sw. reflexivity.
Qed.

Theorem staple_staple_exact : forall x0 M0 w0 l0 D0 x1 M1 w1 l1 D1,
  rotation M0 -> rotation M1 -> 0 < D0 -> 0 < D1 ->
  dist_eps < (w0 - D0) * (w0 - D0) -> dist_eps < (l0 - D0) * (l0 - D0) ->
  dist_eps < (w1 - D1) * (w1 - D1) -> dist_eps < (l1 - D1) * (l1 - D1) ->
  (staple_staple x0 M0 (mk_staple w0 l0 D0) x1 M1 (mk_staple w1 l1 D1) = true
   <-> exists z, in_staple (w0 - D0) (l0 - D0) (D0 / 2) x0 M0 z /\ in_staple (w1 - D1) (l1 - D1) (D1 / 2) x1 M1 z).
Proof.
  intros x0 M0 w0 l0 D0 x1 M1 w1 l1 D1 R0 R1 P0 P1 W0 L0 W1 L1.
  unfold staple_staple. rewrite !staple_edges_are.
  change (st_r (mk_staple w0 l0 D0)) with (/ 2 * D0). change (st_r (mk_staple w1 l1 D1)) with (/ 2 * D1).
  replace (/ 2 * D0) with (D0 / 2) by field. replace (/ 2 * D1) with (D1 / 2) by field.
  set (f0 := fun i => add3 x0 (mul3 M0 (staple_corner (w0 - D0) (l0 - D0) i))).
  set (f1 := fun i => add3 x1 (mul3 M1 (staple_corner (w1 - D1) (l1 - D1) i))).
  change (map (fun e => (add3 x0 (mul3 M0 (staple_corner (w0 - D0) (l0 - D0) e)), add3 x0 (mul3 M0 (staple_corner (w0 - D0) (l0 - D0) (S e))))) [0; 1; 2]%nat)
    with (map (fun e => (f0 e, f0 (S e))) [0; 1; 2]%nat).
  change (map (fun e => (add3 x1 (mul3 M1 (staple_corner (w1 - D1) (l1 - D1) e)), add3 x1 (mul3 M1 (staple_corner (w1 - D1) (l1 - D1) (S e))))) [0; 1; 2]%nat)
    with (map (fun e => (f1 e, f1 (S e))) [0; 1; 2]%nat).
  assert (G0 : forall e, (e < 3)%nat -> long_or_point (dist2 (f0 (S e)) (f0 e))).
  { intros e He. right. unfold f0. rewrite placed_gap, corner_gap by assumption. destruct (e =? 1)%nat; assumption. }
  assert (G1 : forall e, (e < 3)%nat -> long_or_point (dist2 (f1 (S e)) (f1 e))).
  { intros e He. right. unfold f1. rewrite placed_gap, corner_gap by assumption. destruct (e =? 1)%nat; assumption. }
  assert (Hin : forall e, In e [0; 1; 2]%nat <-> (e < 3)%nat).
  { intros e. cbn [In]. lia. }
  assert (Pair : forall e0 e1, (e0 < 3)%nat -> (e1 < 3)%nat ->
    (negb (Rltb ((D0 / 2 + D1 / 2) * (D0 / 2 + D1 / 2)) (snd (closest_segments (f0 e0) (f0 (S e0)) (f1 e1) (f1 (S e1))))) = true
     <-> exists z, in_capsule (f0 e0) (f0 (S e0)) (D0 / 2) z /\ in_capsule (f1 e1) (f1 (S e1)) (D1 / 2) z)).
  { intros e0 e1 He0 He1.
    destruct (closest_segments (f0 e0) (f0 (S e0)) (f1 e1) (f1 (S e1))) as [[[[s t] y0] y1] d] eqn:C.
    apply closest_segments_spec in C. destruct C as (Hs & Ht & E0 & E1 & Ed & Near). cbn [snd].
    specialize (Near (G0 e0 He0) (G1 e1 He1)). rewrite negb_true_iff. split.
    - intros L. destruct (Rltb_spec ((D0 / 2 + D1 / 2) * (D0 / 2 + D1 / 2)) d) as [K|K]; [discriminate|].
      rewrite Ed in K. apply Rnot_lt_le in K. apply balls_meet in K; [|lra|lra|lra]. destruct K as (z & Z0 & Z1).
      exists z. split; [exists s; rewrite <- E0|exists t; rewrite <- E1]; split; assumption.
    - intros (z & (s' & Hs' & Z0) & (t' & Ht' & Z1)).
      destruct (Rltb_spec ((D0 / 2 + D1 / 2) * (D0 / 2 + D1 / 2)) d) as [K|K]; [exfalso|reflexivity].
      specialize (Near s' t' Hs' Ht').
      assert (dist2 (along (f0 e0) (f0 (S e0)) s') (along (f1 e1) (f1 (S e1)) t') <= (D0 / 2 + D1 / 2) * (D0 / 2 + D1 / 2)).
      { apply balls_meet; [lra|lra|lra|]. exists z. split; assumption. }
      lra. }
  rewrite existsb_exists. split.
  - intros (a & Ha & Hb). apply in_map_iff in Ha. destruct Ha as (e0 & <- & H0). apply existsb_exists in Hb.
    destruct Hb as (b & Hb & K). apply in_map_iff in Hb. destruct Hb as (e1 & <- & H1). cbn [fst snd] in K.
    apply Hin in H0. apply Hin in H1. apply (Pair e0 e1 H0 H1) in K. destruct K as (z & Z0 & Z1).
    exists z. split; [exists e0|exists e1]; split; assumption.
  - intros (z & (e0 & H0 & Z0) & (e1 & H1 & Z1)).
    exists (f0 e0, f0 (S e0)). split; [apply (in_map (fun e => (f0 e, f0 (S e)))), Hin, H0|].
    apply existsb_exists. exists (f1 e1, f1 (S e1)). split; [apply (in_map (fun e => (f1 e, f1 (S e)))), Hin, H1|].
    cbn [fst snd]. apply (Pair e0 e1 H0 H1). exists z. split; assumption.
Qed.
