(* What the cameras in space show after any history. *)
From Coq Require Import List Reals Lra Psatz Bool.
From Verif Require Import Outcome Ccd_Model Lin_Model ContactRb3_Model Rot_Model Rot_Spec Rot_Alg Geom_Model Geom_Spec Wall_Model Cam_Model Cam_Spec Cam_Plane Cam_Space.
Import ListNotations.
Open Scope R_scope.

(* the rotation of the selected camera, and how far it is from its target *)
Definition cam_rot (v : view3) : m3 :=
  if w_persp v then M3 (p_y (w_p v)) (p_x (w_p v)) (neg3 (p_z (w_p v))) else M3 (o_y (w_o v)) (o_x (w_o v)) (neg3 (o_z (w_o v))).
Definition distance (v : view3) : R := if w_persp v then p_rho (w_p v) else 50.
Definition axis (v : view3) : v3 := neg3 (if w_persp v then p_z (w_p v) else o_z (w_o v)).

Lemma cam_rot_ok : forall v, frames v -> rotation (cam_rot v).
Proof.
  intros v [P O]. unfold cam_rot. destruct (w_persp v).
  - destruct (pfresh_inv _ P) as (Y & Z & X & _). rewrite X. apply frame_rotation. rewrite Y, Z. apply cam_frame. apply P.
  - destruct (ofresh_inv _ O) as (Y & Z & X & _). rewrite X. apply frame_rotation. rewrite Y, Z. apply cam_frame. exact rotation_id.
Qed.
Lemma mul3_sub : forall A x y, mul3 A (sub3 x y) = sub3 (mul3 A x) (mul3 A y).
Proof. intros. unfold mul3, sub3, dot3. cbn. f_equal; ring. Qed.
Lemma psn_axis : forall v, frames v -> (if w_persp v then p_psn (w_p v) else o_psn (w_o v)) = scale3 (distance v) (axis v).
Proof.
  intros v [P O]. unfold distance, axis. destruct (w_persp v).
  - destruct (pfresh_inv _ P) as (_ & Z & _ & S). rewrite Z, S, neg_neg. reflexivity.
  - destruct (ofresh_inv _ O) as (_ & Z & _ & S). rewrite Z, S, neg_neg. reflexivity.
Qed.
Lemma rot_axis : forall v, frames v -> mul3 (cam_rot v) (axis v) = V3 0 0 1.
Proof.
  intros v F. pose proof (cam_rot_ok v F) as [H _]. assert (E : axis v = mul3 (tr (cam_rot v)) (V3 0 0 1)).
  { unfold axis, cam_rot, mul3, tr, dot3. destruct (w_persp v); cbn; apply v3_eq; cbn; ring. }
  rewrite E, <- mul3_mm, H, mul3_id. reflexivity.
Qed.
(* eye coordinates, from the target *)
Lemma eye_form : forall v p, frames v -> eye v p = sub3 (mul3 (cam_rot v) (sub3 p (target v))) (V3 0 0 (distance v)).
Proof.
  intros v p F. assert (E : eye v p = mul3 (cam_rot v) (sub3 p (add3 (target v) (if w_persp v then p_psn (w_p v) else o_psn (w_o v))))).
  { unfold eye, to_eye, cam_rot, target. destruct (w_persp v); reflexivity. }
  rewrite E, (psn_axis v F). replace (sub3 p (add3 (target v) (scale3 (distance v) (axis v)))) with (sub3 (sub3 p (target v)) (scale3 (distance v) (axis v))).
  - rewrite mul3_sub, mul3_scale, (rot_axis v F). f_equal. unfold scale3. cbn. f_equal; ring.
  - unfold sub3, add3, scale3. cbn. f_equal; ring.
Qed.
Lemma rigid_ok : forall v, frames v -> rigid_view v.
Proof.
  intros v F. exists (cam_rot v), (sub3 (V3 0 0 (- distance v)) (mul3 (cam_rot v) (target v))). split; [apply cam_rot_ok, F|].
  intros p. rewrite (eye_form v p F), mul3_sub. unfold sub3, add3. cbn. f_equal; ring.
Qed.
Lemma target_ok : forall v, frames v -> eye v (target v) = V3 0 0 (- distance v).
Proof. intros v F. rewrite (eye_form v _ F). unfold mul3, sub3, dot3. cbn. f_equal; ring. Qed.
Lemma eye_move : forall v p, frames v -> eye v (add3 p (up_direction v)) = add3 (eye v p) (mul3 (cam_rot v) (up_direction v)).
Proof.
  intros v p F. rewrite !(eye_form v _ F). replace (sub3 (add3 p (up_direction v)) (target v)) with (add3 (sub3 p (target v)) (up_direction v)) by (unfold sub3, add3; cbn; f_equal; ring).
  rewrite mul3_add. unfold sub3, add3. cbn. f_equal; ring.
Qed.
(* going up in the world goes straight up in the picture, by the sine of the zenith angle, never sideways *)
Lemma dot_cross : forall U th ph, rotation U ->
  dot3 (cross3 (mul3 U (cam_right ph)) (scale3 (- 1) (mul3 U (cam_dir th ph)))) (mul3 U (V3 0 1 0)) = sin th.
Proof.
  intros U th ph [_ D].
  replace (dot3 (cross3 (mul3 U (cam_right ph)) (scale3 (- 1) (mul3 U (cam_dir th ph)))) (mul3 U (V3 0 1 0)))
    with (det3 U * dot3 (cross3 (cam_right ph) (scale3 (- 1) (cam_dir th ph))) (V3 0 1 0)).
  - rewrite D. unfold cross3, dot3, scale3, cam_right, cam_dir. cbn [c0 c1 c2]. pose proof (sc1 ph).
    transitivity (sin th * (cos ph * cos ph + sin ph * sin ph)); [ring|]. rewrite H. ring.
  - destruct U as [[a b c] [d e f] [g h i]]. unfold det3, mul3, cross3, scale3, cam_right, cam_dir, dot3. cbn [c0 c1 c2 row0 row1 row2_]. ring.
Qed.
Lemma upright_ok : forall v p, frames v -> w_persp v = true ->
  right_of v (add3 p (up_direction v)) = right_of v p /\ above v (add3 p (up_direction v)) = above v p + sin (p_th (w_p v)).
Proof.
  intros v p F W. unfold right_of, above. rewrite (eye_move v p F). unfold add3. cbn [c0 c1]. unfold cam_rot, up_direction. rewrite W.
  destruct F as [P O]. destruct (pfresh_inv _ P) as (Y & Z & X & _). unfold mul3 at 1 3. cbn [row0 row1 c0 c1].
  rewrite X, Z, Y, dot_cross by apply P. split; [|ring]. rewrite rot_dot by apply P. unfold dot3, cam_right. cbn. ring.
Qed.

(* ---------- ranges ---------- *)
Definition fresh_fov (v : view3) : Prop := p_fovy (w_p v) = fov /\ p_aspect (w_p v) = w_w v / w_h v.
(* no camera is centred on a simulation without bodies *)
Definition nonempty3 (e : event3) : Prop :=
  match e with Center3 None | Perspective3 None | Orthographic3 _ None => False | _ => True end.

Lemma sin_half_fov : 0 < sin (/ 2 * fov * (PI / 180)).
Proof. pose proof PI_RGT_0. apply sin_gt_0; unfold fov; lra. Qed.
Lemma sin_half_60 : 0 < sin (/ 2 * 60 * (PI / 180)).
Proof. pose proof PI_RGT_0. apply sin_gt_0; lra. Qed.
Definition fovs (v : view3) : Prop := p_fovy (w_p v) = fov \/ p_fovy (w_p v) = 60.
Lemma rho_center : forall c x r, 0 < r -> p_fovy c = fov \/ p_fovy c = 60 -> 0 < p_rho (p_center c x r).
Proof.
  intros c x r R F. unfold p_center, p_update, p_with. cbn [p_rho].
  assert (0 < r / sin (/ 2 * p_fovy c * (PI / 180))).
  { apply Rdiv_lt_0_compat; [exact R|]. destruct F as [-> | ->]; [apply sin_half_fov|apply sin_half_60]. }
  pose proof (Rmax_l (r / sin (/ 2 * p_fovy c * (PI / 180))) (r / sin (/ 2 * p_aspect c * p_fovy c * (PI / 180)))). lra.
Qed.
Lemma small_pos : 0 < / 100000.
Proof. lra. Qed.
Lemma center_ranges : forall v b, ranges v -> fovs v -> sensible_box b -> ranges (center_camera3 v b) /\ fovs (center_camera3 v b).
Proof.
  intros v b R F S. unfold center_camera3. destruct (w_lock v); [split; assumption|]. destruct R as (T & P & O). pose proof PI_RGT_0. destruct b as [b|]; destruct (w_persp v).
  - split; [|exact F]. split; [exact T|]. split; [|exact O]. apply rho_center; [exact S|exact F].
  - split; [|exact F]. split; [exact T|]. split; [exact P|]. cbn. apply Rmax_l.
  - split; [|right; reflexivity]. unfold ranges. cbn. repeat split; lra.
  - split; [|exact F]. unfold ranges. cbn. repeat split; lra.
Qed.
Lemma zenith_range : forall c a, 0 <= p_th (p_zenith c a) <= PI.
Proof.
  intros c a. pose proof PI_RGT_0. unfold p_zenith, p_update, p_with. cbv zeta. cbn [p_th].
  unfold Rltb. destruct (Rlt_dec (p_th c + a) 0) as [A|A]; [destruct (Rlt_dec PI 0); lra|destruct (Rlt_dec PI (p_th c + a)); lra].
Qed.
Lemma step_ranges : forall ft v e v', sensible3 e -> ranges v -> fovs v -> step3 ft v e = Ok v' -> ranges v' /\ fovs v'.
Proof.
  intros ft v e v' S R F E. destruct e as [w h|b dx dy|d|b|b|p b|c l b|l]; cbn [step3] in E; try (assert (A : v' = _) by (symmetry; injection E as E; exact E)); try subst v'.
  - unfold resize3. destruct (w_persp v); [|split; assumption]. split; [exact R|left; reflexivity].
  - unfold mouse_move3. destruct (w_lock v); [split; assumption|]. destruct R as (T & P & O). destruct (w_persp v).
    + destruct (b_left b); [split; [|exact F]; split; [apply zenith_range|split; assumption]|].
      destruct (b_mid b); [split; [|exact F]; repeat split; try apply T; assumption|]. destruct (b_right b); [|split; [repeat split; try apply T; assumption|exact F]].
      split; [|exact F]. split; [exact T|]. split; [|exact O]. cbn. rewrite Rmax_comm. apply max_pos. lra.
    + destruct (b_left b); [split; [repeat split; try apply T; assumption|exact F]|]. destruct (b_right b); [|split; [repeat split; try apply T; assumption|exact F]].
      split; [|exact F]. split; [exact T|]. split; [exact P|]. cbn. apply Rmax_l.
  - unfold wheel3. destruct (w_lock v); [split; assumption|]. destruct R as (T & P & O). destruct (w_persp v); (split; [|exact F]; split; [exact T|]).
    + split; [|exact O]. cbn. rewrite Rmax_comm. apply max_pos. lra.
    + split; [exact P|]. cbn. apply Rmax_l.
  - apply center_ranges; assumption.
  - apply center_ranges; [exact R|left; reflexivity|exact S].
  - apply center_ranges; [exact R|exact F|exact S].
  - unfold open_scene3 in E. destruct c as [[up th ph rho at_|p at_ s]|].
    + injection E as <-. cbn [sensible3] in S. destruct S as (_ & S1 & S2). split; [|left; reflexivity]. split; [exact S1|]. split; [exact S2|apply R].
    + injection E as <-. split; [|exact F]. split; [apply R|]. split; [apply R|]. cbn. apply Rmax_l.
    + destruct b as [b|]; [|discriminate E]. injection E as <-. split; [|left; reflexivity]. split; [apply R|]. split; [|apply R].
      apply rho_center; [exact S|exact F].
  - split; assumption.
Qed.
Theorem history3 : forall ft es v v', turns_y ft -> Forall sensible3 es -> frames v -> ranges v -> fovs v -> run3 ft v es = Ok v' ->
  frames v' /\ ranges v' /\ fovs v'.
Proof.
  intros ft es. induction es as [|e es IH]; intros v v' T S F R G E.
  - injection E as <-. split; [|split]; assumption.
  - cbn [run3] in E. inversion S as [|? ? S1 S2]. destruct (obind_Ok_inv _ _ _ E) as (v1 & E1 & E2).
    destruct (step_ranges ft v e v1 S1 R G E1). apply (IH v1 v'); try assumption. apply (step_frames ft v e v1); assumption.
Qed.
Lemma start_ok : forall p w h, frames (start3 p w h) /\ ranges (start3 p w h) /\ fovs (start3 p w h).
Proof.
  intros p w h. pose proof PI_RGT_0. split; [split; [exact p_init_fresh|exact o_init_fresh]|]. split; [|right; reflexivity]. unfold ranges. cbn. repeat split; lra.
Qed.

(* ---------- the projection ---------- *)
Definition proj_ok (v : view3) : Prop :=
  0 < w_w v /\ 0 < w_h v
  /\ w_proj v = (if w_persp v then snd (p_set_perspective (w_p v) (w_w v) (w_h v)) else o_proj (w_o v) (w_w v) (w_h v)).
Lemma proj_faithful : forall v, proj_ok v -> faithful3 v.
Proof.
  intros v (W & H & E). split; [exact W|]. split; [exact H|]. rewrite E. destruct (w_persp v); [reflexivity|].
  unfold o_proj. cbv zeta. f_equal. field. nz.
Qed.
Definition fov_ok (v : view3) : Prop := w_persp v = true -> fresh_fov v.
Lemma center_proj : forall v b, b <> None -> proj_ok v -> fov_ok v -> proj_ok (center_camera3 v b) /\ fov_ok (center_camera3 v b).
Proof.
  intros v b N P F. unfold center_camera3. destruct (w_lock v); [split; assumption|]. destruct b as [b|]; [|contradiction]. destruct (w_persp v) eqn:E.
  - destruct P as (W & H & P). split; [|intros _; exact (F E)]. split; [exact W|]. split; [exact H|]. cbn [w_proj w_persp put_p]. rewrite P, E. reflexivity.
  - destruct P as (W & H & P). split; [|intros D; cbn in D; congruence]. split; [exact W|]. split; [exact H|]. cbn [w_proj w_persp put_o show_o]. rewrite E. reflexivity.
Qed.
Lemma step_proj : forall ft v e v', sensible3 e -> nonempty3 e -> proj_ok v -> fov_ok v -> step3 ft v e = Ok v' -> proj_ok v' /\ fov_ok v'.
Proof.
  intros ft v e v' S N P F E. pose proof P as (W & H & Q). destruct e as [w h|b dx dy|d|b|b|p b|c l b|l]; cbn [step3] in E; try (assert (A : v' = _) by (symmetry; injection E as E; exact E)); try subst v'.
  - destruct S as [S1 S2]. unfold resize3. destruct (w_persp v) eqn:V.
    + split; [|intros _; split; reflexivity]. split; [exact S1|]. split; [exact S2|]. cbn. rewrite V. reflexivity.
    + split; [|intros D; cbn in D; congruence]. split; [exact S1|]. split; [exact S2|]. cbn. rewrite V. reflexivity.
  - unfold mouse_move3. destruct (w_lock v); [split; assumption|]. destruct (w_persp v) eqn:V.
    + destruct (b_left b), (b_mid b), (b_right b); (split; [split; [exact W|split; [exact H|cbn; rewrite Q, V; reflexivity]]|intros _; exact (F V)]).
    + destruct (b_left b); [|destruct (b_right b)]; (split; [split; [exact W|split; [exact H|]]|intros D; cbn in D; congruence]); cbn; rewrite ?Q, V; reflexivity.
  - unfold wheel3. destruct (w_lock v); [split; assumption|]. destruct (w_persp v) eqn:V.
    + split; [split; [exact W|split; [exact H|cbn; rewrite Q, V; reflexivity]]|intros _; exact (F V)].
    + split; [split; [exact W|split; [exact H|]]|intros D; cbn in D; congruence]. cbn. rewrite V. reflexivity.
  - cbn [nonempty3] in N. apply center_proj; try assumption. destruct b; [discriminate|contradiction].
  - cbn [nonempty3] in N. apply center_proj; [destruct b; [discriminate|contradiction]| |intros _; split; reflexivity].
    split; [exact W|]. split; [exact H|]. reflexivity.
  - cbn [nonempty3] in N. apply center_proj; [destruct b; [discriminate|contradiction]| |intros D; cbn in D; congruence].
    split; [exact W|]. split; [exact H|]. reflexivity.
  - unfold open_scene3 in E. destruct c as [[up th ph rho at_|p at_ s]|].
    + injection E as <-. split; [|intros _; split; reflexivity]. split; [exact W|]. split; [exact H|]. reflexivity.
    + injection E as <-. split; [|intros D; cbn in D; congruence]. split; [exact W|]. split; [exact H|]. reflexivity.
    + destruct b as [b|]; [|discriminate E]. injection E as <-. split; [|intros _; split; reflexivity]. split; [exact W|]. split; [exact H|]. reflexivity.
  - split; assumption.
Qed.
Theorem history_proj : forall ft es v v', Forall sensible3 es -> Forall nonempty3 es -> proj_ok v -> fov_ok v -> run3 ft v es = Ok v' -> proj_ok v' /\ fov_ok v'.
Proof.
  intros ft es. induction es as [|e es IH]; intros v v' S N P F E.
  - injection E as <-. split; assumption.
  - cbn [run3] in E. inversion S. inversion N. destruct (obind_Ok_inv _ _ _ E) as (v1 & E1 & E2).
    destruct (step_proj ft v e v1) as [P1 F1]; try assumption. apply (IH v1 v'); assumption.
Qed.
Lemma first_resize : forall p w0 h0 w h, 0 < w -> 0 < h ->
  proj_ok (resize3 (start3 p w0 h0) w h) /\ fov_ok (resize3 (start3 p w0 h0) w h).
Proof. intros. split; [split; [assumption|split; [assumption|reflexivity]]|intros _; split; reflexivity]. Qed.

(* ---------- gestures ---------- *)
Theorem orbit_ok : forall v b dx dy, w_persp v = true -> w_lock v = false -> b_left b = true ->
  let v' := mouse_move3 v b dx dy in target v' = target v /\ distance v' = distance v.
Proof. intros v b dx dy P L B v'. unfold v', mouse_move3, target, distance. rewrite L, P, B. cbn. rewrite P. split; reflexivity. Qed.
Lemma cam_rot_put : forall v c, w_persp v = true -> p_x c = p_x (w_p v) -> p_y c = p_y (w_p v) -> p_z c = p_z (w_p v) -> cam_rot (put_p v c) = cam_rot v.
Proof. intros v c P X Y Z. unfold cam_rot. cbn [w_persp put_p w_p]. rewrite P, X, Y, Z. reflexivity. Qed.
Theorem track_ok : forall v b dx dy p, frames v -> w_persp v = true -> w_lock v = false -> b_left b = false -> b_mid b = true ->
  eye (mouse_move3 v b dx dy) p = add3 (eye v p) (V3 (p_rho (w_p v) * (2 / 1000 * dx)) (- (p_rho (w_p v) * (2 / 1000 * dy))) 0).
Proof.
  intros v b dx dy p F P L B M.
  assert (F' : frames (mouse_move3 v b dx dy)).
  { unfold mouse_move3. rewrite L, P, B, M. apply put_p_frames; [exact F|]. apply (pfresh_track (p_track_h (w_p v) _)). apply (pfresh_track (w_p v)). apply F. }
  pose proof (cam_rot_ok v F) as [RO _].
  rewrite (eye_form _ p F'), (eye_form v p F).
  assert (E1 : cam_rot (mouse_move3 v b dx dy) = cam_rot v) by (unfold mouse_move3; rewrite L, P, B, M; apply cam_rot_put; [exact P|reflexivity..]).
  assert (E2 : distance (mouse_move3 v b dx dy) = distance v) by (unfold mouse_move3, distance; rewrite L, P, B, M; cbn; rewrite P; reflexivity).
  assert (E3 : target (mouse_move3 v b dx dy) = add3 (add3 (target v) (scale3 (- p_rho (w_p v) * (2 / 1000 * dx)) (p_y (w_p v)))) (scale3 (p_rho (w_p v) * (2 / 1000 * dy)) (p_x (w_p v)))).
  { unfold mouse_move3, target. rewrite L, P, B, M. cbn [put_p w_p w_persp]. rewrite P. reflexivity. }
  rewrite E1, E2, E3. set (h := p_rho (w_p v) * (2 / 1000 * dx)). set (k := p_rho (w_p v) * (2 / 1000 * dy)).
  replace (sub3 p (add3 (add3 (target v) (scale3 (- p_rho (w_p v) * (2 / 1000 * dx)) (p_y (w_p v)))) (scale3 k (p_x (w_p v)))))
    with (add3 (sub3 p (target v)) (mul3 (tr (cam_rot v)) (V3 h (- k) 0))).
  - rewrite mul3_add, <- mul3_mm, RO, mul3_id. unfold add3, sub3. cbn. f_equal; ring.
  - unfold cam_rot. rewrite P. unfold sub3, add3, scale3, mul3, tr, dot3. cbn. f_equal; unfold h; ring.
Qed.
Theorem dolly_ok : forall v b dx dy p, frames v -> w_persp v = true -> w_lock v = false -> b_left b = false -> b_mid b = false -> b_right b = true ->
  let r := Rmax (p_rho (w_p v) * (1 + 1 / 100 * (dx - dy))) (/ 10) in
  let v' := mouse_move3 v b dx dy in
  right_of v' p = right_of v p /\ above v' p = above v p /\ depth v' p = depth v p + (r - p_rho (w_p v)).
Proof.
  intros v b dx dy p F P L B M R r v'.
  assert (F' : frames v') by (unfold v', mouse_move3; rewrite L, P, B, M, R; apply put_p_frames; [exact F|apply pfresh_update; apply F]).
  assert (Q : v' = put_p v (p_dist (w_p v) (p_rho (w_p v) * (1 / 100 * dx - 1 / 100 * dy)))) by (unfold v', mouse_move3; rewrite L, P, B, M, R; reflexivity).
  destruct F as [PF OF]. destruct (pfresh_inv _ PF) as (Y & Z & X & _).
  assert (E1 : cam_rot v' = cam_rot v) by (rewrite Q; apply cam_rot_put; [exact P|unfold p_dist, p_update, p_with; cbn; rewrite ?X, ?Z, ?Y; reflexivity..]).
  assert (E2 : distance v' = r).
  { rewrite Q. unfold distance. cbn [w_persp put_p w_p]. rewrite P. unfold p_dist, p_update, p_with. cbn [p_rho]. unfold r. f_equal. ring. }
  assert (E3 : target v' = target v) by (rewrite Q; unfold target; cbn [w_persp put_p w_p]; rewrite P; reflexivity).
  unfold right_of, above, depth. rewrite !(eye_form v' p F'), !(eye_form v p (conj PF OF)), E1, E2, E3. unfold distance. rewrite P. unfold sub3. cbn. repeat split; ring.
Qed.
Theorem wheel_ok : forall v d p, frames v -> w_persp v = true -> w_lock v = false ->
  let r := Rmax (p_rho (w_p v) * (1 - 2 / 1000 * d)) (/ 10) in
  let v' := wheel3 v d in
  right_of v' p = right_of v p /\ above v' p = above v p /\ depth v' p = depth v p + (r - p_rho (w_p v)).
Proof.
  intros v d p F P L r v'.
  assert (F' : frames v') by (unfold v', wheel3; rewrite L, P; apply put_p_frames; [exact F|apply pfresh_update; apply F]).
  assert (Q : v' = put_p v (p_dist (w_p v) (- (2 / 1000) * p_rho (w_p v) * d))) by (unfold v', wheel3; rewrite L, P; reflexivity).
  destruct F as [PF OF]. destruct (pfresh_inv _ PF) as (Y & Z & X & _).
  assert (E1 : cam_rot v' = cam_rot v) by (rewrite Q; apply cam_rot_put; [exact P|unfold p_dist, p_update, p_with; cbn; rewrite ?X, ?Z, ?Y; reflexivity..]).
  assert (E2 : distance v' = r).
  { rewrite Q. unfold distance. cbn [w_persp put_p w_p]. rewrite P. unfold p_dist, p_update, p_with. cbn [p_rho]. unfold r. f_equal. ring. }
  assert (E3 : target v' = target v) by (rewrite Q; unfold target; cbn [w_persp put_p w_p]; rewrite P; reflexivity).
  unfold right_of, above, depth. rewrite !(eye_form v' p F'), !(eye_form v p (conj PF OF)), E1, E2, E3. unfold distance. rewrite P. unfold sub3. cbn. repeat split; ring.
Qed.
(* dragging an orthographic picture moves it with the mouse *)
Theorem drag_ortho : forall v b dx dy p, frames v -> ranges v -> proj_ok v -> w_persp v = false -> w_lock v = false -> b_left b = true ->
  pixel3 (mouse_move3 v b dx dy) p = (fst (pixel3 v p) + dx, snd (pixel3 v p) + dy).
Proof.
  intros v b dx dy p F (_ & _ & S') (W & H & Q) P L B. assert (S : 0 < o_s (w_o v)) by lra.
  assert (E : mouse_move3 v b dx dy = put_o v (o_translate (w_o v) (w_w v) (w_h v) dx dy)) by (unfold mouse_move3; rewrite L, P, B; reflexivity).
  assert (F' : frames (mouse_move3 v b dx dy)) by (rewrite E; apply put_o_frames; [exact F|apply ofresh_with, F]).
  pose proof (cam_rot_ok v F) as [RO _].
  set (tx := 2 * o_s (w_o v) * dx / w_h v). set (ty := 2 * o_s (w_o v) * dy / w_h v).
  assert (EE : eye (mouse_move3 v b dx dy) p = add3 (eye v p) (V3 tx (- ty) 0)).
  { rewrite (eye_form _ p F'), (eye_form v p F), E.
    replace (cam_rot (put_o v (o_translate (w_o v) (w_w v) (w_h v) dx dy))) with (cam_rot v) by (unfold cam_rot; cbn [w_persp put_o]; rewrite P; reflexivity).
    replace (distance (put_o v (o_translate (w_o v) (w_w v) (w_h v) dx dy))) with (distance v) by (unfold distance; cbn [w_persp put_o]; rewrite P; reflexivity).
    replace (sub3 p (target (put_o v (o_translate (w_o v) (w_w v) (w_h v) dx dy)))) with (add3 (sub3 p (target v)) (mul3 (tr (cam_rot v)) (V3 tx (- ty) 0))).
    - rewrite mul3_add, <- mul3_mm, RO, mul3_id. unfold add3, sub3. cbn. f_equal; ring.
    - unfold target, cam_rot. cbn [w_persp put_o w_o]. rewrite P. unfold o_translate, o_with. cbv zeta. cbn [o_at]. unfold sub3, add3, scale3, mul3, tr, dot3. cbn [c0 c1 c2 row0 row1 row2_].
      unfold tx, ty. f_equal; field; nz. }
  unfold pixel3, right_of, above. rewrite EE.
  replace (w_proj (mouse_move3 v b dx dy)) with (w_proj v) by (rewrite E; reflexivity). rewrite Q, P. unfold o_proj. cbv zeta.
  replace (w_w (mouse_move3 v b dx dy)) with (w_w v) by (rewrite E; reflexivity). replace (w_h (mouse_move3 v b dx dy)) with (w_h v) by (rewrite E; reflexivity).
  unfold add3. cbn [c0 c1 fst snd]. unfold tx, ty. f_equal; field; nz.
Qed.
(* the three orthographic views *)
Theorem views_ok : forall v p b q, frames v ->
  let v' := enable_orthographic v p b in
  w_lock v = false -> b <> None ->
  let d := sub3 q (target v') in
  right_of v' q = match p with PXY => c0 d | _ => c2 d end /\ above v' q = match p with PZX => c0 d | _ => c1 d end.
Proof.
  intros v p b q F v' L N d.
  assert (F' : frames v') by (apply center_frames, show_o_frames, put_o_frames; [exact F|apply ofresh_use; apply F]).
  destruct b as [b|]; [|contradiction]. unfold right_of, above. rewrite (eye_form v' q F'). fold d. unfold sub3. cbn [c0 c1].
  assert (C : cam_rot v' = M3 (o_y (o_use (w_o v) p)) (o_x (o_use (w_o v) p)) (neg3 (o_z (o_use (w_o v) p)))).
  { unfold v', enable_orthographic, center_camera3, use_p, put_o, show_o. cbn [w_lock w_persp]. rewrite L. reflexivity. }
  rewrite C. unfold mul3. cbn [row0 row1 c0 c1]. assert (U : o_U (w_o v) = id3) by apply F.
  assert (H1 : sin (- PI / 2) = - 1) by (replace (- PI / 2) with (- (PI / 2)) by field; rewrite sin_neg, sin_PI2; reflexivity).
  assert (H2 : cos (- PI / 2) = 0) by (replace (- PI / 2) with (- (PI / 2)) by field; rewrite cos_neg, cos_PI2; reflexivity).
  unfold o_use, o_update. cbv zeta. destruct p; cbn [fst snd o_x o_y o_U o_th o_ph]; rewrite U, !mul3_id; unfold cam_right, cam_dir, cross3, scale3, dot3; cbn [c0 c1 c2];
    rewrite ?H1, ?H2, ?sin_PI2, ?cos_PI2, ?sin_0, ?cos_0; split; ring.
Qed.

(* ---------- locked cameras and exported settings ---------- *)
Theorem locked3 : forall ft v e, w_lock v = true -> match e with Move3 _ _ _ | Wheel3 _ | Center3 _ => True | _ => False end -> step3 ft v e = Ok v.
Proof. intros ft v e L E. destruct e; try contradiction; cbn [step3]; unfold mouse_move3, wheel3, center_camera3; rewrite L; reflexivity. Qed.
Lemma same_refl : forall v, same_picture v v.
Proof. intros v. repeat split. Qed.
(* the up orientation always is one that setCamera can produce *)
Definition from_camera (ft : v3 -> m3) (v : view3) : Prop := exists u, 0 < dot3 u u /\ p_U (w_p v) = ft u.
Lemma from_init : forall ft, turns_y ft -> exists u, 0 < dot3 u u /\ id3 = ft u.
Proof. intros ft [T _]. exists (V3 0 1 0). split; [unfold dot3; cbn; lra|]. symmetry. exact T. Qed.
Lemma center_from : forall ft v b, turns_y ft -> from_camera ft v -> from_camera ft (center_camera3 v b).
Proof.
  intros ft v b T F. unfold center_camera3. destruct (w_lock v); [exact F|]. destruct b as [b|]; destruct (w_persp v); try exact F. exact (from_init ft T).
Qed.
Lemma step_from : forall ft v e v', turns_y ft -> sensible3 e -> from_camera ft v -> step3 ft v e = Ok v' -> from_camera ft v'.
Proof.
  intros ft v e v' T S F E. destruct e as [w h|b dx dy|d|b|b|p b|c l b|l]; cbn [step3] in E; try (assert (A : v' = _) by (symmetry; injection E as E; exact E)); try subst v'.
  - unfold resize3. destruct (w_persp v); exact F.
  - unfold mouse_move3. destruct (w_lock v); [exact F|]. destruct (w_persp v), (b_left b), (b_mid b), (b_right b); exact F.
  - unfold wheel3. destruct (w_lock v); [exact F|]. destruct (w_persp v); exact F.
  - apply center_from; assumption.
  - apply center_from; assumption.
  - apply center_from; assumption.
  - unfold open_scene3 in E. destruct c as [[up th ph rho at_|p at_ s]|].
    + injection E as <-. exists up. split; [apply S|reflexivity].
    + injection E as <-. exact F.
    + destruct b as [b|]; [|discriminate E]. injection E as <-. exact F.
  - exact F.
Qed.
Theorem history_from : forall ft es v v', turns_y ft -> Forall sensible3 es -> from_camera ft v -> run3 ft v es = Ok v' -> from_camera ft v'.
Proof.
  intros ft es. induction es as [|e es IH]; intros v v' T S F E.
  - injection E as <-. exact F.
  - cbn [run3] in E. inversion S. destruct (obind_Ok_inv _ _ _ E) as (v1 & E1 & E2). apply (IH v1 v'); try assumption. apply (step_from ft v e v1); assumption.
Qed.
Lemma restore_o : forall ft v b l, frames v -> ranges v -> proj_ok v -> w_persp v = false ->
  forall w, w_w w = w_w v -> w_h w = w_h v -> frames w ->
  exists w', open_scene3 ft w (Some (export_camera v)) l b = Ok w' /\ same_picture w' v.
Proof.
  intros ft v b l F R (W & H & Q) P w EW EH FW. pose proof (proj2 (proj2 R)) as S. unfold export_camera. rewrite P. cbn [open_scene3]. eexists. split; [reflexivity|].
  split; [|split; [|split; assumption]].
  - intros p. destruct F as [_ (OU & U & OE)]. destruct FW as [_ (_ & UW & _)]. unfold eye, to_eye. cbn [w_persp show_o put_o use_p w_o lock3]. rewrite P.
    assert (E : o_set_camera (w_o w) (o_plane (w_o v)) (o_at (w_o v)) (o_s (w_o v)) = w_o v).
    { rewrite <- OE at 4. unfold o_set_camera, o_use, o_update, o_with. cbv zeta. cbn. rewrite UW, U, Rmax_right by exact S. reflexivity. }
    rewrite E. reflexivity.
  - cbn [w_proj show_o put_o use_p w_o lock3 w_w w_h]. rewrite Q, P. unfold o_proj, o_set_camera, o_with. cbv zeta. cbn [o_s]. rewrite EW, EH, Rmax_right by exact S. reflexivity.
Qed.
Lemma restore_p : forall ft v b l, turns_y ft -> frames v -> proj_ok v -> w_persp v = true ->
  from_camera ft v ->
  forall w, w_w w = w_w v -> w_h w = w_h v ->
  exists w', open_scene3 ft w (Some (export_camera v)) l b = Ok w' /\ same_picture w' v.
Proof.
  intros ft v b l T F (W & H & Q) P (u & Hu & U) w EW EH. unfold export_camera. rewrite P. cbn [open_scene3]. eexists. split; [reflexivity|].
  assert (N : 0 < sqrt (dot3 u u)) by (apply sqrt_lt_R0; exact Hu).
  destruct (proj2 T u Hu) as (_ & D & K).
  assert (X : ft (mul3 (p_U (w_p v)) (V3 0 1 0)) = p_U (w_p v)).
  { rewrite U. assert (D' : mul3 (ft u) (V3 0 1 0) = scale3 (/ sqrt (dot3 u u)) u).
    { rewrite <- (f_equal (scale3 (/ sqrt (dot3 u u))) D). unfold scale3. cbn [c0 c1 c2]. apply v3_eq; cbn [c0 c1 c2]; field; nz. }
    rewrite D'. apply K. apply Rinv_0_lt_compat, N. }
  split; [|split; [|split; assumption]].
  - intros p. unfold eye, to_eye. cbn [w_persp show_p put_p use_p w_p lock3]. rewrite P.
    destruct F as [PF _]. destruct (pfresh_inv _ PF) as (Y & Z & X' & S).
    unfold p_set_perspective, p_set_camera, p_update. cbn. rewrite X, <- Z, <- Y, <- X', <- S. reflexivity.
  - cbn [w_proj show_p put_p use_p w_p lock3 w_w w_h]. rewrite Q, P, EW, EH. reflexivity.
Qed.
