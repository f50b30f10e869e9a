(* Proofs on the cameras in space. *)
From Coq Require Import List Reals Lra Psatz Bool.
From Verif Require Import Outcome Ccd_Model Lin_Model ContactRb3_Model Rot_Model Rot_Spec Rot_Alg Geom_Model Geom_Spec Wall_Model Cam_Model Cam_Spec Cam_Plane.
Import ListNotations.
Open Scope R_scope.

(* ---------- the frame ---------- *)
Definition unit_frame (y z : v3) : Prop := dot3 y y = 1 /\ dot3 z z = 1 /\ dot3 y z = 0.
Lemma v3_eq : forall a b, c0 a = c0 b -> c1 a = c1 b -> c2 a = c2 b -> a = b.
Proof. intros [a0 a1 a2] [b0 b1 b2]. cbn. congruence. Qed.
Lemma frame_rotation : forall y z, unit_frame y z -> rotation (M3 y (cross3 y z) (neg3 z)).
Proof.
  intros [y0 y1 y2] [z0 z1 z2] (Y & Z & O). unfold dot3 in Y, Z, O. cbn [c0 c1 c2] in Y, Z, O.
  assert (L : (y1 * z2 - y2 * z1) * (y1 * z2 - y2 * z1) + (y2 * z0 - y0 * z2) * (y2 * z0 - y0 * z2) + (y0 * z1 - y1 * z0) * (y0 * z1 - y1 * z0) = 1).
  { replace 1 with ((y0 * y0 + y1 * y1 + y2 * y2) * (z0 * z0 + z1 * z1 + z2 * z2) - (y0 * z0 + y1 * z1 + y2 * z2) * (y0 * z0 + y1 * z1 + y2 * z2)) by (rewrite Y, Z, O; ring). ring. }
  split.
  - unfold mm, vmul, mul3, tr, id3, diag3, cross3, neg3, dot3. cbn [row0 row1 row2_ c0 c1 c2]. repeat (apply f_equal3 || apply f_equal2 || f_equal); lra.
  - unfold det3, cross3, neg3, dot3. cbn [row0 row1 row2_ c0 c1 c2]. rewrite <- L. ring.
Qed.
Lemma rot_dot : forall U a b, rotation U -> dot3 (mul3 U a) (mul3 U b) = dot3 a b.
Proof. intros U a b H. rewrite dot_mul3, <- mul3_mm, (rotation_left U H), mul3_id. reflexivity. Qed.
Lemma dir_unit : forall th ph, dot3 (cam_dir th ph) (cam_dir th ph) = 1.
Proof.
  intros th ph. unfold dot3, cam_dir. cbn [c0 c1 c2]. pose proof (sc1 th). pose proof (sc1 ph).
  replace (sin th * sin ph * (sin th * sin ph) + cos th * cos th + sin th * cos ph * (sin th * cos ph))
    with (cos th * cos th + sin th * sin th * (cos ph * cos ph + sin ph * sin ph)) by ring. rewrite H0. lra.
Qed.
Lemma right_unit : forall ph, dot3 (cam_right ph) (cam_right ph) = 1.
Proof. intros ph. unfold dot3, cam_right. cbn [c0 c1 c2]. pose proof (sc1 ph). lra. Qed.
Lemma right_dir : forall th ph, dot3 (cam_right ph) (cam_dir th ph) = 0.
Proof. intros. unfold dot3, cam_right, cam_dir. cbn [c0 c1 c2]. ring. Qed.
Lemma dot_neg : forall a b, dot3 a (scale3 (- 1) b) = - dot3 a b.
Proof. intros [a0 a1 a2] [b0 b1 b2]. unfold dot3, scale3. cbn. ring. Qed.
Lemma dot_neg2 : forall a, dot3 (scale3 (- 1) a) (scale3 (- 1) a) = dot3 a a.
Proof. intros [a0 a1 a2]. unfold dot3, scale3. cbn. ring. Qed.
Lemma neg_neg : forall a, neg3 (scale3 (- 1) a) = a.
Proof. intros [a0 a1 a2]. unfold neg3, scale3. cbn. f_equal; ring. Qed.
Lemma cam_frame : forall U th ph, rotation U -> unit_frame (mul3 U (cam_right ph)) (scale3 (- 1) (mul3 U (cam_dir th ph))).
Proof.
  intros U th ph H. unfold unit_frame. rewrite dot_neg2, dot_neg, !rot_dot by assumption. rewrite dir_unit, right_unit, right_dir. repeat split; ring.
Qed.

(* the stored frame is up to date *)
Definition pfresh (c : pcam) : Prop := p_update c = c /\ rotation (p_U c).
Definition ofresh (c : ocam) : Prop := o_update c = c /\ o_U c = id3 /\ o_use c (o_plane c) = c.
Definition frames (v : view3) : Prop := pfresh (w_p v) /\ ofresh (w_o v).
Definition ranges (v : view3) : Prop := 0 <= p_th (w_p v) <= PI /\ 0 < p_rho (w_p v) /\ / 100000 <= o_s (w_o v).

Lemma p_update_idem : forall c, p_update (p_update c) = p_update c.
Proof. reflexivity. Qed.
Lemma pfresh_update : forall c, rotation (p_U c) -> pfresh (p_update c).
Proof. intros c H. split; [apply p_update_idem|exact H]. Qed.
Lemma pfresh_inv : forall c, pfresh c ->
  p_y c = mul3 (p_U c) (cam_right (p_ph c)) /\ p_z c = scale3 (- 1) (mul3 (p_U c) (cam_dir (p_th c) (p_ph c)))
  /\ p_x c = cross3 (p_y c) (p_z c) /\ p_psn c = scale3 (p_rho c) (mul3 (p_U c) (cam_dir (p_th c) (p_ph c))).
Proof. intros c [E _]. rewrite <- E. repeat split. Qed.
Lemma pfresh_track : forall c at_, pfresh c -> pfresh (p_with c (p_th c) (p_ph c) (p_rho c) at_).
Proof.
  intros c at_ F. destruct (pfresh_inv c F) as (Y & Z & X & P). destruct F as [E U]. split; [|exact U].
  unfold p_update, p_with. cbn. rewrite <- Z, <- Y, <- X, <- P. reflexivity.
Qed.
Lemma pfresh_fov : forall c w h, pfresh c -> pfresh (fst (p_set_perspective c w h)).
Proof.
  intros c w h F. destruct (pfresh_inv c F) as (Y & Z & X & P). destruct F as [E U]. split; [|exact U].
  unfold p_update, p_set_perspective. cbn. rewrite <- Z, <- Y, <- X, <- P. reflexivity.
Qed.
Lemma p_init_fresh : pfresh p_init.
Proof. apply pfresh_update. exact rotation_id. Qed.
Lemma ofresh_inv : forall c, ofresh c ->
  o_y c = mul3 id3 (cam_right (o_ph c)) /\ o_z c = scale3 (- 1) (mul3 id3 (cam_dir (o_th c) (o_ph c)))
  /\ o_x c = cross3 (o_y c) (o_z c) /\ o_psn c = scale3 50 (mul3 id3 (cam_dir (o_th c) (o_ph c))).
Proof. intros c (E & U & _). rewrite <- U, <- E. repeat split. Qed.
Lemma ofresh_use : forall c p, o_U c = id3 -> ofresh (o_use c p).
Proof. intros c p U. split; [reflexivity|]. split; [exact U|reflexivity]. Qed.
Lemma ofresh_with : forall c at_ s, ofresh c -> ofresh (o_with c at_ s).
Proof.
  intros c at_ s (E & U & P). split; [|split; [exact U|]].
  - apply (f_equal (fun c => o_with c at_ s)) in E. exact E.
  - apply (f_equal (fun c => o_with c at_ s)) in P. exact P.
Qed.
Lemma o_init_fresh : ofresh o_init.
Proof. apply ofresh_use. reflexivity. Qed.

Lemma put_p_frames : forall v c, frames v -> pfresh c -> frames (put_p v c).
Proof. intros v c [_ O] P. split; assumption. Qed.
Lemma put_o_frames : forall v c, frames v -> ofresh c -> frames (put_o v c).
Proof. intros v c [P _] O. split; assumption. Qed.
Lemma show_p_frames : forall v w h, frames v -> frames (show_p v w h).
Proof. intros v w h [P O]. split; [apply pfresh_fov; exact P|exact O]. Qed.
Lemma show_o_frames : forall v w h, frames v -> frames (show_o v w h).
Proof. intros v w h F. exact F. Qed.
Lemma p_center_fresh : forall c x r, pfresh c -> pfresh (p_center c x r).
Proof. intros c x r [_ U]. apply pfresh_update. exact U. Qed.
Lemma center_frames : forall v b, frames v -> frames (center_camera3 v b).
Proof.
  intros v b F. unfold center_camera3. destruct (w_lock v); [exact F|]. destruct b as [b|]; destruct (w_persp v).
  - apply put_p_frames; [exact F|]. apply p_center_fresh. apply F.
  - apply show_o_frames, put_o_frames; [exact F|]. apply ofresh_with. apply F.
  - apply put_p_frames; [exact F|exact p_init_fresh].
  - apply put_o_frames; [exact F|exact o_init_fresh].
Qed.
Lemma use_frames : forall v b, frames v -> frames (use_p v b).
Proof. intros v b F. exact F. Qed.
Lemma step_frames : forall ft v e v', turns_y ft -> sensible3 e -> frames v -> step3 ft v e = Ok v' -> frames v'.
Proof.
  intros ft v e v' T S F E. destruct e as [w h|b dx dy|d|b|b|p b|c l b|l]; cbn [step3] in E; try (assert (A : v' = _) by (symmetry; injection E as E; exact E)); try subst v'.
  - unfold resize3. destruct (w_persp v); [apply show_p_frames|apply show_o_frames]; exact F.
  - unfold mouse_move3. destruct (w_lock v); [exact F|]. destruct (w_persp v).
    + destruct F as [P O]. destruct (b_left b); [apply put_p_frames; [split; assumption|]; apply pfresh_update; apply P|].
      destruct (b_mid b).
      * apply put_p_frames; [split; assumption|]. apply (pfresh_track (p_track_h (w_p v) _)). apply (pfresh_track (w_p v)). exact P.
      * destruct (b_right b); [|split; assumption]. apply put_p_frames; [split; assumption|]. apply pfresh_update. apply P.
    + destruct (b_left b); [apply put_o_frames; [exact F|apply ofresh_with, F]|]. destruct (b_right b); [|exact F].
      apply show_o_frames, put_o_frames; [exact F|apply ofresh_with, F].
  - unfold wheel3. destruct (w_lock v); [exact F|]. destruct (w_persp v).
    + apply put_p_frames; [exact F|]. apply pfresh_update. apply F.
    + apply show_o_frames, put_o_frames; [exact F|apply ofresh_with, F].
  - apply center_frames, F.
  - apply center_frames, show_p_frames, F.
  - apply center_frames, show_o_frames, put_o_frames; [exact F|]. apply ofresh_use. apply F.
  - unfold open_scene3 in E. destruct c as [[up th ph rho at_|p at_ s]|].
    + injection E as <-. apply show_p_frames, put_p_frames; [exact F|]. apply pfresh_update. cbn [p_U]. cbn [sensible3] in S. apply (proj2 T). apply S.
    + injection E as <-. apply show_o_frames, put_o_frames; [exact F|]. apply ofresh_with, ofresh_use. apply F.
    + destruct b as [b|]; [|discriminate E]. injection E as <-. apply show_p_frames, put_p_frames; [exact F|]. apply p_center_fresh, F.
  - exact F.
Qed.
