(* C72: the cameras of the graphical programs show what the user asked for. *)
From Coq Require Import List Reals Lra Psatz Bool.
From Verif Require Import Outcome Ccd_Model Lin_Model ContactRb3_Model Rot_Model Rot_Spec Rot_Alg Geom_Model Geom_Spec Geom_Sets Geom_Aabb Wall_Model Wall_More
  Cam_Model Cam_Spec Cam_Plane Cam_Space Cam_Space2 Cam_Fit Cam_Ex Cam_Bad.
Import ListNotations.
Open Scope R_scope.

(* ---------- the plane ---------- *)
Lemma shown2_sync : forall a v, shown2 a v -> sized v /\ synced v.
Proof.
  intros a v (l & r & b & t & w0 & h0 & w & h & es & W & H & S & N & ->). unfold run2. cbn [fold_left step2].
  assert (Z : sized (reshape (start2 l r b t w0 h0) w h)) by (apply reshape_sized; try assumption; cbn; lra).
  pose proof (reshape_synced (start2 l r b t w0 h0) w h) as Y. exact (history2 a _ es (synced_faithful _ Z Y) Z Y S N).
Qed.
Lemma reached2_sized : forall a v, reached2 a v -> sized v.
Proof. intros a v (l & r & b & t & w0 & h0 & w & h & es & W & H & S & ->). apply always_sized; assumption. Qed.

(* after any history the window shows the centre and the scale that the camera holds, with square pixels *)
Theorem C72_plane_picture : forall a v, shown2 a v -> faithful2 v.
Proof. intros a v S. destruct (shown2_sync a v S). apply synced_faithful; assumption. Qed.
Print Assumptions C72_plane_picture.
(* in the ball program too, whatever happened before, once the picture is resized, dragged, zoomed or centred *)
Theorem C72_plane_touched : forall a v e, reached2 a v -> sensible2 e ->
  match e with
  | Resize2 _ _ => True
  | Move2 lb rb _ _ => v_lock v = false /\ (lb = true \/ rb = true)
  | Wheel2 _ | Center2 (Some _) => v_lock v = false
  | _ => False
  end -> faithful2 (step2 a v e).
Proof.
  intros a v e (l & r & b & t & w0 & h0 & w & h & es & W & H & S & ->) E T. pose proof (after_touch a l r b t w0 h0 w h es e W H S E T) as F.
  unfold run2 in F at 1. rewrite app_comm_cons, fold_left_app in F. exact F.
Qed.
Print Assumptions C72_plane_touched.
(* dragging with the left button moves the picture with the mouse, pixel by pixel *)
Theorem C72_plane_drag : forall a v dx dy p, shown2 a v -> v_lock v = false ->
  pixel2 (step2 a v (Move2 true false dx dy)) p = (fst (pixel2 v p) + dx, snd (pixel2 v p) + dy).
Proof. intros a v dx dy p S L. destruct (shown2_sync a v S). apply drag2; assumption. Qed.
Print Assumptions C72_plane_drag.
(* the wheel and the right button scale the picture about the middle of the window *)
Theorem C72_plane_wheel : forall a v d p, shown2 a v -> v_lock v = false ->
  let s' := Rmax (/ 100000) (v_s v * (1 - 2 / 1000 * d)) in
  v_s (step2 a v (Wheel2 d)) = s'
  /\ fst (pixel2 (step2 a v (Wheel2 d)) p) - g_w v / 2 = v_s v / s' * (fst (pixel2 v p) - g_w v / 2)
  /\ snd (pixel2 (step2 a v (Wheel2 d)) p) - g_h v / 2 = v_s v / s' * (snd (pixel2 v p) - g_h v / 2).
Proof. intros a v d p S L. destruct (shown2_sync a v S). apply wheel2; assumption. Qed.
Print Assumptions C72_plane_wheel.
Theorem C72_plane_zoom : forall a v dx dy p, shown2 a v -> v_lock v = false ->
  let s' := Rmax (/ 100000) (v_s v * (1 + 2 / 100 * dy)) in
  v_s (step2 a v (Move2 false true dx dy)) = s'
  /\ fst (pixel2 (step2 a v (Move2 false true dx dy)) p) - g_w v / 2 = v_s v / s' * (fst (pixel2 v p) - g_w v / 2)
  /\ snd (pixel2 (step2 a v (Move2 false true dx dy)) p) - g_h v / 2 = v_s v / s' * (snd (pixel2 v p) - g_h v / 2).
Proof. intros a v dx dy p S L. destruct (shown2_sync a v S). apply zoom_drag2; assumption. Qed.
Print Assumptions C72_plane_zoom.
(* a new window size keeps the centre, and the height of the world that is shown *)
Theorem C72_plane_resize : forall a v w h p, reached2 a v -> 0 < w -> 0 < h ->
  pixel2 (step2 a v (Resize2 w h)) p = (w / 2 + h / (2 * v_s v) * (fst p - v_x v), h / 2 - h / (2 * v_s v) * (snd p - v_y v)).
Proof. intros a v w h p S W H. destruct (reached2_sized a v S) as (_ & _ & _ & _ & P). apply resize2; assumption. Qed.
Print Assumptions C72_plane_resize.
(* centring brings every point of every ball and drum, or of every body, into the window, a sixth of its half size from the border *)
Theorem C72_plane_center_balls : forall v balls drums b, reached2 Balls v -> v_lock v = false ->
  Forall (fun b => 0 <= snd b) (balls ++ drums) -> ball_bounding_box balls drums = Some b -> extended2 b ->
  forall c p, In c (balls ++ drums) -> in_disc (fst c) (snd c) p -> in_window2 (step2 Balls v (Center2 (Some b))) (1 / 6) p.
Proof.
  intros v balls drums b S L V B E c p I P. apply centred2; try assumption; [apply (reached2_sized _ _ S)|].
  pose proof (ball_bounding_box_tight balls drums V) as T. rewrite B in T. apply T. exists c. split; assumption.
Qed.
Print Assumptions C72_plane_center_balls.
Theorem C72_plane_center_bodies : forall v bodies b, reached2 Bodies2 v -> v_lock v = false ->
  Forall body2_valid bodies -> rb2_bounding_box bodies = Some b -> extended2 b ->
  forall c p, In c bodies -> body2_points c p -> in_window2 (step2 Bodies2 v (Center2 (Some b))) (1 / 6) p.
Proof.
  intros v bodies b S L V B E c p I P. apply centred2; try assumption; [apply (reached2_sized _ _ S)|].
  pose proof (rb2_bounding_box_tight bodies V) as T. rewrite B in T. apply T. exists c. split; assumption.
Qed.
Print Assumptions C72_plane_center_bodies.
(* a locked camera stays as it is *)
Theorem C72_plane_locked : forall a v e, v_lock v = true -> match e with Move2 _ _ _ _ | Wheel2 _ | Center2 _ => True | _ => False end -> step2 a v e = v.
Proof. exact locked2. Qed.
Print Assumptions C72_plane_locked.
(* in the program for bodies an opened scene is shown with the camera it asks for *)
Theorem C72_plane_opened : forall v x y s l b, reached2 Bodies2 v -> 0 < s ->
  let v' := step2 Bodies2 v (Open2 (Some (x, y, s, l)) b) in
  shows2 v' (g_w v) (g_h v) (x, y) (g_h v / (2 * s)) /\ v_lock v' = l.
Proof. intros v x y s l b S P. apply opened2; [apply (reached2_sized _ _ S)|exact P]. Qed.
Print Assumptions C72_plane_opened.
(* finding: in the ball program it is not *)
Theorem C72_ball_open_refuted : exists v, reached2 Balls v
  /\ let v' := step2 Balls v (Open2 (Some (100, 0, 1, false)) None) in
     v_x v' = 100 /\ v_y v' = 0 /\ v_s v' = 1 /\ ~ in_window2 v' 0 (100, 0).
Proof. exact ball_open_bad. Qed.
Print Assumptions C72_ball_open_refuted.
(* finding: nor is the reset camera after centring without balls *)
Theorem C72_ball_empty_refuted : exists v, reached2 Balls v /\ faithful2 v /\ v_lock v = false /\ ~ faithful2 (step2 Balls v (Center2 None)).
Proof. exact ball_empty_bad. Qed.
Print Assumptions C72_ball_empty_refuted.

(* ---------- space ---------- *)
Lemma reached3_ok : forall ft v, turns_y ft -> reached3 ft v -> frames v /\ ranges v /\ from_camera ft v.
Proof.
  intros ft v T (p & w0 & h0 & es & S & E). destruct (start_ok p w0 h0) as (F & R & G).
  destruct (history3 ft es _ v T S F R G E) as (F' & R' & _). split; [exact F'|]. split; [exact R'|].
  apply (history_from ft es (start3 p w0 h0) v T S); [exact (from_init ft T)|exact E].
Qed.
Lemma shown3_reached : forall ft v, shown3 ft v -> reached3 ft v.
Proof. intros ft v (p & w0 & h0 & w & h & es & W & H & S & _ & E). exists p, w0, h0, (Resize3 w h :: es). split; [constructor; [split; assumption|exact S]|exact E]. Qed.
Lemma shown3_ok : forall ft v, shown3 ft v -> proj_ok v /\ fov_ok v.
Proof.
  intros ft v (p & w0 & h0 & w & h & es & W & H & S & N & E). cbn [run3 step3 obind] in E.
  destruct (first_resize p w0 h0 w h W H) as [P F]. exact (history_proj ft es _ v S N P F E).
Qed.

(* the picture is never distorted: after any history the camera is a rotation and a shift *)
Theorem C72_rigid : forall ft v, turns_y ft -> reached3 ft v -> rigid_view v.
Proof. intros ft v T S. apply rigid_ok. apply (reached3_ok ft v T S). Qed.
Print Assumptions C72_rigid.
(* the point the camera looks at is in the middle of the picture, in front of the camera *)
Theorem C72_target : forall ft v, turns_y ft -> reached3 ft v ->
  right_of v (target v) = 0 /\ above v (target v) = 0 /\ depth v (target v) = (if w_persp v then p_rho (w_p v) else 50) /\ 0 < depth v (target v).
Proof.
  intros ft v T S. destruct (reached3_ok ft v T S) as (F & (_ & R & _) & _). unfold right_of, above, depth. rewrite (target_ok v F). cbn [c0 c1 c2]. unfold distance.
  split; [reflexivity|]. split; [reflexivity|]. destruct (w_persp v); split; lra.
Qed.
Print Assumptions C72_target.
(* the picture is never tilted or upside down *)
Theorem C72_upright : forall ft v p, turns_y ft -> reached3 ft v -> w_persp v = true ->
  right_of v (add3 p (up_direction v)) = right_of v p /\ above v p <= above v (add3 p (up_direction v)).
Proof.
  intros ft v p T S P. destruct (reached3_ok ft v T S) as (F & ((T0 & T1) & _) & _). destruct (upright_ok v p F P) as [A B]. split; [exact A|]. rewrite B.
  pose proof (sin_ge_0 _ T0 T1). lra.
Qed.
Print Assumptions C72_upright.
(* the projection is always the one of the selected camera for the current window *)
Theorem C72_projection : forall ft v, shown3 ft v -> faithful3 v.
Proof. intros ft v S. apply proj_faithful. apply (shown3_ok ft v S). Qed.
Print Assumptions C72_projection.
(* the left button orbits: same target, same distance *)
Theorem C72_orbit : forall ft v b dx dy, turns_y ft -> reached3 ft v -> w_persp v = true -> w_lock v = false -> b_left b = true ->
  let v' := mouse_move3 v b dx dy in target v' = target v /\ depth v' (target v') = depth v (target v)
  /\ p_ph (w_p v') = p_ph (w_p v) - 1 / 100 * dx /\ p_th (w_p v') = Rmin PI (Rmax 0 (p_th (w_p v) - 1 / 100 * dy)).
Proof.
  intros ft v b dx dy T S P L B v'. destruct (reached3_ok ft v T S) as (F & _).
  assert (F' : frames v') by (apply (step_frames ft v (Move3 b dx dy)); [exact T|exact I|exact F|reflexivity]).
  destruct (orbit_ok v b dx dy P L B) as [E D]. fold v' in E, D. split; [exact E|]. split; [|].
  - unfold depth. rewrite (target_ok v' F'), (target_ok v F), D. reflexivity.
  - unfold v', mouse_move3. rewrite L, P, B. cbn [w_p put_p]. unfold p_azimuth, p_zenith, p_update, p_with. cbv zeta. cbn [p_ph p_th]. split; [ring|].
    pose proof PI_RGT_0. unfold Rltb, Rmin, Rmax. replace (p_th (w_p v) + - (1 / 100 * dy)) with (p_th (w_p v) - 1 / 100 * dy) by ring. set (t := p_th (w_p v) - 1 / 100 * dy).
    destruct (Rlt_dec t 0), (Rle_dec 0 t); try lra.
    + destruct (Rlt_dec PI 0), (Rle_dec PI 0); lra.
    + destruct (Rlt_dec PI t), (Rle_dec PI t); lra.
Qed.
Print Assumptions C72_orbit.
(* the middle button shifts the picture with the mouse, in proportion to the distance of the target *)
Theorem C72_track : forall ft v b dx dy p, turns_y ft -> reached3 ft v -> w_persp v = true -> w_lock v = false -> b_left b = false -> b_mid b = true ->
  eye (mouse_move3 v b dx dy) p = add3 (eye v p) (V3 (p_rho (w_p v) * (2 / 1000 * dx)) (- (p_rho (w_p v) * (2 / 1000 * dy))) 0).
Proof. intros ft v b dx dy p T S. destruct (reached3_ok ft v T S) as (F & _). apply track_ok. exact F. Qed.
Print Assumptions C72_track.
(* the right button and the wheel move the camera along its axis *)
Theorem C72_dolly : forall ft v b dx dy p, turns_y ft -> reached3 ft v -> w_persp v = true -> w_lock v = false ->
  b_left b = false -> b_mid b = false -> b_right b = true ->
  let r := Rmax (p_rho (w_p v) * (1 + 1 / 100 * (dx - dy))) (/ 10) in
  let v' := mouse_move3 v b dx dy in
  right_of v' p = right_of v p /\ above v' p = above v p /\ depth v' p = depth v p + (r - p_rho (w_p v)).
Proof. intros ft v b dx dy p T S. destruct (reached3_ok ft v T S) as (F & _). apply dolly_ok. exact F. Qed.
Print Assumptions C72_dolly.
Theorem C72_wheel : forall ft v d p, turns_y ft -> reached3 ft v -> w_persp v = true -> w_lock v = false ->
  let r := Rmax (p_rho (w_p v) * (1 - 2 / 1000 * d)) (/ 10) in
  let v' := wheel3 v d in
  right_of v' p = right_of v p /\ above v' p = above v p /\ depth v' p = depth v p + (r - p_rho (w_p v)).
Proof. intros ft v d p T S. destruct (reached3_ok ft v T S) as (F & _). apply wheel_ok. exact F. Qed.
Print Assumptions C72_wheel.
(* dragging an orthographic picture moves it with the mouse, pixel by pixel *)
Theorem C72_ortho_drag : forall ft v b dx dy p, turns_y ft -> shown3 ft v -> w_persp v = false -> w_lock v = false -> b_left b = true ->
  pixel3 (mouse_move3 v b dx dy) p = (fst (pixel3 v p) + dx, snd (pixel3 v p) + dy).
Proof.
  intros ft v b dx dy p T S P L B. destruct (reached3_ok ft v T (shown3_reached ft v S)) as (F & R & _). destruct (shown3_ok ft v S) as [Q _]. apply drag_ortho; assumption.
Qed.
Print Assumptions C72_ortho_drag.
(* zooming an orthographic picture scales it about the middle of the window *)
Theorem C72_ortho_zoom : forall ft v e d p, turns_y ft -> shown3 ft v -> w_persp v = false -> w_lock v = false ->
  (exists delta, e = Wheel3 delta /\ d = - (5 / 100) * delta)
  \/ (exists b dx dy, e = Move3 b dx dy /\ b_left b = false /\ b_right b = true /\ d = 1 / 10 * (dx - dy)) ->
  exists v', step3 ft v e = Ok v'
  /\ let s' := Rmax (/ 100000) (o_s (w_o v) + d) in
     fst (pixel3 v' p) - w_w v / 2 = o_s (w_o v) / s' * (fst (pixel3 v p) - w_w v / 2)
     /\ snd (pixel3 v' p) - w_h v / 2 = o_s (w_o v) / s' * (snd (pixel3 v p) - w_h v / 2).
Proof.
  intros ft v e d p T S P L E. destruct (reached3_ok ft v T (shown3_reached ft v S)) as (F & (_ & _ & R) & _). destruct (shown3_ok ft v S) as [(W & H & Q) _].
  set (v' := show_o (put_o v (o_dist (w_o v) d)) (w_w v) (w_h v)).
  assert (E' : step3 ft v e = Ok v').
  { destruct E as [(delta & -> & ->)|(b & dx & dy & -> & B1 & B2 & ->)]; cbn [step3]; f_equal; unfold wheel3, mouse_move3; rewrite L, P, ?B1, ?B2; reflexivity. }
  exists v'. split; [exact E'|]. set (s' := Rmax (/ 100000) (o_s (w_o v) + d)). assert (0 < s') by (unfold s'; apply max_pos; lra).
  assert (EY : eye v' p = eye v p) by (unfold eye, v'; cbn [w_persp show_o put_o]; rewrite P; reflexivity).
  assert (PJ : w_proj v' = Ortho (s' / (w_h v / w_w v)) s' (- 100) 100) by reflexivity.
  unfold pixel3, right_of, above. rewrite EY, PJ, Q, P. unfold o_proj. cbv zeta. cbn [fst snd]. change (w_w v') with (w_w v). change (w_h v') with (w_h v). split; field; nz.
Qed.
Print Assumptions C72_ortho_zoom.
(* the xy view has x to the right and y up, the zy view z and y, the zx view z and x *)
Theorem C72_views : forall ft v p b q, turns_y ft -> reached3 ft v -> w_lock v = false -> b <> None ->
  let v' := enable_orthographic v p b in
  let d := sub3 q (target v') in
  right_of v' q = match p with PXY => c0 d | _ => c2 d end /\ above v' q = match p with PZX => c0 d | _ => c1 d end.
Proof. intros ft v p b q T S L N. destruct (reached3_ok ft v T S) as (F & _). apply (views_ok v p b q F L N). Qed.
Print Assumptions C72_views.
(* centring brings every point of every body into the window, unless the sine of the scaled angle of view vanishes *)
Theorem C72_center_perspective : forall ft v bodies b, turns_y ft -> shown3 ft v -> w_persp v = true -> w_lock v = false ->
  Forall body3_valid bodies -> rb3_bounding_box bodies = Some b -> extended3 b -> sin (w_w v / w_h v * (fov / 360 * PI)) <> 0 ->
  forall c p, In c bodies -> body3_points c p -> in_window3 (center_camera3 v (Some b)) p.
Proof.
  intros ft v bodies b T S P L V B E N c p I Hp. destruct (reached3_ok ft v T (shown3_reached ft v S)) as (F & _). destruct (shown3_ok ft v S) as [Q G].
  apply centred_persp; try assumption; [exact (G P)|]. exact (bounding_sphere_ok bodies b V B c p I Hp).
Qed.
Print Assumptions C72_center_perspective.
Theorem C72_center_orthographic : forall ft v bodies b, turns_y ft -> shown3 ft v -> w_persp v = false -> w_lock v = false ->
  Forall body3_valid bodies -> rb3_bounding_box bodies = Some b -> extended3 b ->
  forall c p, In c bodies -> body3_points c p -> in_window3 (center_camera3 v (Some b)) p.
Proof.
  intros ft v bodies b T S P L V B E c p I Hp. destruct (reached3_ok ft v T (shown3_reached ft v S)) as (F & _). destruct (shown3_ok ft v S) as [Q _].
  apply centred_ortho; try assumption. exact (bounding_sphere_ok bodies b V B c p I Hp).
Qed.
Print Assumptions C72_center_orthographic.
(* whatever is within r of the target is drawn, if the camera is more than r + 0.1 and less than 1000 - r away; in an
   orthographic view if r is at most 50 *)
Theorem C72_drawn : forall ft v r p, turns_y ft -> shown3 ft v -> 0 <= r -> in_ball3 (target v) r p ->
  (if w_persp v then r + / 10 <= p_rho (w_p v) /\ p_rho (w_p v) + r <= 1000 else r <= 50) -> in_range3 v p.
Proof.
  intros ft v r p T S R B C. destruct (reached3_ok ft v T (shown3_reached ft v S)) as (F & _). destruct (shown3_ok ft v S) as [Q _]. apply proj_faithful in Q.
  destruct (w_persp v) eqn:P; [apply (range_persp v r p); tauto|apply (range_ortho v r p); tauto].
Qed.
Print Assumptions C72_drawn.
(* a locked camera ignores the mouse, the wheel and centring *)
Theorem C72_locked : forall ft v e, w_lock v = true -> match e with Move3 _ _ _ | Wheel3 _ | Center3 _ => True | _ => False end -> step3 ft v e = Ok v.
Proof. exact locked3. Qed.
Print Assumptions C72_locked.
(* exported camera settings, put in a scene and opened in a window of the same size, give the same picture *)
Theorem C72_export : forall ft v w l b, turns_y ft -> shown3 ft v -> reached3 ft w -> w_w w = w_w v -> w_h w = w_h v ->
  exists w', step3 ft w (Open3 (Some (export_camera v)) l b) = Ok w' /\ same_picture w' v /\ w_lock w' = l.
Proof.
  intros ft v w l b T S SW EW EH. destruct (reached3_ok ft v T (shown3_reached ft v S)) as (F & R & G). destruct (shown3_ok ft v S) as [Q _].
  destruct (reached3_ok ft w T SW) as (FW & _).
  assert (X : exists w', open_scene3 ft w (Some (export_camera v)) l b = Ok w' /\ same_picture w' v).
  { destruct (w_persp v) eqn:P; [apply restore_p|apply restore_o]; assumption. }
  destruct X as (w' & E & SP). exists w'. split; [exact E|]. split; [exact SP|].
  unfold open_scene3, export_camera in E. destruct (w_persp v); injection E as <-; reflexivity.
Qed.
Print Assumptions C72_export.
(* findings *)
Theorem C72_lock_refuted : exists ft v b, turns_y ft /\ reached3 ft v /\ w_lock v = true /\ rb3_bounding_box (lone_ball 1) = Some b
  /\ ~ same_picture (enable_orthographic v PXY (Some b)) v.
Proof. exact lock_bad. Qed.
Print Assumptions C72_lock_refuted.
Theorem C72_open_first_refuted : exists ft w bodies b v p, turns_y ft /\ 0 < w
  /\ Forall body3_valid bodies /\ rb3_bounding_box bodies = Some b /\ extended3 b
  /\ run3 ft (start3 (Frustum 1 1 1 2) w w) [Open3 None false (Some b); Resize3 w w] = Ok v
  /\ (exists body, In body bodies /\ body3_points body p) /\ ~ in_window3 v p.
Proof. exact open_first_bad. Qed.
Print Assumptions C72_open_first_refuted.
Theorem C72_wide_refuted : exists ft v b p, turns_y ft /\ shown3 ft v /\ w_persp v = true /\ w_lock v = false
  /\ rb3_bounding_box (lone_ball 1) = Some b /\ (exists body, In body (lone_ball 1) /\ body3_points body p)
  /\ ~ in_range3 (center_camera3 v (Some b)) p.
Proof. exact wide_bad. Qed.
Print Assumptions C72_wide_refuted.
Theorem C72_tiny_refuted : exists ft v b p, turns_y ft /\ shown3 ft v /\ w_persp v = true /\ w_lock v = false
  /\ rb3_bounding_box (lone_ball (/ 1000)) = Some b /\ (exists body, In body (lone_ball (/ 1000)) /\ body3_points body p)
  /\ ~ in_range3 (center_camera3 v (Some b)) p.
Proof. exact tiny_bad. Qed.
Print Assumptions C72_tiny_refuted.
Theorem C72_big_orthographic_refuted : exists ft v b p, turns_y ft /\ shown3 ft v /\ w_persp v = false /\ w_lock v = false
  /\ rb3_bounding_box (lone_ball 100) = Some b /\ (exists body, In body (lone_ball 100) /\ body3_points body p)
  /\ ~ in_range3 (center_camera3 v (Some b)) p.
Proof. exact big_ortho_bad. Qed.
Print Assumptions C72_big_orthographic_refuted.

(* ---------- the hypotheses are met ---------- *)
(* a planar window, dragged, zoomed and centred on a ball *)
Example ex_plane : shown2 Balls (run2 Balls (start2 0 1 0 1 640 480) [Resize2 640 480; Move2 true false 10 20; Wheel2 120; Center2 (Some ((- (1), - (1)), (1, 1)))])
  /\ v_lock (run2 Balls (start2 0 1 0 1 640 480) [Resize2 640 480; Move2 true false 10 20; Wheel2 120; Center2 (Some ((- (1), - (1)), (1, 1)))]) = false
  /\ ball_bounding_box [((0, 0), 1)] [] <> None.
Proof.
  split; [|split; [reflexivity|discriminate]]. exists 0, 1, 0, 1, 640, 480, 640, 480, [Move2 true false 10 20; Wheel2 120; Center2 (Some ((- (1), - (1)), (1, 1)))].
  split; [lra|]. split; [lra|]. split; [|split; [right|reflexivity]].
  - repeat (apply Forall_cons; [try exact I|]); [|apply Forall_nil]. unfold sensible2, extended2. cbn [fst snd]. lra.
  - repeat (apply Forall_cons; [cbn; tauto|]). apply Forall_nil.
Qed.
(* a window in space: a scene camera tilted to the x axis, orbited, tracked and zoomed, not locked *)
Definition ex_events : list event3 :=
  [Open3 (Some (PerspCam (V3 2 0 0) 1 2 5 (V3 1 1 1))) false None; Move3 (Buttons true false false) 10 20;
   Move3 (Buttons false true false) 3 4; Wheel3 120].
Example ex_space : exists v, shown3 shortest v /\ w_persp v = true /\ w_lock v = false /\ turns_y shortest
  /\ (exists b, rb3_bounding_box (lone_ball 1) = Some b /\ extended3 b) /\ Forall body3_valid (lone_ball 1)
  /\ sin (w_w v / w_h v * (fov / 360 * PI)) <> 0.
Proof.
  eexists. split.
  - exists (Frustum 1 1 1 2), 512, 512, 640, 480, ex_events. split; [lra|]. split; [lra|]. split; [|split; [repeat constructor|reflexivity]].
    constructor; [|repeat constructor]. cbn [sensible3]. pose proof PI_RGT_0. pose proof PI2_1. unfold dot3. cbn. repeat split; lra.
  - cbn [w_persp w_lock]. split; [reflexivity|]. split; [reflexivity|]. split; [exact shortest_turns|]. split; [|split].
    + eexists. split; [apply lone_ball_box|]. unfold extended3. rewrite lone_ball_sphere by lra. cbn. pose proof sqrt3_pos. lra.
    + constructor; [|constructor]. split; [exact rotation_id|]. cbn. lra.
    + apply Rgt_not_eq. pose proof PI_RGT_0. apply sin_gt_0; cbn; unfold fov; lra.
Qed.
(* and an orthographic one *)
Example ex_ortho : exists v, shown3 shortest v /\ w_persp v = false /\ w_lock v = false.
Proof.
  eexists. split.
  - exists (Frustum 1 1 1 2), 512, 512, 640, 480, [Orthographic3 PZY (Some (cube_box 1)); Move3 (Buttons true false false) 10 20]. split; [lra|]. split; [lra|]. split; [|split; [repeat constructor|reflexivity]].
    constructor; [|repeat constructor]. cbn [sensible3 sensible_box]. unfold extended3. rewrite lone_ball_sphere by lra. cbn. pose proof sqrt3_pos. lra.
  - split; reflexivity.
Qed.
