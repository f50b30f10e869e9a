(* The cases in which a camera does not show what it should. *)
From Coq Require Import List Reals Lra Psatz Bool.
From Verif Require Import Outcome Ccd_Model Lin_Model ContactRb3_Model Rot_Model Rot_Spec Rot_Alg Geom_Model Geom_Spec Geom_Sets Wall_Model Cam_Model Cam_Spec Cam_Plane Cam_Space Cam_Space2 Cam_Fit Cam_Ex.
Import ListNotations.
Open Scope R_scope.

(* opening a scene in the ball program leaves the old picture: the scene's centre is not in the window *)
Lemma ball_open_bad : exists v, reached2 Balls v
  /\ let v' := step2 Balls v (Open2 (Some (100, 0, 1, false)) None) in
     v_x v' = 100 /\ v_y v' = 0 /\ v_s v' = 1 /\ ~ in_window2 v' 0 (100, 0).
Proof.
  exists (run2 Balls (start2 0 1 0 1 512 512) [Resize2 512 512]). split.
  - exists 0, 1, 0, 1, 512, 512, 512, 512, []. repeat split; try lra. constructor.
  - cbn. split; [reflexivity|]. split; [reflexivity|]. split; [reflexivity|]. intros [H _]. unfold pixel2 in H. cbn in H.
    replace ((100 - (0 - 1 / (512 / 512))) / (0 + 1 / (512 / 512) - (0 - 1 / (512 / 512))) * 512 - 512 / 2) with 25600 in H by field.
    rewrite Rabs_pos_eq in H by lra. lra.
Qed.
(* centring a window without balls resets the camera, but not the picture *)
Lemma ball_empty_bad : exists v, reached2 Balls v /\ faithful2 v /\ v_lock v = false /\ ~ faithful2 (step2 Balls v (Center2 None)).
Proof.
  exists (run2 Balls (start2 0 1 0 1 512 512) [Resize2 512 512; Move2 true false 256 0]). split; [|split; [|split]].
  - exists 0, 1, 0, 1, 512, 512, 512, 512, [Move2 true false 256 0]. repeat split; try lra. repeat constructor.
  - apply after_show; try lra; [repeat constructor|]. right. repeat constructor. intros H. exact H.
  - reflexivity.
  - intros F. pose proof (faithful_pixel _ (0, 0) F) as P. apply (f_equal fst) in P. unfold pixel2 in P. cbn in P.
    replace ((0 - (0 - 2 * 1 * 256 / 512 - 1 / (512 / 512))) / (0 - 2 * 1 * 256 / 512 + 1 / (512 / 512) - (0 - 2 * 1 * 256 / 512 - 1 / (512 / 512))) * 512) with 512 in P by field.
    lra.
Qed.

(* a locked camera still moves when another view is chosen *)
Lemma lock_bad : exists ft v b, turns_y ft /\ reached3 ft v /\ w_lock v = true /\ rb3_bounding_box (lone_ball 1) = Some b
  /\ ~ same_picture (enable_orthographic v PXY (Some b)) v.
Proof.
  exists shortest, (lock3 (start3 (Frustum 1 1 1 2) 512 512) true), (cube_box 1).
  split; [exact shortest_turns|]. split; [|split; [reflexivity|split]].
  - exists (Frustum 1 1 1 2), 512, 512, [Lock3 true]. split; [repeat constructor|reflexivity].
  - apply lone_ball_box.
  - intros [E _]. specialize (E zero3). set (v := lock3 (start3 (Frustum 1 1 1 2) 512 512) true) in *.
    assert (F : frames v) by apply (start_ok (Frustum 1 1 1 2) 512 512).
    assert (F' : frames (enable_orthographic v PXY (Some (cube_box 1)))) by (apply center_frames, show_o_frames, put_o_frames; [exact F|apply ofresh_use; reflexivity]).
    pose proof (target_ok _ F) as T. pose proof (target_ok _ F') as T'.
    change (target v) with zero3 in T. change (target (enable_orthographic v PXY (Some (cube_box 1)))) with zero3 in T'.
    assert (Q : V3 0 0 (- 50) = V3 0 0 (- 3)) by exact (eq_trans (eq_sym T') (eq_trans E T)). injection Q as Q. lra.
Qed.

(* a scene opened before the window is shown is framed for another field of view: a corner of a box is cut off *)
Lemma sin_hf_half : sin hf < / 2.
Proof.
  replace (/ 2) with (sin (PI / 6)) by (rewrite sin_PI6; lra). pose proof PI_RGT_0. pose proof hf_range. apply sin_increasing_1; unfold hf, fov in *; lra.
Qed.
Lemma abs3_norm : forall p, dot3 (abs3 p) (abs3 p) = dot3 p p.
Proof.
  intros p. unfold dot3, abs3. cbn [c0 c1 c2]. rewrite <- !Rabs_mult. rewrite !Rabs_pos_eq by apply Rle_0_sqr. reflexivity.
Qed.
Definition cut_point : v3 := mul3 (tr (cam_rot (start3 (Frustum 1 1 1 2) 512 512))) (V3 0 (cos hf) (sin hf)).
Lemma cut_norm : dot3 cut_point cut_point = 1.
Proof.
  unfold cut_point. pose proof (cam_rot_ok _ (proj1 (start_ok (Frustum 1 1 1 2) 512 512))) as R.
  rewrite rot_dot by (apply rotation_tr; exact R). unfold dot3. cbn [c0 c1 c2]. pose proof (sc1 hf). lra.
Qed.
Lemma open_first_bad : exists ft w bodies b v p, turns_y ft /\ 0 < w
  /\ Forall body3_valid bodies /\ rb3_bounding_box bodies = Some b /\ extended3 b
  /\ run3 ft (start3 (Frustum 1 1 1 2) w w) [Open3 None false (Some b); Resize3 w w] = Ok v
  /\ (exists body, In body bodies /\ body3_points body p) /\ ~ in_window3 v p.
Proof.
  assert (BS : bounding_sphere (neg3 (abs3 cut_point), abs3 cut_point) = (zero3, 1)) by (rewrite sym_sphere, abs3_norm, cut_norm, sqrt_1; reflexivity).
  exists shortest, 512, (lone_box (abs3 cut_point)), (neg3 (abs3 cut_point), abs3 cut_point).
  set (v := resize3 (show_p (put_p (use_p (lock3 (start3 (Frustum 1 1 1 2) 512 512) false) true) (p_center p_init zero3 1)) 512 512) 512 512).
  exists v, cut_point. split; [exact shortest_turns|]. split; [lra|]. split; [|split; [apply lone_box_box|split; [|split; [|split]]]].
  - constructor; [|constructor]. split; [exact rotation_id|]. cbn. repeat split; apply Rabs_pos.
  - unfold extended3. rewrite BS. cbn. lra.
  - cbn [run3 step3 open_scene3]. rewrite BS. reflexivity.
  - eexists. split; [left; reflexivity|]. unfold body3_points. cbn [b3_shape b3_x b3_R]. unfold in_box3.
    unfold tr, id3, diag3, dot3, sub3, zero3, abs3. cbn [row0 row1 row2_ c0 c1 c2]. repeat split; apply Req_le; f_equal; ring.
  - assert (F : frames v).
    { unfold v, resize3. apply show_p_frames, show_p_frames, put_p_frames; [exact (proj1 (start_ok (Frustum 1 1 1 2) 512 512))|]. apply p_center_fresh, p_init_fresh. }
    assert (RHO : p_rho (w_p v) = 2).
    { unfold v, resize3. cbn [w_persp show_p put_p use_p lock3 w_p fst p_set_perspective p_rho]. unfold p_center, p_update, p_with, p_init. cbv zeta. cbn [p_rho p_fovy p_aspect p_update].
      replace (/ 2 * 60 * (PI / 180)) with (PI / 6) by field. replace (/ 2 * 1 * 60 * (PI / 180)) with (PI / 6) by field.
      rewrite sin_PI6. rewrite Rmax_left by lra. field. }
    intros I. unfold in_window3 in I.
    assert (PJ : w_proj v = Frustum (tan hf * / 10 * (512 / 512)) (tan hf * / 10) (/ 10) 1000) by reflexivity. rewrite PJ in I. destruct I as (_ & _ & I).
    unfold above, depth in I. rewrite (eye_form v cut_point F) in I.
    change (target v) with zero3 in I. change (distance v) with (p_rho (w_p v)) in I. rewrite RHO in I.
    assert (CR : cam_rot v = cam_rot (start3 (Frustum 1 1 1 2) 512 512)) by reflexivity.
    assert (EY : mul3 (cam_rot v) (sub3 cut_point zero3) = V3 0 (cos hf) (sin hf)).
    { replace (sub3 cut_point zero3) with cut_point by (generalize cut_point; intros u; apply v3_eq; unfold sub3, zero3; cbn [c0 c1 c2]; ring).
      rewrite CR. unfold cut_point. rewrite <- mul3_mm, (proj1 (cam_rot_ok _ (proj1 (start_ok (Frustum 1 1 1 2) 512 512)))), mul3_id. reflexivity. }
    rewrite EY in I. unfold sub3 in I. cbn [c1 c2] in I. destruct hf_sin as (S & C & _). rewrite Rabs_pos_eq in I by lra.
    unfold tan in I. assert (I' : cos hf * cos hf <= sin hf * (2 - sin hf)).
    { apply (Rmult_le_compat_r (10 * cos hf)) in I; [|lra].
      replace ((cos hf - 0) * / 10 * (10 * cos hf)) with (cos hf * cos hf) in I by field.
      replace (sin hf / cos hf * / 10 * - (sin hf - 2) * (10 * cos hf)) with (sin hf * (2 - sin hf)) in I by (field; nz). exact I. }
    pose proof (sc1 hf). pose proof sin_hf_half. lra.
Qed.

(* the distance that centring chooses, and the depth of the middle of a ball *)
Lemma centred_rho : forall v r, w_persp v = true -> w_lock v = false -> 0 < w_h v -> fresh_fov v -> 0 <= r ->
  p_rho (w_p (center_camera3 v (Some (cube_box r)))) = Rmax (r * sqrt 3 / sin hf) (r * sqrt 3 / sin (w_w v / w_h v * hf)).
Proof.
  intros v r P L H [G1 G2] R. unfold center_camera3. rewrite L, P. rewrite lone_ball_sphere by exact R. cbn [fst snd w_p put_p]. unfold p_center, p_update, p_with. cbv zeta. cbn [p_rho].
  rewrite G1, G2, half_fov. fold hf. replace (/ 2 * (w_w v / w_h v) * fov * (PI / 180)) with (w_w v / w_h v * hf) by (unfold hf; field; nz). reflexivity.
Qed.
Lemma middle_depth : forall v r, w_persp v = true -> w_lock v = false -> frames v -> 0 <= r ->
  depth (center_camera3 v (Some (cube_box r))) zero3 = p_rho (w_p (center_camera3 v (Some (cube_box r)))).
Proof.
  intros v r P L F R. pose proof (target_ok _ (center_frames v (Some (cube_box r)) F)) as T. unfold depth.
  assert (E : target (center_camera3 v (Some (cube_box r))) = zero3).
  { unfold center_camera3. rewrite L, P. unfold target. cbn [w_persp put_p w_p]. rewrite P, lone_ball_sphere by exact R. reflexivity. }
  rewrite E in T. rewrite T. cbn [c2]. unfold distance.
  assert (P' : w_persp (center_camera3 v (Some (cube_box r))) = true) by (unfold center_camera3; rewrite L, P; exact P).
  rewrite P'. ring.
Qed.
(* the window 1296 x 196: centring moves the camera beyond the far plane *)
Lemma wide_bad : exists ft v b p, turns_y ft /\ shown3 ft v /\ w_persp v = true /\ w_lock v = false
  /\ rb3_bounding_box (lone_ball 1) = Some b /\ (exists body, In body (lone_ball 1) /\ body3_points body p)
  /\ ~ in_range3 (center_camera3 v (Some b)) p.
Proof.
  set (v := resize3 (start3 (Frustum 1 1 1 2) 512 512) 1296 196).
  exists shortest, v, (cube_box 1), zero3.
  split; [exact shortest_turns|]. split; [|split; [reflexivity|split; [reflexivity|split; [apply lone_ball_box|split]]]].
  - exists (Frustum 1 1 1 2), 512, 512, 1296, 196, []. repeat split; try lra; constructor.
  - eexists. split; [left; reflexivity|]. unfold body3_points. cbn [b3_shape b3_x b3_R]. unfold in_ball3, dot3, sub3, zero3. cbn. lra.
  - assert (F : frames v) by (apply show_p_frames; exact (proj1 (start_ok (Frustum 1 1 1 2) 512 512))).
    assert (MD := middle_depth v 1 eq_refl eq_refl F ltac:(lra)).
    rewrite (centred_rho v 1 eq_refl eq_refl) in MD; [|cbn; lra|split; reflexivity|lra].
    change (w_w v / w_h v) with (1296 / 196) in MD. intros I. unfold in_range3 in I.
    assert (PJ : w_proj (center_camera3 v (Some (cube_box 1))) = Frustum (tan hf * / 10 * (1296 / 196)) (tan hf * / 10) (/ 10) 1000) by reflexivity.
    rewrite PJ, MD in I. destruct I as [_ I]. pose proof PI_RGT_0. pose proof PI_4 as P4.
    pose proof (Rmax_r (1 * sqrt 3 / sin hf) (1 * sqrt 3 / sin (1296 / 196 * hf))) as M.
    assert (E : sin (1296 / 196 * hf) = sin (PI - 1296 / 196 * hf)) by (rewrite sin_PI_x; reflexivity).
    assert (EP : 0 < PI - 1296 / 196 * hf) by (unfold hf, fov; lra). assert (EL : PI - 1296 / 196 * hf < 11 / 10000) by (unfold hf, fov; lra).
    assert (S0 : 0 < sin (PI - 1296 / 196 * hf)) by (apply sin_gt_0; [exact EP|unfold hf, fov; lra]).
    pose proof (sin_lt_x _ EP) as SL. rewrite E in M. pose proof sqrt3_pos as Q.
    assert (Q2 : 17 / 10 <= sqrt 3) by (replace (17 / 10) with (sqrt ((17 / 10) * (17 / 10))) by (apply sqrt_square; lra); apply sqrt_le_1; lra).
    assert (B : 1000 < 1 * sqrt 3 / sin (PI - 1296 / 196 * hf)).
    { apply (Rmult_lt_reg_r (sin (PI - 1296 / 196 * hf))); [exact S0|]. replace (1 * sqrt 3 / sin (PI - 1296 / 196 * hf) * sin (PI - 1296 / 196 * hf)) with (sqrt 3) by (field; nz). lra. }
    rewrite E in I. lra.
Qed.
(* a ball one millimetre across: centring moves the camera so near that the ball is before the near plane *)
Lemma tiny_bad : exists ft v b p, turns_y ft /\ shown3 ft v /\ w_persp v = true /\ w_lock v = false
  /\ rb3_bounding_box (lone_ball (/ 1000)) = Some b /\ (exists body, In body (lone_ball (/ 1000)) /\ body3_points body p)
  /\ ~ in_range3 (center_camera3 v (Some b)) p.
Proof.
  set (v := resize3 (start3 (Frustum 1 1 1 2) 512 512) 512 512).
  exists shortest, v, (cube_box (/ 1000)), zero3.
  split; [exact shortest_turns|]. split; [|split; [reflexivity|split; [reflexivity|split; [apply lone_ball_box|split]]]].
  - exists (Frustum 1 1 1 2), 512, 512, 512, 512, []. repeat split; try lra; constructor.
  - eexists. split; [left; reflexivity|]. unfold body3_points. cbn [b3_shape b3_x b3_R]. unfold in_ball3, dot3, sub3, zero3. cbn. lra.
  - assert (F : frames v) by (apply show_p_frames; exact (proj1 (start_ok (Frustum 1 1 1 2) 512 512))).
    assert (MD := middle_depth v (/ 1000) eq_refl eq_refl F ltac:(lra)).
    rewrite (centred_rho v (/ 1000) eq_refl eq_refl) in MD; [|cbn; lra|split; reflexivity|lra].
    change (w_w v / w_h v) with (512 / 512) in MD. replace (512 / 512 * hf) with hf in MD by field. rewrite Rmax_left in MD by lra.
    intros I. unfold in_range3 in I.
    assert (PJ : w_proj (center_camera3 v (Some (cube_box (/ 1000)))) = Frustum (tan hf * / 10 * (512 / 512)) (tan hf * / 10) (/ 10) 1000) by reflexivity.
    rewrite PJ, MD in I. destruct I as [I _]. pose proof sqrt3_le. pose proof sqrt3_pos. pose proof PI_RGT_0.
    assert (S : / 10 < sin hf).
    { assert (HX : PI / 6 / 2 < hf) by (unfold hf, fov; lra). pose proof hf_range. assert (S1 : sin (PI / 6 / 2) < sin hf) by (apply sin_increasing_1; lra).
      assert (S2 : sin (PI / 6) = 2 * (sin (PI / 6 / 2) * cos (PI / 6 / 2))) by apply sin_half. rewrite sin_PI6 in S2.
      pose proof (COS_bound (PI / 6 / 2)). assert (0 < sin (PI / 6 / 2)) by (apply sin_gt_0; lra). nra. }
    apply (Rmult_le_compat_r (sin hf)) in I; [|lra]. replace (/ 1000 * sqrt 3 / sin hf * sin hf) with (/ 1000 * sqrt 3) in I by (field; nz). lra.
Qed.
Lemma center_proj : forall v b, w_lock v = false -> w_persp v = false ->
  w_proj (center_camera3 v (Some b)) = o_proj (w_o (center_camera3 v (Some b))) (w_w v) (w_h v).
Proof. intros v b L P. unfold center_camera3. rewrite L, P. reflexivity. Qed.
(* a ball of radius 100 in an orthographic view: its far side is not drawn *)
Lemma big_ortho_bad : exists ft v b p, turns_y ft /\ shown3 ft v /\ w_persp v = false /\ w_lock v = false
  /\ rb3_bounding_box (lone_ball 100) = Some b /\ (exists body, In body (lone_ball 100) /\ body3_points body p)
  /\ ~ in_range3 (center_camera3 v (Some b)) p.
Proof.
  set (b := (cube_box 100)).
  assert (BS : bounding_sphere b = (zero3, 100 * sqrt 3)) by (apply lone_ball_sphere; lra).
  set (v := enable_orthographic (resize3 (start3 (Frustum 1 1 1 2) 512 512) 512 512) PXY (Some b)).
  exists shortest, v, b, (V3 0 0 (- (100))).
  split; [exact shortest_turns|]. split; [|split; [reflexivity|split; [reflexivity|split; [apply lone_ball_box|split]]]].
  - exists (Frustum 1 1 1 2), 512, 512, 512, 512, [Orthographic3 PXY (Some b)]. split; [lra|]. split; [lra|]. split; [|split; [repeat constructor|reflexivity]].
    constructor; [|constructor]. cbn [sensible3 sensible_box]. unfold extended3. rewrite BS. cbn. pose proof sqrt3_pos. lra.
  - eexists. split; [left; reflexivity|]. unfold body3_points. cbn [b3_shape b3_x b3_R]. unfold in_ball3, dot3, sub3, zero3. cbn. lra.
  - intros I. unfold in_range3 in I.
    rewrite (center_proj v b eq_refl eq_refl) in I. unfold o_proj in I. destruct I as [_ I].
    assert (ED : depth (center_camera3 v (Some b)) (V3 0 0 (- (100))) = 150).
    { unfold depth, eye. change (w_persp (center_camera3 v (Some b))) with false. cbv iota. unfold to_eye.
      assert (A : o_at (w_o (center_camera3 v (Some b))) = zero3) by (change (o_at (w_o (center_camera3 v (Some b)))) with (fst (bounding_sphere b)); rewrite BS; reflexivity).
      rewrite A. change (o_psn (w_o (center_camera3 v (Some b)))) with (scale3 50 (mul3 id3 (cam_dir (PI / 2) 0))).
      change (o_z (w_o (center_camera3 v (Some b)))) with (scale3 (- 1) (mul3 id3 (cam_dir (PI / 2) 0))). rewrite mul3_id, neg_neg. unfold cam_dir. rewrite sin_PI2, cos_PI2, sin_0, cos_0.
      unfold mul3, sub3, add3, scale3, zero3, dot3. cbn [row0 row1 row2_ c0 c1 c2]. ring. }
    rewrite ED in I. lra.
Qed.
