(* The cameras of the three graphical front ends, over the reals.
   Models /repo/ball2dqt4/DisplayController2D.cpp (identical to /repo/rigidbody2dqt4/DisplayController2D.cpp),
   /repo/rigidbody3dqt4/PerspectiveCameraController.cpp, /repo/rigidbody3dqt4/OrthographicCameraController.cpp and the
   camera parts of the three GLWidget.cpp. Doubles are real numbers and pixel counts are real numbers too. The OpenGL
   state is what the program last handed to glOrtho or glFrustum and to glViewport. *)
From Coq Require Import List Reals Bool.
From Verif Require Import Outcome Ccd_Model Lin_Model ContactRb3_Model Rot_Model Geom_Model Wall_Model.
Import ListNotations.
Open Scope R_scope.

(* ---------- the plane ---------- *)
(* which of the two planar programs *)
Inductive app2 := Balls | Bodies2.
(* the members of DisplayController2D (DisplayController2D.h:38-46), the glOrtho bounds and viewport in force, and
   GLWidget::m_lock_camera *)
Record view2 := View2 {
  v_w : R; v_h : R; v_s : R; v_x : R; v_y : R;
  g_l : R; g_r : R; g_b : R; g_t : R; g_w : R; g_h : R;
  v_lock : bool }.

(* DisplayController2D::reshape, DisplayController2D.cpp:13-32 *)
Definition reshape (v : view2) (w h : R) : view2 :=
  let ratio := h / w in
  View2 w h (v_s v) (v_x v) (v_y v)
    (v_x v - v_s v / ratio) (v_x v + v_s v / ratio) (v_y v - v_s v) (v_y v + v_s v) w h (v_lock v).
(* setCenter and setScaleFactor, DisplayController2D.cpp:49-58 *)
Definition set_center (v : view2) (x y : R) : view2 :=
  View2 (v_w v) (v_h v) (v_s v) x y (g_l v) (g_r v) (g_b v) (g_t v) (g_w v) (g_h v) (v_lock v).
Definition set_scale (v : view2) (s : R) : view2 :=
  View2 (v_w v) (v_h v) s (v_x v) (v_y v) (g_l v) (g_r v) (g_b v) (g_t v) (g_w v) (g_h v) (v_lock v).
(* GLWidget::lockCamera, ball2dqt4/GLWidget.cpp:532-535 *)
Definition set_lock (v : view2) (b : bool) : view2 :=
  View2 (v_w v) (v_h v) (v_s v) (v_x v) (v_y v) (g_l v) (g_r v) (g_b v) (g_t v) (g_w v) (g_h v) b.
(* translateView, DisplayController2D.cpp:34-41 *)
Definition translate_view (v : view2) (dx dy : R) : view2 :=
  let tx := 2 * v_s v * dx / v_h v in
  let ty := 2 * v_s v * dy / v_h v in
  reshape (set_center v (v_x v - tx) (v_y v + ty)) (v_w v) (v_h v).
(* zoomView, DisplayController2D.cpp:43-47 *)
Definition zoom_view (v : view2) (delta : R) : view2 :=
  reshape (set_scale v (Rmax (/ 100000) (v_s v + delta))) (v_w v) (v_h v).
(* reset, DisplayController2D.cpp:85-90 *)
Definition reset_view (v : view2) : view2 := set_center (set_scale v 1) 0 0.

(* the part of centerCamera that sets centre and scale, ball2dqt4/GLWidget.cpp:556-575 and
   rigidbody2dqt4/GLWidget.cpp:610-627, for the window dimensions w and h *)
Definition frame_box (v : view2) (b : box2) (w h : R) : view2 :=
  let minx := fst (fst b) in let miny := snd (fst b) in let maxx := fst (snd b) in let maxy := snd (snd b) in
  let cx := minx + / 2 * (maxx - minx) in
  let rx := maxx - cx in
  let cy := miny + / 2 * (maxy - miny) in
  let ry := maxy - cy in
  let ratio := h / w in
  set_scale (set_center v cx cy) (12 / 10 * Rmax (ratio * rx) ry).
(* GLWidget::centerCamera, ball2dqt4/GLWidget.cpp:544-583 and rigidbody2dqt4/GLWidget.cpp:586-636; the box is that of
   the current state and None for a simulation without bodies. The first program asks OpenGL for the window size, the
   second its camera controller. *)
Definition center_camera2 (a : app2) (v : view2) (b : option box2) (update_gl : bool) : view2 :=
  if v_lock v then v else
  match a with
  | Balls =>
      match b with
      | None => reset_view v
      | Some b => let v' := frame_box v b (g_w v) (g_h v) in if update_gl then reshape v' (g_w v) (g_h v) else v'
      end
  | Bodies2 =>
      let v' := match b with None => reset_view v | Some b => frame_box v b (v_w v) (v_h v) end in
      if update_gl then reshape v' (v_w v) (v_h v) else v'
  end.
(* the camera element of a scene: centre, scale and lock *)
Definition camera2 := (R * R * R * bool)%type.
(* the camera part of openScene with render_on_load: ball2dqt4/GLWidget.cpp:211-221, 264-277 and
   rigidbody2dqt4/GLWidget.cpp:315-351; a body scene without a camera element is not locked *)
Definition open_scene2 (a : app2) (v : view2) (c : option camera2) (b : option box2) : view2 :=
  let lock := match c, a with Some (_, _, _, l), _ => l | None, Balls => v_lock v | None, Bodies2 => false end in
  let v := set_lock v false in
  let v := match c with
           | Some (x, y, s, _) => set_scale (set_center v x y) s
           | None => center_camera2 a v b false
           end in
  let v := set_lock v lock in
  match a with Balls => v | Bodies2 => reshape v (g_w v) (g_h v) end.

(* what can happen to a planar window; a mouse move carries the buttons held *)
Inductive event2 :=
| Resize2 (w h : R)
| Move2 (lb rb : bool) (dx dy : R)
| Wheel2 (delta : R)
| Center2 (b : option box2)
| Open2 (c : option camera2) (b : option box2)
| Lock2 (b : bool).
(* resizeGL (441-448), mouseMoveEvent (1135-1168), wheelEvent (1170-1180) of ball2dqt4/GLWidget.cpp; the same in
   rigidbody2dqt4/GLWidget.cpp:490-497, 1209-1254 *)
Definition step2 (a : app2) (v : view2) (e : event2) : view2 :=
  match e with
  | Resize2 w h => reshape v w h
  | Move2 lb rb dx dy =>
      if v_lock v then v else
      let v := if lb then translate_view v dx dy else v in
      if rb then zoom_view v (2 / 100 * v_s v * dy) else v
  | Wheel2 delta => if v_lock v then v else zoom_view v (- (2 / 1000) * v_s v * delta)
  | Center2 b => center_camera2 a v b true
  | Open2 c b => open_scene2 a v c b
  | Lock2 b => set_lock v b
  end.
Definition run2 (a : app2) (v : view2) (es : list event2) : view2 := fold_left (step2 a) es v.
(* the constructors, DisplayController2D.cpp:5-11 and ball2dqt4/GLWidget.cpp:66; l, r, b, t, w, h are what OpenGL starts with *)
Definition start2 (l r b t w h : R) : view2 := View2 512 512 1 0 0 l r b t w h false.

(* ---------- space ---------- *)
(* PerspectiveCameraController.h:79-91 *)
Record pcam := Pcam {
  p_fovy : R; p_aspect : R; p_th : R; p_ph : R; p_rho : R;
  p_at : v3; p_psn : v3; p_x : v3; p_y : v3; p_z : v3; p_U : m3 }.
(* OrthographicCameraController::ProjectionPlane and the members, OrthographicCameraController.h *)
Inductive plane3 := PXY | PZY | PZX.
Record ocam := Ocam {
  o_th : R; o_ph : R; o_at : v3; o_psn : v3; o_x : v3; o_y : v3; o_z : v3; o_U : m3; o_s : R; o_plane : plane3 }.
(* glFrustum( -right, right, -top, top, near, far ) or glOrtho( -right, right, -top, top, near, far ) *)
Inductive proj3 := Frustum (rgt top near far : R) | Ortho (rgt top near far : R).
(* the camera members of GLWidget and the OpenGL state *)
Record view3 := View3 { w_persp : bool; w_p : pcam; w_o : ocam; w_proj : proj3; w_w : R; w_h : R; w_lock : bool }.

(* the direction from the look-at point to the camera and the camera's right, before the up orientation *)
Definition cam_dir (th ph : R) : v3 := V3 (sin th * sin ph) (cos th) (sin th * cos ph).
Definition cam_right (ph : R) : v3 := V3 (cos ph) 0 (- sin ph).

(* PerspectiveCameraController::updatePositionAndFrame, PerspectiveCameraController.cpp:126-139; the unit quaternion
   m_up_orientation by its rotation matrix *)
Definition p_update (c : pcam) : pcam :=
  let d := mul3 (p_U c) (cam_dir (p_th c) (p_ph c)) in
  let z := scale3 (- 1) d in
  let y := mul3 (p_U c) (cam_right (p_ph c)) in
  Pcam (p_fovy c) (p_aspect c) (p_th c) (p_ph c) (p_rho c) (p_at c) (scale3 (p_rho c) d) (cross3 y z) y z (p_U c).
(* the constructor and reset, PerspectiveCameraController.cpp:7-18, 141-144 *)
Definition p_init : pcam :=
  p_update (Pcam 60 1 (PI / 3) (PI / 4) 3 zero3 zero3 zero3 zero3 zero3 id3).
(* setPerspective, PerspectiveCameraController.cpp:39-57: the camera and the projection *)
Definition fov : R := 5443 / 100.
Definition p_set_perspective (c : pcam) (w h : R) : pcam * proj3 :=
  let aspect := w / h in
  let near := / 10 in
  let top := tan (fov / 360 * PI) * near in
  (Pcam fov aspect (p_th c) (p_ph c) (p_rho c) (p_at c) (p_psn c) (p_x c) (p_y c) (p_z c) (p_U c),
   Frustum (top * aspect) top near 1000).
(* setCamera, PerspectiveCameraController.cpp:59-70; from_two u stands for the matrix of
   Eigen::Quaternion::FromTwoVectors( UnitY, u ) *)
Definition p_set_camera (from_two : v3 -> m3) (c : pcam) (up : v3) (th ph rho : R) (at_ : v3) : pcam :=
  p_update (Pcam (p_fovy c) (p_aspect c) th ph rho at_ (p_psn c) (p_x c) (p_y c) (p_z c) (from_two up)).
Definition p_with (c : pcam) (th ph rho : R) (at_ : v3) : pcam :=
  Pcam (p_fovy c) (p_aspect c) th ph rho at_ (p_psn c) (p_x c) (p_y c) (p_z c) (p_U c).
(* centerCameraAtSphere, PerspectiveCameraController.cpp:72-83 *)
Definition p_center (c : pcam) (center : v3) (radius : R) : pcam :=
  let rad := PI / 180 in
  let d1 := radius / sin (/ 2 * p_fovy c * rad) in
  let d2 := radius / sin (/ 2 * p_aspect c * p_fovy c * rad) in
  p_update (p_with c (p_th c) (p_ph c) (Rmax d1 d2) center).
(* addToDistFromCenter, PerspectiveCameraController.cpp:85-89 *)
Definition p_dist (c : pcam) (d : R) : pcam := p_update (p_with c (p_th c) (p_ph c) (Rmax (p_rho c + d) (/ 10)) (p_at c)).
(* addToZenithAngle, PerspectiveCameraController.cpp:96-108 *)
Definition p_zenith (c : pcam) (a : R) : pcam :=
  let t := p_th c + a in
  let t := if Rltb t 0 then 0 else t in
  let t := if Rltb PI t then PI else t in
  p_update (p_with c t (p_ph c) (p_rho c) (p_at c)).
(* addToAzimuthAngle, PerspectiveCameraController.cpp:110-114 *)
Definition p_azimuth (c : pcam) (a : R) : pcam := p_update (p_with c (p_th c) (p_ph c + a) (p_rho c) (p_at c)).
(* trackCameraHorizontal and trackCameraVertical, PerspectiveCameraController.cpp:116-124 *)
Definition p_track_h (c : pcam) (a : R) : pcam := p_with c (p_th c) (p_ph c) (p_rho c) (add3 (p_at c) (scale3 a (p_y c))).
Definition p_track_v (c : pcam) (a : R) : pcam := p_with c (p_th c) (p_ph c) (p_rho c) (add3 (p_at c) (scale3 a (p_x c))).

(* OrthographicCameraController::updatePositionAndFrame, OrthographicCameraController.cpp:140-153 *)
Definition o_update (c : ocam) : ocam :=
  let d := mul3 (o_U c) (cam_dir (o_th c) (o_ph c)) in
  let z := scale3 (- 1) d in
  let y := mul3 (o_U c) (cam_right (o_ph c)) in
  Ocam (o_th c) (o_ph c) (o_at c) (scale3 50 d) (cross3 y z) y z (o_U c) (o_s c) (o_plane c).
(* useXYView, useZYView, useZXView, OrthographicCameraController.cpp:46-68 *)
Definition o_use (c : ocam) (p : plane3) : ocam :=
  let angles := match p with PXY => (PI / 2, 0) | PZY => (PI / 2, - PI / 2) | PZX => (0, - PI / 2) end in
  o_update (Ocam (fst angles) (snd angles) (o_at c) (o_psn c) (o_x c) (o_y c) (o_z c) (o_U c) (o_s c) p).
(* the constructor and reset, OrthographicCameraController.cpp:5-15, 170-173 *)
Definition o_init : ocam := o_use (Ocam 0 0 zero3 zero3 zero3 zero3 zero3 id3 15 PXY) PZX.
(* setPerspective, OrthographicCameraController.cpp:89-100 *)
Definition o_proj (c : ocam) (w h : R) : proj3 :=
  let ratio := h / w in Ortho (o_s c / ratio) (o_s c) (- 100) 100.
Definition o_with (c : ocam) (at_ : v3) (s : R) : ocam :=
  Ocam (o_th c) (o_ph c) at_ (o_psn c) (o_x c) (o_y c) (o_z c) (o_U c) s (o_plane c).
(* setCamera, OrthographicCameraController.cpp:17-44, without its setPerspective, which the caller repeats *)
Definition o_set_camera (c : ocam) (p : plane3) (at_ : v3) (s : R) : ocam := o_with (o_use c p) at_ (Rmax (/ 100000) s).
(* translateView, OrthographicCameraController.cpp:102-115, for the viewport w x h *)
Definition o_translate (c : ocam) (w h dx dy : R) : ocam :=
  let percent_x := dx / w in
  let percent_y := dy / h in
  let tx := percent_x * 2 * o_s c * w / h in
  let ty := percent_y * 2 * o_s c in
  o_with c (sub3 (add3 (o_at c) (scale3 ty (o_x c))) (scale3 tx (o_y c))) (o_s c).
(* addToDistFromCenter and setCenterAndScale, OrthographicCameraController.cpp:117-138, without setPerspective *)
Definition o_dist (c : ocam) (d : R) : ocam := o_with c (o_at c) (Rmax (/ 100000) (o_s c + d)).
Definition o_center (c : ocam) (center : v3) (s : R) : ocam := o_with c center (Rmax (/ 100000) s).

(* replacing the perspective camera, or both it and the projection; likewise for the orthographic one *)
Definition put_p (v : view3) (c : pcam) : view3 := View3 (w_persp v) c (w_o v) (w_proj v) (w_w v) (w_h v) (w_lock v).
Definition show_p (v : view3) (w h : R) : view3 :=
  let r := p_set_perspective (w_p v) w h in View3 (w_persp v) (fst r) (w_o v) (snd r) w h (w_lock v).
Definition put_o (v : view3) (c : ocam) : view3 := View3 (w_persp v) (w_p v) c (w_proj v) (w_w v) (w_h v) (w_lock v).
Definition show_o (v : view3) (w h : R) : view3 := View3 (w_persp v) (w_p v) (w_o v) (o_proj (w_o v) w h) w h (w_lock v).
Definition use_p (v : view3) (b : bool) : view3 := View3 b (w_p v) (w_o v) (w_proj v) (w_w v) (w_h v) (w_lock v).
(* GLWidget::lockCamera, rigidbody3dqt4/GLWidget.cpp:831-834 *)
Definition lock3 (v : view3) (b : bool) : view3 := View3 (w_persp v) (w_p v) (w_o v) (w_proj v) (w_w v) (w_h v) b.

(* GLWidget::centerCamera, rigidbody3dqt4/GLWidget.cpp:860-902; the box of the current state, None when there is no body *)
Definition center_camera3 (v : view3) (b : option box3) : view3 :=
  if w_lock v then v else
  match b with
  | None => if w_persp v then put_p v p_init else put_o v o_init
  | Some b =>
      let center := fst (bounding_sphere b) in
      let radius := snd (bounding_sphere b) in
      if w_persp v then put_p v (p_center (w_p v) center radius)
      else
        let ratio := w_h v / w_w v in
        let scale := Rmax (ratio * radius) radius in
        show_o (put_o v (o_center (w_o v) center scale)) (w_w v) (w_h v)
  end.
(* the enable*Camera functions, rigidbody3dqt4/GLWidget.cpp:904-950 *)
Definition enable_perspective (v : view3) (b : option box3) : view3 :=
  center_camera3 (show_p (use_p v true) (w_w v) (w_h v)) b.
Definition enable_orthographic (v : view3) (p : plane3) (b : option box3) : view3 :=
  let v := use_p v false in
  center_camera3 (show_o (put_o v (o_use (w_o v) p)) (w_w v) (w_h v)) b.

(* the camera element of a scene *)
Inductive camera3 :=
| PerspCam (up : v3) (th ph rho : R) (at_ : v3)
| OrthoCam (p : plane3) (at_ : v3) (s : R).
(* the camera part of openScene and initializeRenderingSettings, rigidbody3dqt4/GLWidget.cpp:263, 374-413. Without a
   camera element and without bodies the program centres on the sphere around nothing; from then on its camera holds
   no numbers, hence UB. *)
Definition open_scene3 (from_two : v3 -> m3) (v : view3) (c : option camera3) (locked : bool) (b : option box3) : outcome view3 :=
  let v := lock3 v locked in
  match c with
  | Some (PerspCam up th ph rho at_) =>
      Ok (show_p (put_p (use_p v true) (p_set_camera from_two (w_p v) up th ph rho at_)) (w_w v) (w_h v))
  | Some (OrthoCam p at_ s) =>
      Ok (show_o (put_o (use_p v false) (o_set_camera (w_o v) p at_ s)) (w_w v) (w_h v))
  | None =>
      match b with
      | None => UB
      | Some b =>
          Ok (show_p (put_p (use_p v true) (p_center (w_p v) (fst (bounding_sphere b)) (snd (bounding_sphere b)))) (w_w v) (w_h v))
      end
  end.
(* exportCameraSettings, rigidbody3dqt4/GLWidget.cpp:1030-1040, with up() of PerspectiveCameraController.h:70-73; the
   numbers before they are printed *)
Definition export_camera (v : view3) : camera3 :=
  if w_persp v then
    let c := w_p v in PerspCam (mul3 (p_U c) (V3 0 1 0)) (p_th c) (p_ph c) (p_rho c) (p_at c)
  else
    let c := w_o v in OrthoCam (o_plane c) (o_at c) (o_s c).

(* the buttons held while the mouse moves *)
Record buttons := Buttons { b_left : bool; b_mid : bool; b_right : bool }.
(* mouseMoveEvent, rigidbody3dqt4/GLWidget.cpp:1404-1458 *)
Definition mouse_move3 (v : view3) (b : buttons) (dx dy : R) : view3 :=
  if w_lock v then v else
  if w_persp v then
    let c := w_p v in
    if b_left b then put_p v (p_azimuth (p_zenith c (- (1 / 100 * dy))) (- (1 / 100 * dx)))
    else if b_mid b then
      let c := p_track_h c (- p_rho c * (2 / 1000 * dx)) in
      put_p v (p_track_v c (p_rho c * (2 / 1000 * dy)))
    else if b_right b then put_p v (p_dist c (p_rho c * (1 / 100 * dx - 1 / 100 * dy)))
    else v
  else
    let c := w_o v in
    if b_left b then put_o v (o_translate c (w_w v) (w_h v) dx dy)
    else if b_right b then show_o (put_o v (o_dist c (1 / 10 * (dx - dy)))) (w_w v) (w_h v)
    else v.
(* wheelEvent, rigidbody3dqt4/GLWidget.cpp:1460-1479 *)
Definition wheel3 (v : view3) (delta : R) : view3 :=
  if w_lock v then v else
  if w_persp v then put_p v (p_dist (w_p v) (- (2 / 1000) * p_rho (w_p v) * delta))
  else show_o (put_o v (o_dist (w_o v) (- (5 / 100) * delta))) (w_w v) (w_h v).
(* resizeGL, rigidbody3dqt4/GLWidget.cpp:526-541 *)
Definition resize3 (v : view3) (w h : R) : view3 := if w_persp v then show_p v w h else show_o v w h.

Inductive event3 :=
| Resize3 (w h : R)
| Move3 (b : buttons) (dx dy : R)
| Wheel3 (delta : R)
| Center3 (b : option box3)
| Perspective3 (b : option box3)
| Orthographic3 (p : plane3) (b : option box3)
| Open3 (c : option camera3) (locked : bool) (b : option box3)
| Lock3 (b : bool).
Definition step3 (from_two : v3 -> m3) (v : view3) (e : event3) : outcome view3 :=
  match e with
  | Resize3 w h => Ok (resize3 v w h)
  | Move3 b dx dy => Ok (mouse_move3 v b dx dy)
  | Wheel3 delta => Ok (wheel3 v delta)
  | Center3 b => Ok (center_camera3 v b)
  | Perspective3 b => Ok (enable_perspective v b)
  | Orthographic3 p b => Ok (enable_orthographic v p b)
  | Open3 c locked b => open_scene3 from_two v c locked b
  | Lock3 b => Ok (lock3 v b)
  end.
Fixpoint run3 (from_two : v3 -> m3) (v : view3) (es : list event3) : outcome view3 :=
  match es with
  | [] => Ok v
  | e :: es => let! v := step3 from_two v e in run3 from_two v es
  end.
(* the constructor, rigidbody3dqt4/GLWidget.cpp:71-77: perspective, not locked; p, w and h are what OpenGL starts with *)
Definition start3 (p : proj3) (w h : R) : view3 := View3 true p_init o_init p w h false.

(* positionCamera, PerspectiveCameraController.cpp:20-37 and OrthographicCameraController.cpp:70-87: the rows
   m_cam_y, m_cam_x, -m_cam_z after the translation by -( lookat + psn ) *)
Definition to_eye (x y z at_ psn p : v3) : v3 :=
  mul3 (M3 y x (neg3 z)) (sub3 p (add3 at_ psn)).
Definition eye (v : view3) (p : v3) : v3 :=
  if w_persp v then to_eye (p_x (w_p v)) (p_y (w_p v)) (p_z (w_p v)) (p_at (w_p v)) (p_psn (w_p v)) p
  else to_eye (o_x (w_o v)) (o_y (w_o v)) (o_z (w_o v)) (o_at (w_o v)) (o_psn (w_o v)) p.
