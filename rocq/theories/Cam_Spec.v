(* What the theorems on cameras talk about: where a point of the world appears in the window. *)
From Coq Require Import List Reals Bool.
From Verif Require Import Outcome Ccd_Model Lin_Model ContactRb3_Model Rot_Model Rot_Spec Geom_Model Wall_Model Cam_Model.
Import ListNotations.
Open Scope R_scope.

(* ---------- the plane ---------- *)
(* the pixel at which glOrtho and glViewport put the world point p: columns from the left, rows from the top *)
Definition pixel2 (v : view2) (p : vec) : vec :=
  ((fst p - g_l v) / (g_r v - g_l v) * g_w v, (g_t v - snd p) / (g_t v - g_b v) * g_h v).
(* the window is w x h pixels and shows the point c in its middle, with k pixels to the unit both ways *)
Definition shows2 (v : view2) (w h : R) (c : vec) (k : R) : Prop :=
  g_w v = w /\ g_h v = h
  /\ forall p, pixel2 v p = (w / 2 + k * (fst p - fst c), h / 2 - k * (snd p - snd c)).
(* the picture is the one the camera settings stand for: centre, and half the window height in world units *)
Definition faithful2 (v : view2) : Prop :=
  0 < g_w v /\ 0 < g_h v /\ 0 < v_s v /\ shows2 v (g_w v) (g_h v) (v_x v, v_y v) (g_h v / (2 * v_s v)).
(* p appears in the window, no nearer to its border than the fraction m of half its size *)
Definition in_window2 (v : view2) (m : R) (p : vec) : Prop :=
  Rabs (fst (pixel2 v p) - g_w v / 2) <= (1 - m) * (g_w v / 2)
  /\ Rabs (snd (pixel2 v p) - g_h v / 2) <= (1 - m) * (g_h v / 2).
(* sensible events: a window of positive size, a scene camera with a positive scale, boxes that are not a point *)
Definition extended2 (b : box2) : Prop :=
  fst (fst b) <= fst (snd b) /\ snd (fst b) <= snd (snd b)
  /\ (fst (fst b) < fst (snd b) \/ snd (fst b) < snd (snd b)).
Definition sensible2 (e : event2) : Prop :=
  match e with
  | Resize2 w h => 0 < w /\ 0 < h
  | Center2 (Some b) => extended2 b
  | Open2 (Some (_, _, s, _)) _ => 0 < s
  | Open2 None (Some b) => extended2 b
  | _ => True
  end.
(* events after which the ball program leaves the old projection in force *)
Definition leaves_stale (e : event2) : Prop :=
  match e with Open2 _ _ => True | Center2 None => True | _ => False end.

(* ---------- space ---------- *)
(* where the point p is, seen from the camera: to its right, above it, and in front of it *)
Definition right_of (v : view3) (p : v3) : R := c0 (eye v p).
Definition above (v : view3) (p : v3) : R := c1 (eye v p).
Definition depth (v : view3) (p : v3) : R := - c2 (eye v p).
(* OpenGL draws p inside the window: between the left, right, lower and upper planes of the view volume *)
Definition in_window3 (v : view3) (p : v3) : Prop :=
  match w_proj v with
  | Frustum r t n _ => 0 < depth v p /\ Rabs (right_of v p) * n <= r * depth v p /\ Rabs (above v p) * n <= t * depth v p
  | Ortho r t _ _ => Rabs (right_of v p) <= r /\ Rabs (above v p) <= t
  end.
(* and it is neither too near nor too far to be drawn *)
Definition in_range3 (v : view3) (p : v3) : Prop :=
  match w_proj v with Frustum _ _ n f | Ortho _ _ n f => n <= depth v p <= f end.
(* the pixel at which p appears, under an orthographic or perspective projection *)
Definition pixel3 (v : view3) (p : v3) : R * R :=
  match w_proj v with
  | Frustum r t n _ => ((1 + right_of v p / depth v p * n / r) / 2 * w_w v, (1 - above v p / depth v p * n / t) / 2 * w_h v)
  | Ortho r t _ _ => ((1 + right_of v p / r) / 2 * w_w v, (1 - above v p / t) / 2 * w_h v)
  end.
(* two views that put every point of the world at the same place *)
Definition same_picture (v v' : view3) : Prop :=
  (forall p, eye v p = eye v' p) /\ w_proj v = w_proj v' /\ w_w v = w_w v' /\ w_h v = w_h v'.

(* the point the camera looks at *)
Definition target (v : view3) : v3 := if w_persp v then p_at (w_p v) else o_at (w_o v).
(* the viewing transformation keeps lengths, angles and handedness *)
Definition rigid_view (v : view3) : Prop := exists A b, rotation A /\ forall p, eye v p = add3 (mul3 A p) b.
(* the direction that counts as up *)
Definition up_direction (v : view3) : v3 := if w_persp v then mul3 (p_U (w_p v)) (V3 0 1 0) else V3 0 1 0.

(* what Eigen promises of FromTwoVectors( UnitY, u ): a rotation that takes the y axis to the direction of u, and
   depends on that direction only; no turn at all if u is the y axis *)
Definition turns_y (from_two : v3 -> m3) : Prop :=
  from_two (V3 0 1 0) = id3
  /\ forall u, 0 < dot3 u u ->
    rotation (from_two u) /\ scale3 (sqrt (dot3 u u)) (mul3 (from_two u) (V3 0 1 0)) = u
    /\ forall k, 0 < k -> from_two (scale3 k u) = from_two u.

(* sensible events: windows of positive size, cameras with a direction up, a zenith angle in [ 0, pi ], a positive
   distance, boxes that are not a point *)
Definition extended3 (b : box3) : Prop := 0 < snd (bounding_sphere b).
Definition sensible_box (b : option box3) : Prop := match b with Some b => extended3 b | None => True end.
Definition sensible3 (e : event3) : Prop :=
  match e with
  | Resize3 w h => 0 < w /\ 0 < h
  | Center3 b | Perspective3 b | Orthographic3 _ b => sensible_box b
  | Open3 (Some (PerspCam up th _ rho _)) _ _ => 0 < dot3 up up /\ 0 <= th <= PI /\ 0 < rho
  | Open3 (Some (OrthoCam _ _ _)) _ _ => True
  | Open3 None _ b => sensible_box b
  | _ => True
  end.
(* the projection in force is the one the selected camera asks for in this window *)
Definition faithful3 (v : view3) : Prop :=
  0 < w_w v /\ 0 < w_h v
  /\ w_proj v = if w_persp v
                then let top := tan (fov / 360 * PI) / 10 in Frustum (top * (w_w v / w_h v)) top (/ 10) 1000
                else Ortho (o_s (w_o v) * (w_w v / w_h v)) (o_s (w_o v)) (- 100) 100.

(* ---------- histories ---------- *)
(* the window has been shown, at the size w x h, and then anything sensible happened *)
Definition reached2 (a : app2) (v : view2) : Prop := exists l r b t w0 h0 w h es,
  0 < w /\ 0 < h /\ Forall sensible2 es /\ v = run2 a (start2 l r b t w0 h0) (Resize2 w h :: es).
(* ... and in the ball program no scene has been opened, and no empty one centred, since *)
Definition shown2 (a : app2) (v : view2) : Prop := exists l r b t w0 h0 w h es,
  0 < w /\ 0 < h /\ Forall sensible2 es /\ (a = Bodies2 \/ Forall (fun e => ~ leaves_stale e) es)
  /\ v = run2 a (start2 l r b t w0 h0) (Resize2 w h :: es).
(* any history in space, from the constructor on *)
Definition reached3 (from_two : v3 -> m3) (v : view3) : Prop := exists p w0 h0 es,
  Forall sensible3 es /\ run3 from_two (start3 p w0 h0) es = Ok v.
(* the window has been shown, and no simulation without bodies has been centred since *)
Definition shown3 (from_two : v3 -> m3) (v : view3) : Prop := exists p w0 h0 w h es,
  0 < w /\ 0 < h /\ Forall sensible3 es
  /\ Forall (fun e => match e with Center3 None | Perspective3 None | Orthographic3 _ None => False | _ => True end) es
  /\ run3 from_two (start3 p w0 h0) (Resize3 w h :: es) = Ok v.
