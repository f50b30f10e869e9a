(* What the theorems on mesh contacts talk about: the distance field that interpolates grid values, its gradient, and the
   contacts of two placed meshes. *)
From Coq Require Import List Reals NArith ZArith.
From Verif Require Import Ccd_Model Lin_Model ContactRb3_Model Rot_Model Rot_Spec Sdf_Model.
Import ListNotations.
Open Scope R_scope.

(* the grid: values are stored x first, then y, then z *)
Definition grid_point (m : mesh) (i j k : N) : v3 :=
  add3 (me_origin m) (V3 (count i * c0 (me_delta m)) (count j * c1 (me_delta m)) (count k * c2 (me_delta m))).
Definition value_at (m : mesh) (i j k : N) : R := me_dist m (i + me_nx m * (j + me_ny m * k))%N.
(* a grid as the mesh processor makes it: spacings are positive, there is a cell along every axis, and the values are all
   there and have 32-bit indices *)
Definition well_formed (m : mesh) : Prop :=
  0 < c0 (me_delta m) /\ 0 < c1 (me_delta m) /\ 0 < c2 (me_delta m)
  /\ (2 <= me_nx m)%N /\ (2 <= me_ny m)%N /\ (2 <= me_nz m)%N
  /\ me_size m = (me_nx m * me_ny m * me_nz m)%N /\ (me_size m <= 4294967296)%N.
Definition between (lo x up : v3) : Prop := c0 lo <= c0 x <= c0 up /\ c1 lo <= c1 x <= c1 up /\ c2 lo <= c2 x <= c2 up.
Definition below (x up : v3) : Prop := c0 x < c0 up /\ c1 x < c1 up /\ c2 x < c2 up.
Definition far_corner (m : mesh) : v3 := grid_point m (me_nx m - 1) (me_ny m - 1) (me_nz m - 1).
Definition in_grid (m : mesh) (x : v3) : Prop := between (me_origin m) x (far_corner m).
(* x is in the closed cell whose low corner is grid point i, j, k *)
Definition cell (m : mesh) (i j k : N) (x : v3) : Prop :=
  (i + 1 < me_nx m)%N /\ (j + 1 < me_ny m)%N /\ (k + 1 < me_nz m)%N /\ between (grid_point m i j k) x (grid_point m (i + 1) (j + 1) (k + 1)).

(* the points differ along one axis only *)
Definition along_axis (x y : v3) : Prop :=
  (c1 x = c1 y /\ c2 x = c2 y) \/ (c0 x = c0 y /\ c2 x = c2 y) \/ (c0 x = c0 y /\ c1 x = c1 y).
(* f has the stored values at the grid points, and is linear along lines parallel to an axis in a cell *)
Definition interpolates (m : mesh) (f : v3 -> R) : Prop :=
  (forall i j k, (i < me_nx m)%N -> (j < me_ny m)%N -> (k < me_nz m)%N -> f (grid_point m i j k) = value_at m i j k)
  /\ (forall i j k x y t, cell m i j k x -> cell m i j k y -> along_axis x y -> 0 <= t <= 1 ->
      f (add3 (scale3 (1 - t) x) (scale3 t y)) = (1 - t) * f x + t * f y).
(* g holds the slopes of f at x along the three axes in the cell i, j, k *)
Definition slopes (m : mesh) (f : v3 -> R) (i j k : N) (x g : v3) : Prop :=
  forall y, cell m i j k y -> along_axis x y -> f y = f x + dot3 g (sub3 y x).
(* n is the direction of g *)
Definition direction (g n : v3) : Prop := dot3 n n = 1 /\ exists s, 0 < s /\ g = scale3 s n.

(* x is in the cell i, j, k and not on its upper faces *)
Definition half_open (m : mesh) (i j k : N) (x : v3) : Prop := cell m i j k x /\ below x (grid_point m (i + 1) (j + 1) (k + 1)).
(* n is the direction in which f grows at x, in the cell x belongs to; it is zero where f is level *)
Definition normal_of (m : mesh) (f : v3 -> R) (x n : v3) : Prop :=
  exists i j k g, half_open m i j k x /\ slopes m f i j k x g /\ (direction g n \/ (g = zero3 /\ n = zero3)).

(* distance between points, and functions that grow no faster than it *)
Definition distance (x y : v3) : R := sqrt (dot3 (sub3 x y) (sub3 x y)).
Definition lipschitz (g : v3 -> R) : Prop := forall x y, Rabs (g x - g y) <= distance x y.
(* the grid holds samples of g *)
Definition sampled (m : mesh) (g : v3 -> R) : Prop :=
  forall i j k, (i < me_nx m)%N -> (j < me_ny m)%N -> (k < me_nz m)%N -> value_at m i j k = g (grid_point m i j k).

(* a body placed at x with orientation R: world coordinates of a body point and back *)
Definition to_world (x : v3) (R : m3) (p : v3) : v3 := add3 (mul3 R p) x.
Definition to_body (x : v3) (R : m3) (p : v3) : v3 := mul3 (tr R) (sub3 p x).
(* every sample of a mesh, seen from the other body, is outside the grid of that body or below its far faces *)
Definition clear_of_far_faces (x0 : v3) (R0 : m3) (m0 : mesh) (x1 : v3) (R1 : m3) (m1 : mesh) : Prop :=
  forall s, In s (me_samples m0) -> let p := to_body x1 R1 (to_world x0 R0 s) in in_grid m1 p -> below p (far_corner m1).
(* what the sample s of the mesh at xa, Ra contributes against the mesh mb at xb, Rb with distance field fb: nothing where
   the field is positive or not defined, else the sample's position and the world direction of the normal through out *)
Definition contact_of (xa : v3) (Ra : m3) (xb : v3) (Rb : m3) (mb : mesh) (fb : v3 -> R) (out : v3 -> v3) (s : v3) (c : option (v3 * v3)) : Prop :=
  let p := to_world xa Ra s in let b := to_body xb Rb p in
  match c with
  | None => in_grid mb b -> 0 < fb b
  | Some (q, n) => q = p /\ in_grid mb b /\ fb b <= 0 /\ exists u, normal_of mb fb b u /\ n = out (mul3 Rb u)
  end.
Definition somes {A} (l : list (option A)) : list A := flat_map (fun o => match o with Some a => [a] | None => [] end) l.
(* a contact seen from the other body, and a contact carried along when the world is moved by Q and then t *)
Definition turn (pn : v3 * v3) : v3 * v3 := (fst pn, neg3 (snd pn)).
Definition moved (t : v3) (Q : m3) (pn : v3 * v3) : v3 * v3 := (to_world t Q (fst pn), mul3 Q (snd pn)).
