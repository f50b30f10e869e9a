(* What the theorems on bounding boxes, narrow-phase tests and closest points talk about: bodies as sets of points. *)
From Coq Require Import List Reals Arith Bool.
From Verif Require Import Ccd_Model Lin_Model ContactRb3_Model Rot_Model Rot_Spec.
Import ListNotations.
Open Scope R_scope.

(* ---------- the plane ---------- *)
(* the axes of a body turned by theta *)
Definition axis_x (theta : R) : vec := (cos theta, sin theta).
Definition axis_y (theta : R) : vec := (- sin theta, cos theta).
(* the points of a rectangle with centre x, angle theta and half-widths r, and of a disc *)
Definition in_box2 (x : vec) (theta : R) (r p : vec) : Prop :=
  Rabs (vdot (axis_x theta) (vsub p x)) <= fst r /\ Rabs (vdot (axis_y theta) (vsub p x)) <= snd r.
Definition in_disc (x : vec) (r : R) (p : vec) : Prop := vdot (vsub p x) (vsub p x) <= r * r.

Definition within2 (b : vec * vec) (p : vec) : Prop :=
  fst (fst b) <= fst p <= fst (snd b) /\ snd (fst b) <= snd p <= snd (snd b).
Definition encloses2 (b : vec * vec) (S : vec -> Prop) : Prop := forall p, S p -> within2 b p.
(* b encloses S, and no side of an axis-aligned box enclosing S lies inside b *)
Definition tight2 (b : vec * vec) (S : vec -> Prop) : Prop :=
  encloses2 b S
  /\ forall b', encloses2 b' S ->
       fst (fst b') <= fst (fst b) /\ snd (fst b') <= snd (fst b)
       /\ fst (snd b) <= fst (snd b') /\ snd (snd b) <= snd (snd b').

(* n is an outward normal at the point z of the convex set S *)
Definition outward_normal (S : vec -> Prop) (z n : vec) : Prop := S z /\ forall y, S y -> vdot n (vsub y z) <= 0.

(* a line with normal u strictly separates the two sets *)
Definition separated_by (u : vec) (S T : vec -> Prop) : Prop :=
  exists c, (forall p, S p -> vdot u p < c) /\ (forall p, T p -> c < vdot u p).

(* how far S reaches into T along u: moved on by more than d along u, T no longer meets S *)
Definition overlap_is (u : vec) (S T : vec -> Prop) (d : R) : Prop :=
  (exists p q, S p /\ T q /\ vdot u (vsub p q) = d) /\ (forall p q, S p -> T q -> vdot u (vsub p q) <= d).

(* the outward normals of the four faces of a box turned by theta *)
Definition face_normal (theta : R) (m : vec) : Prop :=
  m = axis_x theta \/ m = vneg (axis_x theta) \/ m = axis_y theta \/ m = vneg (axis_y theta).
(* q is a contact between the face of box a with normal na (the reference face) and box b: it is half way between a
   point za of that face and a point zb of the face of b that looks most against na, and zb lies d below za along na *)
Definition face_contact (xa : vec) (ta : R) (ra xb : vec) (tb : R) (rb na q : vec) : Prop :=
  face_normal ta na
  /\ exists za zb mb d, 0 <= d
    /\ outward_normal (in_box2 xa ta ra) za na
    /\ face_normal tb mb /\ (forall m, face_normal tb m -> vdot mb na <= vdot m na)
    /\ outward_normal (in_box2 xb tb rb) zb mb
    /\ vsub za zb = vscale d na /\ q = vscale (/ 2) (vadd za zb).

(* ---------- space ---------- *)
(* the points of a box with centre x, orientation M (body to world) and half-widths w, and of a ball *)
Definition in_box3 (x : v3) (M : m3) (w p : v3) : Prop :=
  Rabs (dot3 (row0 (tr M)) (sub3 p x)) <= c0 w
  /\ Rabs (dot3 (row1 (tr M)) (sub3 p x)) <= c1 w
  /\ Rabs (dot3 (row2_ (tr M)) (sub3 p x)) <= c2 w.
Definition in_ball3 (x : v3) (r : R) (p : v3) : Prop := dot3 (sub3 p x) (sub3 p x) <= r * r.
(* the point a fraction s along the segment from p to q *)
Definition along (p q : v3) (s : R) : v3 := add3 p (scale3 s (sub3 q p)).
(* points within r of the segment *)
Definition in_capsule (p q : v3) (r : R) (z : v3) : Prop := exists s, 0 <= s <= 1 /\ in_ball3 (along p q s) r z.
(* the convex hull of a list of points *)
Inductive hull : list v3 -> v3 -> Prop :=
| hull_vertex : forall vs v, In v vs -> hull vs v
| hull_mix : forall vs a b s, hull vs a -> hull vs b -> 0 <= s <= 1 -> hull vs (along a b s).

Definition within3 (b : v3 * v3) (p : v3) : Prop :=
  c0 (fst b) <= c0 p <= c0 (snd b) /\ c1 (fst b) <= c1 p <= c1 (snd b) /\ c2 (fst b) <= c2 p <= c2 (snd b).
Definition encloses3 (b : v3 * v3) (S : v3 -> Prop) : Prop := forall p, S p -> within3 b p.
Definition tight3 (b : v3 * v3) (S : v3 -> Prop) : Prop :=
  encloses3 b S
  /\ forall b', encloses3 b' S ->
       c0 (fst b') <= c0 (fst b) /\ c1 (fst b') <= c1 (fst b) /\ c2 (fst b') <= c2 (fst b)
       /\ c0 (snd b) <= c0 (snd b') /\ c1 (snd b) <= c1 (snd b') /\ c2 (snd b) <= c2 (snd b').
Definition dist2 (a b : v3) : R := dot3 (sub3 a b) (sub3 a b).

(* a staple: the points within r of a leg or of the crossbar, whose axes are the three edges of the polyline of
   the four corners (-w/2, l), (-w/2, 0), (w/2, 0), (w/2, l), shifted to the centre of mass *)
Definition staple_corner (w l : R) (i : nat) : v3 :=
  let y := l * l / (2 * l + w) in
  match i with
  | 0%nat => V3 (- (w / 2)) (l - y) 0
  | 1%nat => V3 (- (w / 2)) (- y) 0
  | 2%nat => V3 (w / 2) (- y) 0
  | _ => V3 (w / 2) (l - y) 0
  end.
Definition in_staple (w l r : R) (x : v3) (M : m3) (z : v3) : Prop :=
  exists e, (e < 3)%nat /\
    in_capsule (add3 x (mul3 M (staple_corner w l e))) (add3 x (mul3 M (staple_corner w l (S e)))) r z.
