(* What the theorems on contacts between boxes in space talk about. Boxes are sets of points (in_box3 of Geom_Spec). *)
From Coq Require Import List Reals Arith Bool.
From Verif Require Import Ccd_Model Lin_Model ContactRb3_Model Rot_Model Rot_Spec Geom_Spec.
Import ListNotations.
Local Open Scope R_scope.

(* the edge directions of a box with orientation M, and the outward normals of its six faces *)
Definition box_axis (M : m3) (m : v3) : Prop := m = row0 (tr M) \/ m = row1 (tr M) \/ m = row2_ (tr M).
Definition face_of (M : m3) (m : v3) : Prop := box_axis M m \/ box_axis M (neg3 m).
(* the points inside a box, off its surface *)
Definition deep_in (x : v3) (M : m3) (w p : v3) : Prop :=
  Rabs (dot3 (row0 (tr M)) (sub3 p x)) < c0 w
  /\ Rabs (dot3 (row1 (tr M)) (sub3 p x)) < c1 w
  /\ Rabs (dot3 (row2_ (tr M)) (sub3 p x)) < c2 w.
(* z is a point of S as far along n as S goes *)
Definition highest (S : v3 -> Prop) (n z : v3) : Prop := S z /\ forall y, S y -> dot3 n (sub3 y z) <= 0.
(* how far S reaches into T along u: moved on by more than d along u, T no longer meets S *)
Definition overlap3 (u : v3) (S T : v3 -> Prop) (d : R) : Prop :=
  (exists p q, S p /\ T q /\ dot3 u (sub3 p q) = d) /\ (forall p q, S p -> T q -> dot3 u (sub3 p q) <= d).

(* the face of box B that looks most against n *)
Definition facing (B : m3) (n m : v3) : Prop := face_of B m /\ forall m', face_of B m' -> dot3 m n <= dot3 m' n.
(* the straight line through q along n passes through the box, or through its inside *)
Definition over (x : v3) (M : m3) (w n q : v3) : Prop := exists t, in_box3 x M w (add3 q (scale3 t n)).
Definition deep_over (x : v3) (M : m3) (w n q : v3) : Prop := exists t, deep_in x M w (add3 q (scale3 t n)).
(* q is e below the part of S that is furthest along n; negative if it is above *)
Definition below (S : v3 -> Prop) (n q : v3) (e : R) : Prop := exists z, highest S n z /\ dot3 n (sub3 z q) = e.

(* The points l are contacts of box b with the face of box a with outward normal n: there is a face of b that looks most
   against n such that
   - every contact is on that face, straight below a point of the face of a, by at most d;
   - no point of that face straight below the inside of the face of a is deeper than all contacts;
   - when all points of that face over or under the face of a are below it, the contacts span their common part: every plane
     with the contacts on one side has the common part on that side *)
Definition face_contacts3 (xa : v3) (A : m3) (wa xb : v3) (B : m3) (wb n : v3) (d : R) (l : list v3) : Prop :=
  face_of A n /\ exists m, facing B n m
    /\ (forall q, In q l -> highest (in_box3 xb B wb) m q /\ exists e, 0 <= e <= d /\ highest (in_box3 xa A wa) n (add3 q (scale3 e n)))
    /\ (forall f e, highest (in_box3 xb B wb) m f -> deep_over xa A wa n f -> below (in_box3 xa A wa) n f e -> 0 <= e ->
         exists q e', In q l /\ below (in_box3 xa A wa) n q e' /\ e <= e')
    /\ ((forall g e, highest (in_box3 xb B wb) m g -> over xa A wa n g -> below (in_box3 xa A wa) n g e -> 0 <= e) ->
         forall f u, highest (in_box3 xb B wb) m f -> deep_over xa A wa n f -> exists q, In q l /\ dot3 u q <= dot3 u f).
(* q is half way between a point of the line of an edge of box a and a point of the line of an edge of box b. Both edges
   are where the boxes reach furthest along n and against n. Unless the edges are nearly parallel the two points are d apart
   along n; if they are, they are corners *)
Definition edge_contact3 (xa : v3) (A : m3) (wa xb : v3) (B : m3) (wb n q : v3) (d : R) : Prop :=
  exists ua ub ea eb s t,
    box_axis A ua /\ box_axis B ub /\ dot3 n ua = 0 /\ dot3 n ub = 0
    /\ highest (in_box3 xa A wa) n ea /\ highest (in_box3 xb B wb) (neg3 n) eb
    /\ q = scale3 (1 / 2) (add3 (add3 ea (scale3 s ua)) (add3 eb (scale3 t ub)))
    /\ (if Rle_dec (1 - dot3 ua ub * dot3 ua ub) (1 / 10000) then s = 0 /\ t = 0
        else sub3 (add3 ea (scale3 s ua)) (add3 eb (scale3 t ub)) = scale3 d n).
