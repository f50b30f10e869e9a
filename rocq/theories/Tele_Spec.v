(* What the theorems on contacts across portals between rigid bodies talk about. *)
From Coq Require Import List Reals Arith NArith Bool.
From Verif Require Import Outcome Portal_Model Portal_Spec Ccd_Model Ccd_Spec Lin_Model ContactRb2_Model ContactRb3_Model Rot_Model Rot_Spec
  Geom_Model Geom_Spec Geom_Sets Wall_Model Wall_Spec Narrow_Model Narrow_Spec Tele_Model.
Import ListNotations.
Open Scope R_scope.

(* ---------- where a body is seen ---------- *)
(* in place, or through plane s (false: A, true: B) of portal k, if the body is near that plane *)
Inductive view {Po Pt} (near : Po -> bool -> nat -> Prop) (through : Po -> bool -> Pt -> outcome Pt) (nb : nat) (ps : list Po)
    (centre : nat -> Pt) (i : nat) : option N -> bool -> Pt -> Prop :=
| View_in_place : (i < nb)%nat -> view near through nb ps centre i None false (centre i)
| View_through k p s y : (i < nb)%nat -> nth_error ps (N.to_nat k) = Some p -> near p s i -> through p s (centre i) = Ok y ->
    view near through nb ps centre i (Some k) s y.
(* the smallest box around a body reaches a plane or what is behind it *)
Definition reaches2 (S : vec -> Prop) (p : plane2) : Prop := exists b x, tight2 b S /\ Geom_Spec.within2 b x /\ height p x <= 0.
Definition reaches3 (S : v3 -> Prop) (p : plane3) : Prop := exists b x, tight3 b S /\ within3 b x /\ height3 p x <= 0.
(* a body is seen through plane A if its box reaches plane A, else through plane B if its box reaches plane B *)
Definition near2 (shape : nat -> shape2) (q : dvec) (p : portal2) (s : bool) (i : nat) : Prop :=
  let S := body2_points (body_at2 shape q i) in
  if s then ~ reaches2 S (po_a p) /\ reaches2 S (po_b p) else reaches2 S (po_a p).
Definition near3 (nb : nat) (shape : nat -> shape3) (q : dvec) (p : portal3) (s : bool) (i : nat) : Prop :=
  let S := reach3 nb shape q i in
  if s then ~ reaches3 S (pt_a p) /\ reaches3 S (pt_b p) else reaches3 S (pt_a p).
(* the point x seen through plane A (s = false) or B (s = true) of a portal *)
Definition seen2 (conv : int_floor) (p : portal2) (s : bool) (x : vec) : outcome vec := if s then through2_b conv p x else through2_a conv p x.
Definition seen3 (p : portal3) (s : bool) (x : v3) : outcome v3 := Ok (if s then through3_b p x else through3_a p x).
(* body i is seen at y at the end of the step *)
Definition view2 conv nb shape ps q1 := view (near2 shape q1) (seen2 conv) nb ps (fun i => seg2 q1 (3 * i)).
Definition view3 nb shape ps q1 := view (near3 nb shape q1) seen3 nb ps (pos3 q1).
(* where the point x is seen through plane s of portal k, and how fast a point with velocity u seems to move *)
Definition image2 (conv : int_floor) (ps : list portal2) (k : option N) (s : bool) (x y : vec) : Prop :=
  match k with
  | None => y = x
  | Some k => exists p, nth_error ps (N.to_nat k) = Some p /\ seen2 conv p s x = Ok y
  end.
Definition image3 (ps : list portal3) (k : option N) (s : bool) (x y : v3) : Prop :=
  match k with
  | None => y = x
  | Some k => exists p, nth_error ps (N.to_nat k) = Some p /\ seen3 p s x = Ok y
  end.

(* ---------- bodies in place ---------- *)
(* the smallest boxes around two bodies at q share a point *)
Definition ends_meet2 (shape : nat -> shape2) (q : dvec) (i j : nat) : Prop :=
  exists a b, tight2 a (body2_points (body_at2 shape q i)) /\ tight2 b (body2_points (body_at2 shape q j)) /\ boxes_meet2 a b.

(* ---------- contacts across portals ---------- *)
Definition discs_touch (shape : nat -> shape2) (i j : nat) (x y : vec) : Prop :=
  exists r s, shape i = Circle2 r /\ shape j = Circle2 s /\ meets (in_disc x r) (in_disc y s).
Definition balls_touch (shape : nat -> shape3) (i j : nat) (x y : v3) : Prop :=
  exists r s, shape i = Sphere3 r /\ shape j = Sphere3 s /\ meets (in_ball3 x r) (in_ball3 y s).
(* c joins disc i seen through k, s with disc j seen through l, t. With x and y the centres seen so at the start of the step,
   the normal points from y to x, the arms reach from x and y to the point that divides the line of centres in the ratio of
   the radii, and the relative velocity is that of the two material points as they are seen *)
Definition joins2 (conv : int_floor) (ps : list portal2) (shape : nat -> shape2) (q0 : dvec)
    (i : nat) (k : option N) (s : bool) (j : nat) (l : option N) (t : bool) (c : rb2_contact) : Prop :=
  pair2 c = Some (i, j) /\ exists x y ri rj, image2 conv ps k s (seg2 q0 (3 * i)) x /\ image2 conv ps l t (seg2 q0 (3 * j)) y
  /\ shape i = Circle2 ri /\ shape j = Circle2 rj
  /\ (x <> y -> points_from2 y x (rb2_normal c))
  /\ exists p, divides2 x y ri rj p
     /\ (~ (slides ps k /\ slides ps l) -> forall q v, rb2_relvel q c v
          = vsub (seen_velocity ps k s (point_velocity2 v i (vsub p x))) (seen_velocity ps l t (point_velocity2 v j (vsub p y)))).
Definition joins3 (nb : nat) (ps : list portal3) (shape : nat -> shape3) (fixed : nat -> bool) (q0 : dvec)
    (i : nat) (k : option N) (s : bool) (j : nat) (l : option N) (t : bool) (c : rb3_contact) : Prop :=
  fixed i = false /\ pair3 c = Some (i, j) /\ exists x y ri rj, image3 ps k s (pos3 q0 i) x /\ image3 ps l t (pos3 q0 j) y
  /\ shape i = Sphere3 ri /\ shape j = Sphere3 rj
  /\ (x <> y -> points_from3 y x (rb3_normal q0 c))
  /\ if fixed j
     then forall q v, x <> y -> rb3_relvel nb q c v = Ok (point_velocity3 nb v i (scale3 (- ri) (rb3_normal q0 c)))
     else exists p, divides3 x y ri rj p
          /\ forall q v, rb3_relvel nb q c v = Ok (sub3 (point_velocity3 nb v i (sub3 p x)) (point_velocity3 nb v j (sub3 p y))).
(* bodies i and j seen at y and z have bounds that share a point *)
Definition views_meet2 (shape : nat -> shape2) (q : dvec) (i : nat) (y : vec) (j : nat) (z : vec) : Prop :=
  exists a b, tight2 a (body2_points (Body2 y (q (3 * i + 2)%nat) (shape i))) /\ tight2 b (body2_points (Body2 z (q (3 * j + 2)%nat) (shape j))) /\ boxes_meet2 a b.
Definition views_meet3 (nb : nat) (shape : nat -> shape3) (q : dvec) (i : nat) (y : v3) (j : nat) (z : v3) : Prop :=
  exists a b, tight3 a (body3_points (Body3 y (ori3 nb q i) (shape i))) /\ tight3 b (body3_points (Body3 z (ori3 nb q j) (shape j))) /\ boxes_meet3 a b.
