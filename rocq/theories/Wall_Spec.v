(* What the theorems on contacts with fixed geometry talk about: obstacles as sets of points. *)
From Coq Require Import List Reals.
From Verif Require Import Ccd_Model Lin_Model Geom_Spec.
Import ListNotations.
Open Scope R_scope.

(* the solid side of a plane through xp with normal n pointing out of the solid *)
Definition half_plane (xp n p : vec) : Prop := vdot n (vsub p xp) <= 0.
Definition half_space (xp n p : v3) : Prop := dot3 n (sub3 p xp) <= 0.
(* the solid around a hollow drum or cylinder: at least R away from the centre, or from every point of the axis *)
Definition outside_drum (X : vec) (Rd : R) (p : vec) : Prop := Rd * Rd <= vdot (vsub p X) (vsub p X).
Definition outside_cylinder (x0 axis : v3) (Rc : R) (p : v3) : Prop := forall s, Rc * Rc <= dist2 p (add3 x0 (scale3 s axis)).

Definition meets {A : Type} (S T : A -> Prop) : Prop := exists p, S p /\ T p.
(* the list of contacts has one of obstacle k with body i, where first reads the body of a contact *)
Definition reported {C : Type} (first : C -> nat) (set : list (nat * C)) (k i : nat) : Prop :=
  exists c, In (k, c) set /\ first c = i.
(* the corners of a rectangle and of a box, in body coordinates *)
Definition is_corner2 (r a : vec) : Prop := (fst a = fst r \/ fst a = - fst r) /\ (snd a = snd r \/ snd a = - snd r).
Definition is_corner3 (w a : v3) : Prop :=
  (c0 a = c0 w \/ c0 a = - c0 w) /\ (c1 a = c1 w \/ c1 a = - c1 w) /\ (c2 a = c2 w \/ c2 a = - c2 w).
(* m is the least value of f on S *)
Definition is_least {A : Type} (S : A -> Prop) (f : A -> R) (m : R) : Prop := (exists p, S p /\ f p = m) /\ forall p, S p -> m <= f p.
(* d is the distance of p from the axis *)
Definition from_axis (x0 axis p : v3) (d : R) : Prop :=
  0 <= d /\ (exists s, dist2 p (add3 x0 (scale3 s axis)) = d * d) /\ forall s, d * d <= dist2 p (add3 x0 (scale3 s axis)).
(* n is the unit vector from p straight towards the axis *)
Definition towards_axis (x0 axis p n : v3) : Prop :=
  dot3 n n = 1 /\ dot3 axis n = 0 /\ exists k s, 0 < k /\ add3 p (scale3 k n) = add3 x0 (scale3 s axis).
(* p divides the segment between the centres a and b in the ratio of the radii *)
Definition divides2 (a b : vec) (r s : R) (p : vec) : Prop := vscale s (vsub p a) = vscale r (vsub b p).
Definition divides3 (a b : v3) (r s : R) (p : v3) : Prop := scale3 s (sub3 p a) = scale3 r (sub3 b p).
(* n is the unit vector from b to a *)
Definition points_from2 (b a n : vec) : Prop := vdot n n = 1 /\ exists k, 0 < k /\ vsub a b = vscale k n.
Definition points_from3 (b a n : v3) : Prop := dot3 n n = 1 /\ exists k, 0 < k /\ sub3 a b = scale3 k n.
