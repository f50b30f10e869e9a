(* Complementarity, and optimality of a point of an interval or a disc. *)
From Coq Require Import Reals.
From Verif Require Import Ccd_Model Lin_Model.
Open Scope R_scope.

Definition complementary (x y : R) : Prop := 0 <= x /\ 0 <= y /\ x * y = 0.
(* among the points z of [-c, c], b is one where the derivative g lets nothing be gained to first order *)
Definition best_in_interval (c b g : R) : Prop := Rabs b <= c /\ forall z, Rabs z <= c -> 0 <= g * (z - b).
(* the same for the disc of radius c *)
Definition in_friction_disc (c : R) (b : vec) : Prop := 0 <= c /\ vdot b b <= c * c.
Definition best_in_disc (c : R) (b g : vec) : Prop := in_friction_disc c b /\ forall z, in_friction_disc c z -> 0 <= vdot g (vsub z b).
