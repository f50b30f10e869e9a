(* Volume by parallel slices: the integral of the areas of the slices. *)
From Coq Require Import Reals.
From Coquelicot Require Import Coquelicot.
From Verif Require Import Lin_Model.
Open Scope R_scope.

(* the slice of S by the plane at distance t from a along the unit vector u is a disc of squared radius w (empty when w < 0) *)
Definition slice_is_disc (S : v3 -> Prop) (a u : v3) (t w : R) : Prop :=
  exists m, dot3 u (sub3 m a) = t
    /\ forall p, dot3 u (sub3 p a) = t -> (S p <-> dot3 (sub3 p m) (sub3 p m) <= w).
(* area of such a disc *)
Definition disc_area (w : R) : R := PI * Rmax 0 w.
(* S lies between the planes at lo and hi along u, each slice is a disc, and the areas integrate to V *)
Definition volume_by_slices (S : v3 -> Prop) (V : R) : Prop :=
  exists a u lo hi (w : R -> R), dot3 u u = 1 /\ lo <= hi
    /\ (forall p, S p -> lo <= dot3 u (sub3 p a) <= hi)
    /\ (forall t, slice_is_disc S a u t (w t))
    /\ is_RInt (fun t => disc_area (w t)) lo hi V.
