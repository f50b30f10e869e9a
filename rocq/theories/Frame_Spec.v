(* What the theorems on contact frames talk about. *)
From Coq Require Import List Reals.
From Verif Require Import Ccd_Model Lin_Model.
Import ListNotations.
Open Scope R_scope.

Definition right_handed3 (n s t : v3) : Prop :=
  dot3 n n = 1 /\ dot3 s s = 1 /\ dot3 t t = 1 /\ dot3 n s = 0 /\ dot3 n t = 0 /\ dot3 s t = 0 /\ cross3 n s = t.
Definition right_handed2 (n t : vec) : Prop := vdot n n = 1 /\ vdot t t = 1 /\ vdot n t = 0 /\ vcross n t = 1.
(* the part of u in the contact plane, and that it is large enough to count as sliding *)
Definition tangential (n u : v3) : v3 := sub3 u (scale3 (dot3 u n) n).
Definition sliding (n u : v3) : Prop := / 1000000000 <= dot3 (tangential n u) (tangential n u).
(* s points against the sliding *)
Definition opposes (n u s : v3) : Prop := exists k, 0 < k /\ tangential n u = scale3 (- k) s.
