(* Two balls moving on straight lines during the unit time interval. *)
From Coq Require Import List NArith Reals.
From Verif Require Import Outcome Grid_Model Ccd_Model.
Open Scope R_scope.

Definition at_time (p q : vec) (t : R) : vec :=
  ((1 - t) * fst p + t * fst q, (1 - t) * snd p + t * snd q).
Definition distance (p q : vec) : R := sqrt ((fst p - fst q) ^ 2 + (snd p - snd q) ^ 2).

(* at time t the balls touch or overlap *)
Definition touch (q0a q1a : vec) (ra : R) (q0b q1b : vec) (rb : R) (t : R) : Prop :=
  distance (at_time q0a q1a t) (at_time q0b q1b t) <= ra + rb.

(* t is the first time in [0,1] at which they do *)
Definition first_touch q0a q1a ra q0b q1b rb t : Prop :=
  0 <= t <= 1 /\ touch q0a q1a ra q0b q1b rb t /\
  forall s, 0 <= s < t -> ~ touch q0a q1a ra q0b q1b rb s.

Definition swept_touch (a b : swept) : Prop :=
  exists t, 0 <= t <= 1 /\ touch (s_q0 a) (s_q1 a) (s_r a) (s_q0 b) (s_q1 b) (s_r b) t.
Definition ball_at (bs : list swept) (i : N) (b : swept) : Prop := List.nth_error bs (N.to_nat i) = Some b.
