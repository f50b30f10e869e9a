(* Specification vocabulary for impacts. *)
From Coq Require Import List Reals Arith.
From Verif Require Import Outcome Ccd_Model Lin_Model ContactBall_Model ContactRb3_Model.
Import ListNotations.
Open Scope R_scope.

(* n balls with positive masses; a ball has the same mass in both directions *)
Definition ball_masses (n : nat) (m : dvec) : Prop :=
  forall i, (i < n)%nat -> 0 < m (2 * i)%nat /\ m (2 * i + 1)%nat = m (2 * i)%nat.
(* a contact of two different balls with a unit normal *)
Definition ball_pair (n : nat) (c : ball_contact) : Prop :=
  match c with
  | BallBall i j nn _ _ _ | KickBallBall i j nn _ _ _ _ => (i < n)%nat /\ (j < n)%nat /\ i <> j /\ vdot nn nn = 1
  | _ => False
  end.
Definition no_kick (c : ball_contact) : Prop := match c with KickBallBall _ _ _ _ _ _ _ => False | _ => True end.

Definition body_masses (nb : nat) (m : dvec) : Prop :=
  forall i, (i < nb)%nat -> 0 < m (3 * i)%nat /\ m (3 * i + 1)%nat = m (3 * i)%nat /\ m (3 * i + 2)%nat = m (3 * i)%nat.
(* two different spheres, or a sphere and a plane, with a unit normal *)
Definition sphere_contact (nb : nat) (c : rb3_contact) : Prop :=
  match c with
  | SphereSphere i j n _ _ _ => (i < nb)%nat /\ (j < nb)%nat /\ i <> j /\ dot3 n n = 1
  | PlaneSphere i _ p => (i < nb)%nat /\ dot3 (tp_n p) (tp_n p) = 1
  | _ => False
  end.
