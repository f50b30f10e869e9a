(* What an answer of a linear complementarity or quadratic programming solver has to satisfy. *)
From Coq Require Import Reals Arith.
From Verif Require Import Lin_Model Quad_Model Apgd_Model.
Open Scope R_scope.

(* the k-th point the solver looks at *)
Fixpoint iterate (project : dvec -> dvec) (n : nat) (A : mat) (b : dvec) (fuel k : nat) (s : iter) : option dvec :=
  match k with
  | O => Some (ix s)
  | S j => match apgd_step project n A b fuel s with Next s1 => iterate project n A b fuel j s1 | _ => None end
  end.
(* 0 <= x, 0 <= y and x y = 0, each up to tol *)
Definition nearly_complementary (tol x y : R) : Prop := 0 <= x /\ - tol <= y /\ (x <= tol \/ y <= tol).
(* z' A z >= 0 *)
Definition positive_semidefinite (n : nat) (A : mat) : Prop := forall z, 0 <= rsum n (fun i => z i * rsum n (fun j => A i j * z j)).
(* 1/2 x' A x + b' x *)
Definition quadratic (n : nat) (A : mat) (b x : dvec) : R :=
  / 2 * rsum n (fun i => x i * rsum n (fun j => A i j * x j)) + rsum n (fun i => b i * x i).
(* velocity along the normal of contact i, nrel being the part due to moving fixed objects *)
Definition normal_velocity (nd : nat) (N : mat) (nrel v : dvec) (i : nat) : R := rsum nd (fun k => N k i * v k) + nrel i.
Definition kinetic_energy (nd : nat) (M : mat) (v : dvec) : R := / 2 * rsum nd (fun i => v i * rsum nd (fun j => M i j * v j)).
(* Minv is the inverse of M *)
Definition inverse_of (nd : nat) (M Minv : mat) : Prop :=
  forall w i, (i < nd)%nat -> rsum nd (fun j => M i j * rsum nd (fun k => Minv j k * w k)) = w i.
