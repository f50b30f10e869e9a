(* What the operators inside the coupled solver promise, and what the solver then owes. *)
From Coq Require Import Reals Arith.
From Verif Require Import Lin_Model Quad_Model Apgd_Spec.
Open Scope R_scope.

(* velocity after normal impulses alpha and friction impulses beta *)
Definition velocity_after (nd nc nb : nat) (N D Minv : mat) (v0 alpha beta : dvec) (k : nat) : R :=
  v0 k + rsum nd (fun l => Minv k l * (rsum nc (fun i => N l i * alpha i) + rsum nb (fun j => D l j * beta j))).
(* alpha are impact impulses for the velocity vF: none pulls, every contact separates at the speed that restitution demands
   of the velocity v0 before the step, up to tol, and one that pushes no faster *)
Definition resolves_impact (nd nc : nat) (N Minv : mat) (nrel CoR v0 : dvec) (tol : R) (vF alpha : dvec) : Prop :=
  forall i, (i < nc)%nat -> nearly_complementary tol (alpha i)
    (normal_velocity nd N nrel (fun k => vF k + rsum nd (fun l => Minv k l * rsum nc (fun j => N l j * alpha j))) i
     + CoR i * normal_velocity nd N nrel v0 i).
(* the columns dim * c, ..., dim * c + dim - 1 are orthonormal *)
Definition orthonormal_block (dim : nat) (bases : mat) (c : nat) : Prop :=
  forall i j, (i < dim)%nat -> (j < dim)%nat ->
    rsum dim (fun r => bases r (dim * c + i)%nat * bases r (dim * c + j)%nat) = if Nat.eqb i j then 1 else 0.
