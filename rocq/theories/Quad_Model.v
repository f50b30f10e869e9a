(* Dense vectors and matrices of size n, of which the first n rows and columns count. Eigen's sparse products give the same
   real numbers as the dense ones. *)
From Coq Require Import Reals Arith.
From Verif Require Import Lin_Model.
Open Scope R_scope.

(* x.dot( y ) *)
Definition dotn (n : nat) (x y : dvec) : R := rsum n (fun i => x i * y i).
Definition mat := nat -> nat -> R.
(* A * x with n columns *)
Definition mv (n : nat) (A : mat) (x : dvec) : dvec := fun i => rsum n (fun j => A i j * x j).
Definition transpose (A : mat) : mat := fun i j => A j i.
(* A * B with n inner columns *)
Definition mm (n : nat) (A B : mat) : mat := fun i j => rsum n (fun k => A i k * B k j).
Definition symmetric (n : nat) (A : mat) : Prop := forall i j, (i < n)%nat -> (j < n)%nat -> A i j = A j i.
