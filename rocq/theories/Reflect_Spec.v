(* Specification vocabulary for the reflection operators. *)
From Coq Require Import List Reals Arith.
From Verif Require Import Outcome Lin_Model ContactRb3_Model Reflect_Model.
Import ListNotations.
Open Scope R_scope.

Definition ldot (a b : list R) : R := fold_right Rplus 0 (lmul a b).

(* M and Minv as maps on the first n coordinates: linear, inverse, M symmetric and positive *)
Record mass_pair (n : nat) (M Minv : dvec -> dvec) : Prop := {
  mp_M_local : forall u v, (forall k, (k < n)%nat -> u k = v k) -> forall k, (k < n)%nat -> M u k = M v k;
  mp_M_lin : forall a u v k, (k < n)%nat -> M (fun i => u i + a * v i) k = M u k + a * M v k;
  mp_Minv_local : forall u v, (forall k, (k < n)%nat -> u k = v k) -> forall k, (k < n)%nat -> Minv u k = Minv v k;
  mp_Minv_lin : forall a u v k, (k < n)%nat -> Minv (fun i => u i + a * v i) k = Minv u k + a * Minv v k;
  mp_inv : forall f k, (k < n)%nat -> M (Minv f) k = f k;
  mp_sym : forall u v, rsum n (fun k => u k * M v k) = rsum n (fun k => v k * M u k);
  mp_pos : forall v, 0 <= rsum n (fun k => v k * M v k) }.

(* kinetic energy relative to the velocity w: 1/2 (v - w)^T M (v - w) *)
Definition kinetic_rel (n : nat) (M : dvec -> dvec) (w v : dvec) : R :=
  / 2 * rsum n (fun k => (v k - w k) * M (fun i => v i - w i) k).

(* every contact is satisfied up to tol: N^T v + nrel >= -tol *)
Definition satisfies (N : list col) (nrel : list R) (tol : R) (v : dvec) : Prop :=
  Forall (fun x => - tol <= x) (ladd (Nt N v) nrel).

(* alpha solves the linear complementarity problem 0 <= alpha _|_ N^T Minv N alpha + b >= 0 *)
Definition solves_lcp (Minv : dvec -> dvec) (N : list col) (b alpha : list R) : Prop :=
  length alpha = length N /\ Forall (fun a => 0 <= a) alpha
  /\ Forall (fun z => 0 <= z) (ladd (Nt N (Minv (Nmul N alpha))) b)
  /\ ldot alpha (ladd (Nt N (Minv (Nmul N alpha))) b) = 0.
(* an impact operator that always solves the problem it poses *)
Definition exact_op (Minv : dvec -> dvec) (op : impact_op) : Prop :=
  forall N v0 v0F nrel CoR a0 a, length nrel = length N -> length CoR = length N -> length a0 = length N ->
    op N v0 v0F nrel CoR a0 = Ok a -> solves_lcp Minv N (lcp_linear_term N nrel CoR v0 v0F) a.
(* an impact operator that returns non-negative impulses, one per contact *)
Definition pushing_op (op : impact_op) : Prop :=
  forall N v0 v0F nrel CoR a0 a, length nrel = length N -> length CoR = length N -> length a0 = length N ->
    op N v0 v0F nrel CoR a0 = Ok a -> length a = length N /\ Forall (fun x => 0 <= x) a.
(* the operator answers every problem made of some of the contacts *)
Definition answers (op : impact_op) (N : list col) (nrel CoR : list R) : Prop :=
  forall idx v, NoDup idx -> Forall (fun i => (i < length N)%nat) idx ->
    exists a, op (map (fun i => nth i N []) idx) v v (map (fun i => nth i nrel 0) idx) (map (fun i => nth i CoR 0) idx) (repeat 0 (length idx)) = Ok a.
(* columns only touch the first n coordinates *)
Definition cols_in (n : nat) (N : list col) : Prop := Forall (Forall (fun e => (fst e < n)%nat)) N.

(* the mass matrix of the balls and of the 2D bodies is diagonal *)
Definition diag_mass (m v : dvec) : dvec := fun k => m k * v k.
(* the mass matrix of the 3D bodies: diagonal, then a 3x3 block per body *)
Definition rb3_mass (nb : nat) (m : dvec) (I : nat -> m3) (v : dvec) : dvec :=
  fun k =>
    if Nat.ltb k (3 * nb) then m k * v k
    else
      let i := ((k - 3 * nb) / 3)%nat in
      let w := mul3 (I i) (seg3 v (3 * (nb + i))) in
      match ((k - 3 * nb) mod 3)%nat with
      | O => c0 w
      | S O => c1 w
      | _ => c2 w
      end.
(* the blocks are symmetric and positive *)
Definition inertia_ok (nb : nat) (I : nat -> m3) : Prop :=
  forall i, (i < nb)%nat -> (forall x y, dot3 x (mul3 (I i) y) = dot3 y (mul3 (I i) x)) /\ (forall x, 0 <= dot3 x (mul3 (I i) x)).
