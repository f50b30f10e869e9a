(* What the theorems on orientations, 3D mass matrices and the 3D integrators talk about. *)
From Coq Require Import List Reals Arith Bool.
From Verif Require Import Ccd_Model Lin_Model ContactRb3_Model Rot_Model.
Import ListNotations.
Open Scope R_scope.

(* determinant by cofactors; a rotation is orthonormal with determinant one *)
Definition det3 (A : m3) : R := dot3 (row0 A) (cross3 (row1 A) (row2_ A)).
Definition rotation (A : m3) : Prop := mm A (tr A) = id3 /\ det3 A = 1.

(* body i of a state with n bodies *)
Definition position (s : rb3) (i : nat) : v3 := seg3 (s3_q s) (3 * i).
Definition orientation (s : rb3) (i : nat) : m3 := mat_at (s3_q s) (3 * s3_n s + 9 * i).
Definition velocity (s : rb3) (i : nat) : v3 := seg3 (s3_v s) (3 * i).
Definition spin (s : rb3) (i : nat) : v3 := seg3 (s3_v s) (3 * s3_n s + 3 * i).
Definition mass (s : rb3) (i : nat) : R := s3_M0 s (3 * i)%nat.
Definition inertia0 (s : rb3) (i : nat) : v3 := seg3 (s3_M0 s) (3 * s3_n s + 3 * i).
(* R diag( d ) R^T *)
Definition turned (A : m3) (d : v3) : m3 := mm (mm A (diag3 d)) (tr A).
(* world-space momenta of body i, from its mass, principal inertias and orientation *)
Definition linear_momentum (s : rb3) (i : nat) : v3 := scale3 (mass s i) (velocity s i).
Definition angular_momentum (s : rb3) (i : nat) : v3 := mul3 (turned (orientation s i) (inertia0 s i)) (spin s i).

Definition positive3 (d : v3) : Prop := 0 < c0 d /\ 0 < c1 d /\ 0 < c2 d.
Definition all3 (m : R) : v3 := V3 m m m.
(* the four mass arrays belong to positive masses and principal inertias, and M and Minv to the current orientations,
   which are rotations *)
Definition constants_ok (s : rb3) : Prop := forall i, (i < s3_n s)%nat ->
  0 < mass s i /\ positive3 (inertia0 s i)
  /\ seg3 (s3_M0 s) (3 * i) = all3 (mass s i) /\ seg3 (s3_Minv0 s) (3 * i) = all3 (/ mass s i)
  /\ seg3 (s3_Minv0 s) (3 * s3_n s + 3 * i) = inv3 (inertia0 s i)
  /\ seg3 (s3_M s) (3 * i) = all3 (mass s i) /\ seg3 (s3_Minv s) (3 * i) = all3 (/ mass s i).
Definition rotations (s : rb3) : Prop := forall i, (i < s3_n s)%nat -> rotation (orientation s i).
Definition current (s : rb3) : Prop := forall i, (i < s3_n s)%nat ->
  mat_at (s3_M s) (3 * s3_n s + 9 * i) = turned (orientation s i) (inertia0 s i)
  /\ mat_at (s3_Minv s) (3 * s3_n s + 9 * i) = turned (orientation s i) (inv3 (inertia0 s i)).
Definition consistent (s : rb3) : Prop := constants_ok s /\ rotations s /\ current s.

(* scalar product of velocities or momenta of an n-body system *)
Definition dotn (n : nat) (x y : dvec) : R := rsum (6 * n) (fun k => x k * y k).
Definition total (gs : list v3) : v3 := fold_right add3 zero3 gs.

(* what a singular value decomposition returns *)
Definition orthogonal (A : m3) : Prop := mm A (tr A) = id3 /\ mm (tr A) A = id3.
Definition decomposes (r : m3 * v3 * m3) (A : m3) : Prop := let '(U, d, V) := r in
  orthogonal U /\ orthogonal V /\ 0 <= c0 d /\ 0 <= c1 d /\ 0 <= c2 d /\ A = mm (mm U (diag3 d)) (tr V).
(* it does so for the matrices the exponential map gives it *)
Definition svd_ok (svd : m3 -> m3 * v3 * m3) : Prop := forall dt w R0, rotation R0 -> decomposes (svd (tangent_step dt w R0)) (tangent_step dt w R0).
