(* Vectors and sparse columns as the constraint code uses them: Eigen's VectorXs is a function
   from indices, v.segment<2>( k ) / segment<3>( k ) read consecutive entries, and a column of a
   sparse matrix is the list of its D.insert( row, column ) = value calls. *)
From Coq Require Import List Reals Arith.
From Verif Require Import Ccd_Model.
Import ListNotations.
Open Scope R_scope.

Definition dvec := nat -> R.

Fixpoint rsum (n : nat) (f : nat -> R) : R :=
  match n with
  | O => 0
  | S k => rsum k f + f k
  end.

(* ---------- small vectors ---------- *)
(* Vector2s is Ccd_Model.vec *)
Definition vadd (a b : vec) : vec := (fst a + fst b, snd a + snd b).
Definition vscale (s : R) (a : vec) : vec := (s * fst a, s * snd a).
Definition vneg (a : vec) : vec := (- fst a, - snd a).
Definition vzero : vec := (0, 0).
(* MathUtilities::cross, /repo/scisim/Math/MathUtilities.h:16-19 *)
Definition vcross (a b : vec) : R := fst a * snd b - snd a * fst b.
(* Vector2s{ -r.y(), r.x() } *)
Definition vperp (a : vec) : vec := (- snd a, fst a).
(* Eigen's normalized(): divides by the norm unless it is zero *)
Definition vnormalized (a : vec) : vec :=
  if Rlt_dec 0 (vdot a a) then vscale (/ sqrt (vdot a a)) a else a.

Record v3 := V3 { c0 : R; c1 : R; c2 : R }.
Definition zero3 : v3 := V3 0 0 0.
Definition add3 (a b : v3) : v3 := V3 (c0 a + c0 b) (c1 a + c1 b) (c2 a + c2 b).
Definition sub3 (a b : v3) : v3 := V3 (c0 a - c0 b) (c1 a - c1 b) (c2 a - c2 b).
Definition neg3 (a : v3) : v3 := V3 (- c0 a) (- c1 a) (- c2 a).
Definition scale3 (s : R) (a : v3) : v3 := V3 (s * c0 a) (s * c1 a) (s * c2 a).
Definition dot3 (a b : v3) : R := c0 a * c0 b + c1 a * c1 b + c2 a * c2 b.
Definition cross3 (a b : v3) : v3 :=
  V3 (c1 a * c2 b - c2 a * c1 b) (c2 a * c0 b - c0 a * c2 b) (c0 a * c1 b - c1 a * c0 b).
Definition normalized3 (a : v3) : v3 :=
  if Rlt_dec 0 (dot3 a a) then scale3 (/ sqrt (dot3 a a)) a else a.

(* ---------- segments ---------- *)
Definition seg2 (v : dvec) (k : nat) : vec := (v (k + 0)%nat, v (k + 1)%nat).
Definition seg3 (v : dvec) (k : nat) : v3 := V3 (v (k + 0)%nat) (v (k + 1)%nat) (v (k + 2)%nat).

(* v.segment<2>( k ) += x *)
Definition add_seg2 (v : dvec) (k : nat) (x : vec) : dvec :=
  fun i => if Nat.eqb i (k + 0) then v i + fst x else if Nat.eqb i (k + 1) then v i + snd x else v i.
Definition add_seg3 (v : dvec) (k : nat) (x : v3) : dvec :=
  fun i => if Nat.eqb i (k + 0) then v i + c0 x
           else if Nat.eqb i (k + 1) then v i + c1 x
           else if Nat.eqb i (k + 2) then v i + c2 x else v i.

(* ---------- sparse columns ---------- *)
Definition col := list (nat * R).
Definition ins1 (k : nat) (x : R) : col := [(k, x)].
Definition ins2 (k : nat) (x : vec) : col := [((k + 0)%nat, fst x); ((k + 1)%nat, snd x)].
Definition ins3 (k : nat) (x : v3) : col := [((k + 0)%nat, c0 x); ((k + 1)%nat, c1 x); ((k + 2)%nat, c2 x)].

(* the coefficient in row k *)
Definition entry (c : col) (k : nat) : R :=
  fold_right (fun e s => (if Nat.eqb (fst e) k then snd e else 0) + s) 0 c.
(* c^T w *)
Definition col_dot (c : col) (w : dvec) : R :=
  fold_right (fun e s => snd e * w (fst e) + s) 0 c.
(* sum over columns of column * coefficient, i.e. N * alpha + D * beta *)
Definition impulse (l : list (col * R)) : dvec :=
  fun k => fold_right (fun ci s => entry (fst ci) k * snd ci + s) 0 l.
(* v0 + Minv * impulse *)
Definition vplus (u w : dvec) : dvec := fun k => u k + w k.
