(* What the Rational class is supposed to be: exact rational numbers in lowest terms.
   Stated with the standard library's Q only. *)
From Coq Require Import List ZArith QArith.
From Verif Require Import Outcome Rational_Model.
Import ListNotations.

(* The number represented. *)
Definition rval (a : rational) : Q := (inject_Z (num a) / inject_Z (den a))%Q.

(* The documented representation: lowest terms, sign on the numerator (0 is then 0 / 1). *)
Definition lowest_terms (a : rational) : Prop :=
  (0 < den a)%Z /\ Z.gcd (num a) (den a) = 1%Z.

(* Exact effect of one client operation on the value of a variable. *)
Definition spec_step (x : Q) (o : rop) : Q :=
  match o with
  | OpAdd b => (x + rval b)%Q
  | OpSub b => (x - rval b)%Q
  | OpMul b => (x * rval b)%Q
  | OpDiv b => (x / rval b)%Q
  | OpSet n d => (inject_Z n / inject_Z d)%Q
  end.

(* Mathematically meaningful operations: operands are themselves rationals in lowest terms,
   no division by zero. *)
Definition op_ok (o : rop) : Prop :=
  match o with
  | OpAdd b | OpSub b | OpMul b => lowest_terms b
  | OpDiv b => lowest_terms b /\ num b <> 0%Z
  | OpSet n d => d <> 0%Z
  end.

(* A 64-bit value different from INT64_MIN. *)
Definition small64 (z : Z) : Prop := (Z.abs z <= int64_max)%Z.
