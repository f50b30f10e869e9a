(* Model of scisim/Math/Rational.h instantiated at std::intmax_t (64-bit signed), the
   instantiation used by every simulator (Rational<std::intmax_t>).
   Signed overflow is undefined behaviour, hence every intermediate value is range checked. *)
From Coq Require Import List ZArith Bool.
From Verif Require Import Outcome.
Import ListNotations.
Open Scope Z_scope.

Definition int64_min : Z := - 2 ^ 63.
Definition int64_max : Z := 2 ^ 63 - 1.
Definition in_int64 (z : Z) : bool := (int64_min <=? z) && (z <=? int64_max).

(* Signed 64-bit arithmetic: exact, or undefined. *)
Definition i64 (z : Z) : outcome Z := if in_int64 z then Ok z else UB.
Definition mul64 (a b : Z) : outcome Z := i64 (a * b).
Definition add64 (a b : Z) : outcome Z := i64 (a + b).
Definition sub64 (a b : Z) : outcome Z := i64 (a - b).
Definition neg64 (a : Z) : outcome Z := i64 (- a).
(* C++ / and % truncate toward zero; division by zero and INT_MIN / -1, INT_MIN % -1 are undefined. *)
Definition div64 (a b : Z) : outcome Z := if b =? 0 then UB else i64 (Z.quot a b).
Definition rem64 (a b : Z) : outcome Z :=
  if b =? 0 then UB else if in_int64 (Z.quot a b) then Ok (Z.rem a b) else UB.

(* Rational.h:94-95  m_numerator, m_denominator *)
Record rational := mkRat { num : Z; den : Z }.

(* Rational.h:124-135 GCD. The while loop becomes recursion on fuel; [gcd_fuel] is proved
   sufficient for every pair of 64-bit values (Rational_Proofs.gcd64_no_fuel), running out
   of fuel would show up as UB. *)
Fixpoint gcd_loop (fuel : nat) (n d : Z) : outcome Z :=
  match fuel with
  | O => UB
  | S k => if d =? 0 then Ok n else let! r := rem64 n d in gcd_loop k d r
  end.
Definition gcd_fuel : nat := 140.
Definition gcd64 (n d : Z) : outcome Z := gcd_loop gcd_fuel n d.

(* Rational.h:138-158 simplify *)
Definition simplify (n d : Z) : outcome rational :=
  if n =? 0 then Ok (mkRat 0 1)
  else
    let! g := gcd64 n d in
    let! n1 := div64 n g in
    let! d1 := div64 d g in
    if d1 <? 0 then
      let! n2 := neg64 n1 in
      let! d2 := neg64 d1 in
      Ok (mkRat n2 d2)
    else Ok (mkRat n1 d1).

(* Rational.h:25-30 constructor, 161-168 set *)
Definition make (n d : Z) : outcome rational := simplify n d.

(* Rational.h:36-39 operator+= : right.den * num + den * right.num, den * right.den *)
Definition radd (a b : rational) : outcome rational :=
  let! x := mul64 (den b) (num a) in
  let! y := mul64 (den a) (num b) in
  let! n := add64 x y in
  let! d := mul64 (den a) (den b) in
  make n d.

(* Rational.h:41-44 operator-= *)
Definition rsub (a b : rational) : outcome rational :=
  let! x := mul64 (den b) (num a) in
  let! y := mul64 (den a) (num b) in
  let! n := sub64 x y in
  let! d := mul64 (den a) (den b) in
  make n d.

(* Rational.h:46-49 operator*= *)
Definition rmul (a b : rational) : outcome rational :=
  let! n := mul64 (num a) (num b) in
  let! d := mul64 (den a) (den b) in
  make n d.

(* Rational.h:51-54 operator/= *)
Definition rdiv (a b : rational) : outcome rational :=
  let! n := mul64 (den b) (num a) in
  let! d := mul64 (num b) (den a) in
  make n d.

(* Rational.h:66-70, 72-76, 78-81 *)
Definition positive (a : rational) : bool := 0 <? num a.
Definition nonNegative (a : rational) : bool := 0 <=? num a.
Definition isInteger (a : rational) : bool := den a =? 1.

(* Rational.h:99-103 operator==( Rational, Rational ) *)
Definition req (a b : rational) : bool := (num a =? num b) && (den a =? den b).
(* Rational.h:105-109 operator==( Rational, T ): compares with Rational( rhs, 1 ) *)
Definition req_int (a : rational) (t : Z) : outcome bool :=
  let! b := make t 1 in Ok (req a b).

(* Rational.h:170-174 operator*( Rational, T ) and 176-180 operator*( T, Rational ) *)
Definition rmul_int (a : rational) (t : Z) : outcome rational :=
  let! n := mul64 (num a) t in make n (den a).
Definition int_rmul (t : Z) (a : rational) : outcome rational :=
  let! n := mul64 (num a) t in make n (den a).
(* Rational.h:182-186 operator/( Rational, T ) *)
Definition rdiv_int (a : rational) (t : Z) : outcome rational :=
  let! d := mul64 (den a) t in make (num a) d.
(* Rational.h:188-192 operator/( T, Rational ) *)
Definition int_rdiv (t : Z) (a : rational) : outcome rational :=
  let! n := mul64 (den a) t in make n (num a).

(* A client's sequence of compound assignments on one Rational variable. *)
Inductive rop := OpAdd (b : rational) | OpSub (b : rational) | OpMul (b : rational) | OpDiv (b : rational)
               | OpSet (n d : Z).
Definition rstep (a : rational) (o : rop) : outcome rational :=
  match o with
  | OpAdd b => radd a b
  | OpSub b => rsub a b
  | OpMul b => rmul a b
  | OpDiv b => rdiv a b
  | OpSet n d => make n d
  end.
Definition rrun (a : rational) (os : list rop) : outcome rational := ofold rstep os a.
