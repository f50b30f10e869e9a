(* Model of the text input/output of Rational<std::intmax_t>, scisim/Math/Rational.h:194-258. *)
From Coq Require Import List ZArith Bool Ascii String.
From Verif Require Import Outcome Rational_Model Str_Model.
Import ListNotations.
Open Scope Z_scope.

(* std::count *)
Definition count_char (s : str) (chr : ascii) : nat := count_occ ascii_dec s chr.

(* Rational.h:237  for i < num_digits: denominator *= 10 *)
Fixpoint pow10_loop (k : nat) (d : Z) : outcome Z :=
  match k with
  | O => Ok d
  | S k' => let! d' := mul64 d 10 in pow10_loop k' d'
  end.

(* Rational.h:225-227 *)
Definition fix_left (l : str) : str :=
  let l1 := match l with [] => lit "0" | _ => l end in
  let l2 := if list_eq_dec ascii_dec l1 (lit "+") then lit "+0" else l1 in
  if list_eq_dec ascii_dec l2 (lit "-") then lit "-0" else l2.

(* Rational.h:216-241, the branch slash_count != 1 *)
Definition parse_decimal (s : str) : outcome (option rational) :=
  let '(left0, right0) := splitAtLastCharacterOccurence (removeWhiteSpace s) "."%char in
  let right1 := trimCharacterRight right0 "0"%char in
  let left1 := fix_left left0 in
  match extract_int left1 with
  | None => Ok None
  | Some left_int =>
      match (match right1 with [] => Some 0 | _ => extract_int right1 end) with
      | None => Ok None
      | Some right_int =>
          let! denominator := pow10_loop (List.length right1) 1 in
          let! a := mul64 left_int denominator in
          let! b := mul64 (if left_int <? 0 then -1 else 1) right_int in
          let! numerator := add64 a b in
          let! r := make numerator denominator in
          Ok (Some r)
      end
  end.

(* Rational.h:242-255, the branch slash_count == 1 *)
Definition parse_fraction (s : str) : outcome (option rational) :=
  let '(l, r) := splitAtLastCharacterOccurence (removeWhiteSpace s) "/"%char in
  match extract_int l with
  | None => Ok None
  | Some left_int =>
      match extract_int r with
      | None => Ok None
      | Some right_int => let! q := make left_int right_int in Ok (Some q)
      end
  end.

(* Rational.h:203-258 extractFromString; [Ok None] is the return value false *)
Definition parse_rational (s : str) : outcome (option rational) :=
  let slash_count := count_char s "/"%char in
  let period_count := count_char s "."%char in
  if Nat.ltb 2 slash_count then Ok None
  else if Nat.ltb 2 period_count then Ok None
  else if (Nat.eqb slash_count 1 && negb (Nat.eqb period_count 0))%bool then Ok None
  else if (Nat.eqb period_count 1 && negb (Nat.eqb slash_count 0))%bool then Ok None
  else if negb (Nat.eqb slash_count 1) then parse_decimal s
  else parse_fraction s.

(* Rational.h:194-198 operator<< *)
Definition print_rational (r : rational) : str :=
  print_Z (num r) ++ lit " / " ++ print_Z (den r).
