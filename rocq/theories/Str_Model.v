(* Model of scisim/StringUtilities.{h,cpp} (text part) and of the stream formatting they rely on.
   A std::string is a list of characters. *)
From Coq Require Import List ZArith NArith Bool Ascii String.
From Verif Require Import Outcome.
Import ListNotations.
Open Scope list_scope.

Definition str := list ascii.
Definition lit (s : String.string) : str := list_ascii_of_string s.
Coercion lit : String.string >-> str.

(* std::isspace in the "C" locale: space, \t \n \v \f \r. (For negative char values the standard leaves
   isspace undefined; glibc answers false, which is what is modelled.) *)
Definition isspace (c : ascii) : bool :=
  let n := N_of_ascii c in (N.eqb n 32 || (N.leb 9 n && N.leb n 13))%bool.

(* std::string::find_first_of( chr, start ) with a single character; None is npos. *)
Fixpoint find_first_from (l : str) (chr : ascii) (pos : nat) : option nat :=
  match l with
  | [] => None
  | c :: l' => if Ascii.eqb c chr then Some pos else find_first_from l' chr (S pos)
  end.
Definition find_first_of (s : str) (chr : ascii) (start : nat) : option nat :=
  find_first_from (skipn start s) chr start.

(* std::string::find_last_of( chr ) *)
Fixpoint find_last_from (l : str) (p : ascii -> bool) (pos : nat) : option nat :=
  match l with
  | [] => None
  | c :: l' => match find_last_from l' p (S pos) with
               | Some q => Some q
               | None => if p c then Some pos else None
               end
  end.
Definition find_last_of (s : str) (chr : ascii) : option nat := find_last_from s (fun c => Ascii.eqb c chr) 0.
Definition find_last_not_of (s : str) (chr : ascii) : option nat :=
  find_last_from s (fun c => negb (Ascii.eqb c chr)) 0.

(* std::string::substr( pos, len ), pos <= size() *)
Definition substr (s : str) (pos len : nat) : str := firstn len (skipn pos s).

(* StringUtilities.cpp:61-73 splitAtLastCharacterOccurence; substr( 0, npos ) is the whole string *)
Definition splitAtLastCharacterOccurence (s : str) (chr : ascii) : str * str :=
  match find_last_of s chr with
  | Some p => (substr s 0 p, skipn (p + 1) s)
  | None => (s, [])
  end.

(* StringUtilities.cpp:75-83 computeNumCharactersToRight *)
Definition computeNumCharactersToRight (s : str) (chr : ascii) : nat :=
  match find_first_of s chr 0 with
  | None => 0
  | Some p => List.length s - p - 1
  end.

(* StringUtilities.cpp:85-90 trimFront: erase up to the first non-space *)
Fixpoint trimFront (s : str) : str :=
  match s with
  | [] => []
  | c :: s' => if isspace c then trimFront s' else s
  end.
(* StringUtilities.cpp:92-97 trimBack: the same through reverse iterators *)
Definition trimBack (s : str) : str := rev (trimFront (rev s)).
(* StringUtilities.cpp:99-102 *)
Definition trim (s : str) : str := trimFront (trimBack s).
(* StringUtilities.cpp:104-109 *)
Definition removeWhiteSpace (s : str) : str := filter (fun c => negb (isspace c)) s.
(* StringUtilities.cpp:111-114; npos + 1 wraps to 0 *)
Definition trimCharacterRight (s : str) (chr : ascii) : str :=
  match find_last_not_of s chr with
  | Some p => substr s 0 (p + 1)
  | None => substr s 0 0
  end.
(* StringUtilities.cpp:116-121 padWithZeros: setw pads on the left with '0', never truncates *)
Definition padWithZeros (s : str) (width : nat) : str :=
  repeat "0"%char (width - List.length s) ++ s.

(* StringUtilities.cpp:123-143 tokenize. The while loop advances substring_start by at least one
   each round, so length s + 1 rounds suffice; out of fuel is UB (excluded in the proofs).
   std::string::back() of the empty string is undefined. *)
Fixpoint tokenize_loop (fuel : nat) (s : str) (chr : ascii) (start : nat) (tokens : list str)
  : outcome (nat * list str) :=
  match fuel with
  | O => UB
  | S k =>
      match find_first_of s chr start with
      | None => Ok (start, tokens)
      | Some e => tokenize_loop k s chr (e + 1) (tokens ++ [substr s start (e - start)])
      end
  end.
Definition tokenize (s : str) (chr : ascii) : outcome (list str) :=
  let! (start, tokens) := tokenize_loop (List.length s + 1) s chr 0 [] in
  let tokens' := if Nat.ltb start (List.length s) then tokens ++ [skipn start s] else tokens in
  match rev s with
  | [] => UB
  | c :: _ => Ok (if Ascii.eqb c chr then tokens' ++ [[]] else tokens')
  end.

(* Decimal digits. *)
Definition is_digit (c : ascii) : bool :=
  let n := N_of_ascii c in (N.leb 48 n && N.leb n 57)%bool.
Definition digit_val (c : ascii) : Z := Z.of_N (N_of_ascii c) - 48.
Definition digits_val (l : str) : Z := fold_left (fun acc c => 10 * acc + digit_val c)%Z l 0%Z.
Fixpoint span_digits (l : str) : str * str :=
  match l with
  | [] => ([], [])
  | c :: l' => if is_digit c then let (d, r) := span_digits l' in (c :: d, r) else ([], l)
  end.

(* StringUtilities.h:63-69 extractFromString<intmax_t>: std::stringstream >> with the default flags
   (std::num_get): skip white space, an optional sign, the longest run of decimal digits; failbit if
   there are no digits or the value does not fit. What follows the digits is left unread and ignored. *)
Definition take_sign (s : str) : bool * str :=
  match s with
  | [] => (false, s)
  | c :: t => if Ascii.eqb c "-" then (true, t) else if Ascii.eqb c "+" then (false, t) else (false, s)
  end.
Definition extract_int (s : str) : option Z :=
  let s1 := trimFront s in
  let '(neg, s2) := take_sign s1 in
  let '(d, _) := span_digits s2 in
  match d with
  | [] => None
  | _ => let v := (if neg then - digits_val d else digits_val d)%Z in
         if ((- 2 ^ 63 <=? v) && (v <=? 2 ^ 63 - 1))%Z then Some v else None
  end.

(* std::ostream << integer: decimal digits, no leading zeros, '-' for negative values. *)
Definition digit_char (n : N) : ascii := ascii_of_N (48 + n).
Fixpoint digits_loop (fuel : nat) (n : N) (acc : str) : str :=
  match fuel with
  | O => acc
  | S k => let acc' := digit_char (n mod 10) :: acc in
           if N.ltb n 10 then acc' else digits_loop k (n / 10) acc'
  end.
(* N.size_nat n + 1 rounds suffice (Str_Proofs). *)
Definition print_N (n : N) : str := digits_loop (N.size_nat n + 1) n [].
Definition print_Z (z : Z) : str :=
  match z with
  | Zneg p => "-"%char :: print_N (Npos p)
  | _ => print_N (Z.to_N z)
  end.
