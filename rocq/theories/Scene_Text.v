(* Model of the way scene files turn attribute texts into numbers: the formatted stream extraction behind
   scisim/StringUtilities.h:63-111 (extractFromString, extractScalarFromString, readScalarList) for scalar,
   unsigned, int, std::size_t and bool, and the "while( ss >> component )" loops of the scene parsers.

   The standard library's std::num_get is modelled in the classic locale as libstdc++ implements it (white
   space is skipped, then the longest prefix that can be part of a number is consumed). A decimal number is
   an exact rational; [rnd] turns it into a scalar, None when it is too large for the type (the extraction
   then fails). All theorems hold for every [rnd]: the nearest double, the nearest float, or exact numbers.
   Negative zero is not told apart from zero. *)
From Coq Require Import List ZArith NArith QArith Qcanon Bool Ascii String.
From Verif Require Import Outcome Str_Model.
Import ListNotations.
Open Scope list_scope.

Record fpmode := mkFp { rnd : Q -> option Q; fmax : Q }.

(* What an extraction did to its target variable: it stored a value and the stream is good (the text left in
   the stream is kept), it stored a value and the stream failed, or it failed without storing anything
   (nothing but white space was left). *)
Inductive reading (A : Type) : Type :=
| Got (a : A) (rest : str)
| Bad (a : A)
| Untouched.
Arguments Got {A} a rest.
Arguments Bad {A} a.
Arguments Untouched {A}.

(* the value of [sign] D . F e k *)
Definition pow10 (k : Z) : Q :=
  if (0 <=? k)%Z then inject_Z (10 ^ k) else (1 # Z.to_pos (10 ^ (- k)))%Q.
Definition dec_value (neg : bool) (D F : str) (e : Z) : Q :=
  let m := digits_val (D ++ F) in
  Qred (inject_Z (if neg then - m else m) * pow10 (e - Z.of_nat (List.length F))).

(* the fraction digits: what follows a period *)
Definition span_fraction (s : str) : str * str :=
  match s with
  | c :: t => if Ascii.eqb c "." then span_digits t else ([], s)
  | [] => ([], s)
  end.

(* std::num_get for double (libstdc++ _M_extract_float followed by strtod): optional sign, digits, at most
   one period, digits, and, once a digit was seen, an e with an optional sign and digits. A text without
   digits, or with an e that no digits follow, fails and stores 0; a number too large for the type fails and
   stores the largest value of its sign. *)
Definition is_e (c : ascii) : bool := (Ascii.eqb c "e" || Ascii.eqb c "E")%bool.
Definition finish (fp : fpmode) (neg : bool) (D F : str) (e : Z) (rest : str) : reading Q :=
  match rnd fp (dec_value neg D F e) with
  | Some x => Got x rest
  | None => Bad (if neg then (- fmax fp)%Q else fmax fp)
  end.
Definition read_scalar (fp : fpmode) (s : str) : reading Q :=
  match trimFront s with
  | [] => Untouched
  | s1 =>
      let '(neg, s2) := take_sign s1 in
      let '(D, s3) := span_digits s2 in
      let '(F, s4) := span_fraction s3 in
      match D ++ F with
      | [] => Bad 0%Q
      | _ =>
          match s4 with
          | c :: t =>
              if is_e c
              then let '(eneg, t1) := take_sign t in
                   let '(E, s5) := span_digits t1 in
                   match E with
                   | [] => Bad 0%Q
                   | _ => finish fp neg D F (if eneg then - digits_val E else digits_val E)%Z s5
                   end
              else finish fp neg D F 0 s4
          | [] => finish fp neg D F 0 []
          end
      end
  end.

(* std::num_get for the integer types (libstdc++ _M_extract_int): optional sign, digits. *)
Definition read_digits (s : str) : option (reading (bool * Z)) :=
  match trimFront s with
  | [] => None
  | s1 =>
      let '(neg, s2) := take_sign s1 in
      let '(D, s3) := span_digits s2 in
      match D with
      | [] => Some (Bad (neg, 0%Z))
      | _ => Some (Got (neg, digits_val D) s3)
      end
  end.

(* An unsigned type with 2^bits values: a minus sign is accepted and the value is taken modulo 2^bits; a
   magnitude that does not fit fails and stores the largest value. *)
Definition read_unsigned (bits : Z) (s : str) : reading Z :=
  match read_digits s with
  | None => Untouched
  | Some (Got (neg, v) r) =>
      if (v <? 2 ^ bits)%Z then Got (if neg then (- v) mod 2 ^ bits else v)%Z r else Bad (2 ^ bits - 1)%Z
  | Some _ => Bad 0%Z
  end.

(* int: read as a long, out of range values fail and store the nearest int *)
Definition int_max : Z := 2 ^ 31 - 1.
Definition int_min : Z := - 2 ^ 31.
Definition read_int (s : str) : reading Z :=
  match read_digits s with
  | None => Untouched
  | Some (Got (neg, v) r) =>
      let z := if neg then (- v)%Z else v in
      if (z <? int_min)%Z then Bad int_min else if (int_max <? z)%Z then Bad int_max else Got z r
  | Some _ => Bad 0%Z
  end.

(* bool without boolalpha: read as a long; 0 and 1 are accepted; a text without digits fails and stores
   false, any other number fails and stores true *)
Definition read_bool (s : str) : reading bool :=
  match read_digits s with
  | None => Untouched
  | Some (Got (neg, v) r) =>
      let z := if neg then (- v)%Z else v in
      if (z =? 0)%Z then Got false r else if (z =? 1)%Z then Got true r else Bad true
  | Some _ => Bad false
  end.

(* StringUtilities.h:63-69 extractFromString where the caller returns false when it returns false *)
Definition checked {A} (r : reading A) : option A :=
  match r with Got a _ => Some a | _ => None end.
(* the same where the caller ignores the result: the variable has no value when nothing was stored, and
   reading it is then undefined *)
Definition unchecked {A} (r : reading A) : outcome A :=
  match r with Got a _ => Ok a | Bad a => Ok a | Untouched => UB end.

(* Ball2DSceneParser.cpp:328-332 and 348-352, RigidBody3DSceneParser.cpp: while( ss >> component ). Every extraction
   consumes at least one character, so the length of the text is enough fuel. *)
Fixpoint read_scalars_loop (fp : fpmode) (fuel : nat) (s : str) : list Q :=
  match fuel with
  | O => []
  | S k => match read_scalar fp s with
           | Got x r => x :: read_scalars_loop fp k r
           | _ => []
           end
  end.
Definition read_scalars (fp : fpmode) (s : str) : list Q := read_scalars_loop fp (List.length s) s.

(* Ball2DSceneParser.cpp:736-739: while( ss >> input_string ), the words of the text *)
Fixpoint span_word (s : str) : str * str :=
  match s with
  | [] => ([], [])
  | c :: t => if isspace c then ([], s) else let (w, r) := span_word t in (c :: w, r)
  end.
Fixpoint read_words_loop (fuel : nat) (s : str) : list str :=
  match fuel with
  | O => []
  | S k => match trimFront s with
           | [] => []
           | s1 => let (w, r) := span_word s1 in w :: read_words_loop k r
           end
  end.
Definition read_words (s : str) : list str := read_words_loop (S (List.length s)) s.

(* StringUtilities.h:71-91 extractScalarFromString: a number, or exactly inf or -inf *)
Inductive ext := Fin (q : Q) | PInf | NInf.
Definition seqb (a b : str) : bool := if list_eq_dec ascii_dec a b then true else false.
Definition read_ext (fp : fpmode) (s : str) : option ext :=
  match checked (read_scalar fp s) with
  | Some x => Some (Fin x)
  | None => if seqb s (lit "-inf") then Some NInf else if seqb s (lit "inf") then Some PInf else None
  end.
(* the same for int, whose numeric_limits::infinity() is 0 *)
Definition read_ext_int (s : str) : option Z :=
  match checked (read_int s) with
  | Some x => Some x
  | None => if seqb s (lit "-inf") then Some 0%Z else if seqb s (lit "inf") then Some 0%Z else None
  end.

Fixpoint all_some {A} (l : list (option A)) : option (list A) :=
  match l with
  | [] => Some []
  | Some a :: t => match all_some t with Some r => Some (a :: r) | None => None end
  | None :: _ => None
  end.
(* StringUtilities.h:93-111 readScalarList( text, n, ' ', list ) *)
Definition read_list {A} (f : str -> option A) (n : nat) (s : str) : outcome (option (list A)) :=
  let! toks := tokenize s " "%char in
  if Nat.eqb (List.length toks) n then Ok (all_some (map f toks)) else Ok None.
