(* Specification vocabulary for text: joining pieces with a delimiter, digit strings, signs. *)
From Coq Require Import ZArith Ascii String List.
From Verif Require Import Str_Model.
Import ListNotations.

Fixpoint join (c : ascii) (l : list str) : str :=
  match l with
  | [] => []
  | [x] => x
  | x :: l' => x ++ c :: join c l'
  end.

Definition all_digits (l : str) : Prop := Forall (fun c => is_digit c = true) l.

Definition nondigit_head (r : str) : Prop := match r with [] => True | c :: _ => is_digit c = false end.

Inductive sign := SNone | SPlus | SMinus.
Definition sign_str (s : sign) : str := match s with SNone => [] | SPlus => lit "+" | SMinus => lit "-" end.
Definition sign_app (s : sign) (v : Z) : Z := match s with SMinus => (- v)%Z | _ => v end.

(* the six white space characters: space, tab, line feed, vertical tab, form feed, carriage return *)
Definition white_space_chars : list ascii := [" "%char; "009"%char; "010"%char; "011"%char; "012"%char; "013"%char].
