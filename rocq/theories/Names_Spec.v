(* Lexicographic order of file names, as by ls or std::string::operator<. *)
From Coq Require Import List NArith Ascii.
Import ListNotations.

Inductive lex_lt : list ascii -> list ascii -> Prop :=
| lex_nil c l : lex_lt [] (c :: l)
| lex_head a b l1 l2 : (N_of_ascii a < N_of_ascii b)%N -> lex_lt (a :: l1) (b :: l2)
| lex_tail a l1 l2 : lex_lt l1 l2 -> lex_lt (a :: l1) (a :: l2).
