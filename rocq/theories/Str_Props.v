(* C05: string utilities. *)
From Coq Require Import ZArith Ascii String List.
From Verif Require Import Outcome Str_Model Str_Spec Str_Proofs.
Import ListNotations.

(* C05. tokenize of a non-empty string gives delimiter-free pieces that join back to the string. *)
Theorem C05_tokenize : forall s chr, s <> [] ->
  exists toks, tokenize s chr = Ok toks /\ join chr toks = s /\
    Forall (fun t => ~ In chr t) toks /\ toks <> [].
Proof. exact tokenize_spec. Qed.
Print Assumptions C05_tokenize.

(* ... and that is the only list of pieces with this property. *)
Theorem C05_pieces_unique : forall c l1 l2, l1 <> [] -> l2 <> [] ->
  Forall (fun t => ~ In c t) l1 -> Forall (fun t => ~ In c t) l2 -> join c l1 = join c l2 -> l1 = l2.
Proof. exact join_unique. Qed.
Print Assumptions C05_pieces_unique.

(* C05. The empty string is undefined behaviour (std::string::back on an empty string). *)
Theorem C05_tokenize_empty_refuted : forall chr, tokenize [] chr = UB.
Proof. exact (fun chr => eq_refl). Qed.
Print Assumptions C05_tokenize_empty_refuted.

(* C05. Splitting at the last occurrence. *)
Theorem C05_split_last : forall s chr l r, splitAtLastCharacterOccurence s chr = (l, r) ->
  (In chr s /\ s = l ++ chr :: r /\ ~ In chr r) \/ (~ In chr s /\ l = s /\ r = []).
Proof. exact split_last_spec. Qed.
Print Assumptions C05_split_last.

(* C05. trim removes exactly the leading and trailing white space. *)
Theorem C05_trim : forall s, exists pre post, s = pre ++ trim s ++ post /\
  Forall (fun c => isspace c = true) pre /\ Forall (fun c => isspace c = true) post /\
  match trim s with [] => True | c :: _ => isspace c = false end /\
  match rev (trim s) with [] => True | c :: _ => isspace c = false end.
Proof. exact trim_spec. Qed.
Print Assumptions C05_trim.

(* C05. trimCharacterRight removes exactly the trailing run of the character. *)
Theorem C05_trim_right : forall s chr, exists k,
  s = trimCharacterRight s chr ++ repeat chr k /\
  match rev (trimCharacterRight s chr) with [] => True | c :: _ => c <> chr end.
Proof. exact trimCharacterRight_spec. Qed.
Print Assumptions C05_trim_right.

Example tokenize_example : tokenize (lit "1,,2.5,") ","%char = Ok [lit "1"; []; lit "2.5"; []].
Proof. reflexivity. Qed.
Example split_example : splitAtLastCharacterOccurence (lit "a/b/c.xml") "/"%char = (lit "a/b", lit "c.xml").
Proof. reflexivity. Qed.

(* C05. The white space characters are exactly the six of the "C" locale. *)
Theorem C05_white_space : forall c, isspace c = true <-> In c white_space_chars.
Proof. exact isspace_spec. Qed.
Print Assumptions C05_white_space.

(* C05. removeWhiteSpace drops every white space character and keeps every other one, in order. *)
Theorem C05_remove_white_space : removeWhiteSpace [] = [] /\
  forall a c b, removeWhiteSpace (a ++ c :: b) = removeWhiteSpace a ++ (if isspace c then [] else [c]) ++ removeWhiteSpace b.
Proof. exact (conj eq_refl removeWhiteSpace_step). Qed.
Print Assumptions C05_remove_white_space.

(* C05. The number of characters to the right of the first occurrence. *)
Theorem C05_num_right : forall chr,
  (forall l r, ~ In chr l -> computeNumCharactersToRight (l ++ chr :: r) chr = List.length r) /\
  (forall s, ~ In chr s -> computeNumCharactersToRight s chr = 0).
Proof. exact (fun chr => conj (fun l r => num_right_spec l r chr) (fun s => num_right_none s chr)). Qed.
Print Assumptions C05_num_right.

(* C05. Padding adds zeros in front up to the width and never cuts. *)
Theorem C05_pad : forall s w, exists k,
  padWithZeros s w = repeat "0"%char k ++ s /\ List.length (padWithZeros s w) = Nat.max w (List.length s).
Proof. exact pad_spec. Qed.
Print Assumptions C05_pad.
