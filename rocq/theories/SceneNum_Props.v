(* C60, C61, C62: what the whole numbers, flags, words and number lists in a scene file stand for. *)
From Coq Require Import ZArith NArith QArith Bool Ascii String List Lia ZifyBool ZifyNat ZifyN.
From Verif Require Import Outcome Str_Model Str_Spec Str_Proofs Rational_Model RatParse_Model Scene_Text Scene_Model Scene_Spec Scene_TextProofs Scene_Proofs
  Scene2_Model Scene2_Spec Scene2_Proofs.
Import ListNotations.
Open Scope string_scope.
Open Scope list_scope.

Definition no_digit_next (rest : str) : Prop := match rest with [] => True | c :: _ => is_digit c = false end.
Lemma read_digits_text ws sg D rest : blank ws -> all_digits D -> D <> [] -> no_digit_next rest ->
  read_digits (ws ++ sign_str sg ++ D ++ rest) = Some (Got (match sg with SMinus => true | _ => false end, digits_val D) rest).
Proof.
  intros HW HD HN HR. destruct D as [|c D]; [contradiction|]. inversion HD as [|? ? Hc HD']; subst. unfold read_digits.
  assert (trimFront (ws ++ sign_str sg ++ (c :: D) ++ rest) = sign_str sg ++ (c :: D) ++ rest) as ->.
  { rewrite trim_white by exact HW. destruct sg; [|reflexivity..]. cbn [sign_str app]. apply trimFront_nonspace, isspace_not_digit, Hc. }
  assert (exists x y, sign_str sg ++ (c :: D) ++ rest = x :: y) as (x & y & E) by (destruct sg; eexists _, _; reflexivity).
  rewrite E, <- E. rewrite take_sign_spec by (left; exact Hc). rewrite span_digits_all by (assumption || exact HR). reflexivity.
Qed.

(* C60. A whole number is read as its value, an int only when it fits; a text without digits is none. *)
Theorem C60_integers : forall ws sg D rest, blank ws -> all_digits D -> D <> [] -> no_digit_next rest ->
  read_int (ws ++ sign_str sg ++ D ++ rest) =
  let v := sign_app sg (digits_val D) in
  if (v <? - 2 ^ 31)%Z then Bad (- 2 ^ 31)%Z else if (2 ^ 31 - 1 <? v)%Z then Bad (2 ^ 31 - 1)%Z else Got v rest.
Proof. intros ws sg D rest HW HD HN HR. unfold read_int. rewrite read_digits_text by assumption. destruct sg; reflexivity. Qed.
Print Assumptions C60_integers.
(* C60. An index or count is read as its value when it fits in the unsigned type; a negative one wraps around. *)
Theorem C60_unsigned : forall bits ws sg D rest, (0 <= bits)%Z -> blank ws -> all_digits D -> D <> [] -> no_digit_next rest ->
  read_unsigned bits (ws ++ sign_str sg ++ D ++ rest) =
  if (digits_val D <? 2 ^ bits)%Z then Got (sign_app sg (digits_val D) mod 2 ^ bits)%Z rest else Bad (2 ^ bits - 1)%Z.
Proof.
  intros bits ws sg D rest HB HW HD HN HR. unfold read_unsigned. rewrite read_digits_text by assumption.
  pose proof (digits_nonneg D HD). destruct (Z.ltb_spec (digits_val D) (2 ^ bits)); [|reflexivity].
  destruct sg; cbn [sign_app]; [rewrite Z.mod_small by lia|rewrite Z.mod_small by lia|]; reflexivity.
Qed.
Print Assumptions C60_unsigned.
(* C60. A flag is 0 or 1; every other number is an error that leaves true. *)
Theorem C60_flags : forall ws sg D rest, blank ws -> all_digits D -> D <> [] -> no_digit_next rest ->
  read_bool (ws ++ sign_str sg ++ D ++ rest) =
  let v := sign_app sg (digits_val D) in
  if (v =? 0)%Z then Got false rest else if (v =? 1)%Z then Got true rest else Bad true.
Proof. intros ws sg D rest HW HD HN HR. unfold read_bool. rewrite read_digits_text by assumption. destruct sg; reflexivity. Qed.
Print Assumptions C60_flags.
(* C60. A text that does not begin with a number is no number, index or flag. *)
Theorem C60_not_a_number : forall fp bits ws sg rest, blank ws ->
  match rest with [] => True | c :: _ => is_digit c = false /\ isspace c = false /\ c <> "."%char /\ c <> "+"%char /\ c <> "-"%char end ->
  checked (read_int (ws ++ sign_str sg ++ rest)) = None /\ checked (read_unsigned bits (ws ++ sign_str sg ++ rest)) = None /\
  checked (read_bool (ws ++ sign_str sg ++ rest)) = None /\ checked (read_scalar fp (ws ++ sign_str sg ++ rest)) = None.
Proof.
  intros fp bits ws sg rest HW HR.
  assert (trimFront (ws ++ sign_str sg ++ rest) = sign_str sg ++ rest) as T.
  { rewrite trim_white by exact HW. destruct sg; [|reflexivity..]. cbn [sign_str app]. destruct rest as [|c r]; [reflexivity|]. apply trimFront_nonspace, HR. }
  assert (span_digits rest = ([], rest) /\ span_fraction rest = ([], rest)) as [S F].
  { destruct rest as [|c r]; [split; reflexivity|]. destruct HR as (H1 & H2 & H3 & _). cbn [span_digits span_fraction]. rewrite H1.
    apply Ascii.eqb_neq in H3. rewrite H3. split; reflexivity. }
  assert (read_digits (ws ++ sign_str sg ++ rest) = None \/ exists b, read_digits (ws ++ sign_str sg ++ rest) = Some (Bad (b, 0%Z))) as X.
  { unfold read_digits. rewrite T. destruct sg; cbn [sign_str app].
    - destruct rest as [|c r]; [left; reflexivity|]. right. unfold take_sign. destruct HR as (_ & _ & _ & H4 & H5). apply Ascii.eqb_neq in H4, H5. rewrite H4, H5, S. eexists. reflexivity.
    - right. cbn. rewrite S. eexists. reflexivity.
    - right. cbn. rewrite S. eexists. reflexivity. }
  assert (checked (read_scalar fp (ws ++ sign_str sg ++ rest)) = None) as Y.
  { unfold read_scalar. rewrite T. destruct sg; cbn [sign_str app].
    - destruct rest as [|c r]; [reflexivity|]. unfold take_sign. destruct HR as (_ & _ & _ & H4 & H5). apply Ascii.eqb_neq in H4, H5. rewrite H4, H5, S, F. reflexivity.
    - cbn. rewrite S, F. reflexivity.
    - cbn. rewrite S, F. reflexivity. }
  unfold read_int, read_unsigned, read_bool. destruct X as [-> | [b ->]]; repeat split; assumption || reflexivity.
Qed.
Print Assumptions C60_not_a_number.
(* C60. The words of a text are its longest pieces without white space. *)
Theorem C60_words : forall l last, Forall (fun p => blank (fst p) /\ word (snd p)) l ->
  Forall (fun p => fst p <> []) (tl l) -> blank last ->
  read_words (flat_map (fun p => fst p ++ snd p) l ++ last) = map snd l.
Proof.
  intros l last HL HT HB. unfold read_words.
  assert (forall l k, Forall (fun p => blank (fst p) /\ word (snd p)) l -> Forall (fun p => fst p <> []) (tl l) ->
    (List.length (flat_map (fun p => fst p ++ snd p) l ++ last) < k)%nat ->
    read_words_loop k (flat_map (fun p => fst p ++ snd p) l ++ last) = map snd l) as G; [|apply G; try assumption; lia].
  clear l HL HT. induction l as [|[w x] l IH]; intros k HL HT Hk; (destruct k as [|k]; [cbn in Hk; lia|]).
  - cbn [flat_map app map read_words_loop]. assert (trimFront last = []) as ->; [|reflexivity].
    rewrite <- (app_nil_r last), trim_white by exact HB. reflexivity.
  - inversion HL as [|? ? [H1 H2] HL']; subst. cbn [flat_map map fst snd read_words_loop tl] in *. rewrite <- !app_assoc in *.
    rewrite trim_white by exact H1. destruct H2 as [N2 F2]. destruct x as [|c x]; [contradiction|]. inversion F2 as [|? ? Hc F2']; subst.
    cbn [app]. rewrite trimFront_nonspace by exact Hc.
    assert (span_word (c :: x ++ flat_map (fun p => fst p ++ snd p) l ++ last) = (c :: x, flat_map (fun p => fst p ++ snd p) l ++ last)) as ->.
    { change (c :: x ++ flat_map (fun p => fst p ++ snd p) l ++ last) with ((c :: x) ++ flat_map (fun p => fst p ++ snd p) l ++ last).
      assert (match flat_map (fun p : str * str => fst p ++ snd p) l ++ last with [] => True | y :: _ => isspace y = true end) as HN.
      { destruct l as [|[w2 x2] l]; cbn [flat_map app fst snd].
        - destruct last as [|y r]; [exact Logic.I|]. inversion HB; assumption.
        - inversion HT; subst. inversion HL' as [|? ? [B2 _] _]; subst. cbn [fst snd] in *. destruct w2 as [|y w2]; [contradiction|]. inversion B2; assumption. }
      apply span_word_text; assumption. }
    f_equal. apply IH; [assumption| |].
    + destruct l as [|p l]; [constructor|]. inversion HT; assumption.
    + cbn [app] in Hk. rewrite app_length in Hk. cbn [List.length] in Hk. rewrite app_length in Hk. lia.
Qed.
Print Assumptions C60_words.
(* C60. A list of numbers is read number by number, up to the first piece that is none. *)
Theorem C60_number_lists : forall fp t,
  read_scalars fp t = match read_scalar fp t with Got x rest => x :: read_scalars fp rest | _ => [] end.
Proof.
  intros fp t. unfold read_scalars.
  assert (forall n m s, (List.length s <= n)%nat -> (List.length s <= m)%nat -> read_scalars_loop fp n s = read_scalars_loop fp m s) as G.
  { induction n as [|n IH]; intros [|m] s H1 H2; try reflexivity.
    - destruct s; [|cbn in H1; lia]. reflexivity.
    - destruct s; [|cbn in H2; lia]. reflexivity.
    - cbn [read_scalars_loop]. destruct (read_scalar fp s) eqn:E; try reflexivity. apply read_scalar_shorter in E. f_equal. apply IH; lia. }
  destruct (read_scalar fp t) eqn:E.
  - pose proof (read_scalar_shorter _ _ _ _ E) as L. destruct (List.length t) as [|n] eqn:ET; [lia|]. cbn [read_scalars_loop]. rewrite E. f_equal. apply G; lia.
  - destruct (List.length t); cbn [read_scalars_loop]; [reflexivity|]. rewrite E. reflexivity.
  - destruct (List.length t); cbn [read_scalars_loop]; [reflexivity|]. rewrite E. reflexivity.
Qed.
Print Assumptions C60_number_lists.
(* C61. A component of a vector is a number, or exactly inf or -inf. *)
Theorem C61_components : forall fp t,
  (forall x, read_ext fp t = Some (Fin x) <-> checked (read_scalar fp t) = Some x) /\
  (read_ext fp t = Some PInf <-> t = lit "inf") /\ (read_ext fp t = Some NInf <-> t = lit "-inf").
Proof.
  intros fp t.
  destruct (C60_not_a_number fp 1 [] SNone (lit "inf") (Forall_nil _)) as (_ & _ & _ & E1); [repeat split; discriminate|].
  destruct (C60_not_a_number fp 1 [] SMinus (lit "inf") (Forall_nil _)) as (_ & _ & _ & E2); [repeat split; discriminate|].
  cbn [sign_str app] in E1, E2. change (lit "-" ++ lit "inf") with (lit "-inf") in E2.
  unfold read_ext. split; [|split].
  - intros x. destruct (checked (read_scalar fp t)) as [y|] eqn:E; [split; congruence|].
    destruct (seqb t (lit "-inf")); [split; discriminate|]. destruct (seqb t (lit "inf")); split; discriminate.
  - split; [|intros ->; rewrite E1; reflexivity]. destruct (checked (read_scalar fp t)); [discriminate|].
    destruct (seqb t (lit "-inf")); [discriminate|]. destruct (seqb t (lit "inf")) eqn:S; [|discriminate]. apply seqb_true in S. auto.
  - split; [|intros ->; rewrite E2; reflexivity]. destruct (checked (read_scalar fp t)); [discriminate|].
    destruct (seqb t (lit "-inf")) eqn:S; [apply seqb_true in S; auto|]. destruct (seqb t (lit "inf")); discriminate.
Qed.
Print Assumptions C61_components.
(* C62. A multiplier entry is a whole number; inf and -inf count as 0, which no multiplier may be. *)
Theorem C62_multiplier_entries : forall t k, read_ext_int t = Some k <->
  checked (read_int t) = Some k \/ (t = lit "inf" \/ t = lit "-inf") /\ k = 0%Z.
Proof.
  intros t k. unfold read_ext_int.
  destruct (C60_not_a_number (mkFp (fun q => Some q) 0) 1 [] SNone (lit "inf") (Forall_nil _)) as (E1 & _); [repeat split; discriminate|].
  destruct (C60_not_a_number (mkFp (fun q => Some q) 0) 1 [] SMinus (lit "inf") (Forall_nil _)) as (E2 & _); [repeat split; discriminate|].
  cbn [sign_str app] in E1, E2. change (lit "-" ++ lit "inf") with (lit "-inf") in E2.
  destruct (checked (read_int t)) as [y|] eqn:E.
  - split; [auto|]. intros [H|[[-> | ->] _]]; congruence.
  - destruct (seqb t (lit "-inf")) eqn:S1; [|destruct (seqb t (lit "inf")) eqn:S2]; try apply seqb_true in S1; try apply seqb_true in S2; subst.
    + split; [intros H; injection H as <-; auto|]. intros [H|[_ ->]]; [discriminate|reflexivity].
    + split; [intros H; injection H as <-; auto|]. intros [H|[_ ->]]; [discriminate|reflexivity].
    + split; [discriminate|]. intros [H|[[-> | ->] _]]; [discriminate| |].
      * rewrite seqb_refl in S2. discriminate.
      * rewrite seqb_refl in S1. discriminate.
Qed.
Print Assumptions C62_multiplier_entries.

Example ex_int : read_int (lit " -42 ") = Got (-42)%Z (lit " ") /\ read_unsigned 32 (lit "-1") = Got (2 ^ 32 - 1)%Z [] /\
  read_bool (lit "1") = Got true [] /\ read_bool (lit "true") = Bad false.
Proof. repeat split. Qed.
Example ex_words : read_words (lit "  ma27 mumps  ") = [lit "ma27"; lit "mumps"].
Proof. reflexivity. Qed.
