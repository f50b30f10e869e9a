From Coq Require Import ZArith NArith QArith Qpower Bool Ascii String List Lia ZifyBool ZifyNat ZifyN.
From Verif Require Import Outcome Str_Model Str_Spec Str_Proofs Scene_Text Scene_Model Scene_Spec.
Import ListNotations.
Open Scope string_scope.
Open Scope list_scope.

Lemma pow10_spec k : pow10 k == Qpower (inject_Z 10) k.
Proof.
  unfold pow10. destruct (Z.leb_spec 0 k) as [H|H].
  - rewrite <- Zpower_Qpower by lia. reflexivity.
  - replace k with (- (- k))%Z at 2 by lia. rewrite Qpower_opp.
    rewrite <- Zpower_Qpower by lia.
    assert (0 < 10 ^ (- k))%Z as P by (apply Z.pow_pos_nonneg; lia).
    destruct (10 ^ (- k))%Z as [|p|p]; try lia. reflexivity.
Qed.

Lemma dec_value_spec neg D F e : dec_value neg D F e =
  decimal_value (if neg then - digits_val (D ++ F) else digits_val (D ++ F)) (e - Z.of_nat (List.length F)).
Proof. unfold dec_value, decimal_value. apply Qred_complete. rewrite pow10_spec. reflexivity. Qed.

Lemma finish_got fp neg D F e r x q : finish fp neg D F e r = Got x q -> decimal fp x /\ q = r.
Proof.
  unfold finish. rewrite dec_value_spec. destruct (rnd fp _) eqn:E; [|discriminate].
  intros H. injection H as <- <-. split; [|reflexivity]. eexists _, _. exact E.
Qed.
Lemma digits_nonneg l : all_digits l -> (0 <= digits_val l)%Z.
Proof. intros H. apply (digits_val_bound l H). Qed.
Lemma span_digits_digits s : forall d r, span_digits s = (d, r) -> all_digits d /\ s = d ++ r.
Proof.
  induction s as [|c s IH]; intros d r; cbn [span_digits].
  - intros H. injection H as <- <-. split; [constructor|reflexivity].
  - destruct (is_digit c) eqn:Ec.
    + destruct (span_digits s) as [d' r']. intros H. injection H as <- <-.
      destruct (IH _ _ eq_refl) as [H1 H2]. split; [constructor; assumption|]. cbn. rewrite <- H2. reflexivity.
    + intros H. injection H as <- <-. split; [constructor|reflexivity].
Qed.
Lemma span_fraction_digits s d r : span_fraction s = (d, r) -> all_digits d /\ (List.length r <= List.length s)%nat.
Proof.
  unfold span_fraction. destruct s as [|c t].
  - intros H. injection H as <- <-. split; [constructor|lia].
  - destruct (Ascii.eqb c "."); intros H.
    + apply span_digits_digits in H as [H1 ->]. split; [exact H1|]. cbn [List.length]. rewrite app_length. lia.
    + injection H as <- <-. split; [constructor|lia].
Qed.
Lemma finish_bad fp neg D F e r x : all_digits D -> all_digits F -> finish fp neg D F e r = Bad x -> loose fp x.
Proof.
  intros HD HF. unfold finish. rewrite dec_value_spec. destruct (rnd fp _) eqn:E; [discriminate|].
  intros H. injection H as <-. right. right.
  eexists _, _. split; [exact E|].
  assert (0 <= digits_val (D ++ F))%Z by (apply digits_nonneg, Forall_app; auto).
  destruct neg; [right|left]; split; auto; lia.
Qed.

Lemma take_sign_length s n r : take_sign s = (n, r) -> (List.length r <= List.length s)%nat.
Proof.
  unfold take_sign. destruct s as [|c t]; [intros H; injection H as <- <-; lia|].
  destruct (Ascii.eqb c "-"); [|destruct (Ascii.eqb c "+")]; intros H; injection H as <- <-; cbn [List.length]; lia.
Qed.
Lemma trimFront_length s : (List.length (trimFront s) <= List.length s)%nat.
Proof. induction s as [|c s IH]; cbn [trimFront]; [lia|]. destruct (isspace c); cbn [List.length]; lia. Qed.

(* the two outcomes of reading a scalar *)
Lemma read_scalar_got fp s x r : read_scalar fp s = Got x r -> decimal fp x.
Proof.
  unfold read_scalar. destruct (trimFront s) as [|c0 s1]; [discriminate|].
  destruct (take_sign (c0 :: s1)) as [neg s2]. destruct (span_digits s2) as [D s3].
  destruct (span_fraction s3) as [F s4]. destruct (D ++ F); [discriminate|].
  destruct s4 as [|c t].
  - intros H. apply finish_got in H. tauto.
  - destruct (is_e c).
    + destruct (take_sign t) as [en t1]. destruct (span_digits t1) as [E s5]. destruct E; [discriminate|].
      intros H. apply finish_got in H. tauto.
    + intros H. apply finish_got in H. tauto.
Qed.
Lemma loose_zero fp : loose fp 0%Q.
Proof. right. left. reflexivity. Qed.
Lemma read_scalar_bad fp s x : read_scalar fp s = Bad x -> loose fp x.
Proof.
  unfold read_scalar. destruct (trimFront s) as [|c0 s1]; [discriminate|].
  destruct (take_sign (c0 :: s1)) as [neg s2]. destruct (span_digits s2) as [D s3] eqn:ED.
  destruct (span_fraction s3) as [F s4] eqn:EF.
  apply span_digits_digits in ED as [HD _]. apply span_fraction_digits in EF as [HF _].
  destruct (D ++ F); [intros H; injection H as <-; apply loose_zero|].
  destruct s4 as [|c t].
  - apply finish_bad; assumption.
  - destruct (is_e c).
    + destruct (take_sign t) as [en t1]. destruct (span_digits t1) as [E s5]. destruct E.
      * intros H; injection H as <-; apply loose_zero.
      * apply finish_bad; assumption.
    + apply finish_bad; assumption.
Qed.
Lemma checked_scalar fp s x : checked (read_scalar fp s) = Some x -> decimal fp x.
Proof. destruct (read_scalar fp s) eqn:E; try discriminate. intros H. injection H as <-. eapply read_scalar_got, E. Qed.
Lemma unchecked_scalar fp s x : unchecked (read_scalar fp s) = Ok x -> loose fp x.
Proof.
  destruct (read_scalar fp s) eqn:E; try discriminate; intros H; injection H as <-.
  - left. eapply read_scalar_got, E.
  - eapply read_scalar_bad, E.
Qed.

(* blank texts are the only ones that leave a variable as it was *)
Lemma read_scalar_untouched fp s : read_scalar fp s = Untouched <-> trimFront s = [].
Proof.
  unfold read_scalar. destruct (trimFront s) as [|c0 s1]; [tauto|].
  destruct (take_sign (c0 :: s1)) as [neg s2]. destruct (span_digits s2) as [D s3].
  destruct (span_fraction s3) as [F s4]. split; [|discriminate].
  destruct (D ++ F); [discriminate|]. unfold finish.
  destruct s4 as [|c t].
  - destruct (rnd _ _); discriminate.
  - destruct (is_e c).
    + destruct (take_sign t) as [en t1]. destruct (span_digits t1) as [E s5]. destruct E; [discriminate|].
      destruct (rnd _ _); discriminate.
    + destruct (rnd _ _); discriminate.
Qed.
Lemma read_bool_untouched s : read_bool s = Untouched <-> trimFront s = [].
Proof.
  unfold read_bool, read_digits. destruct (trimFront s) as [|c0 s1]; [tauto|].
  destruct (take_sign (c0 :: s1)) as [neg s2]. destruct (span_digits s2) as [D s3]. split; [|discriminate].
  destruct D; [discriminate|]. destruct (_ =? 0)%Z; [discriminate|]. destruct (_ =? 1)%Z; discriminate.
Qed.

(* a scalar that was read took at least one character *)
Lemma read_scalar_shorter fp s x r : read_scalar fp s = Got x r -> (List.length r < List.length s)%nat.
Proof.
  unfold read_scalar. pose proof (trimFront_length s) as T. destruct (trimFront s) as [|c0 s1]; [discriminate|].
  destruct (take_sign (c0 :: s1)) as [neg s2] eqn:E1. apply take_sign_length in E1.
  destruct (span_digits s2) as [D s3] eqn:E2. apply span_digits_digits in E2 as [_ E2].
  destruct (span_fraction s3) as [F s4] eqn:E3.
  assert (List.length s4 < List.length s2 \/ D ++ F = [])%nat as L.
  { destruct D as [|d D]; [|left; subst s2; apply span_fraction_digits in E3 as [_ E3]; cbn [app List.length]; rewrite app_length; lia].
    cbn [app] in *. subst s3. unfold span_fraction in E3. destruct s2 as [|c t].
    - injection E3 as <- <-. right; reflexivity.
    - destruct (Ascii.eqb c ".").
      + apply span_digits_digits in E3 as [_ ->]. left. cbn [List.length]. rewrite app_length. lia.
      + injection E3 as <- <-. right; reflexivity. }
  destruct (D ++ F); [discriminate|]. destruct L as [L|]; [|discriminate].
  destruct s4 as [|c t].
  - intros H. apply finish_got in H as [_ ->]. cbn [List.length] in *. lia.
  - destruct (is_e c).
    + destruct (take_sign t) as [en t1] eqn:E4. apply take_sign_length in E4.
      destruct (span_digits t1) as [E s5] eqn:E5. apply span_digits_digits in E5 as [_ ->].
      destruct E; [discriminate|]. intros H. apply finish_got in H as [_ ->].
      rewrite app_length in E4. cbn [List.length] in *. lia.
    + intros H. apply finish_got in H as [_ ->]. cbn [List.length] in *. lia.
Qed.
Lemma read_scalars_decimal fp : forall k s, Forall (decimal fp) (read_scalars_loop fp k s).
Proof.
  induction k as [|k IH]; intros s; cbn [read_scalars_loop]; [constructor|].
  destruct (read_scalar fp s) eqn:E; try constructor; [eapply read_scalar_got, E|apply IH].
Qed.

(* integers *)
Lemma read_digits_got s n v r : read_digits s = Some (Got (n, v) r) -> (0 <= v)%Z.
Proof.
  unfold read_digits. destruct (trimFront s) as [|c0 s1]; [discriminate|].
  destruct (take_sign (c0 :: s1)) as [neg s2]. destruct (span_digits s2) as [D s3] eqn:E.
  apply span_digits_digits in E as [H _]. destruct D; [discriminate|]. intros E. injection E as <- <- <-.
  apply digits_nonneg, H.
Qed.
Lemma checked_unsigned bits s k : (0 <= bits)%Z -> checked (read_unsigned bits s) = Some k -> (0 <= k < 2 ^ bits)%Z.
Proof.
  intros Hb. unfold read_unsigned. destruct (read_digits s) as [[[n v] r|[n v]|]|] eqn:E; try discriminate.
  apply read_digits_got in E. assert (0 < 2 ^ bits)%Z by (apply Z.pow_pos_nonneg; lia).
  destruct (Z.ltb_spec v (2 ^ bits)); [|discriminate]. cbn [checked]. intros H1. injection H1 as <-.
  destruct n; [apply Z.mod_pos_bound|]; lia.
Qed.
Lemma checked_int s k : checked (read_int s) = Some k -> (int_min <= k <= int_max)%Z.
Proof.
  unfold read_int. destruct (read_digits s) as [[[n v] r|[n v]|]|]; try discriminate.
  cbv zeta. destruct (Z.ltb_spec (if n then - v else v) int_min); [discriminate|].
  destruct (Z.ltb_spec int_max (if n then - v else v)); [discriminate|].
  cbn [checked]. intros H1. injection H1 as <-. lia.
Qed.

(* ---------------------------------------------------------------- texts that stand for given values *)
Definition minus (b : bool) : str := if b then lit "-" else [].
Definition num_text (neg : bool) (m : N) (k : Z) : str :=
  minus neg ++ print_N m ++ lit "e" ++ minus (k <? 0)%Z ++ print_N (Z.abs_N k).

Lemma take_sign_text b n r : take_sign (minus b ++ print_N n ++ r) = (b, print_N n ++ r).
Proof.
  destruct b; [reflexivity|]. cbn [minus app].
  destruct (print_N_spec n) as (A & _ & N & _). destruct (print_N n) as [|c l]; [contradiction|].
  inversion A; subst. destruct (digit_not_sign c) as [N1 N2]; [assumption|].
  cbn [take_sign app]. apply Ascii.eqb_neq in N1, N2. now rewrite N1, N2.
Qed.
Lemma text_head b n r : exists c t, minus b ++ print_N n ++ r = c :: t /\ isspace c = false.
Proof.
  destruct b; [eexists _, _; split; reflexivity|].
  pose proof (isspace_print_N n) as A. destruct (print_N_spec n) as (_ & _ & N & _).
  destruct (print_N n) as [|c l]; [contradiction|]. inversion A; subst. eexists _, _; split; [reflexivity|assumption].
Qed.
Lemma trim_text b n r : trimFront (minus b ++ print_N n ++ r) = minus b ++ print_N n ++ r.
Proof. destruct (text_head b n r) as (c & t & -> & H). apply trimFront_nonspace, H. Qed.
Lemma span_text n r : nondigit_head r -> span_digits (print_N n ++ r) = (print_N n, r).
Proof. intros H. apply span_digits_all; [apply print_N_spec|exact H]. Qed.

Lemma read_num_text fp neg m k r : nondigit_head r ->
  read_scalar fp (num_text neg m k ++ r) =
  match rnd fp (decimal_value (if neg then - Z.of_N m else Z.of_N m) k) with
  | Some x => Got x r
  | None => Bad (if neg then (- fmax fp)%Q else fmax fp)
  end.
Proof.
  intros Hr. unfold num_text. rewrite <- !app_assoc. unfold read_scalar.
  rewrite trim_text. destruct (text_head neg m (lit "e" ++ minus (k <? 0)%Z ++ print_N (Z.abs_N k) ++ r)) as (c & t & E & _).
  rewrite E, <- E. clear c t E. rewrite take_sign_text.
  rewrite span_text by reflexivity.
  change (lit "e" ++ ?x) with ("e"%char :: x). cbn [span_fraction Ascii.eqb Bool.eqb].
  rewrite app_nil_r. destruct (print_N_spec m) as (_ & V & N & _).
  destruct (print_N m) as [|c l] eqn:Em; [contradiction|]. rewrite <- Em in *.
  cbn [is_e Ascii.eqb Bool.eqb orb].
  rewrite take_sign_text, span_text by exact Hr.
  destruct (print_N_spec (Z.abs_N k)) as (_ & Vk & Nk & _).
  destruct (print_N (Z.abs_N k)) as [|c' l'] eqn:Ek; [contradiction|]. rewrite <- Ek in *.
  unfold finish. rewrite dec_value_spec, app_nil_r, V, Vk. cbn [List.length].
  replace ((if (k <? 0)%Z then - Z.of_N (Z.abs_N k) else Z.of_N (Z.abs_N k)) - Z.of_nat 0)%Z with k; [reflexivity|].
  destruct (Z.ltb_spec k 0); lia.
Qed.

Definition decimal_text (m k : Z) : str := num_text (m <? 0)%Z (Z.abs_N m) k.
Lemma signed m : (if (m <? 0)%Z then - Z.of_N (Z.abs_N m) else Z.of_N (Z.abs_N m))%Z = m.
Proof. destruct (Z.ltb_spec m 0); lia. Qed.
Lemma read_decimal_text fp m k x r : nondigit_head r -> rnd fp (decimal_value m k) = Some x ->
  read_scalar fp (decimal_text m k ++ r) = Got x r.
Proof. intros Hr H. unfold decimal_text. rewrite read_num_text by exact Hr. rewrite signed, H. reflexivity. Qed.
Lemma decimal_writable fp x : decimal fp x -> exists t, word t /\
  forall r, nondigit_head r -> read_scalar fp (t ++ r) = Got x r.
Proof.
  intros (m & k & H). exists (decimal_text m k). split.
  - unfold word, decimal_text, num_text. split.
    + destruct (text_head (m <? 0)%Z (Z.abs_N m) (lit "e" ++ minus (k <? 0)%Z ++ print_N (Z.abs_N k))) as (c & t & -> & _). discriminate.
    + assert (forall b, Forall (fun c => isspace c = false) (minus b)) as M by (intros []; repeat constructor).
      rewrite !Forall_app. repeat split; try apply M; try apply isspace_print_N. repeat constructor.
  - intros r Hr. apply read_decimal_text; assumption.
Qed.
Lemma checked_writable fp x : decimal fp x -> exists t, checked (read_scalar fp t) = Some x.
Proof.
  intros H. destruct (decimal_writable fp x H) as (t & _ & E). exists t.
  specialize (E [] Logic.I). rewrite app_nil_r in E. rewrite E. reflexivity.
Qed.
Lemma unchecked_writable fp x : loose fp x -> exists t, unchecked (read_scalar fp t) = Ok x.
Proof.
  intros [H|[->|(m & k & H & S)]].
  - destruct (decimal_writable fp x H) as (t & _ & E). exists t.
    specialize (E [] Logic.I). rewrite app_nil_r in E. rewrite E. reflexivity.
  - exists (lit "x"). reflexivity.
  - destruct S as [[S ->]|[S ->]].
    + exists (num_text false (Z.to_N m) k). pose proof (read_num_text fp false (Z.to_N m) k [] Logic.I) as E.
      rewrite app_nil_r in E. rewrite E. replace (Z.of_N (Z.to_N m)) with m by lia. rewrite H. reflexivity.
    + exists (num_text true (Z.to_N (- m)) k). pose proof (read_num_text fp true (Z.to_N (- m)) k [] Logic.I) as E.
      rewrite app_nil_r in E. rewrite E. replace (- Z.of_N (Z.to_N (- m)))%Z with m by lia. rewrite H. reflexivity.
Qed.
Lemma int_writable_rest k r : nondigit_head r -> (int_min <= k <= int_max)%Z -> read_int (print_Z k ++ r) = Got k r.
Proof.
  intros Hr H. unfold read_int, read_digits.
  assert (print_Z k = minus (k <? 0)%Z ++ print_N (Z.abs_N k)) as E.
  { destruct k; reflexivity. }
  rewrite E, <- app_assoc. rewrite trim_text.
  destruct (text_head (k <? 0)%Z (Z.abs_N k) r) as (c & t & E1 & _). rewrite E1, <- E1.
  rewrite take_sign_text, span_text by exact Hr.
  destruct (print_N_spec (Z.abs_N k)) as (_ & V & N & _).
  destruct (print_N (Z.abs_N k)) as [|c' l'] eqn:Ek; [contradiction|]. rewrite <- Ek in *. rewrite V. cbv zeta.
  rewrite signed. destruct (Z.ltb_spec k int_min); [lia|]. destruct (Z.ltb_spec int_max k); [lia|]. reflexivity.
Qed.
Lemma int_writable k : (int_min <= k <= int_max)%Z -> exists t, checked (read_int t) = Some k.
Proof. intros H. exists (print_Z k ++ []). rewrite int_writable_rest by (try exact Logic.I; exact H). reflexivity. Qed.
Lemma unsigned_writable bits k : (0 <= k < 2 ^ bits)%Z -> exists t, checked (read_unsigned bits t) = Some k.
Proof.
  intros H. exists (minus false ++ print_N (Z.to_N k) ++ []). unfold read_unsigned, read_digits. rewrite trim_text.
  destruct (text_head false (Z.to_N k) []) as (c & t & E1 & _). rewrite E1, <- E1.
  rewrite take_sign_text, span_text by exact Logic.I.
  destruct (print_N_spec (Z.to_N k)) as (_ & V & N & _).
  destruct (print_N (Z.to_N k)) as [|c' l'] eqn:Ek; [contradiction|]. rewrite <- Ek in *. rewrite V.
  replace (Z.of_N (Z.to_N k)) with k by lia. destruct (Z.ltb_spec k (2 ^ bits)); [reflexivity|lia].
Qed.
Lemma bool_writable b : exists t, checked (read_bool t) = Some b /\ unchecked (read_bool t) = Ok b.
Proof. exists (if b then lit "1" else lit "0"). destruct b; vm_compute; auto. Qed.

(* two scalars, or n scalars, with spaces between *)
Lemma scalars_writable fp l : Forall (decimal fp) l -> exists t, read_scalars fp t = l.
Proof.
  intros H. cut (exists t, (l = [] -> t = []) /\ nondigit_head t /\ forall k, (List.length t <= k)%nat -> read_scalars_loop fp k t = l).
  { intros (t & _ & _ & E). exists t. apply E. unfold read_scalars. lia. }
  induction H as [|x l Hx Hl (t & T0 & T1 & E)].
  - exists []. split; [reflexivity|]. split; [exact Logic.I|]. intros [|k] _; reflexivity.
  - destruct (decimal_writable fp x Hx) as (w & [W1 W2] & R).
    exists (" "%char :: w ++ t). split; [discriminate|]. split; [reflexivity|].
    intros [|k] Hk; cbn [List.length] in Hk; [lia|]. cbn [read_scalars_loop].
    assert (read_scalar fp (" "%char :: w ++ t) = read_scalar fp (w ++ t)) as -> by reflexivity.
    rewrite R by exact T1. rewrite E; [reflexivity|]. rewrite app_length in Hk. lia.
Qed.

(* words *)
Lemma span_word_text w r : Forall (fun c => isspace c = false) w ->
  match r with [] => True | c :: _ => isspace c = true end -> span_word (w ++ r) = (w, r).
Proof.
  intros H Hr. induction H as [|c w Hc Hw IH]; cbn [app span_word].
  - destruct r as [|c r]; cbn [span_word]; [reflexivity|]. now rewrite Hr.
  - rewrite Hc, IH. reflexivity.
Qed.
Lemma words_writable ws : Forall word ws -> exists t, read_words t = ws.
Proof.
  intros H. cut (exists t, match t with [] => True | c :: _ => isspace c = true end /\
    forall k, (List.length t < k)%nat -> read_words_loop k t = ws).
  { intros (t & _ & E). exists t. apply E. lia. }
  induction H as [|w ws [W1 W2] Hl (t & T & E)].
  - exists []. split; [exact Logic.I|]. intros [|k] _; reflexivity.
  - exists (" "%char :: w ++ t). split; [reflexivity|].
    intros [|k] Hk; cbn [List.length] in Hk; [lia|]. cbn [read_words_loop].
    assert (trimFront (" "%char :: w ++ t) = w ++ t) as ->.
    { cbn [trimFront]. change (isspace " ") with true. cbv iota. destruct w as [|c w]; [contradiction|].
      inversion W2; subst. cbn [app]. apply trimFront_nonspace. assumption. }
    assert (exists c u, w ++ t = c :: u) as (c & u & Ew) by (destruct w; [contradiction|]; eexists _, _; reflexivity).
    rewrite Ew, <- Ew. rewrite span_word_text by assumption. rewrite E; [reflexivity|]. rewrite app_length in Hk. lia.
Qed.
Lemma span_word_word s w r : span_word s = (w, r) -> Forall (fun c => isspace c = false) w /\ s = w ++ r.
Proof.
  revert w r. induction s as [|c s IH]; intros w r; cbn [span_word].
  - intros H. injection H as <- <-. split; [constructor|reflexivity].
  - destruct (isspace c) eqn:Ec.
    + intros H. injection H as <- <-. split; [constructor|reflexivity].
    + destruct (span_word s) as [w' r']. intros H. injection H as <- <-. destruct (IH _ _ eq_refl) as [H1 H2].
      split; [constructor; assumption|]. cbn. rewrite <- H2. reflexivity.
Qed.
Lemma trimFront_head s c t : trimFront s = c :: t -> isspace c = false.
Proof.
  induction s as [|d s IH]; cbn [trimFront]; [discriminate|]. destruct (isspace d) eqn:E; [exact IH|].
  intros H. injection H as <- <-. exact E.
Qed.
Lemma read_words_words s : Forall word (read_words s).
Proof.
  unfold read_words. generalize (S (List.length s)). intros k. revert s. induction k as [|k IH]; intros s; cbn [read_words_loop]; [constructor|].
  destruct (trimFront s) as [|c t] eqn:E; [constructor|]. pose proof (trimFront_head _ _ _ E) as Hc.
  destruct (span_word (c :: t)) as [w r] eqn:Ew.
  constructor; [|apply IH]. split; [|apply (span_word_word _ _ _ Ew)].
  cbn [span_word] in Ew. rewrite Hc in Ew. destruct (span_word t). injection Ew as <- <-. discriminate.
Qed.

(* numbers in the usual notation *)
Lemma trim_white ws s : Forall (fun c => isspace c = true) ws -> trimFront (ws ++ s) = trimFront s.
Proof. induction 1 as [|c ws Hc _ IH]; [reflexivity|]. cbn [app trimFront]. rewrite Hc. exact IH. Qed.
Lemma take_sign_spec sg d r : match d with c :: _ => is_digit c = true \/ c = "."%char | [] => match r with c :: _ => c <> "-"%char /\ c <> "+"%char | [] => True end end ->
  take_sign (sign_str sg ++ d ++ r) = (match sg with SMinus => true | _ => false end, d ++ r).
Proof.
  intros H. destruct sg; [|reflexivity..]. cbn [sign_str app].
  destruct d as [|c d]; cbn [app].
  - destruct r as [|c r]; [reflexivity|]. destruct H as [H1 H2]. cbn [take_sign]. apply Ascii.eqb_neq in H1, H2. now rewrite H1, H2.
  - assert (c <> "-"%char /\ c <> "+"%char) as [N1 N2] by (destruct H as [H| ->]; [apply digit_not_sign, H|split; discriminate]).
    cbn [take_sign]. apply Ascii.eqb_neq in N1, N2. now rewrite N1, N2.
Qed.
Lemma read_number fp ws sg D F e rest :
  Forall (fun c => isspace c = true) ws -> all_digits D -> all_digits (fraction_digits F) -> D ++ fraction_digits F <> [] -> exp_ok e -> stops F e rest ->
  read_scalar fp (ws ++ sign_str sg ++ D ++ fraction_text F ++ exp_text e ++ rest) =
  match rnd fp (decimal_value (sign_app sg (digits_val (D ++ fraction_digits F))) (exp_value e - Z.of_nat (List.length (fraction_digits F)))) with
  | Some x => Got x rest
  | None => Bad (match sg with SMinus => (- fmax fp)%Q | _ => fmax fp end)
  end.
Proof.
  intros HW HD HF HN HE HS. set (tail := fraction_text F ++ exp_text e ++ rest).
  assert (exists c t, D ++ tail = c :: t /\ (is_digit c = true \/ c = "."%char)) as (c0 & t0 & E0 & C0).
  { destruct D as [|c D]; [|exists c; eexists; split; [reflexivity|]; left; inversion HD; assumption].
    unfold tail. destruct F as [f|]; [|contradiction]. exists "."%char. eexists. split; [reflexivity|]. right; reflexivity. }
  assert (isspace c0 = false) as S0 by (destruct C0 as [C0| ->]; [apply isspace_not_digit, C0|reflexivity]).
  assert (trimFront (ws ++ sign_str sg ++ D ++ tail) = sign_str sg ++ D ++ tail) as ET.
  { rewrite trim_white by exact HW. destruct sg; [|reflexivity..]. cbn [sign_str app]. rewrite E0. apply trimFront_nonspace, S0. }
  assert (exists c t, sign_str sg ++ D ++ tail = c :: t) as (c1 & t1 & E1).
  { destruct sg; [cbn [sign_str app]; rewrite E0|..]; eexists _, _; reflexivity. }
  unfold read_scalar. rewrite ET, E1, <- E1.
  assert (take_sign (sign_str sg ++ D ++ tail) = (match sg with SMinus => true | _ => false end, D ++ tail)) as ->.
  { destruct D as [|c D]; [|apply take_sign_spec; left; inversion HD; assumption].
    apply (take_sign_spec sg [] tail). cbn [app] in E0. rewrite E0. destruct C0 as [C0| ->]; [apply digit_not_sign, C0|split; discriminate]. }
  (* the digits *)
  assert (forall r, nondigit_head (exp_text e ++ r) \/ e = NoExp) as NE.
  { intros r. destruct e as [|c s E]; [right; reflexivity|]. left. cbn. destruct HE as [[-> | ->] _]; reflexivity. }
  assert (nondigit_head (exp_text e ++ rest)) as NH.
  { destruct (NE rest) as [X| ->]; [exact X|]. cbn [exp_text app]. destruct rest; [exact Logic.I|]. apply HS. }
  rewrite span_digits_all; [|exact HD|]. 2:{ unfold tail. destruct F; [reflexivity|exact NH]. }
  assert (span_fraction tail = (fraction_digits F, exp_text e ++ rest)) as ->.
  { unfold tail. destruct F as [f|]; cbn [fraction_text fraction_digits app] in *.
    - cbn [span_fraction]. change (Ascii.eqb "." ".") with true. cbv iota. apply span_digits_all; [exact HF|exact NH].
    - unfold span_fraction. destruct (exp_text e ++ rest) as [|c r] eqn:Er; [reflexivity|].
      assert (c <> "."%char) as Nc.
      { destruct e as [|x s E]; cbn [exp_text app] in Er; [subst rest; apply HS; reflexivity|]. injection Er as <- _.
        destruct HE as [[-> | ->] _]; discriminate. }
      apply Ascii.eqb_neq in Nc. rewrite Nc. reflexivity. }
  destruct (D ++ fraction_digits F) as [|c2 t2] eqn:E2; [contradiction|]. rewrite <- E2 in *.
  assert (forall k, finish fp (match sg with SMinus => true | _ => false end) D (fraction_digits F) k rest =
    match rnd fp (decimal_value (sign_app sg (digits_val (D ++ fraction_digits F))) (k - Z.of_nat (List.length (fraction_digits F)))) with
    | Some x => Got x rest | None => Bad (match sg with SMinus => (- fmax fp)%Q | _ => fmax fp end) end) as FIN.
  { intros k. unfold finish. rewrite dec_value_spec. destruct sg; reflexivity. }
  destruct e as [|c sgn E]; cbn [exp_text app exp_value].
  - destruct rest as [|c r]; [apply FIN|]. destruct HS as [_ HS]. destruct (HS eq_refl) as (N1 & N2 & _).
    apply Ascii.eqb_neq in N1, N2. unfold is_e. rewrite N1, N2. cbn [orb]. apply FIN.
  - destruct HE as (Hc & HEd & HEn).
    assert (is_e c = true) as -> by (destruct Hc as [-> | ->]; reflexivity).
    destruct E as [|d E]; [contradiction|]. rewrite <- app_assoc.
    rewrite take_sign_spec by (left; inversion HEd; assumption).
    rewrite span_digits_all; [|exact HEd|destruct rest; [exact Logic.I|apply HS]].
    replace (if match sgn with SMinus => true | _ => false end then (- digits_val (d :: E))%Z else digits_val (d :: E))
      with (sign_app sgn (digits_val (d :: E))) by (destruct sgn; reflexivity).
    apply FIN.
Qed.
(* a first character that cannot begin a number *)
Lemma read_bool_word t c r : t = c :: r -> isspace c = false -> is_digit c = false -> c <> "-"%char -> c <> "+"%char -> unchecked (read_bool t) = Ok false.
Proof.
  intros -> H1 H2 H3 H4. unfold read_bool, read_digits. rewrite trimFront_nonspace by exact H1. cbn [take_sign].
  apply Ascii.eqb_neq in H3, H4. rewrite H3, H4. cbn [span_digits]. rewrite H2. reflexivity.
Qed.
