From Coq Require Import ZArith NArith QArith Qfield Bool Ascii String Lia ZifyBool ZifyNat ZifyN List.
From Verif Require Import Outcome Rational_Model Rational_Spec Rational_Proofs Str_Model Str_Spec Str_Proofs
  RatParse_Model RatParse_Spec.
Import ListNotations.
Open Scope Z_scope.

Lemma count_filter s c : isspace c = false -> count_char (removeWhiteSpace s) c = count_char s c.
Proof.
  intros Hc. unfold count_char, removeWhiteSpace.
  induction s as [|x s IH]; [reflexivity|]. simpl.
  destruct (isspace x) eqn:E; simpl.
  - destruct (ascii_dec x c); [subst; congruence|assumption].
  - destruct (ascii_dec x c); congruence.
Qed.

Lemma count_app s t c : count_char (s ++ t) c = (count_char s c + count_char t c)%nat.
Proof. apply count_occ_app. Qed.

Lemma count_digits d c : all_digits d -> is_digit c = false -> count_char d c = 0%nat.
Proof.
  intros Hd Hc. apply count_occ_not_In. intros Hin.
  unfold all_digits in Hd. rewrite Forall_forall in Hd. specialize (Hd _ Hin). congruence.
Qed.

Lemma count_sign sg c : c <> "+"%char -> c <> "-"%char -> count_char (sign_str sg) c = 0%nat.
Proof.
  intros H1 H2. apply count_occ_not_In. destruct sg; simpl; intuition congruence.
Qed.

Lemma digits_notin d c : all_digits d -> is_digit c = false -> ~ In c d.
Proof. intros Hd Hc. apply (count_occ_not_In ascii_dec). now apply count_digits. Qed.

Lemma sign_notin sg c : c <> "+"%char -> c <> "-"%char -> ~ In c (sign_str sg).
Proof. intros. apply (count_occ_not_In ascii_dec). now apply count_sign. Qed.

Lemma pow10_Ok k : forall d r, pow10_loop k d = Ok r -> r = d * 10 ^ Z.of_nat k.
Proof.
  induction k as [|k IH]; intros d r H; cbn [pow10_loop] in H.
  - injection H as <-. change (Z.of_nat 0) with 0. lia.
  - oinv H. apply mul64_Ok in H0 as ->. apply IH in H1 as ->.
    rewrite Nat2Z.inj_succ, Z.pow_succ_r by lia. ring.
Qed.

Lemma pow10_safe k : forall d, 0 < d -> d * 10 ^ Z.of_nat k <= int64_max ->
  pow10_loop k d = Ok (d * 10 ^ Z.of_nat k).
Proof.
  induction k as [|k IH]; intros d Hd H; cbn [pow10_loop].
  - change (Z.of_nat 0) with 0. f_equal. lia.
  - rewrite Nat2Z.inj_succ, Z.pow_succ_r in * by lia.
    assert (0 < 10 ^ Z.of_nat k) by (apply Z.pow_pos_nonneg; lia).
    unfold mul64. rewrite i64_small by (unfold int64_max in *; nia). cbn [obind].
    rewrite IH by nia. f_equal. ring.
Qed.

Lemma fix_left_sign sg : fix_left (sign_str sg) = sign_str sg ++ lit "0".
Proof. destruct sg; reflexivity. Qed.

Lemma fix_left_digits sg D : D <> [] -> all_digits D -> fix_left (sign_str sg ++ D) = sign_str sg ++ D.
Proof.
  intros Hne Ha. destruct D as [|c D]; [contradiction|].
  assert (Hc : is_digit c = true) by now inversion Ha.
  destruct (digit_not_sign _ Hc) as [N1 N2].
  unfold fix_left.
  assert (E1 : match sign_str sg ++ c :: D with [] => lit "0" | _ => sign_str sg ++ c :: D end = sign_str sg ++ c :: D)
    by (destruct sg; reflexivity).
  rewrite E1.
  destruct (list_eq_dec ascii_dec (sign_str sg ++ c :: D) (lit "+")) as [E|_].
  { exfalso. destruct sg; simpl in E; try discriminate; injection E; congruence. }
  destruct (list_eq_dec ascii_dec (sign_str sg ++ c :: D) (lit "-")) as [E|_].
  { exfalso. destruct sg; simpl in E; try discriminate; injection E; congruence. }
  reflexivity.
Qed.

Lemma extract_int_left sg D : all_digits D ->
  extract_int (fix_left (sign_str sg ++ D)) =
  if in64_dec (sign_app sg (digits_val D)) then Some (sign_app sg (digits_val D)) else None.
Proof.
  intros Ha. destruct D as [|c D].
  - rewrite app_nil_r, fix_left_sign.
    pose proof (extract_int_spec sg (lit "0") []) as H. rewrite app_nil_r in H.
    rewrite H; [reflexivity|discriminate|repeat constructor|exact I].
  - rewrite fix_left_digits by (assumption || discriminate).
    pose proof (extract_int_spec sg (c :: D) []) as H. rewrite app_nil_r in H.
    apply H; [discriminate|assumption|exact I].
Qed.

Lemma digits_val_repeat0 k : digits_val (repeat "0"%char k) = 0.
Proof.
  induction k as [|k IH]; [reflexivity|]. cbn [repeat]. rewrite digits_val_cons, IH.
  change (digit_val "0"%char) with 0. lia.
Qed.

Lemma trim_digits F : all_digits F -> exists k,
  F = trimCharacterRight F "0"%char ++ repeat "0"%char k /\ all_digits (trimCharacterRight F "0"%char).
Proof.
  intros Ha. destruct (trimCharacterRight_spec F "0"%char) as (k & E & _).
  exists k. split; [assumption|]. rewrite E in Ha. apply Forall_app in Ha. apply Ha.
Qed.

Lemma extract_int_right F' : all_digits F' ->
  (match F' with [] => Some 0 | _ => extract_int F' end) =
  if in64_dec (digits_val F') then Some (digits_val F') else None.
Proof.
  intros Ha. destruct F' as [|c F'].
  - destruct (in64_dec (digits_val [])) as [_|n]; [reflexivity|].
    exfalso. apply n. unfold in64, digits_val. simpl. lia.
  - pose proof (extract_int_spec SNone (c :: F') []) as H. rewrite app_nil_r in H. simpl app in H.
    apply H; [discriminate|assumption|exact I].
Qed.

(* the decimal branch is taken and splits as expected *)
Lemma decimal_text_split s sg D F : decimal_text s sg D F ->
  parse_rational s = parse_decimal s /\
  splitAtLastCharacterOccurence (removeWhiteSpace s) "."%char = (sign_str sg ++ D, F).
Proof.
  intros (HD & HF & Hs).
  assert (Cs : count_char s "/"%char = 0%nat).
  { rewrite <- count_filter by reflexivity. destruct Hs as [-> |[-> ->]].
    - rewrite !count_app, count_sign, count_digits by (assumption || discriminate || reflexivity).
      unfold count_char. cbn [count_occ].
      change (if ascii_dec "."%char "/"%char then S (count_occ ascii_dec F "/"%char) else count_occ ascii_dec F "/"%char)
        with (count_char F "/"%char).
      rewrite count_digits by (assumption || reflexivity). reflexivity.
    - rewrite !count_app, count_sign, count_digits by (assumption || discriminate || reflexivity). reflexivity. }
  assert (Cp : (count_char s "."%char <= 1)%nat).
  { rewrite <- count_filter by reflexivity. destruct Hs as [-> |[-> ->]].
    - rewrite !count_app, count_sign, count_digits by (assumption || discriminate || reflexivity).
      unfold count_char. cbn [count_occ].
      change (if ascii_dec "."%char "."%char then S (count_occ ascii_dec F "."%char) else count_occ ascii_dec F "."%char)
        with (S (count_char F "."%char)).
      rewrite count_digits by (assumption || reflexivity). lia.
    - rewrite !count_app, count_sign, count_digits by (assumption || discriminate || reflexivity). lia. }
  split.
  - unfold parse_rational. rewrite Cs.
    destruct (count_char s "."%char) as [|[|n]]; [reflexivity|reflexivity|lia].
  - destruct Hs as [-> |[-> ->]].
    + rewrite app_assoc. apply split_last_present. apply digits_notin; [assumption|reflexivity].
    + apply split_last_absent. rewrite in_app_iff. intros [H|H].
      * revert H. apply sign_notin; discriminate.
      * revert H. apply digits_notin; [assumption|reflexivity].
Qed.

Definition sgn_factor (z : Z) : Z := if z <? 0 then -1 else 1.

Lemma parse_decimal_eq s sg D F : decimal_text s sg D F ->
  exists F' k, F = F' ++ repeat "0"%char k /\ all_digits F' /\
  let L := sign_app sg (digits_val D) in
  parse_rational s =
    if in64_dec L then
      if in64_dec (digits_val F') then
        let! d := pow10_loop (List.length F') 1 in
        let! a := mul64 L d in
        let! b := mul64 (sgn_factor L) (digits_val F') in
        let! n := add64 a b in
        let! r := make n d in Ok (Some r)
      else Ok None
    else Ok None.
Proof.
  intros H. destruct (decimal_text_split _ _ _ _ H) as [-> Hsplit].
  destruct H as (HD & HF & _). destruct (trim_digits F HF) as (k & Ek & HF').
  exists (trimCharacterRight F "0"%char), k. split; [assumption|]. split; [assumption|].
  cbv zeta. unfold parse_decimal. rewrite Hsplit, extract_int_left by assumption.
  destruct (in64_dec (sign_app sg (digits_val D))); [|reflexivity].
  rewrite extract_int_right by assumption.
  destruct (in64_dec _); reflexivity.
Qed.

Lemma inject_pow10_nz k : ~ (inject_Z (10 ^ Z.of_nat k) == 0)%Q.
Proof. apply inject_nz. assert (0 < 10 ^ Z.of_nat k) by (apply Z.pow_pos_nonneg; lia). lia. Qed.

Lemma dec_value_trim sg D F' k :
  (dec_value sg D (F' ++ repeat "0"%char k) == dec_value sg D F')%Q.
Proof.
  unfold dec_value. rewrite app_length, repeat_length, digits_val_app, digits_val_repeat0, repeat_length.
  rewrite Nat2Z.inj_add, Z.pow_add_r, Z.add_0_r, !inject_Z_mult by lia.
  assert (E : (inject_Z (digits_val F') * inject_Z (10 ^ Z.of_nat k) /
     (inject_Z (10 ^ Z.of_nat (List.length F')) * inject_Z (10 ^ Z.of_nat k)) ==
     inject_Z (digits_val F') / inject_Z (10 ^ Z.of_nat (List.length F')))%Q).
  { field. split; apply inject_pow10_nz. }
  destruct sg; rewrite E; reflexivity.
Qed.

Lemma decimal_result s sg D F r : decimal_text s sg D F -> parse_rational s = Ok (Some r) ->
  lowest_terms r /\
  (rval r == inject_Z (sign_app sg (digits_val D)) +
     inject_Z (sgn_factor (sign_app sg (digits_val D))) *
     (inject_Z (digits_val F) / inject_Z (10 ^ Z.of_nat (List.length F))))%Q.
Proof.
  intros H Hp. destruct (parse_decimal_eq _ _ _ _ H) as (F' & k & EF & HF' & Heq).
  cbv zeta in Heq. rewrite Hp in Heq. symmetry in Heq.
  destruct (in64_dec _); [|discriminate]. destruct (in64_dec _); [|discriminate].
  oinv Heq. apply pow10_Ok in H0. oinv H1. apply mul64_Ok in H2 as ->.
  oinv H3. apply mul64_Ok in H1 as ->. oinv H2. apply add64_Ok in H1 as ->.
  oinv H3. injection H2 as ->. rewrite Z.mul_1_l in H0. subst a.
  assert (Hnz : 10 ^ Z.of_nat (List.length F') <> 0).
  { assert (0 < 10 ^ Z.of_nat (List.length F')) by (apply Z.pow_pos_nonneg; lia). lia. }
  split; [eapply make_lowest; eauto|].
  etransitivity; [exact (make_value _ _ _ Hnz H1)|].
  assert (E0 := dec_value_trim SNone [] F' k). rewrite <- EF in E0. unfold dec_value in E0.
  change (digits_val []) with 0 in E0. change (inject_Z 0) with 0%Q in E0. rewrite !Qplus_0_l in E0.
  rewrite E0, inject_Z_plus, !inject_Z_mult. field. apply inject_pow10_nz.
Qed.

Lemma decimal_exact s sg D F r : decimal_text s sg D F -> parse_rational s = Ok (Some r) ->
  (sg <> SMinus \/ 0 < digits_val D \/ digits_val F = 0) ->
  lowest_terms r /\ (rval r == dec_value sg D F)%Q.
Proof.
  intros H Hp Hc. destruct (decimal_result _ _ _ _ _ H Hp) as [Hl Hv]. split; [assumption|].
  rewrite Hv. destruct H as (HD & HF & _).
  pose proof (digits_val_bound _ HD). unfold dec_value.
  assert (Hpos : sgn_factor (digits_val D) = 1).
  { unfold sgn_factor. destruct (Z.ltb_spec (digits_val D) 0); lia. }
  destruct sg; cbn [sign_app]; try (rewrite Hpos; change (inject_Z 1) with 1%Q; ring).
  destruct Hc as [Hc|[Hc|Hc]]; [contradiction| |].
  - unfold sgn_factor. destruct (Z.ltb_spec (- digits_val D) 0); [|lia].
    change (inject_Z (-1)) with (-(1))%Q. rewrite inject_Z_opp. ring.
  - rewrite Hc, inject_Z_opp. change (inject_Z 0) with 0%Q. field. apply inject_pow10_nz.
Qed.

Lemma decimal_sign_lost s D F r : decimal_text s SMinus D F -> parse_rational s = Ok (Some r) ->
  digits_val D = 0 -> (rval r == - dec_value SMinus D F)%Q.
Proof.
  intros H Hp H0. destruct (decimal_result _ _ _ _ _ H Hp) as [Hl Hv].
  rewrite Hv. unfold dec_value. rewrite H0. cbn [sign_app]. change (sgn_factor (-0)) with 1.
  change (inject_Z (-0)) with 0%Q. change (inject_Z 0) with 0%Q. change (inject_Z 1) with 1%Q. ring.
Qed.

Lemma pow10_split a b : 10 ^ Z.of_nat (a + b) = 10 ^ Z.of_nat a * 10 ^ Z.of_nat b.
Proof. rewrite Nat2Z.inj_add, Z.pow_add_r by lia. reflexivity. Qed.

Lemma pow10_mono a b : (a <= b)%nat -> 10 ^ Z.of_nat a <= 10 ^ Z.of_nat b.
Proof. intros. apply Z.pow_le_mono_r; lia. Qed.

Lemma decimal_defined s sg D F : decimal_text s sg D F ->
  (List.length D + List.length F <= 18)%nat -> exists r, parse_rational s = Ok (Some r).
Proof.
  intros H Hlen. destruct (parse_decimal_eq _ _ _ _ H) as (F' & k & EF & HF' & Heq).
  cbv zeta in Heq. rewrite Heq. destruct H as (HD & HF & _).
  assert (HL : (List.length D + List.length F' <= 18)%nat) by (rewrite EF, app_length in Hlen; lia).
  pose proof (digits_val_bound _ HD) as BD. pose proof (digits_val_bound _ HF') as BF.
  pose proof (pow10_mono _ _ HL) as P. rewrite pow10_split in P.
  change (10 ^ Z.of_nat 18) with 1000000000000000000 in P.
  set (pd := 10 ^ Z.of_nat (List.length D)) in *. set (pf := 10 ^ Z.of_nat (List.length F')) in *.
  assert (1 <= pd) by (subst pd; change 1 with (10 ^ Z.of_nat 0); apply pow10_mono; lia).
  assert (1 <= pf) by (subst pf; change 1 with (10 ^ Z.of_nat 0); apply pow10_mono; lia).
  assert (Hv : digits_val D * pf + digits_val F' < pd * pf) by nia.
  set (L := sign_app sg (digits_val D)).
  assert (HLabs : Z.abs L = digits_val D) by (subst L; destruct sg; simpl; lia).
  assert (digits_val D < 1000000000000000000) by nia.
  assert (digits_val F' < 1000000000000000000) by nia.
  destruct (in64_dec L) as [_|n]; [|exfalso; apply n; unfold in64; lia].
  destruct (in64_dec (digits_val F')) as [_|n]; [|exfalso; apply n; unfold in64; lia].
  rewrite pow10_safe by (unfold int64_max; lia). cbn [obind]. rewrite Z.mul_1_l. fold pf.
  assert (Hfac : Z.abs (sgn_factor L) = 1) by (unfold sgn_factor; destruct (L <? 0); reflexivity).
  assert (A1 : Z.abs (L * pf) = digits_val D * pf) by (rewrite Z.abs_mul; nia).
  assert (A2 : Z.abs (sgn_factor L * digits_val F') = digits_val F') by (rewrite Z.abs_mul; nia).
  unfold mul64, add64.
  rewrite i64_small by (unfold int64_max; nia). cbn [obind].
  rewrite i64_small by (unfold int64_max; nia). cbn [obind].
  rewrite i64_small by (unfold int64_max; nia). cbn [obind].
  destruct (make_safe (L * pf + sgn_factor L * digits_val F') pf) as [r Hr];
    [unfold small64, int64_max; nia|unfold small64, int64_max; nia|].
  rewrite Hr. cbn [obind]. eauto.
Qed.

(* ---- trailing garbage ---- *)
Lemma trailing_ignored s sg D t :
  removeWhiteSpace s = sign_str sg ++ D ++ t -> D <> [] -> all_digits D -> nondigit_head t ->
  count_char s "/"%char = 0%nat -> count_char s "."%char = 0%nat ->
  parse_rational s = parse_rational (sign_str sg ++ D).
Proof.
  intros Hs Hne Ha Ht Cs Cp.
  assert (Hdt : decimal_text (sign_str sg ++ D) sg D []).
  { split; [assumption|]. split; [constructor|]. right. split; [|reflexivity].
    unfold removeWhiteSpace. rewrite filter_app.
    assert (Ed : filter (fun c => negb (isspace c)) D = D).
    { clear -Ha. induction Ha as [|c D Hc _ IH]; simpl; [reflexivity|].
      rewrite isspace_not_digit by assumption. simpl. now rewrite IH. }
    rewrite Ed. destruct sg; reflexivity. }
  destruct (decimal_text_split _ _ _ _ Hdt) as [-> Hsp].
  unfold parse_rational. rewrite Cs, Cp. cbn [Nat.ltb Nat.leb Nat.eqb negb andb].
  unfold parse_decimal. rewrite Hsp, Hs.
  rewrite split_last_absent.
  2:{ rewrite <- Hs. apply (count_occ_not_In ascii_dec).
      pose proof (count_filter s "."%char eq_refl) as E. unfold count_char in *. lia. }
  change (trimCharacterRight [] "0"%char) with (@nil ascii).
  rewrite (extract_int_left sg D) by assumption.
  assert (Efix : fix_left (sign_str sg ++ D ++ t) = sign_str sg ++ D ++ t).
  { destruct D as [|c D]; [contradiction|].
    assert (Hc : is_digit c = true) by now inversion Ha.
    destruct (digit_not_sign _ Hc) as [N1 N2].
    unfold fix_left.
    assert (E1 : match sign_str sg ++ (c :: D) ++ t with [] => lit "0" | _ => sign_str sg ++ (c :: D) ++ t end
       = sign_str sg ++ (c :: D) ++ t) by (destruct sg; reflexivity).
    rewrite E1.
    destruct (list_eq_dec ascii_dec (sign_str sg ++ (c :: D) ++ t) (lit "+")) as [E|_].
    { exfalso. destruct sg; simpl in E; try discriminate; injection E; congruence. }
    destruct (list_eq_dec ascii_dec (sign_str sg ++ (c :: D) ++ t) (lit "-")) as [E|_].
    { exfalso. destruct sg; simpl in E; try discriminate; injection E; congruence. }
    reflexivity. }
  rewrite Efix, (extract_int_spec sg D t Hne Ha Ht). reflexivity.
Qed.

(* ---- fractions ---- *)
Lemma fraction_text_split s sp P sq Q : fraction_text s sp P sq Q ->
  parse_rational s = parse_fraction s /\
  splitAtLastCharacterOccurence (removeWhiteSpace s) "/"%char = (sign_str sp ++ P, sign_str sq ++ Q).
Proof.
  intros (HP & _ & HQ & _ & Hs).
  assert (Hc : forall c, c <> "+"%char -> c <> "-"%char -> is_digit c = false -> isspace c = false ->
    count_char s c = count_char ["/"%char] c).
  { intros c H1 H2 H3 H4. rewrite <- count_filter by assumption. rewrite Hs.
    change (sign_str sp ++ P ++ "/"%char :: sign_str sq ++ Q) with (sign_str sp ++ P ++ ["/"%char] ++ sign_str sq ++ Q).
    rewrite !count_app, !count_sign, (count_digits P), (count_digits Q) by assumption. lia. }
  assert (Cs : count_char s "/"%char = 1%nat) by (rewrite Hc by (discriminate || reflexivity); reflexivity).
  assert (Cp : count_char s "."%char = 0%nat) by (rewrite Hc by (discriminate || reflexivity); reflexivity).
  split.
  - unfold parse_rational. rewrite Cs, Cp. reflexivity.
  - rewrite Hs, app_assoc. apply split_last_present. rewrite in_app_iff. intros [H|H].
    + revert H. apply sign_notin; discriminate.
    + revert H. apply digits_notin; [assumption|reflexivity].
Qed.

Lemma fraction_eq s sp P sq Q : fraction_text s sp P sq Q ->
  let p := sign_app sp (digits_val P) in let q := sign_app sq (digits_val Q) in
  parse_rational s = if in64_dec p then if in64_dec q then let! r := make p q in Ok (Some r) else Ok None else Ok None.
Proof.
  intros H. destruct (fraction_text_split _ _ _ _ _ H) as [-> Hsp].
  destruct H as (HP & NP & HQ & NQ & _). cbv zeta. unfold parse_fraction. rewrite Hsp.
  pose proof (extract_int_spec sp P [] NP HP I) as E1. rewrite app_nil_r in E1. rewrite E1.
  destruct (in64_dec _); [|reflexivity].
  pose proof (extract_int_spec sq Q [] NQ HQ I) as E2. rewrite app_nil_r in E2. rewrite E2.
  destruct (in64_dec _); reflexivity.
Qed.

Lemma fraction_exact s sp P sq Q r : fraction_text s sp P sq Q -> parse_rational s = Ok (Some r) ->
  digits_val Q <> 0 -> lowest_terms r /\
  (rval r == inject_Z (sign_app sp (digits_val P)) / inject_Z (sign_app sq (digits_val Q)))%Q.
Proof.
  intros H Hp Hq. pose proof (fraction_eq _ _ _ _ _ H) as E. cbv zeta in E. rewrite Hp in E.
  destruct (in64_dec _); [|discriminate]. destruct (in64_dec _); [|discriminate].
  symmetry in E. oinv E. injection H1 as ->.
  assert (sign_app sq (digits_val Q) <> 0) by (destruct sq; simpl; lia).
  split; [eapply make_lowest; eauto|]. now apply make_value.
Qed.

Lemma fraction_defined s sp P sq Q : fraction_text s sp P sq Q ->
  small64 (digits_val P) -> small64 (digits_val Q) -> exists r, parse_rational s = Ok (Some r).
Proof.
  intros H HP HQ. pose proof (fraction_eq _ _ _ _ _ H) as E. cbv zeta in E. rewrite E.
  assert (S1 : small64 (sign_app sp (digits_val P))) by (unfold small64 in *; destruct sp; simpl; lia).
  assert (S2 : small64 (sign_app sq (digits_val Q))) by (unfold small64 in *; destruct sq; simpl; lia).
  destruct (in64_dec _) as [_|n]; [|exfalso; apply n; unfold small64, int64_max, in64 in *; lia].
  destruct (in64_dec _) as [_|n]; [|exfalso; apply n; unfold small64, int64_max, in64 in *; lia].
  destruct (make_safe _ _ S1 S2) as [r ->]. cbn [obind]. eauto.
Qed.

Lemma out_of_range_rejected s sp P sq Q : fraction_text s sp P sq Q ->
  ~ in64 (sign_app sp (digits_val P)) \/ ~ in64 (sign_app sq (digits_val Q)) -> parse_rational s = Ok None.
Proof.
  intros H Hr. pose proof (fraction_eq _ _ _ _ _ H) as E. cbv zeta in E. rewrite E.
  destruct (in64_dec _); [|reflexivity]. destruct (in64_dec _); [|reflexivity]. tauto.
Qed.

(* ---- print then parse ---- *)
Lemma print_Z_text z : exists sg D, print_Z z = sign_str sg ++ D /\ all_digits D /\ D <> [] /\
  sign_app sg (digits_val D) = z.
Proof.
  destruct z as [|p|p].
  - exists SNone, (lit "0"). repeat split; try discriminate. repeat constructor.
  - exists SNone, (print_N (Npos p)). destruct (print_N_spec (Npos p)) as (H1 & H2 & H3 & _).
    repeat split; assumption.
  - exists SMinus, (print_N (Npos p)). destruct (print_N_spec (Npos p)) as (H1 & H2 & H3 & _).
    repeat split; try assumption. cbn [sign_app]. rewrite H2. reflexivity.
Qed.

Lemma filter_nospace l : Forall (fun c => isspace c = false) l -> filter (fun c => negb (isspace c)) l = l.
Proof. induction 1 as [|c l Hc _ IH]; simpl; [reflexivity|]. rewrite Hc. simpl. now rewrite IH. Qed.

Lemma nospace_digits sg D : all_digits D -> Forall (fun c => isspace c = false) (sign_str sg ++ D).
Proof.
  intros H. apply Forall_app. split; [destruct sg; repeat constructor|].
  eapply Forall_impl; [|exact H]. intros c. apply isspace_not_digit.
Qed.

Lemma print_parse r : lowest_terms r -> small64 (num r) -> small64 (den r) ->
  parse_rational (print_rational r) = Ok (Some r).
Proof.
  intros Hl Hn Hd.
  destruct (print_Z_text (num r)) as (sp & P & E1 & HP & NP & V1).
  destruct (print_Z_text (den r)) as (sq & Q & E2 & HQ & NQ & V2).
  assert (Hft : fraction_text (print_rational r) sp P sq Q).
  { repeat split; try assumption. unfold print_rational, removeWhiteSpace.
    rewrite E1, E2, !filter_app.
    rewrite (filter_nospace P), (filter_nospace Q);
      [|exact (nospace_digits SNone Q HQ)|exact (nospace_digits SNone P HP)].
    destruct sp, sq; reflexivity. }
  pose proof (fraction_eq _ _ _ _ _ Hft) as E. cbv zeta in E. rewrite V1, V2 in E. rewrite E.
  destruct (in64_dec _) as [_|n]; [|exfalso; apply n; unfold small64, int64_max, in64 in *; lia].
  destruct (in64_dec _) as [_|n]; [|exfalso; apply n; unfold small64, int64_max, in64 in *; lia].
  destruct (make_safe _ _ Hn Hd) as [r' Hr']. rewrite Hr'. cbn [obind].
  do 2 f_equal. apply rval_eq_iff; [|assumption|].
  - eapply make_lowest; [|exact Hr']. now apply den_nz.
  - apply make_value; [now apply den_nz|assumption].
Qed.
