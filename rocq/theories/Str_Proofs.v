From Coq Require Import ZArith NArith Bool Ascii String Lia ZifyBool ZifyNat ZifyN List.
From Verif Require Import Outcome Str_Model Str_Spec.
Import ListNotations.
Open Scope list_scope.

(* ---- find ---- *)
Lemma find_last_from_spec p l : forall pos,
  match find_last_from l p pos with
  | Some q => exists l1 c l2, l = l1 ++ c :: l2 /\ q = pos + List.length l1 /\ p c = true /\
                Forall (fun x => p x = false) l2
  | None => Forall (fun x => p x = false) l
  end.
Proof.
  induction l as [|c l IH]; intros pos; simpl; [constructor|].
  specialize (IH (S pos)). destruct (find_last_from l p (S pos)) as [q|].
  - destruct IH as (l1 & c' & l2 & -> & -> & Hp & Hf).
    exists (c :: l1), c', l2. simpl. repeat split; auto; lia.
  - destruct (p c) eqn:E.
    + exists [], c, l. simpl. repeat split; auto.
    + constructor; assumption.
Qed.

Lemma find_first_from_spec l chr : forall pos,
  match find_first_from l chr pos with
  | Some q => exists l1 l2, l = l1 ++ chr :: l2 /\ q = pos + List.length l1 /\ ~ In chr l1
  | None => ~ In chr l
  end.
Proof.
  induction l as [|c l IH]; intros pos; simpl; [auto|].
  destruct (Ascii.eqb_spec c chr) as [->|Hne].
  - exists [], l. simpl. repeat split; auto.
  - specialize (IH (S pos)). destruct (find_first_from l chr (S pos)) as [q|].
    + destruct IH as (l1 & l2 & -> & -> & Hn). exists (c :: l1), l2.
      simpl. repeat split; [lia|]. intros [->|H]; auto.
    + intros [->|H]; auto.
Qed.

Lemma skipn_app_len {A} (l1 l2 : list A) : skipn (List.length l1) (l1 ++ l2) = l2.
Proof. induction l1; simpl; auto. Qed.
Lemma firstn_app_len {A} (l1 l2 : list A) : firstn (List.length l1) (l1 ++ l2) = l1.
Proof. induction l1; simpl; f_equal; auto. Qed.

Lemma eqb_false_notin chr l : Forall (fun x => Ascii.eqb x chr = false) l <-> ~ In chr l.
Proof.
  rewrite Forall_forall. split.
  - intros H Hin. specialize (H _ Hin). now rewrite Ascii.eqb_refl in H.
  - intros H x Hx. destruct (Ascii.eqb_spec x chr); [subst; contradiction|reflexivity].
Qed.

Lemma split_last_absent s chr : ~ In chr s -> splitAtLastCharacterOccurence s chr = (s, []).
Proof.
  intros H. unfold splitAtLastCharacterOccurence, find_last_of.
  pose proof (find_last_from_spec (fun c => Ascii.eqb c chr) s 0) as Hs.
  destruct (find_last_from _ _ _); [|reflexivity].
  destruct Hs as (l1 & c & l2 & -> & _ & Hc & _). apply Ascii.eqb_eq in Hc as ->.
  exfalso. apply H. apply in_elt.
Qed.

Lemma split_last_present l1 chr l2 : ~ In chr l2 ->
  splitAtLastCharacterOccurence (l1 ++ chr :: l2) chr = (l1, l2).
Proof.
  intros H. unfold splitAtLastCharacterOccurence, find_last_of.
  pose proof (find_last_from_spec (fun c => Ascii.eqb c chr) (l1 ++ chr :: l2) 0) as Hs.
  destruct (find_last_from _ _ _) as [q|].
  - destruct Hs as (k1 & c & k2 & E & -> & Hc & Hf). apply Ascii.eqb_eq in Hc as ->.
    apply eqb_false_notin in Hf.
    assert (E2 : l1 = k1 /\ l2 = k2).
    { clear -H Hf E. revert k1 E. induction l1 as [|x l1 IH]; intros [|y k1] E; simpl in E.
      - injection E as ->. auto.
      - injection E as -> ->. exfalso. apply H. apply in_elt.
      - injection E as -> <-. exfalso. apply Hf. apply in_elt.
      - injection E as -> E2. destruct (IH _ E2); subst; auto. }
    destruct E2 as [-> ->]. unfold substr. simpl. rewrite firstn_app_len. f_equal.
    replace (k1 ++ chr :: k2) with ((k1 ++ [chr]) ++ k2) by now rewrite <- app_assoc.
    replace (List.length k1 + 1) with (List.length (k1 ++ [chr])) by (rewrite app_length; reflexivity).
    apply skipn_app_len.
  - exfalso. apply eqb_false_notin in Hs. apply Hs. apply in_elt.
Qed.

Lemma split_last_spec s chr l r : splitAtLastCharacterOccurence s chr = (l, r) ->
  (In chr s /\ s = l ++ chr :: r /\ ~ In chr r) \/ (~ In chr s /\ l = s /\ r = []).
Proof.
  intros H. destruct (in_dec ascii_dec chr s) as [Hin|Hn].
  - left. split; [assumption|].
    pose proof (find_last_from_spec (fun c => Ascii.eqb c chr) s 0) as Hs.
    destruct (find_last_from s (fun c => Ascii.eqb c chr) 0).
    + destruct Hs as (l1 & c & l2 & -> & _ & Hc & Hf). apply Ascii.eqb_eq in Hc as ->.
      apply eqb_false_notin in Hf.
      rewrite split_last_present in H by assumption. injection H as <- <-. auto.
    + apply eqb_false_notin in Hs. contradiction.
  - right. rewrite split_last_absent in H by assumption. injection H as <- <-. auto.
Qed.

(* ---- trimming ---- *)
Lemma trimFront_spec s : exists pre, s = pre ++ trimFront s /\ Forall (fun c => isspace c = true) pre /\
  match trimFront s with [] => True | c :: _ => isspace c = false end.
Proof.
  induction s as [|c s IH]; simpl.
  - exists []. repeat split; constructor.
  - destruct (isspace c) eqn:E.
    + destruct IH as (pre & H1 & H2 & H3). exists (c :: pre). simpl. rewrite <- H1. repeat split; auto.
    + exists []. repeat split; [constructor|assumption].
Qed.

Lemma trimBack_spec s : exists post, s = trimBack s ++ post /\ Forall (fun c => isspace c = true) post /\
  match rev (trimBack s) with [] => True | c :: _ => isspace c = false end.
Proof.
  unfold trimBack. destruct (trimFront_spec (rev s)) as (pre & H1 & H2 & H3).
  exists (rev pre). rewrite rev_involutive. repeat split; [|now apply Forall_rev|assumption].
  rewrite <- rev_app_distr, <- H1. now rewrite rev_involutive.
Qed.

Lemma trimFront_last s : match rev s with [] => True | c :: _ => isspace c = false end ->
  match rev (trimFront s) with [] => True | c :: _ => isspace c = false end.
Proof.
  intros H. destruct (trimFront_spec s) as (pre & H1 & H2 & H3).
  destruct (rev (trimFront s)) as [|c r] eqn:E; [auto|].
  rewrite H1, rev_app_distr, E in H. exact H.
Qed.

Lemma trim_spec s : exists pre post, s = pre ++ trim s ++ post /\
  Forall (fun c => isspace c = true) pre /\ Forall (fun c => isspace c = true) post /\
  match trim s with [] => True | c :: _ => isspace c = false end /\
  match rev (trim s) with [] => True | c :: _ => isspace c = false end.
Proof.
  unfold trim. destruct (trimBack_spec s) as (post & B1 & B2 & B3).
  destruct (trimFront_spec (trimBack s)) as (pre & F1 & F2 & F3).
  exists pre, post. repeat split; auto.
  - rewrite app_assoc, <- F1. exact B1.
  - now apply trimFront_last.
Qed.

Lemma trimCharacterRight_spec s chr : exists k,
  s = trimCharacterRight s chr ++ repeat chr k /\
  match rev (trimCharacterRight s chr) with [] => True | c :: _ => c <> chr end.
Proof.
  unfold trimCharacterRight, find_last_not_of.
  pose proof (find_last_from_spec (fun c => negb (Ascii.eqb c chr)) s 0) as Hs.
  assert (Hrep : forall l, Forall (fun x => negb (Ascii.eqb x chr) = false) l -> l = repeat chr (List.length l)).
  { induction 1 as [|x l Hx Hl IH]; simpl; [reflexivity|]. rewrite <- IH. f_equal.
    apply negb_false_iff in Hx. now apply Ascii.eqb_eq in Hx. }
  destruct (find_last_from _ _ _) as [q|].
  - destruct Hs as (l1 & c & l2 & -> & -> & Hc & Hf). simpl.
    exists (List.length l2).
    assert (E : substr (l1 ++ c :: l2) 0 (List.length l1 + 1) = l1 ++ [c]).
    { unfold substr. simpl. replace (l1 ++ c :: l2) with ((l1 ++ [c]) ++ l2) by now rewrite <- app_assoc.
      replace (List.length l1 + 1) with (List.length (l1 ++ [c])) by (rewrite app_length; reflexivity).
      apply firstn_app_len. }
    rewrite E. split.
    + rewrite <- app_assoc. simpl. now rewrite <- (Hrep _ Hf).
    + rewrite rev_app_distr. simpl. intros ->. now rewrite Ascii.eqb_refl in Hc.
  - exists (List.length s). split; [|exact I]. simpl. apply Hrep. assumption.
Qed.

(* ---- tokenize ---- *)
Lemma join_snoc c l x : l <> [] -> join c (l ++ [x]) = join c l ++ c :: x.
Proof.
  induction l as [|y l IH]; intros H; [contradiction|].
  destruct l as [|z l]; [reflexivity|].
  change ((y :: z :: l) ++ [x]) with (y :: ((z :: l) ++ [x])).
  change (join c (y :: z :: l)) with (y ++ c :: join c (z :: l)).
  assert (E : join c (y :: (z :: l) ++ [x]) = y ++ c :: join c ((z :: l) ++ [x])) by reflexivity.
  rewrite E, IH by discriminate. now rewrite <- app_assoc.
Qed.

(* what has been cut off so far: every token followed by its delimiter *)
Definition cut (c : ascii) (l : list str) : str := concat (map (fun x => x ++ [c]) l).

Lemma cut_join c l x : cut c l ++ x = join c (l ++ [x]).
Proof.
  induction l as [|y l IH]; simpl; [reflexivity|].
  unfold cut in *. simpl. rewrite <- !app_assoc. simpl.
  destruct (l ++ [x]) eqn:E; [destruct l; discriminate|].
  rewrite IH. reflexivity.
Qed.

Lemma tokenize_loop_spec fuel : forall s chr start toks,
  List.length s - start < fuel -> start <= List.length s ->
  firstn start s = cut chr toks -> Forall (fun t => ~ In chr t) toks ->
  exists start' toks', tokenize_loop fuel s chr start toks = Ok (start', toks') /\
    start' <= List.length s /\
    firstn start' s = cut chr toks' /\ Forall (fun t => ~ In chr t) toks' /\ ~ In chr (skipn start' s).
Proof.
  induction fuel as [|k IH]; intros s chr start toks Hf Hle Hcut Hall; [lia|].
  cbn [tokenize_loop]. unfold find_first_of.
  pose proof (find_first_from_spec (skipn start s) chr start) as Hs.
  destruct (find_first_from _ _ _) as [e|].
  - destruct Hs as (l1 & l2 & E & -> & Hn).
    assert (Hs : s = cut chr toks ++ l1 ++ chr :: l2).
    { rewrite <- E, <- Hcut. now rewrite firstn_skipn. }
    assert (Hlen : List.length (cut chr toks) = start).
    { rewrite <- Hcut. apply firstn_length_le. assumption. }
    assert (Hsub : substr s start (start + List.length l1 - start) = l1).
    { unfold substr. rewrite E. replace (start + List.length l1 - start) with (List.length l1) by lia.
      apply firstn_app_len. }
    assert (HL : List.length s = start + List.length l1 + 1 + List.length l2).
    { rewrite Hs, !app_length. cbn [List.length]. lia. }
    rewrite Hsub. apply IH.
    + lia.
    + lia.
    + unfold cut. rewrite map_app, concat_app. simpl. rewrite app_nil_r. fold (cut chr toks).
      rewrite Hs at 1.
      replace (cut chr toks ++ l1 ++ chr :: l2) with ((cut chr toks ++ l1 ++ [chr]) ++ l2)
        by (rewrite <- !app_assoc; reflexivity).
      replace (start + List.length l1 + 1) with (List.length (cut chr toks ++ l1 ++ [chr]))
        by (rewrite !app_length; simpl; lia).
      apply firstn_app_len.
    + apply Forall_app. split; [assumption|]. constructor; [assumption|constructor].
  - exists start, toks. repeat split; auto.
Qed.

Lemma tokenize_spec s chr : s <> [] -> exists toks,
  tokenize s chr = Ok toks /\ join chr toks = s /\ Forall (fun t => ~ In chr t) toks /\ toks <> [].
Proof.
  intros Hs. unfold tokenize.
  destruct (tokenize_loop_spec (List.length s + 1) s chr 0 []) as (st & toks & E & Hle & Hc & Ha & Hn);
    [lia|lia|reflexivity|constructor|].
  rewrite E. cbn [obind].
  destruct (rev s) as [|c r] eqn:Er.
  { exfalso. apply Hs. rewrite <- (rev_involutive s), Er. reflexivity. }
  assert (Es : s = cut chr toks ++ skipn st s) by (rewrite <- Hc; symmetry; apply firstn_skipn).
  destruct (Nat.ltb_spec st (List.length s)) as [Hlt|Hge].
  - assert (Hne : skipn st s <> []).
    { intros E0. apply (f_equal (@List.length ascii)) in E0. rewrite skipn_length in E0. simpl in E0. lia. }
    assert (Hlast : Ascii.eqb c chr = false).
    { destruct (Ascii.eqb_spec c chr) as [->|]; [|reflexivity].
      exfalso. apply Hn.
      destruct (exists_last Hne) as (l' & x & El).
      assert (x = chr).
      { rewrite Es, El, app_assoc, rev_app_distr in Er. simpl in Er. congruence. }
      subst. rewrite El. apply in_elt. }
    rewrite Hlast. exists (toks ++ [skipn st s]). repeat split.
    + rewrite <- cut_join. now rewrite <- Es.
    + apply Forall_app. split; [assumption|]. constructor; [assumption|constructor].
    + destruct toks; discriminate.
  - assert (Hz : skipn st s = []) by (apply skipn_all2; lia).
    rewrite Hz, app_nil_r in Es.
    destruct toks as [|t ts] eqn:Et.
    { exfalso. apply Hs. rewrite Es. reflexivity. }
    destruct (exists_last (l := toks)) as (ts' & t' & Et'); [subst; discriminate|].
    rewrite <- Et in *.
    assert (c = chr).
    { rewrite Et' in Es. unfold cut in Es. rewrite map_app, concat_app in Es. simpl in Es.
      rewrite app_nil_r in Es. rewrite Es in Er. rewrite app_assoc, rev_app_distr in Er. simpl in Er. congruence. }
    subst c. rewrite Ascii.eqb_refl. exists (toks ++ [[]]). repeat split.
    + rewrite <- cut_join, app_nil_r. auto.
    + apply Forall_app. split; [assumption|]. constructor; [simpl; auto|constructor].
    + destruct toks; discriminate.
Qed.

Lemma join_unique c : forall l1 l2, l1 <> [] -> l2 <> [] ->
  Forall (fun t => ~ In c t) l1 -> Forall (fun t => ~ In c t) l2 -> join c l1 = join c l2 -> l1 = l2.
Proof.
  assert (Hcut : forall (x y a b : str), ~ In c x -> ~ In c y -> x ++ c :: a = y ++ c :: b -> x = y /\ a = b).
  { induction x as [|u x IH]; intros [|v y] a b Hx Hy E; simpl in *.
    - injection E as ->. auto.
    - injection E as -> ->. exfalso; auto.
    - injection E as -> <-. exfalso; auto.
    - injection E as -> E2. destruct (IH y a b); auto. subst; auto. }
  induction l1 as [|x l1 IH]; intros l2 N1 N2 F1 F2 E; [contradiction|].
  destruct l2 as [|y l2]; [contradiction|].
  inversion F1; inversion F2; subst.
  destruct l1 as [|x' l1], l2 as [|y' l2].
  - simpl in E. now subst.
  - exfalso. apply H1. change (join c [x]) with x in E. rewrite E.
    change (join c (y :: y' :: l2)) with (y ++ c :: join c (y' :: l2)). apply in_elt.
  - exfalso. apply H5. change (join c [y]) with y in E. rewrite <- E.
    change (join c (x :: x' :: l1)) with (x ++ c :: join c (x' :: l1)). apply in_elt.
  - change (x ++ c :: join c (x' :: l1) = y ++ c :: join c (y' :: l2)) in E.
    apply Hcut in E as [-> E]; [|assumption|assumption].
    f_equal. apply IH; auto; discriminate.
Qed.

(* ---- digits ---- *)
Lemma digits_val_fold l : forall a, fold_left (fun acc c => 10 * acc + digit_val c)%Z l a =
  (a * 10 ^ Z.of_nat (List.length l) + digits_val l)%Z.
Proof.
  unfold digits_val.
  induction l as [|c l IH]; intros a; cbn [fold_left List.length]; [simpl; lia|].
  rewrite IH, (IH (10 * 0 + digit_val c)%Z), Nat2Z.inj_succ, Z.pow_succ_r by lia. lia.
Qed.

Lemma digits_val_cons c l : digits_val (c :: l) = (digit_val c * 10 ^ Z.of_nat (List.length l) + digits_val l)%Z.
Proof.
  change (digits_val (c :: l)) with (fold_left (fun acc c => 10 * acc + digit_val c)%Z l (10 * 0 + digit_val c)%Z).
  rewrite digits_val_fold. lia.
Qed.

Lemma digits_val_app l1 l2 : digits_val (l1 ++ l2) = (digits_val l1 * 10 ^ Z.of_nat (List.length l2) + digits_val l2)%Z.
Proof. unfold digits_val at 1. rewrite fold_left_app, digits_val_fold. reflexivity. Qed.

Lemma is_digit_range c : is_digit c = true -> (0 <= digit_val c <= 9)%Z.
Proof. unfold is_digit, digit_val. lia. Qed.

Lemma digits_val_bound l : all_digits l -> (0 <= digits_val l < 10 ^ Z.of_nat (List.length l))%Z.
Proof.
  induction 1 as [|c l Hc Hl IH]; [simpl; unfold digits_val; simpl; lia|].
  rewrite digits_val_cons. apply is_digit_range in Hc.
  cbn [List.length]. rewrite Nat2Z.inj_succ, Z.pow_succ_r by lia. nia.
Qed.

Lemma span_digits_all l r : all_digits l -> match r with [] => True | c :: _ => is_digit c = false end ->
  span_digits (l ++ r) = (l, r).
Proof.
  intros Hl Hr. induction Hl as [|c l Hc Hl IH]; simpl.
  - destruct r as [|c r]; simpl; [reflexivity|]. now rewrite Hr.
  - rewrite Hc, IH. reflexivity.
Qed.

Lemma digit_char_facts n : (n < 10)%N -> is_digit (digit_char n) = true /\ digit_val (digit_char n) = Z.of_N n.
Proof.
  intros H. unfold is_digit, digit_val, digit_char.
  rewrite N_ascii_embedding by lia. lia.
Qed.

Lemma digits_loop_spec fuel : forall n acc, (n < 2 ^ N.of_nat fuel)%N -> (0 < fuel)%nat ->
  exists d, digits_loop fuel n acc = d ++ acc /\ all_digits d /\ digits_val d = Z.of_N n /\ d <> [] /\
    (hd "0"%char d <> "0"%char \/ d = ["0"%char]).
Proof.
  induction fuel as [|k IH]; intros n acc Hn Hf; [lia|].
  cbn [digits_loop].
  assert (Hm : (n mod 10 < 10)%N) by (apply N.mod_lt; lia).
  destruct (digit_char_facts _ Hm) as [Hd Hv].
  destruct (N.ltb_spec n 10) as [Hlt|Hge].
  - exists [digit_char (n mod 10)]. rewrite N.mod_small in * by assumption. repeat split.
    + constructor; [assumption|constructor].
    + unfold digits_val. cbn [fold_left]. lia.
    + discriminate.
    + cbn [hd]. destruct (N.eq_dec n 0) as [->|H0]; [right; reflexivity|left].
      intros E. rewrite E in Hv. change (digit_val "0"%char) with 0%Z in Hv. lia.
  - assert (Hk : (0 < k)%nat).
    { destruct k; [|lia]. simpl in Hn. lia. }
    assert (Hdiv : (n / 10 < 2 ^ N.of_nat k)%N).
    { rewrite Nat2N.inj_succ, N.pow_succ_r' in Hn. apply N.div_lt_upper_bound; lia. }
    destruct (IH (n / 10)%N (digit_char (n mod 10) :: acc) Hdiv Hk) as (d & E & Ha & Hval & Hne & Hlead).
    exists (d ++ [digit_char (n mod 10)]). repeat split.
    + rewrite E, <- app_assoc. reflexivity.
    + apply Forall_app. split; [assumption|]. constructor; [assumption|constructor].
    + rewrite digits_val_app, Hval. cbn [List.length]. unfold digits_val. cbn [fold_left].
      rewrite Hv. change (Z.of_nat 1) with 1%Z. rewrite Z.pow_1_r.
      pose proof (N.div_mod n 10 ltac:(lia)). lia.
    + destruct d; discriminate.
    + left. destruct Hlead as [Hl|Hl].
      * destruct d; [contradiction|exact Hl].
      * exfalso. rewrite Hl in Hval. change (digits_val ["0"%char]) with 0%Z in Hval.
        assert (1 <= n / 10)%N by (apply N.div_le_lower_bound; lia). lia.
Qed.

Lemma N_size_bound n : (n < 2 ^ N.of_nat (N.size_nat n + 1))%N.
Proof.
  pose proof (N.size_gt n).
  assert (E : N.of_nat (N.size_nat n) = N.size n).
  { destruct n as [|p]; [reflexivity|]. clear H. cbn [N.size_nat N.size].
    induction p as [p IH|p IH|]; [| |reflexivity];
    (change (N.of_nat (S (Pos.size_nat p)) = N.succ (N.pos (Pos.size p))); lia). }
  rewrite Nat2N.inj_add, E, N.pow_add_r. change (2 ^ N.of_nat 1)%N with 2%N. lia.
Qed.

Lemma print_N_spec n : all_digits (print_N n) /\ digits_val (print_N n) = Z.of_N n /\ print_N n <> [] /\
  (hd "0"%char (print_N n) <> "0"%char \/ print_N n = ["0"%char]).
Proof.
  unfold print_N. destruct (digits_loop_spec (N.size_nat n + 1) n [] (N_size_bound n)) as (d & E & H); [lia|].
  rewrite E, app_nil_r. exact H.
Qed.

(* length of the printed number *)
Lemma print_N_length n : (Z.of_N n < 10 ^ Z.of_nat (List.length (print_N n)))%Z /\
  ((0 < n)%N -> (10 ^ (Z.of_nat (List.length (print_N n)) - 1) <= Z.of_N n)%Z).
Proof.
  destruct (print_N_spec n) as (Ha & Hv & Hne & Hl).
  pose proof (digits_val_bound _ Ha). split; [lia|].
  intros Hpos. destruct (print_N n) as [|c l] eqn:E; [contradiction|].
  cbn [hd] in Hl.
  assert (c <> "0"%char).
  { destruct Hl as [Hl|Hl]; [assumption|]. injection Hl as -> ->. unfold digits_val in Hv. cbn in Hv. lia. }
  inversion Ha; subst. rewrite digits_val_cons in Hv.
  pose proof (is_digit_range _ H3).
  assert (digit_val c <> 0)%Z.
  { unfold digit_val. intros Hc. apply H0.
    rewrite <- (ascii_N_embedding c). replace (N_of_ascii c) with 48%N by lia. reflexivity. }
  pose proof (digits_val_bound _ H4).
  cbn [List.length]. replace (Z.of_nat (S (List.length l)) - 1)%Z with (Z.of_nat (List.length l)) by lia.
  nia.
Qed.

Lemma isspace_not_digit c : is_digit c = true -> isspace c = false.
Proof. unfold is_digit, isspace. lia. Qed.

Lemma isspace_print_N n : Forall (fun c => isspace c = false) (print_N n).
Proof.
  destruct (print_N_spec n) as (Ha & _). eapply Forall_impl; [|exact Ha].
  intros c. apply isspace_not_digit.
Qed.

(* ---- extract_int ---- *)
Lemma digit_not_sign c : is_digit c = true -> c <> "-"%char /\ c <> "+"%char.
Proof. intros H; split; intros ->; discriminate. Qed.

Definition in64 (v : Z) : Prop := (- 2 ^ 63 <= v <= 2 ^ 63 - 1)%Z.
Lemma in64_dec v : {in64 v} + {~ in64 v}.
Proof. unfold in64. destruct (Z_le_dec (- 2 ^ 63) v), (Z_le_dec v (2 ^ 63 - 1)); [left|right|right|right]; lia. Defined.

Lemma trimFront_nonspace c s : isspace c = false -> trimFront (c :: s) = c :: s.
Proof. intros H. simpl. now rewrite H. Qed.

Lemma extract_int_spec sg d r : d <> [] -> all_digits d -> nondigit_head r ->
  extract_int (sign_str sg ++ d ++ r) =
  if in64_dec (sign_app sg (digits_val d)) then Some (sign_app sg (digits_val d)) else None.
Proof.
  intros Hne Ha Hr. destruct d as [|c d]; [contradiction|].
  assert (Hc : is_digit c = true) by now inversion Ha.
  assert (Hbool : forall v, ((- 2 ^ 63 <=? v) && (v <=? 2 ^ 63 - 1))%Z = if in64_dec v then true else false).
  { intros v. destruct (in64_dec v) as [H|H]; unfold in64 in H; [|];
    destruct (Z.leb_spec (- 2 ^ 63) v), (Z.leb_spec v (2 ^ 63 - 1)); simpl; try reflexivity; lia. }
  unfold extract_int.
  destruct sg; cbn [sign_str lit list_ascii_of_string app].
  - rewrite trimFront_nonspace by now apply isspace_not_digit.
    destruct (digit_not_sign _ Hc) as [N1 N2].
    change (c :: d ++ r) with ((c :: d) ++ r).
    assert (E : take_sign ((c :: d) ++ r) = (false, (c :: d) ++ r)).
    { cbn [take_sign app]. apply Ascii.eqb_neq in N1, N2. now rewrite N1, N2. }
    rewrite E, span_digits_all by assumption. rewrite Hbool. simpl sign_app.
    destruct (in64_dec _); reflexivity.
  - rewrite trimFront_nonspace by reflexivity. cbn [take_sign Ascii.eqb Bool.eqb].
    change (c :: d ++ r) with ((c :: d) ++ r).
    rewrite span_digits_all by assumption. rewrite Hbool. simpl sign_app.
    destruct (in64_dec _); reflexivity.
  - rewrite trimFront_nonspace by reflexivity. cbn [take_sign Ascii.eqb Bool.eqb].
    change (c :: d ++ r) with ((c :: d) ++ r).
    rewrite span_digits_all by assumption. rewrite Hbool. simpl sign_app.
    destruct (in64_dec _); reflexivity.
Qed.

(* ---------- further helpers ---------- *)
Lemma isspace_spec c : isspace c = true <-> In c white_space_chars.
Proof.
  destruct c as [b0 b1 b2 b3 b4 b5 b6 b7].
  destruct b0, b1, b2, b3, b4, b5, b6, b7; vm_compute; split; intros H; try discriminate; try reflexivity; try tauto;
    repeat (destruct H as [H|H]; try discriminate); contradiction.
Qed.

Lemma find_first_from_app l r chr : forall pos, ~ In chr l -> find_first_from (l ++ chr :: r) chr pos = Some (pos + List.length l)%nat.
Proof.
  induction l as [|c l IH]; intros pos H; simpl.
  - rewrite Ascii.eqb_refl. f_equal. lia.
  - destruct (Ascii.eqb_spec c chr) as [->|_]; [exfalso; apply H; left; reflexivity|].
    rewrite IH; [f_equal; lia|]. intros Hn. apply H. right. exact Hn.
Qed.
Lemma find_first_from_none l chr : forall pos, ~ In chr l -> find_first_from l chr pos = None.
Proof.
  induction l as [|c l IH]; intros pos H; simpl; [reflexivity|].
  destruct (Ascii.eqb_spec c chr) as [->|_]; [exfalso; apply H; left; reflexivity|].
  apply IH. intros Hn. apply H. right. exact Hn.
Qed.
Lemma num_right_spec l r chr : ~ In chr l -> computeNumCharactersToRight (l ++ chr :: r) chr = List.length r.
Proof.
  intros H. unfold computeNumCharactersToRight, find_first_of. cbn [skipn]. rewrite find_first_from_app by exact H.
  rewrite app_length. cbn [List.length]. lia.
Qed.
Lemma num_right_none s chr : ~ In chr s -> computeNumCharactersToRight s chr = 0%nat.
Proof. intros H. unfold computeNumCharactersToRight, find_first_of. cbn [skipn]. now rewrite find_first_from_none. Qed.
Lemma removeWhiteSpace_step a c b : removeWhiteSpace (a ++ c :: b) =
  removeWhiteSpace a ++ (if isspace c then [] else [c]) ++ removeWhiteSpace b.
Proof. unfold removeWhiteSpace. rewrite filter_app. simpl. destruct (isspace c); reflexivity. Qed.
Lemma pad_spec s w : exists k,
  padWithZeros s w = repeat "0"%char k ++ s /\ List.length (padWithZeros s w) = Nat.max w (List.length s).
Proof.
  exists (w - List.length s)%nat. split; [reflexivity|]. unfold padWithZeros. rewrite app_length, repeat_length. lia.
Qed.
