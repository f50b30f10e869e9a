From Coq Require Import List ZArith NArith QArith Qround Bool Ascii String Lia ZifyBool ZifyNat ZifyN.
From Coq Require Qcanon.
From Verif Require Import Outcome Str_Model Str_Spec Str_Proofs Names_Model Names_Spec.
Import ListNotations.
Open Scope list_scope.

(* ---- digits ---- *)
Lemma num_digits_loop_spec fuel : forall n c, (n < 2 ^ N.of_nat fuel)%N -> exists d,
  num_digits_loop fuel n c = (c + d)%nat /\ (n < 10 ^ N.of_nat d)%N /\ ((0 < n)%N -> (1 <= d)%nat /\ (10 ^ N.of_nat (d - 1) <= n)%N) /\
  (n = 0%N -> d = 0%nat).
Proof.
  induction fuel as [|k IH]; intros n c Hn; cbn [num_digits_loop].
  - exists 0%nat. change (2 ^ N.of_nat 0)%N with 1%N in Hn. change (10 ^ N.of_nat 0)%N with 1%N. repeat split; lia.
  - destruct (N.eqb_spec n 0) as [->|Hz].
    + exists 0%nat. repeat split; lia.
    + assert (Hk : (n / 10 < 2 ^ N.of_nat k)%N).
      { rewrite Nat2N.inj_succ, N.pow_succ_r' in Hn. apply N.div_lt_upper_bound; lia. }
      destruct (IH (n / 10)%N (S c) Hk) as (d & E & Hd & Hl & H0).
      exists (S d). rewrite E. split; [lia|].
      pose proof (N.div_mod' n 10). pose proof (N.mod_lt n 10).
      rewrite Nat2N.inj_succ, N.pow_succ_r'. split; [lia|]. split; [|lia]. intros _. split; [lia|].
      replace (S d - 1)%nat with d by lia.
      destruct (N.eq_dec (n / 10) 0) as [Hq|Hq].
      * rewrite (H0 Hq). change (10 ^ N.of_nat 0)%N with 1%N. lia.
      * destruct Hl as [Hl1 Hl2]; [lia|].
        replace (N.of_nat d) with (N.succ (N.of_nat (d - 1))) by lia. rewrite N.pow_succ_r'. lia.
Qed.

Lemma size_nat_bound n : (n < 2 ^ N.of_nat (N.size_nat n))%N.
Proof.
  destruct n as [|p]; [reflexivity|]. cbn [N.size_nat].
  assert (H : forall p, (N.pos p < 2 ^ N.of_nat (Pos.size_nat p))%N).
  { induction p0; cbn [Pos.size_nat]; rewrite ?Nat2N.inj_succ, ?N.pow_succ_r'; try lia; reflexivity. }
  apply H.
Qed.

(* the width is the number of digits of the printed number *)
Lemma pow10_inj_range a b n : (1 <= a)%nat -> (1 <= b)%nat ->
  (n < 10 ^ N.of_nat a)%N -> (10 ^ N.of_nat (a - 1) <= n)%N ->
  (n < 10 ^ N.of_nat b)%N -> (10 ^ N.of_nat (b - 1) <= n)%N -> a = b.
Proof.
  intros Ha Hb H1 H2 H3 H4.
  assert (N.of_nat (a - 1) < N.of_nat b)%N by (apply (N.pow_lt_mono_r_iff 10); lia).
  assert (N.of_nat (b - 1) < N.of_nat a)%N by (apply (N.pow_lt_mono_r_iff 10); lia).
  lia.
Qed.

Lemma print_N_length_N n : (n < 10 ^ N.of_nat (List.length (print_N n)))%N /\ (1 <= List.length (print_N n))%nat /\
  ((0 < n)%N -> (10 ^ N.of_nat (List.length (print_N n) - 1) <= n)%N).
Proof.
  destruct (print_N_length n) as [H1 H2]. destruct (print_N_spec n) as (_ & _ & Hne & _).
  assert (L : (1 <= List.length (print_N n))%nat) by (destruct (print_N n); [contradiction|cbn; lia]).
  split; [|split; [exact L|]].
  - apply N2Z.inj_lt. rewrite N2Z.inj_pow, nat_N_Z. exact H1.
  - intros Hn. apply N2Z.inj_le. rewrite N2Z.inj_pow, nat_N_Z. rewrite Nat2Z.inj_sub by lia. exact (H2 Hn).
Qed.

Lemma computeNumDigits_print n : computeNumDigits n = List.length (print_N n).
Proof.
  unfold computeNumDigits. destruct (N.eqb_spec n 0) as [->|Hz]; [reflexivity|].
  destruct (num_digits_loop_spec (N.size_nat n) n 0 (size_nat_bound n)) as (d & E & Hd & Hl & _).
  rewrite E. cbn [Nat.add]. destruct Hl as [Hl1 Hl2]; [lia|].
  destruct (print_N_length_N n) as (P1 & P2 & P3). specialize (P3 ltac:(lia)).
  now apply (pow10_inj_range d (List.length (print_N n)) n).
Qed.

Lemma computeNumDigits_mono a b : (a <= b)%N -> (computeNumDigits a <= computeNumDigits b)%nat.
Proof.
  intros H. rewrite !computeNumDigits_print.
  destruct (print_N_length_N a) as (A1 & A2 & A3), (print_N_length_N b) as (B1 & B2 & B3).
  destruct (N.eq_dec a 0) as [->|Ha]; [change (List.length (print_N 0)) with 1%nat; lia|].
  specialize (A3 ltac:(lia)).
  assert (N.of_nat (List.length (print_N a) - 1) < N.of_nat (List.length (print_N b)))%N
    by (apply (N.pow_lt_mono_r_iff 10); lia). lia.
Qed.

(* ---- padding ---- *)
Lemma frame_digits_length w f : List.length (frame_digits w f) = Nat.max w (List.length (print_N f)).
Proof. unfold frame_digits, padWithZeros. rewrite app_length, repeat_length. lia. Qed.

Lemma frame_digits_fits w f : (computeNumDigits f <= w)%nat -> List.length (frame_digits w f) = w.
Proof. rewrite computeNumDigits_print, frame_digits_length. lia. Qed.

Lemma zeros_digits k : all_digits (repeat "0"%char k) /\ digits_val (repeat "0"%char k) = 0%Z.
Proof.
  induction k as [|k [IH1 IH2]]; [split; [constructor|reflexivity]|].
  cbn [repeat]. split; [constructor; [reflexivity|assumption]|]. rewrite digits_val_cons, IH2. reflexivity.
Qed.

Lemma frame_digits_spec w f : all_digits (frame_digits w f) /\ digits_val (frame_digits w f) = Z.of_N f.
Proof.
  unfold frame_digits, padWithZeros. destruct (print_N_spec f) as (H1 & H2 & _).
  destruct (zeros_digits (w - List.length (print_N f))) as [Z1 Z2]. split.
  - apply Forall_app. split; assumption.
  - rewrite digits_val_app, Z2, H2. lia.
Qed.

Lemma frame_digits_all w f : all_digits (frame_digits w f) /\ digits_val (frame_digits w f) = Z.of_N f
  /\ List.length (frame_digits w f) = Nat.max w (List.length (print_N f)).
Proof. destruct (frame_digits_spec w f) as [H1 H2]. split; [exact H1|]. split; [exact H2|]. apply frame_digits_length. Qed.

Lemma frame_digits_inj w w' f g : frame_digits w f = frame_digits w' g -> f = g.
Proof.
  intros E. destruct (frame_digits_spec w f) as [_ H1], (frame_digits_spec w' g) as [_ H2].
  rewrite E in H1. lia.
Qed.

(* ---- lexicographic order ---- *)
Lemma lex_app p l1 l2 : lex_lt (p ++ l1) (p ++ l2) <-> lex_lt l1 l2.
Proof.
  induction p as [|c p IH]; [reflexivity|]. cbn [app]. split.
  - intros H. inversion H; subst; [lia|]. now apply IH.
  - intros H. apply lex_tail. now apply IH.
Qed.
Lemma lex_irrefl l : ~ lex_lt l l.
Proof. induction l as [|c l IH]; intros H; inversion H; subst; [lia|auto]. Qed.

Lemma lex_app_r l1 : forall l2 s1 s2, List.length l1 = List.length l2 -> lex_lt l1 l2 -> lex_lt (l1 ++ s1) (l2 ++ s2).
Proof.
  induction l1 as [|a l1 IH]; intros [|b l2] s1 s2 E H; cbn in E; try discriminate; inversion H; subst; cbn [app].
  - now apply lex_head.
  - apply lex_tail. apply IH; [lia|assumption].
Qed.

Lemma digits_lex l1 : forall l2, all_digits l1 -> all_digits l2 -> List.length l1 = List.length l2 ->
  (digits_val l1 < digits_val l2)%Z -> lex_lt l1 l2.
Proof.
  induction l1 as [|a l1 IH]; intros [|b l2] H1 H2 E H; cbn in E; try discriminate.
  - inversion H1; inversion H2; subst. rewrite !digits_val_cons in H. injection E as E. rewrite E in H.
    pose proof (digits_val_bound l1 H5). pose proof (digits_val_bound l2 H9).
    pose proof (is_digit_range a H4). pose proof (is_digit_range b H8).
    destruct (Z.lt_trichotomy (digit_val a) (digit_val b)) as [L|[L|L]].
    + apply lex_head. unfold digit_val in L. lia.
    + assert (a = b). { unfold digit_val in L. rewrite <- (ascii_N_embedding a), <- (ascii_N_embedding b). f_equal. lia. }
      subst b. apply lex_tail. apply IH; auto. lia.
    + rewrite E in H0. nia.
Qed.

Lemma lex_asym l1 : forall l2, lex_lt l1 l2 -> ~ lex_lt l2 l1.
Proof. induction l1 as [|a l1 IH]; intros l2 H1 H2; inversion H1; subst; inversion H2; subst; try lia; eapply IH; eauto. Qed.

Lemma frame_digits_lex w f g : (computeNumDigits f <= w)%nat -> (computeNumDigits g <= w)%nat ->
  (lex_lt (frame_digits w f) (frame_digits w g) <-> (f < g)%N).
Proof.
  intros Hf Hg.
  assert (K : forall f g, (computeNumDigits f <= w)%nat -> (computeNumDigits g <= w)%nat -> (f < g)%N -> lex_lt (frame_digits w f) (frame_digits w g)).
  { intros a b Ha Hb H. destruct (frame_digits_spec w a) as [A1 A2], (frame_digits_spec w b) as [B1 B2].
    apply digits_lex; auto; [|lia]. now rewrite !frame_digits_fits. }
  split; [|auto]. intros H. destruct (N.lt_trichotomy f g) as [L|[->|L]]; [assumption| |].
  - now apply lex_irrefl in H.
  - exfalso. exact (lex_asym _ _ (K g f Hg Hf L) H).
Qed.

Lemma config_name_order dir prefix ext w f g : (computeNumDigits f <= w)%nat -> (computeNumDigits g <= w)%nat ->
  (lex_lt (config_file_name dir prefix ext w f) (config_file_name dir prefix ext w g) <-> (f < g)%N).
Proof.
  intros Hf Hg. unfold config_file_name. rewrite !lex_app.
  assert (K : forall f g, (computeNumDigits f <= w)%nat -> (computeNumDigits g <= w)%nat -> (f < g)%N ->
    lex_lt (frame_digits w f ++ lit "." ++ ext) (frame_digits w g ++ lit "." ++ ext)).
  { intros a b Ha Hb H. apply lex_app_r; [now rewrite !frame_digits_fits|]. now apply frame_digits_lex. }
  split; [|auto]. intros H. destruct (N.lt_trichotomy f g) as [L|[->|L]]; [assumption| |].
  - now apply lex_irrefl in H.
  - exfalso. exact (lex_asym _ _ (K g f Hg Hf L) H).
Qed.

(* names are distinct whatever the width *)
Lemma digits_dot_inj l1 : forall l2 r1 r2, all_digits l1 -> all_digits l2 ->
  l1 ++ "."%char :: r1 = l2 ++ "."%char :: r2 -> l1 = l2.
Proof.
  induction l1 as [|a l1 IH]; intros [|b l2] r1 r2 H1 H2 E; cbn [app] in E; inversion E; subst; auto.
  - inversion H2; subst. discriminate.
  - inversion H1; subst. discriminate.
  - f_equal. inversion H1; inversion H2; subst. eapply IH; eauto.
Qed.
Lemma config_name_inj dir prefix ext w w' f g :
  config_file_name dir prefix ext w f = config_file_name dir prefix ext w' g -> f = g.
Proof.
  unfold config_file_name. intros E. do 3 apply app_inv_head in E. cbn [lit list_ascii_of_string app] in E.
  apply digits_dot_inj in E; [|apply frame_digits_spec|apply frame_digits_spec]. eapply frame_digits_inj; eauto.
Qed.
Lemma forces_name_inj dir w w' f g : forces_file_name dir w f = forces_file_name dir w' g -> f = g.
Proof.
  unfold forces_file_name. intros E. do 2 apply app_inv_head in E. cbn [lit list_ascii_of_string app] in E.
  apply digits_dot_inj in E; [|apply frame_digits_spec|apply frame_digits_spec]. eapply frame_digits_inj; eauto.
Qed.

(* ---- the width of a run ---- *)
(* the first step that reaches the end time *)
Lemma first_step_ceiling e dt i : (0 < dt)%Q -> (0 < e)%Q ->
  (e <= inject_Z (Z.of_N i) * dt)%Q -> (forall j, (j < i)%N -> (inject_Z (Z.of_N j) * dt < e)%Q) ->
  Z.of_N i = Qceiling (e / dt).
Proof.
  intros Hdt He H1 H2.
  assert (A : (Qceiling (e / dt) <= Z.of_N i)%Z).
  { rewrite <- (Qceiling_Z (Z.of_N i)). apply Qceiling_resp_le. apply Qle_shift_div_r; assumption. }
  destruct (N.eq_dec i 0) as [->|Hi].
  - exfalso. change (inject_Z (Z.of_N 0)) with 0%Q in H1. rewrite Qmult_0_l in H1. exact (Qlt_not_le _ _ He H1).
  - specialize (H2 (N.pred i)). rewrite N2Z.inj_pred in H2 by lia. specialize (H2 ltac:(lia)).
    assert (B : (inject_Z (Z.pred (Z.of_N i)) < e / dt)%Q) by (apply Qlt_shift_div_l; assumption).
    pose proof (Qle_ceiling (e / dt)) as C.
    assert (D : (inject_Z (Z.pred (Z.of_N i)) < inject_Z (Qceiling (e / dt)))%Q) by (eapply Qlt_le_trans; eassumption).
    rewrite <- Zlt_Qlt in D. lia.
Qed.

Lemma width_suffices e dt spp w i f : (0 < dt)%Q -> (0 < e)%Q -> (0 < spp)%N ->
  save_number_width (Some e) dt spp = Ok w ->
  (e <= inject_Z (Z.of_N i) * dt)%Q -> (forall j, (j < i)%N -> (inject_Z (Z.of_N j) * dt < e)%Q) ->
  (i / spp + 1 < 2 ^ 32)%N ->
  (f <= (i + 1) / spp)%N -> (computeNumDigits f <= w)%nat.
Proof.
  intros Hdt He Hs Hw H1 H2 Hsmall Hf. pose proof (first_step_ceiling e dt i Hdt He H1 H2) as Ei.
  unfold save_number_width in Hw. rewrite <- Ei in Hw. rewrite N2Z.id in Hw.
  destruct ((0 <=? Z.of_N i) && (Z.of_N i <? 2 ^ 32))%Z; [|discriminate].
  assert (E : w = computeNumDigits ((1 + i / spp) mod 2 ^ 32)%N) by congruence. clear Hw. subst w. rewrite N.mod_small by (rewrite N.add_comm; exact Hsmall). apply computeNumDigits_mono.
  assert ((i + 1) / spp <= i / spp + 1)%N.
  { apply N.lt_succ_r. apply N.div_lt_upper_bound; [lia|]. pose proof (N.div_mod' i spp). pose proof (N.mod_lt i spp). nia. }
  lia.
Qed.

Lemma Qred_int q : Qden (Qred q) = 1%positive <-> exists z, (q == inject_Z z)%Q.
Proof.
  split.
  - intros H. exists (Qnum (Qred q)). rewrite <- (Qred_correct q) at 1. destruct (Qred q) as [n d]; cbn in *. subst d. reflexivity.
  - intros [z Hz]. apply Qred_complete in Hz. rewrite Hz. unfold inject_Z. 
    assert (E : Qred (z # 1) = (z # 1)%Q) by (apply Coq.QArith.Qcanon.Qred_identity; cbn; apply Z.gcd_1_r). rewrite E. reflexivity.
Qed.
Lemma Qred_inj z : Qred (inject_Z z) = inject_Z z.
Proof. unfold inject_Z. apply Coq.QArith.Qcanon.Qred_identity. cbn. apply Z.gcd_1_r. Qed.

Lemma freq_pos dt f : (0 < dt)%Q -> (0 < f)%N -> (0 < dt * inject_Z (Z.of_N f))%Q.
Proof. intros H1 H2. apply Qmult_lt_0_compat; [assumption|]. change 0%Q with (inject_Z 0). rewrite <- Zlt_Qlt. lia. Qed.

Lemma steps_per_save_complete dt f n : (0 < dt)%Q -> (0 < f)%N -> (n < 2 ^ 32)%N ->
  (inject_Z (Z.of_N n) * (dt * inject_Z (Z.of_N f)) == 1)%Q -> steps_per_save dt f = Ok n.
Proof.
  intros Hdt Hf Hn H. pose proof (freq_pos dt f Hdt Hf) as Hp. unfold steps_per_save.
  destruct (N.eqb_spec f 0) as [->|Hz]; [lia|].
  assert (E : (1 / (dt * inject_Z (Z.of_N f)) == inject_Z (Z.of_N n))%Q).
  { rewrite <- H. revert Hp. generalize (dt * inject_Z (Z.of_N f))%Q. intros D Hp. field. intros C. rewrite C in Hp. discriminate. }
  apply Qred_complete in E. rewrite E, Qred_inj. cbn [Qden Qnum inject_Z]. rewrite Pos.eqb_refl, N2Z.id.
  now rewrite N.mod_small by assumption.
Qed.
Lemma steps_per_save_sound dt f n : (0 < dt)%Q -> (0 < f)%N -> (1 < inject_Z (2 ^ 32) * (dt * inject_Z (Z.of_N f)))%Q ->
  steps_per_save dt f = Ok n -> (inject_Z (Z.of_N n) * (dt * inject_Z (Z.of_N f)) == 1)%Q.
Proof.
  intros Hdt Hf Hb H. pose proof (freq_pos dt f Hdt Hf) as Hp. unfold steps_per_save in H.
  destruct (N.eqb_spec f 0) as [->|Hz]; [lia|].
  destruct (Pos.eqb_spec (Qden (Qred (1 / (dt * inject_Z (Z.of_N f))))) 1) as [E|]; [|discriminate].
  apply Qred_int in E as [z Hz'].
  assert (Hz2 : (0 < z < 2 ^ 32)%Z).
  { split; rewrite Zlt_Qlt, <- Hz'.
    - apply Qlt_shift_div_l; [assumption|]. rewrite Qmult_0_l. reflexivity.
    - apply Qlt_shift_div_r; assumption. }
  apply Qred_complete in Hz' as Hr. rewrite Hr, Qred_inj in H. cbn [Qnum inject_Z] in H. injection H as <-.
  rewrite N.mod_small by lia. rewrite Z2N.id by lia. rewrite <- Hz'. revert Hp. generalize (dt * inject_Z (Z.of_N f))%Q. intros D Hp. field. intros C. rewrite C in Hp. discriminate.
Qed.
