From Coq Require Import List ZArith QArith Qfield Lia Bool Znumtheory.
From Verif Require Import Outcome Rational_Model Rational_Spec.
Import ListNotations.
Open Scope Z_scope.

Lemma i64_Ok z r : i64 z = Ok r -> r = z.
Proof. unfold i64; destruct (in_int64 z); congruence. Qed.
Lemma mul64_Ok a b r : mul64 a b = Ok r -> r = a * b.
Proof. apply i64_Ok. Qed.
Lemma add64_Ok a b r : add64 a b = Ok r -> r = a + b.
Proof. apply i64_Ok. Qed.
Lemma sub64_Ok a b r : sub64 a b = Ok r -> r = a - b.
Proof. apply i64_Ok. Qed.
Lemma neg64_Ok a r : neg64 a = Ok r -> r = - a.
Proof. apply i64_Ok. Qed.
Lemma div64_Ok a b r : div64 a b = Ok r -> b <> 0 /\ r = Z.quot a b.
Proof.
  unfold div64. destruct (Z.eqb_spec b 0); [discriminate|].
  intros H; apply i64_Ok in H; auto.
Qed.
Lemma rem64_Ok a b r : rem64 a b = Ok r -> b <> 0 /\ r = Z.rem a b.
Proof.
  unfold rem64. destruct (Z.eqb_spec b 0); [discriminate|].
  destruct (in_int64 _); [|discriminate]. intros H; injection H as <-; auto.
Qed.

Lemma small64_in z : small64 z -> in_int64 z = true.
Proof.
  unfold small64, in_int64, int64_max, int64_min. intros H.
  apply andb_true_intro; split; apply Z.leb_le; lia.
Qed.

Lemma small64_quot a b : small64 a -> b <> 0 -> small64 (Z.quot a b).
Proof.
  unfold small64. intros Ha Hb.
  rewrite <- Z.quot_abs by assumption.
  assert (0 <= Z.abs a) by lia. assert (0 < Z.abs b) by lia.
  rewrite Z.quot_div_nonneg by lia.
  transitivity (Z.abs a); [|assumption].
  apply Z.div_le_upper_bound; [lia|]. nia.
Qed.

Lemma abs_rem_lt a b : b <> 0 -> Z.abs (Z.rem a b) < Z.abs b.
Proof. intros H. apply Z.rem_bound_abs; assumption. Qed.

Lemma gcd_rem n d : d <> 0 -> Z.gcd d (Z.rem n d) = Z.gcd n d.
Proof.
  intros Hd. rewrite (Z.gcd_comm n d).
  rewrite (Z.quot_rem n d Hd) at 2.
  rewrite (Z.mul_comm d), Z.add_comm.
  rewrite Z.gcd_add_mult_diag_r. reflexivity.
Qed.

Lemma gcd_loop_spec fuel : forall n d g, gcd_loop fuel n d = Ok g -> Z.abs g = Z.gcd n d.
Proof.
  induction fuel as [|k IH]; intros n d g H; cbn [gcd_loop] in H; [discriminate|].
  destruct (Z.eqb_spec d 0) as [->|Hd].
  - injection H as <-. now rewrite Z.gcd_0_r.
  - oinv H. apply rem64_Ok in H0 as [_ ->].
    apply IH in H1. rewrite H1. now apply gcd_rem.
Qed.

Lemma gcd_loop_fuel (k : nat) : forall n d,
  small64 n -> small64 d -> Z.abs d < 2 ^ Z.of_nat k ->
  exists g, gcd_loop (2 * k + 1) n d = Ok g /\ small64 g.
Proof.
  induction k as [|k IH]; intros n d Hn Hd Hk.
  - assert (d = 0) as -> by (simpl in Hk; lia). simpl. eauto.
  - replace (2 * S k + 1)%nat with (S (S (2 * k + 1))) by lia.
    cbn [gcd_loop]. destruct (Z.eqb_spec d 0) as [->|Hd0]; [eauto|].
    unfold rem64 at 1. rewrite (proj2 (Z.eqb_neq d 0) Hd0).
    rewrite small64_in by now apply small64_quot. cbn [obind].
    set (r := Z.rem n d).
    assert (Hr : Z.abs r < Z.abs d) by now apply abs_rem_lt.
    assert (Hrs : small64 r) by (unfold small64 in *; lia).
    destruct (Z.eqb_spec r 0) as [Hr0|Hr0]; [eauto|].
    unfold rem64. rewrite (proj2 (Z.eqb_neq r 0) Hr0).
    rewrite small64_in by now apply small64_quot. cbn [obind].
    assert (Hr2 : Z.abs (Z.rem d r) < Z.abs r) by now apply abs_rem_lt.
    apply IH; [assumption|unfold small64 in *; lia|].
    assert (H2 : 2 * Z.abs (Z.rem d r) <= Z.abs d).
    { rewrite <- Z.rem_abs in * by assumption.
      rewrite Z.rem_mod_nonneg in * by lia.
      pose proof (Z.div_mod (Z.abs d) (Z.abs r) ltac:(lia)).
      assert (1 <= Z.abs d / Z.abs r) by (apply Z.div_le_lower_bound; lia).
      nia. }
    rewrite Nat2Z.inj_succ, Z.pow_succ_r in Hk by lia. lia.
Qed.

Lemma gcd_loop_mono f1 : forall f2 n d g,
  (f1 <= f2)%nat -> gcd_loop f1 n d = Ok g -> gcd_loop f2 n d = Ok g.
Proof.
  induction f1 as [|k IH]; intros f2 n d g Hle H; [discriminate|].
  destruct f2 as [|f2]; [lia|]. cbn [gcd_loop] in *.
  destruct (d =? 0); [assumption|].
  oinv H. rewrite H0. cbn [obind]. apply IH; [lia|assumption].
Qed.

Lemma gcd64_no_fuel n d : small64 n -> small64 d -> exists g, gcd64 n d = Ok g /\ small64 g.
Proof.
  intros Hn Hd. destruct (gcd_loop_fuel 63 n d Hn Hd) as [g [Hg Hs]].
  - unfold small64, int64_max in Hd. change (Z.of_nat 63) with 63. lia.
  - exists g. split; [|assumption]. unfold gcd64, gcd_fuel.
    eapply gcd_loop_mono; [|exact Hg]. lia.
Qed.

Lemma quot_gcd_exact a g : (g | a) -> g <> 0 -> Z.quot a g * g = a.
Proof. intros [q ->] Hg. now rewrite Z.quot_mul. Qed.

Lemma make_core n d r :
  make n d = Ok r -> n <> 0 ->
  exists g, g <> 0 /\ Z.abs g = Z.gcd n d /\ num r * g = n /\ den r * g = d /\ 0 <= den r.
Proof.
  unfold make, simplify. intros H Hn.
  rewrite (proj2 (Z.eqb_neq n 0) Hn) in H.
  oinv H. apply gcd_loop_spec in H0.
  oinv H1. apply div64_Ok in H as [Ha ->].
  oinv H2. apply div64_Ok in H as [_ ->].
  assert (Hdn : (a | n)).
  { apply Z.divide_abs_l. rewrite H0. apply Z.gcd_divide_l. }
  assert (Hdd : (a | d)).
  { apply Z.divide_abs_l. rewrite H0. apply Z.gcd_divide_r. }
  pose proof (quot_gcd_exact _ _ Hdn Ha) as En.
  pose proof (quot_gcd_exact _ _ Hdd Ha) as Ed.
  destruct (Z.ltb_spec (Z.quot d a) 0).
  - oinv H1. apply neg64_Ok in H2 as ->. oinv H3. apply neg64_Ok in H1 as ->.
    injection H2 as <-. exists (- a). cbn [num den]. repeat split; try lia.
  - injection H1 as <-. exists a. cbn [num den]. repeat split; lia.
Qed.

Lemma make_lowest n d r : d <> 0 -> make n d = Ok r -> lowest_terms r.
Proof.
  intros Hd H. destruct (Z.eq_dec n 0) as [->|Hn].
  - unfold make, simplify in H. simpl in H. injection H as <-. split; reflexivity.
  - destruct (make_core _ _ _ H Hn) as (g & Hg & Habs & En & Ed & Hpos).
    split; [nia|].
    assert (E : Z.gcd (num r * g) (den r * g) = Z.gcd (num r) (den r) * Z.abs g)
      by apply Z.gcd_mul_mono_r.
    rewrite En, Ed, <- Habs in E.
    assert (0 < Z.abs g) by lia. nia.
Qed.

Lemma inject_nz z : z <> 0 -> ~ (inject_Z z == 0)%Q.
Proof. intros H E. unfold inject_Z, Qeq in E. simpl in E. lia. Qed.

Lemma frac_eq (a b c d : Z) : b <> 0 -> d <> 0 ->
  a * d = c * b -> (inject_Z a / inject_Z b == inject_Z c / inject_Z d)%Q.
Proof.
  intros Hb Hd H.
  assert (E : (inject_Z a * inject_Z d == inject_Z c * inject_Z b)%Q).
  { rewrite <- !inject_Z_mult. now rewrite H. }
  pose proof (inject_nz _ Hb). pose proof (inject_nz _ Hd).
  rewrite <- (Qmult_inj_r _ _ (inject_Z b * inject_Z d)).
  - transitivity (inject_Z a * inject_Z d)%Q; [field; assumption|].
    rewrite E. field; assumption.
  - intros E0. destruct (Qmult_integral _ _ E0); contradiction.
Qed.

Lemma frac_eq_inv (a b c d : Z) : b <> 0 -> d <> 0 ->
  (inject_Z a / inject_Z b == inject_Z c / inject_Z d)%Q -> a * d = c * b.
Proof.
  intros Hb Hd E.
  pose proof (inject_nz _ Hb). pose proof (inject_nz _ Hd).
  assert (E2 : (inject_Z (a * d) == inject_Z (c * b))%Q).
  { rewrite !inject_Z_mult.
    transitivity ((inject_Z a / inject_Z b) * (inject_Z b * inject_Z d))%Q; [field; assumption|].
    rewrite E. field; assumption. }
  unfold inject_Z, Qeq in E2. simpl in E2. lia.
Qed.

Lemma make_value n d r : d <> 0 -> make n d = Ok r -> (rval r == inject_Z n / inject_Z d)%Q.
Proof.
  intros Hd H. pose proof (make_lowest _ _ _ Hd H) as [Hp _]. unfold rval.
  apply frac_eq; [lia|assumption|].
  destruct (Z.eq_dec n 0) as [->|Hn].
  - unfold make, simplify in H. simpl in H. injection H as <-. reflexivity.
  - destruct (make_core _ _ _ H Hn) as (g & Hg & Habs & En & Ed & Hpos).
    rewrite <- En, <- Ed. ring.
Qed.

Lemma make_safe n d : small64 n -> small64 d -> exists r, make n d = Ok r.
Proof.
  intros Hn Hd. unfold make, simplify.
  destruct (Z.eqb_spec n 0) as [->|Hn0]; [eauto|].
  destruct (gcd64_no_fuel n d Hn Hd) as [g [Hg Hgs]]. rewrite Hg. cbn [obind].
  assert (Hg0 : g <> 0).
  { apply gcd_loop_spec in Hg. intros ->. simpl in Hg. symmetry in Hg.
    apply Z.gcd_eq_0_l in Hg. contradiction. }
  unfold div64. rewrite (proj2 (Z.eqb_neq g 0) Hg0).
  assert (Qn := small64_quot n g Hn Hg0). assert (Qd := small64_quot d g Hd Hg0).
  unfold i64 at 1 2. rewrite !small64_in by assumption. cbn [obind].
  destruct (_ <? 0); [|eauto].
  unfold neg64, i64.
  rewrite !small64_in by (unfold small64 in *; lia). cbn [obind]. eauto.
Qed.

Lemma make_zero_den n : n <> 0 -> small64 n -> make n 0 = Ok (mkRat 1 0).
Proof.
  intros Hn Hs. unfold make, simplify. rewrite (proj2 (Z.eqb_neq n 0) Hn).
  unfold gcd64, gcd_fuel. cbn [gcd_loop]. rewrite Z.eqb_refl. cbn [obind].
  unfold div64. rewrite (proj2 (Z.eqb_neq n 0) Hn).
  rewrite Z.quot_same by assumption. rewrite Z.quot_0_l by assumption. reflexivity.
Qed.

Ltac ops H :=
  repeat (oinv H; match goal with
    | h : mul64 _ _ = Ok _ |- _ => apply mul64_Ok in h; subst
    | h : add64 _ _ = Ok _ |- _ => apply add64_Ok in h; subst
    | h : sub64 _ _ = Ok _ |- _ => apply sub64_Ok in h; subst
    end; match goal with h : obind _ _ = Ok _ |- _ => rename h into H | h : make _ _ = Ok _ |- _ => rename h into H end).

Lemma den_nz a : lowest_terms a -> den a <> 0.
Proof. intros [H _]; lia. Qed.

Section ops.
  Variables a b r : rational.
  Hypothesis Ha : lowest_terms a.
  Hypothesis Hb : lowest_terms b.
  Let da := den_nz a Ha.
  Let db := den_nz b Hb.
  Let qa := inject_nz _ da.
  Let qb := inject_nz _ db.

  Lemma radd_ok : radd a b = Ok r -> lowest_terms r /\ (rval r == rval a + rval b)%Q.
  Proof.
    unfold radd. intros H. ops H.
    assert (den a * den b <> 0) by nia.
    split; [eapply make_lowest; eauto|].
    rewrite (make_value _ _ _ H0 H). unfold rval.
    rewrite inject_Z_plus, !inject_Z_mult. field. split; assumption.
  Qed.

  Lemma rsub_ok : rsub a b = Ok r -> lowest_terms r /\ (rval r == rval a - rval b)%Q.
  Proof.
    unfold rsub. intros H. ops H.
    assert (den a * den b <> 0) by nia.
    split; [eapply make_lowest; eauto|].
    rewrite (make_value _ _ _ H0 H). unfold rval, Z.sub.
    rewrite inject_Z_plus, inject_Z_opp, !inject_Z_mult. field. split; assumption.
  Qed.

  Lemma rmul_ok : rmul a b = Ok r -> lowest_terms r /\ (rval r == rval a * rval b)%Q.
  Proof.
    unfold rmul. intros H. ops H.
    assert (den a * den b <> 0) by nia.
    split; [eapply make_lowest; eauto|].
    rewrite (make_value _ _ _ H0 H). unfold rval.
    rewrite !inject_Z_mult. field. split; assumption.
  Qed.

  Lemma rdiv_ok : num b <> 0 -> rdiv a b = Ok r -> lowest_terms r /\ (rval r == rval a / rval b)%Q.
  Proof.
    unfold rdiv. intros Hn H. ops H.
    assert (num b * den a <> 0) by nia.
    split; [eapply make_lowest; eauto|].
    rewrite (make_value _ _ _ H0 H). unfold rval.
    rewrite !inject_Z_mult. field. repeat split; try assumption; now apply inject_nz.
  Qed.
End ops.

Lemma rmul_int_ok a t r : lowest_terms a -> rmul_int a t = Ok r ->
  lowest_terms r /\ (rval r == rval a * inject_Z t)%Q.
Proof.
  intros Ha H. unfold rmul_int in H. ops H.
  pose proof (den_nz _ Ha) as Hd.
  split; [eapply make_lowest; eauto|].
  rewrite (make_value _ _ _ Hd H). unfold rval. rewrite inject_Z_mult.
  field. now apply inject_nz.
Qed.

Lemma rdiv_int_ok a t r : lowest_terms a -> t <> 0 -> rdiv_int a t = Ok r ->
  lowest_terms r /\ (rval r == rval a / inject_Z t)%Q.
Proof.
  intros Ha Ht H. unfold rdiv_int in H. ops H.
  pose proof (den_nz _ Ha) as Hd.
  assert (den a * t <> 0) by nia.
  split; [eapply make_lowest; eauto|].
  rewrite (make_value _ _ _ H0 H). unfold rval. rewrite inject_Z_mult.
  field. split; now apply inject_nz.
Qed.

Lemma int_rdiv_ok a t r : lowest_terms a -> num a <> 0 -> int_rdiv t a = Ok r ->
  lowest_terms r /\ (rval r == inject_Z t / rval a)%Q.
Proof.
  intros Ha Hn H. unfold int_rdiv in H. ops H.
  pose proof (den_nz _ Ha) as Hd.
  split; [exact (make_lowest _ _ _ Hn H)|].
  etransitivity; [exact (make_value _ _ _ Hn H)|]. unfold rval. rewrite inject_Z_mult.
  field. split; now apply inject_nz.
Qed.

Lemma rstep_ok a o r : lowest_terms a -> op_ok o -> rstep a o = Ok r ->
  lowest_terms r /\ (rval r == spec_step (rval a) o)%Q.
Proof.
  destruct o; simpl; intros Ha Ho H.
  - now apply radd_ok.
  - now apply rsub_ok.
  - now apply rmul_ok.
  - destruct Ho. now apply rdiv_ok.
  - split; [eapply make_lowest; eauto|now apply make_value].
Qed.

Lemma spec_step_morph x y o : (x == y)%Q -> (spec_step x o == spec_step y o)%Q.
Proof. destruct o; simpl; intros E; try rewrite E; reflexivity. Qed.

Lemma spec_fold_morph os : forall x y, (x == y)%Q ->
  (fold_left spec_step os x == fold_left spec_step os y)%Q.
Proof.
  induction os as [|o os IH]; simpl; intros x y E; [assumption|].
  apply IH. now apply spec_step_morph.
Qed.

Lemma rrun_ok os : forall a r, lowest_terms a -> Forall op_ok os -> rrun a os = Ok r ->
  lowest_terms r /\ (rval r == fold_left spec_step os (rval a))%Q.
Proof.
  unfold rrun. induction os as [|o os IH]; simpl; intros a r Ha Hos H.
  - injection H as <-. split; [assumption|reflexivity].
  - inversion Hos; subst. oinv H.
    destruct (rstep_ok _ _ _ Ha H2 H0) as [Hl Hv].
    destruct (IH _ _ Hl H3 H1) as [Hl' Hv'].
    split; [assumption|]. rewrite Hv'. now apply spec_fold_morph.
Qed.

Lemma lowest_unique a b : lowest_terms a -> lowest_terms b ->
  num a * den b = num b * den a -> a = b.
Proof.
  intros [Ha Ga] [Hb Gb] E.
  assert (D1 : (den a | den b)).
  { apply Z.gauss with (num a); [|now rewrite Z.gcd_comm].
    exists (num b). rewrite E. ring. }
  assert (D2 : (den b | den a)).
  { apply Z.gauss with (num b); [|now rewrite Z.gcd_comm].
    exists (num a). rewrite <- E. ring. }
  assert (Ed : den a = den b).
  { apply Z.divide_antisym_nonneg; try lia; assumption. }
  assert (En : num a = num b) by (rewrite Ed in E; nia).
  destruct a, b; simpl in *; congruence.
Qed.

Lemma rval_eq_iff a b : lowest_terms a -> lowest_terms b -> ((rval a == rval b)%Q <-> a = b).
Proof.
  intros Ha Hb. split; [|now intros ->].
  intros E. apply lowest_unique; try assumption.
  apply frac_eq_inv; try (apply den_nz; assumption). exact E.
Qed.

Lemma req_iff a b : req a b = true <-> a = b.
Proof.
  unfold req. rewrite andb_true_iff, !Z.eqb_eq.
  split; [intros [? ?]; destruct a, b; simpl in *; congruence|now intros ->].
Qed.

Lemma rval_sign a : lowest_terms a ->
  ((0 < rval a)%Q <-> 0 < num a) /\ ((0 <= rval a)%Q <-> 0 <= num a).
Proof.
  intros [Hp _]. unfold rval. destruct (den a) as [|p|p] eqn:E; try lia.
  unfold Qdiv, Qmult, Qinv, inject_Z, Qlt, Qle. simpl. lia.
Qed.

Lemma isInteger_iff a : lowest_terms a ->
  (isInteger a = true <-> exists z, (rval a == inject_Z z)%Q).
Proof.
  intros Ha. unfold isInteger. rewrite Z.eqb_eq. split.
  - intros E. exists (num a). unfold rval. rewrite E. field.
  - intros [z Hz].
    assert (a = mkRat z 1).
    { apply lowest_unique; [assumption| |].
      - split; simpl; [lia|apply Z.gcd_1_r].
      - apply frac_eq_inv; [now apply den_nz|simpl;lia|].
        unfold rval in Hz. rewrite Hz. simpl. field. }
    now subst.
Qed.

Lemma small_prod x y : Z.abs x < 2 ^ 31 -> Z.abs y < 2 ^ 31 -> Z.abs (x * y) <= 2 ^ 62 - 2^31.
Proof. intros Hx Hy. rewrite Z.abs_mul. nia. Qed.

Lemma i64_small z : Z.abs z <= int64_max -> i64 z = Ok z.
Proof. intros H. unfold i64. now rewrite small64_in. Qed.

Lemma arith_safe a b :
  Z.abs (num a) < 2 ^ 31 -> Z.abs (den a) < 2 ^ 31 -> Z.abs (num b) < 2 ^ 31 -> Z.abs (den b) < 2 ^ 31 ->
  (exists r, radd a b = Ok r) /\ (exists r, rsub a b = Ok r) /\
  (exists r, rmul a b = Ok r) /\ (exists r, rdiv a b = Ok r).
Proof.
  intros Ha Hda Hb Hdb.
  pose proof (small_prod _ _ Hdb Ha). pose proof (small_prod _ _ Hda Hb).
  pose proof (small_prod _ _ Hda Hdb). pose proof (small_prod _ _ Ha Hb).
  pose proof (small_prod _ _ Hb Hda).
  unfold radd, rsub, rmul, rdiv, mul64, add64, sub64.
  repeat split;
  repeat (rewrite i64_small by (unfold int64_max; lia); cbn [obind]);
  apply make_safe; unfold small64, int64_max; lia.
Qed.
