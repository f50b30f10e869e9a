(* The laws of arithmetic the broad phase rests on, for exact numbers and for binary64. *)
From Coq Require Import List NArith ZArith QArith Qround Reals Lia Lqa Lra Bool ZifyBool ZifyNat ZifyN.
From Flocq Require Import Core IEEE754.BinarySingleNaN.
From Verif Require Import Outcome Grid_Model Grid_Spec.
Import ListNotations.
Open Scope N_scope.

Record arith_laws (ar : arith) : Prop := {
  law_cell : forall a b mn h i k,
    alt ar b a = false -> alt ar h (azero ar) = false ->
    cell_lo ar a mn h = Ok i -> cell_up ar b mn h = Ok k -> i <= k;
  law_sub : forall a b, alt ar b a = false -> alt ar (asub ar b a) (azero ar) = false;
  law_zero : alt ar (azero ar) (azero ar) = false;
  law_add : forall a b, alt ar a (azero ar) = false -> alt ar b (azero ar) = false ->
    alt ar (aadd ar a b) (azero ar) = false;
  law_div : forall x n h, (0 < n)%nat -> alt ar x (azero ar) = false ->
    adiv ar x (aofsize ar n) = Some h -> alt ar h (azero ar) = false
}.

(* ---------- exact ---------- *)
Lemma exact_alt_false a b : alt exact a b = false <-> (b <= a)%Q.
Proof. cbn [exact alt]. rewrite negb_false_iff, Qle_bool_iff. reflexivity. Qed.
Lemma exact_alt_true a b : alt exact a b = true <-> (a < b)%Q.
Proof.
  cbn [exact alt]. rewrite negb_true_iff. split; intros H.
  - apply Qnot_le_lt. intros L. apply Qle_bool_iff in L. congruence.
  - destruct (Qle_bool b a) eqn:E; auto. apply Qle_bool_iff in E. exfalso; eapply Qlt_not_le; eauto.
Qed.

Definition Qtrunc (q : Q) : Z := Z.quot (Qnum q) (Zpos (Qden q)).
Lemma Qtrunc_floor q : (0 <= q)%Q -> Qtrunc q = Qfloor q.
Proof.
  destruct q as [n d]. unfold Qtrunc, Qfloor, Qle; cbn [Qnum Qden]. intros H.
  apply Z.quot_div_nonneg; lia.
Qed.
Lemma Qtrunc_neg q : (q < 0)%Q -> (Qtrunc q <= 0)%Z.
Proof.
  destruct q as [n d]. unfold Qtrunc, Qlt; cbn [Qnum Qden]. intros H.
  assert (n < 0)%Z by lia.
  rewrite <- (Z.opp_involutive n), Z.quot_opp_l by lia.
  assert (0 <= Z.quot (- n) (Zpos d))%Z by (apply Z.quot_pos; lia). lia.
Qed.

Lemma Z_u32_Some z i : Z_u32 z = Some i <-> (0 <= z < 4294967296)%Z /\ i = Z.to_N z.
Proof.
  unfold Z_u32. destruct ((0 <=? z)%Z && (z <? 4294967296)%Z) eqn:E; split.
  - intros [= <-]. split; auto. lia.
  - intros [_ ->]; auto.
  - discriminate.
  - intros [H _]. lia.
Qed.

Lemma exact_cell c mn h i : cell exact c mn h = Ok i ->
  ~ (h == 0)%Q /\ exists z, (z == (c - mn) / h)%Q /\ (0 <= Qtrunc z < 4294967296)%Z /\ i = Z.to_N (Qtrunc z).
Proof.
  unfold cell. cbn [exact adiv asub to_u32].
  destruct (Qeq_bool h 0) eqn:E; [discriminate|]. apply Qeq_bool_neq in E.
  fold (Qtrunc (Qred (Qred (c - mn) / h))).
  destruct (Z_u32 _) as [j|] eqn:U; [|discriminate]. intros [= <-]. split; auto.
  apply Z_u32_Some in U as [U ->]. eexists; split; [|split; [exact U|reflexivity]].
  rewrite !Qred_correct. reflexivity.
Qed.

Lemma Qtrunc_mono x y : (x <= y)%Q -> (0 <= Qtrunc y)%Z -> (Qtrunc x <= Qtrunc y)%Z.
Proof.
  intros L Hy. destruct (Qlt_le_dec x 0) as [N|P].
  - apply Qtrunc_neg in N. lia.
  - rewrite !Qtrunc_floor; auto; [|Lqa.lra]. apply Qfloor_resp_le; auto.
Qed.

Lemma exact_laws : arith_laws exact.
Proof.
  constructor.
  - intros a b mn h i k Hab Hh Ei Ek. apply exact_alt_false in Hab. apply exact_alt_false in Hh.
    unfold cell_lo, cell_up in *. apply exact_cell in Ei as (Nz & z & Ez & Rz & ->).
    apply exact_cell in Ek as (_ & w & Ew & Rw & ->).
    assert (Pos : (0 < h)%Q) by (cbn [exact azero] in Hh; Lqa.lra).
    assert (z <= w)%Q.
    { rewrite Ez, Ew. unfold Qdiv. apply Qmult_le_compat_r; [|apply Qinv_le_0_compat; Lqa.lra].
      cbn [exact asub aadd a1em6 sc] in *.
      pose proof (Qred_correct (a - (1 # 1000000))). pose proof (Qred_correct (b + (1 # 1000000))). Lqa.lra. }
    pose proof (Qtrunc_mono _ _ H). lia.
  - intros a b H. apply exact_alt_false in H. apply exact_alt_false.
    cbn [exact asub azero sc] in *. pose proof (Qred_correct (b - a)). Lqa.lra.
  - reflexivity.
  - intros a b Ha Hb. apply exact_alt_false in Ha, Hb. apply exact_alt_false.
    cbn [exact aadd azero sc] in *. pose proof (Qred_correct (a + b)). Lqa.lra.
  - intros x n h Hn Hx E. apply exact_alt_false in Hx. apply exact_alt_false. cbn [exact adiv azero aofsize] in *.
    destruct (Qeq_bool _ _); [discriminate|]. injection E as <-. cbn [sc] in *.
    rewrite (Qred_correct (x / inject_Z (Z.of_nat n))).
    apply Qle_shift_div_l; [|Lqa.lra]. unfold Qlt, inject_Z; cbn [Qnum Qden]. lia.
Qed.

(* ---------- binary64 ---------- *)
Section B64.
  Notation pr := prec53.
  Notation em := emax1024.
  Notation bf := (binary_float 53 1024).
  Notation rnd := (round radix2 (SpecFloat.fexp 53 1024) ZnearestE).
  Local Instance pr_i : Prec_gt_0 53 := prec53.
  Local Instance em_i : Prec_lt_emax 53 1024 := emax1024.

  Local Instance fe_i : Valid_exp (SpecFloat.fexp 53 1024) := fexp_correct 53 1024 prec53.

  Lemma rnd_le x y : (x <= y)%R -> (rnd x <= rnd y)%R.
  Proof. apply round_le; auto with typeclass_instances. Qed.
  Lemma rnd_0 : rnd 0%R = 0%R.
  Proof. apply round_0; auto with typeclass_instances. Qed.

  Lemma overflow_not_finite (x : bf) s : B2SF x = binary_overflow 53 1024 mode_NE s -> x = B754_infinity s.
  Proof.
    unfold binary_overflow. cbn [overflow_to_inf]. destruct x; cbn [B2SF]; intros H; try discriminate. congruence.
  Qed.

  Lemma minus_finite (x y : bf) : is_finite (Bminus (prec_gt_0_:=pr) (prec_lt_emax_:=em) mode_NE x y) = true ->
    is_finite x = true /\ is_finite y = true /\
    B2R (Bminus (prec_gt_0_:=pr) (prec_lt_emax_:=em) mode_NE x y) = rnd (B2R x - B2R y)%R.
  Proof.
    intros F.
    assert (Fx : is_finite x = true) by (destruct x as [| [] | |], y as [|[]| |]; try discriminate; reflexivity).
    assert (Fy : is_finite y = true) by (destruct x as [| [] | |], y as [|[]| |]; try discriminate; reflexivity).
    repeat split; auto.
    pose proof (Bminus_correct 53 1024 pr em mode_NE x y Fx Fy) as H.
    destruct (Rlt_bool _ _) in H; [apply H|].
    destruct H as [H _]. apply overflow_not_finite in H. rewrite H in F. discriminate.
  Qed.
  Lemma plus_finite (x y : bf) : is_finite (Bplus (prec_gt_0_:=pr) (prec_lt_emax_:=em) mode_NE x y) = true ->
    is_finite x = true /\ is_finite y = true /\
    B2R (Bplus (prec_gt_0_:=pr) (prec_lt_emax_:=em) mode_NE x y) = rnd (B2R x + B2R y)%R.
  Proof.
    intros F.
    assert (Fx : is_finite x = true) by (destruct x as [| [] | |], y as [|[]| |]; try discriminate; reflexivity).
    assert (Fy : is_finite y = true) by (destruct x as [| [] | |], y as [|[]| |]; try discriminate; reflexivity).
    repeat split; auto.
    pose proof (Bplus_correct 53 1024 pr em mode_NE x y Fx Fy) as H.
    destruct (Rlt_bool _ _) in H; [apply H|].
    destruct H as [H _]. apply overflow_not_finite in H. rewrite H in F. discriminate.
  Qed.

  (* quotient by a finite positive number *)
  Lemma div_finite (x y : bf) : is_finite y = true -> (0 < B2R y)%R ->
    is_finite (Bdiv (prec_gt_0_:=pr) (prec_lt_emax_:=em) mode_NE x y) = true ->
    is_finite x = true /\
    B2R (Bdiv (prec_gt_0_:=pr) (prec_lt_emax_:=em) mode_NE x y) = rnd (B2R x / B2R y)%R.
  Proof.
    intros Fy Py F.
    pose proof (Bdiv_correct 53 1024 pr em mode_NE x y (Rgt_not_eq _ _ Py)) as H.
    destruct (Rlt_bool _ _) in H.
    - destruct H as (H1 & H2 & _). split; auto. congruence.
    - apply overflow_not_finite in H. rewrite H in F. discriminate.
  Qed.

  (* what "not below zero" means for a double *)
  Lemma not_neg (x : bf) : Bltb x (B754_zero false) = false <->
    (x = B754_nan \/ (exists s, x = B754_zero s) \/ Bsign x = false).
  Proof.
    unfold Bltb, SpecFloat.SFltb. destruct x as [s|[]| |[] m e Hm]; cbn; split; intros H; eauto; try discriminate H;
      try (right; right; reflexivity); try reflexivity;
      destruct H as [H|[[? H]|H]]; discriminate H.
  Qed.
  Lemma sign_val (x : bf) : is_finite x = true ->
    (Bsign x = true -> (B2R x <= 0)%R) /\ (Bsign x = false -> (0 <= B2R x)%R).
  Proof.
    destruct x as [s|s| |s m e H]; cbn; intros; try discriminate; [split; lra|].
    split; intros ->.
    - apply Rlt_le. apply (F2R_lt_0 radix2). reflexivity.
    - apply Rlt_le. apply (F2R_gt_0 radix2). reflexivity.
  Qed.
  Lemma not_neg_val (x : bf) : is_finite x = true -> Bltb x (B754_zero false) = false -> (0 <= B2R x)%R.
  Proof.
    intros F H. apply not_neg in H as [->|[[s ->]|H]]; try discriminate; cbn; [lra|]. now apply sign_val.
  Qed.
  Lemma val_not_neg (x : bf) : is_finite x = true -> (0 <= B2R x)%R -> Bltb x (B754_zero false) = false.
  Proof.
    intros F H. rewrite (Bltb_correct 53 1024 x (B754_zero false) F eq_refl). apply Rlt_bool_false. exact H.
  Qed.
  Lemma not_lt_val (a b : bf) : is_finite a = true -> is_finite b = true -> Bltb b a = false -> (B2R a <= B2R b)%R.
  Proof.
    intros Fa Fb H. rewrite (Bltb_correct 53 1024 b a Fb Fa) in H.
    destruct (Rlt_bool_spec (B2R b) (B2R a)); [discriminate|auto].
  Qed.

  Lemma Btrunc_mono (x y : bf) : (B2R x <= B2R y)%R -> (Btrunc x <= Btrunc y)%Z.
  Proof.
    intros H. apply le_IZR. rewrite (Btrunc_correct 53 1024 em x), (Btrunc_correct 53 1024 em y).
    apply round_le; auto with typeclass_instances.
  Qed.

  Lemma size_val n : (0 < n)%nat ->
    b64_of (Z.of_nat n) 0 = B754_infinity false \/
    (is_finite (b64_of (Z.of_nat n) 0) = true /\ (0 < B2R (b64_of (Z.of_nat n) 0))%R).
  Proof.
    intros Hn. unfold b64_of.
    pose proof (binary_normalize_correct 53 1024 pr em mode_NE (Z.of_nat n) 0 false) as H. cbv zeta in H.
    destruct (Rlt_bool _ _) in H.
    - right. destruct H as (H1 & H2 & _). split; auto. rewrite H1.
      apply Rlt_le_trans with 1%R; [lra|].
      replace 1%R with (rnd 1%R).
      + apply rnd_le. unfold F2R; cbn [Fnum Fexp bpow]. rewrite Rmult_1_r. apply IZR_le. lia.
      + apply round_generic; auto with typeclass_instances.
        rewrite <- (Bone_correct 53 1024 pr em). apply generic_format_B2R.
    - left. apply overflow_not_finite in H. rewrite H. f_equal. apply Rlt_bool_false.
      unfold F2R; cbn [Fnum Fexp bpow]. rewrite Rmult_1_r. apply IZR_le. lia.
  Qed.

  Lemma binary64_laws : arith_laws binary64.
  Proof.
    constructor.
    - intros a b mn h i k Hab Hh Ei Ek. cbn [binary64 alt azero] in *.
      unfold cell_lo, cell_up, cell in *. cbn [binary64 adiv asub aadd a1em6 to_u32] in *.
      set (e := b64_of _ _) in *.
      set (x1 := Bminus mode_NE a e) in *. set (x2 := Bplus mode_NE b e) in *.
      set (y1 := Bminus mode_NE x1 mn) in *. set (y2 := Bminus mode_NE x2 mn) in *.
      set (z1 := Bdiv mode_NE y1 h) in *. set (z2 := Bdiv mode_NE y2 h) in *.
      destruct (is_finite z1) eqn:F1; [|discriminate]. destruct (is_finite z2) eqn:F2; [|discriminate].
      destruct (Z_u32 (Btrunc z1)) as [i'|] eqn:U1; [|discriminate]. injection Ei as ->.
      destruct (Z_u32 (Btrunc z2)) as [k'|] eqn:U2; [|discriminate]. injection Ek as ->.
      apply Z_u32_Some in U1 as [R1 ->]. apply Z_u32_Some in U2 as [R2 ->].
      assert (Fe : is_finite e = true) by (vm_compute; reflexivity).
      assert (Pe : (0 <= B2R e)%R) by (apply sign_val; auto; vm_compute; reflexivity).
      clearbody e.
      destruct h as [s|s| |s m ex Hb].
      + exfalso. clear -F1. subst z1. destruct y1; discriminate.
      + assert (Z0 : Btrunc z1 = 0%Z).
        { clear -F1. subst z1. destruct y1; try discriminate; reflexivity. }
        rewrite Z0. cbn. lia.
      + exfalso. clear -F1. subst z1. destruct y1; discriminate.
      + set (h := B754_finite s m ex Hb) in *.
        assert (Ph : (0 < B2R h)%R).
        { assert (0 <= B2R h)%R by (apply not_neg_val; auto).
          destruct s; [|apply (F2R_gt_0 radix2); reflexivity].
          exfalso. assert (B2R h < 0)%R by (apply (F2R_lt_0 radix2); reflexivity). lra. }
        apply div_finite in F1 as [G1 V1]; auto. apply div_finite in F2 as [G2 V2]; auto.
        apply minus_finite in G1 as (A1 & A2 & A3). apply minus_finite in G2 as (B1 & _ & B3).
        apply minus_finite in A1 as (C1 & _ & C3). apply plus_finite in B1 as (D1 & _ & D3).
        pose proof (not_lt_val a b C1 D1 Hab) as Lab.
        assert (Btrunc z1 <= Btrunc z2)%Z; [|lia].
        apply Btrunc_mono. unfold z1, z2. rewrite V1, V2. apply rnd_le.
        unfold Rdiv. apply Rmult_le_compat_r; [apply Rlt_le, Rinv_0_lt_compat; auto|].
        unfold y1, y2. rewrite A3, B3. apply rnd_le. apply Rplus_le_compat_r.
        unfold x1, x2. rewrite C3, D3. apply rnd_le. lra.
    - intros a b H. cbn [binary64 alt azero asub] in *.
      destruct (is_finite a) eqn:Fa, (is_finite b) eqn:Fb.
      + pose proof (not_lt_val a b Fa Fb H) as L.
        pose proof (Bminus_correct 53 1024 pr em mode_NE b a Fb Fa) as C.
        destruct (Rlt_bool _ _) eqn:E in C.
        * destruct C as (C1 & C2 & _). apply val_not_neg; auto. rewrite C1. rewrite <- rnd_0. apply rnd_le. lra.
        * destruct C as [C1 C2]. apply overflow_not_finite in C1. rewrite C1.
          destruct (Bsign b) eqn:Sb; [|reflexivity]. exfalso.
          assert (Bsign a = false) by (destruct (Bsign a); auto; discriminate).
          apply (sign_val b) in Sb; auto. apply (sign_val a) in H0; auto.
          assert (B2R b - B2R a = 0)%R as E0 by lra. rewrite E0 in E.
          change (round_mode mode_NE) with ZnearestE in E. rewrite rnd_0, Rabs_R0, Rlt_bool_true in E; [discriminate|].
          apply bpow_gt_0.
      + destruct b as [|[]| |], a as [|[]| |]; try discriminate; reflexivity.
      + destruct b as [|[]| |], a as [|[]| |]; try discriminate; reflexivity.
      + destruct b as [|[]| |], a as [|[]| |]; try discriminate; reflexivity.
    - reflexivity.
    - intros a b Ha Hb. cbn [binary64 alt azero aadd] in *.
      destruct (is_finite a) eqn:Fa, (is_finite b) eqn:Fb.
      + pose proof (not_neg_val a Fa Ha) as La. pose proof (not_neg_val b Fb Hb) as Lb.
        pose proof (Bplus_correct 53 1024 pr em mode_NE a b Fa Fb) as C.
        destruct (Rlt_bool _ _) eqn:E in C.
        * destruct C as (C1 & C2 & _). apply val_not_neg; auto. rewrite C1. rewrite <- rnd_0. apply rnd_le. lra.
        * destruct C as [C1 C2]. apply overflow_not_finite in C1. rewrite C1.
          destruct (Bsign a) eqn:Sa; [|reflexivity]. exfalso. symmetry in C2.
          apply (sign_val b) in C2; auto. apply (sign_val a) in Sa; auto.
          assert (B2R a + B2R b = 0)%R as E0 by lra. rewrite E0 in E.
          change (round_mode mode_NE) with ZnearestE in E. rewrite rnd_0, Rabs_R0, Rlt_bool_true in E; [discriminate|].
          apply bpow_gt_0.
      + destruct b as [|[]| |], a as [|[]| |]; try discriminate; reflexivity.
      + destruct b as [|[]| |], a as [|[]| |]; try discriminate; reflexivity.
      + destruct b as [|[]| |], a as [|[]| |]; try discriminate; reflexivity.
    - intros x n h Hn Hx E. cbn [binary64 alt azero adiv aofsize] in *. injection E as <-.
      destruct (size_val n Hn) as [->|[Fn Pn]].
      + destruct x as [|[]| |]; try discriminate; reflexivity.
      + set (d := b64_of _ _) in *. clearbody d.
        destruct (is_finite x) eqn:Fx.
        * pose proof (not_neg_val x Fx Hx) as Lx.
          pose proof (Bdiv_correct 53 1024 pr em mode_NE x d (Rgt_not_eq _ _ Pn)) as C.
          destruct (Rlt_bool _ _) eqn:E in C.
          -- destruct C as (C1 & C2 & _). apply val_not_neg; [congruence|]. rewrite C1. rewrite <- rnd_0. apply rnd_le.
             apply Rmult_le_pos; auto. apply Rlt_le, Rinv_0_lt_compat; auto.
          -- apply overflow_not_finite in C. rewrite C.
             assert (Sd : Bsign d = false).
             { destruct (Bsign d) eqn:Sd; auto. apply (sign_val d) in Sd; auto. lra. }
             rewrite Sd. destruct (Bsign x) eqn:Sx; [|reflexivity]. exfalso.
             apply (sign_val x) in Sx; auto. assert (B2R x = 0)%R as E0 by lra. rewrite E0 in E.
             unfold Rdiv in E. rewrite Rmult_0_l in E.
             change (round_mode mode_NE) with ZnearestE in E. rewrite rnd_0, Rabs_R0, Rlt_bool_true in E; [discriminate|].
             apply bpow_gt_0.
        * destruct d as [|[]| |[] m e Hd]; try discriminate; cbn in Pn; try lra.
          -- exfalso. assert (F2R (Float radix2 (Zneg m) e) < 0)%R by (apply F2R_lt_0; reflexivity).
             cbn in Pn. lra.
          -- destruct x as [|[]| |]; try discriminate; reflexivity.
  Qed.
End B64.
