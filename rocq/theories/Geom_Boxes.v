(* The box-box test. *)
From Coq Require Import List Reals Arith Bool Lra Lia Psatz.
From Verif Require Import Outcome Ccd_Model Lin_Model Geom_Model Geom_Spec Geom_Circle.
Import ListNotations.
Open Scope R_scope.

(* ---------- orthonormal pairs in the plane ---------- *)
Definition on2 (a b : vec) : Prop := vdot a a = 1 /\ vdot b b = 1 /\ vdot a b = 0.

Lemma on2_rot : forall theta, on2 (fst (rotation2 theta)) (snd (rotation2 theta)).
Proof.
  intros theta. pose proof (rot_unit theta). unfold on2, rotation2, vdot. cbn [fst snd].
  split; [lra|split; [lra|ring]].
Qed.
Lemma on2_sym : forall a b, on2 a b -> on2 b a.
Proof. intros [a0 a1] [b0 b1] (A & B & C). unfold on2, vdot in *. cbn [fst snd] in *. lra. Qed.
Lemma on2_neg : forall a b, on2 a b -> on2 (vneg a) b.
Proof. intros [a0 a1] [b0 b1] (A & B & C). unfold on2, vdot, vneg in *. cbn [fst snd] in *. lra. Qed.
Lemma on2_cols : forall theta i, on2 (mcol (rotation2 theta) i) (mcol (rotation2 theta) (1 - i)).
Proof.
  intros theta [|i]; cbn [mcol Nat.sub]; [apply on2_rot|apply on2_sym, on2_rot].
Qed.

Lemma on2_parseval : forall a b, on2 a b -> forall v w, vdot v w = vdot a v * vdot a w + vdot b v * vdot b w.
Proof.
  intros [a0 a1] [b0 b1] (A & B & C) [v0 v1] [w0 w1]. unfold vdot in *. cbn [fst snd] in *.
  (* b = e * perp a with e = +-1 *)
  assert (D : (a0 * b1 - a1 * b0) * (a0 * b1 - a1 * b0) = 1).
  { transitivity ((a0 * a0 + a1 * a1) * (b0 * b0 + b1 * b1) - (a0 * b0 + a1 * b1) * (a0 * b0 + a1 * b1)); [ring|].
    rewrite A, B, C. ring. }
  set (e := a0 * b1 - a1 * b0) in *.
  assert (B0 : b0 = - e * a1).
  { assert (e * a1 = a0 * a1 * b1 - a1 * a1 * b0) by (unfold e; ring).
    assert (a1 * (a0 * b0 + a1 * b1) = 0) by (rewrite C; ring).
    assert (a0 * (a0 * b0 + a1 * b1) = 0) by (rewrite C; ring).
    assert (b0 * (a0 * a0 + a1 * a1) = b0) by (rewrite A; ring). lra. }
  assert (B1 : b1 = e * a0).
  { assert (e * a0 = a0 * a0 * b1 - a1 * a0 * b0) by (unfold e; ring).
    assert (a1 * (a0 * b0 + a1 * b1) = 0) by (rewrite C; ring).
    assert (b1 * (a0 * a0 + a1 * a1) = b1) by (rewrite A; ring). lra. }
  rewrite B0, B1. clearbody e.
  transitivity ((a0 * a0 + a1 * a1) * (v0 * w0 + v1 * w1)
    + (e * e - 1) * (a1 * v0 - a0 * v1) * (a1 * w0 - a0 * w1)
    + ((a1 * v0 - a0 * v1) * (a1 * w0 - a0 * w1) - (a1 * v0 - a0 * v1) * (a1 * w0 - a0 * w1))).
  - rewrite A, D. ring.
  - rewrite D. transitivity ((a0 * a0 + a1 * a1) * (v0 * w0 + v1 * w1)); [ring|]. rewrite A.
    transitivity ((a0 * a0 + a1 * a1) * (v0 * w0 + v1 * w1)); [rewrite A; ring|].
    transitivity ((a0 * v0 + a1 * v1) * (a0 * w0 + a1 * w1) + (a1 * v0 - a0 * v1) * (a1 * w0 - a0 * w1)); [ring|].
    rewrite <- (Rmult_1_l ((a1 * v0 - a0 * v1) * (a1 * w0 - a0 * w1))), <- D. ring.
Qed.

Lemma vdot_comm : forall v w : vec, vdot v w = vdot w v.
Proof. intros [a b] [c d]. unfold vdot. cbn [fst snd]. ring. Qed.
Lemma vdot_add : forall u v w : vec, vdot u (vadd v w) = vdot u v + vdot u w.
Proof. intros [a b] [c d] [e f]. unfold vdot, vadd. cbn [fst snd]. ring. Qed.
Lemma vdot_sub : forall u v w : vec, vdot u (vsub v w) = vdot u v - vdot u w.
Proof. intros [a b] [c d] [e f]. unfold vdot, vsub. cbn [fst snd]. ring. Qed.
Lemma vdot_scale : forall (s : R) (u v : vec), vdot u (vscale s v) = s * vdot u v.
Proof. intros s [a b] [c d]. unfold vdot, vscale. cbn [fst snd]. ring. Qed.
Lemma vdot_neg_l : forall u v : vec, vdot (vneg u) v = - vdot u v.
Proof. intros [a b] [c d]. unfold vdot, vneg. cbn [fst snd]. ring. Qed.

(* ---------- the four tests ---------- *)
Section tests.
Variables (x0 : vec) (R0 : m2) (r0 x1 : vec) (R1 : m2) (r1 : vec).
Definition dist_of (g : nat) : R :=
  match g with
  | 0 => vdot (mcol R0 0) (vsub x1 x0)
  | 1 => vdot (mcol R0 1) (vsub x1 x0)
  | 2 => vdot (mcol R1 0) (vsub x1 x0)
  | _ => vdot (mcol R1 1) (vsub x1 x0)
  end%nat.
Definition width_of (g : nat) : R :=
  let q i j := Rabs (vdot (mcol R0 i) (mcol R1 j)) in
  match g with
  | 0%nat => q 0%nat 0%nat * fst r1 + q 0%nat 1%nat * snd r1 + fst r0
  | 1%nat => q 1%nat 0%nat * fst r1 + q 1%nat 1%nat * snd r1 + snd r0
  | 2%nat => q 0%nat 0%nat * fst r0 + q 1%nat 0%nat * snd r0 + fst r1
  | _ => q 0%nat 1%nat * fst r0 + q 1%nat 1%nat * snd r0 + snd r1
  end.
Definition gap (g : nat) : R := Rabs (dist_of g) - width_of g.

Definition good (k : nat) (b : best) : Prop :=
  match b with
  | None => False
  | Some (pen, inv, f) => (f < k)%nat /\ pen = gap f /\ inv = Rltb (dist_of f) 0 /\ forall g, (g < k)%nat -> gap g <= pen /\ gap g <= 0
  end.

Lemma axis_test_step : forall k b, good k b ->
  match axis_test (dist_of k) (width_of k) k b with
  | None => 0 < gap k
  | Some b' => gap k <= 0 /\ good (S k) b'
  end.
Proof.
  intros k [[[sm inv] f]|] G; [|destruct G]. destruct G as (G1 & G2 & G3 & G4).
  unfold axis_test. change (Rabs (dist_of k) - width_of k) with (gap k).
  destruct (Rltb_spec 0 (gap k)) as [L|L]; [exact L|].
  destruct (Rltb_spec sm (gap k)) as [M|M].
  - split; [lra|]. unfold good. split; [lia|]. split; [reflexivity|]. split; [reflexivity|].
    intros g Hg. destruct (Nat.eq_dec g k) as [->|N]; [lra|].
    destruct (G4 g ltac:(lia)). lra.
  - split; [lra|]. unfold good. split; [lia|]. split; [exact G2|]. split; [exact G3|].
    intros g Hg. destruct (Nat.eq_dec g k) as [->|N]; [lra|]. apply G4. lia.
Qed.

Lemma axis_tests_spec :
  match axis_tests x0 R0 r0 x1 R1 r1 with
  | None => exists g, (g < 4)%nat /\ 0 < gap g
  | Some b => good 4 b
  end.
Proof.
  unfold axis_tests.
  change (vdot (mcol R0 0) (vsub x1 x0)) with (dist_of 0).
  change (vdot (mcol R0 1) (vsub x1 x0)) with (dist_of 1).
  change (vdot (mcol R1 0) (vsub x1 x0)) with (dist_of 2).
  change (vdot (mcol R1 1) (vsub x1 x0)) with (dist_of 3).
  fold (width_of 0) (width_of 1) (width_of 2) (width_of 3).
  change (Rabs (vdot (mcol R0 0) (mcol R1 0)) * fst r1 + Rabs (vdot (mcol R0 0) (mcol R1 1)) * snd r1 + fst r0)
    with (width_of 0).
  change (Rabs (vdot (mcol R0 1) (mcol R1 0)) * fst r1 + Rabs (vdot (mcol R0 1) (mcol R1 1)) * snd r1 + snd r0)
    with (width_of 1).
  change (Rabs (vdot (mcol R0 0) (mcol R1 0)) * fst r0 + Rabs (vdot (mcol R0 1) (mcol R1 0)) * snd r0 + fst r1)
    with (width_of 2).
  change (Rabs (vdot (mcol R0 0) (mcol R1 1)) * fst r0 + Rabs (vdot (mcol R0 1) (mcol R1 1)) * snd r0 + snd r1)
    with (width_of 3).
  assert (S0 : match axis_test (dist_of 0) (width_of 0) 0 None with
    | None => 0 < gap 0 | Some b' => good 1 b' end).
  { unfold axis_test. change (Rabs (dist_of 0) - width_of 0) with (gap 0).
    destruct (Rltb_spec 0 (gap 0)) as [L|L]; [exact L|]. unfold good.
    split; [lia|]. split; [reflexivity|]. split; [reflexivity|].
    intros g Hg. replace g with 0%nat by lia. lra. }
  destruct (axis_test (dist_of 0) (width_of 0) 0 None) as [b|]; [|exists 0%nat; split; [lia|exact S0]].
  pose proof (axis_test_step 1 b S0) as S1.
  destruct (axis_test (dist_of 1) (width_of 1) 1 b) as [b1|]; [|exists 1%nat; split; [lia|exact S1]].
  pose proof (axis_test_step 2 b1 (proj2 S1)) as S2.
  destruct (axis_test (dist_of 2) (width_of 2) 2 b1) as [b2|]; [|exists 2%nat; split; [lia|exact S2]].
  pose proof (axis_test_step 3 b2 (proj2 S2)) as S3.
  destruct (axis_test (dist_of 3) (width_of 3) 3 b2) as [b3|]; [|exists 3%nat; split; [lia|exact S3]].
  exact (proj2 S3).
Qed.
End tests.

(* ---------- the scalar core of the clipping ---------- *)
Lemma sq_eq_abs : forall a b, a * a = b * b -> Rabs a = Rabs b.
Proof. intros a b H. apply Rsqr_eq_abs_0. exact H. Qed.

Section core.
Variables (al be ga de hn ht kn kt Pn Pt : R).
Hypothesis U1 : al * al + be * be = 1.
Hypothesis U2 : ga * ga = be * be.
Hypothesis U3 : de * de = al * al.
Hypothesis U4 : al * ga + be * de = 0.
Hypothesis Big : Rabs be <= Rabs al.
Hypothesis Hkn : 0 <= kn.
Hypothesis Hkt : 0 <= kt.
Hypothesis Hhn : 0 <= hn.
Hypothesis Hht : 0 <= ht.
Hypothesis N : Pn - hn - kn * Rabs al - kt * Rabs be <= 0.
Hypothesis T : Rabs Pt <= ht + kn * Rabs ga + kt * Rabs de.
Hypothesis U : Rabs (al * Pn + ga * Pt) <= kn + hn * Rabs al + ht * Rabs ga.
Hypothesis W : Rabs (be * Pn + de * Pt) - kt - hn * Rabs be - ht * Rabs de <= Pn - hn - kn * Rabs al - kt * Rabs be.
Let sg := if Rltb al 0 then 1 else -1.
Let c := Pt + sg * kn * ga.

Lemma core_abs : Rabs de = Rabs al /\ Rabs ga = Rabs be.
Proof. split; apply sq_eq_abs; assumption. Qed.
Lemma core_al : 0 < Rabs al /\ Rabs al * Rabs al + Rabs be * Rabs be = 1.
Proof.
  assert (E : Rabs al * Rabs al + Rabs be * Rabs be = 1).
  { rewrite <- !Rabs_mult, !Rabs_pos_eq; [exact U1| |]; apply Rle_0_sqr. }
  split; [|exact E].
  destruct (Rlt_dec 0 (Rabs al)) as [L|L]; [exact L|exfalso].
  pose proof (Rabs_pos al). pose proof (Rabs_pos be).
  assert (Z : Rabs al = 0) by lra. assert (Z' : Rabs be = 0) by lra. rewrite Z, Z' in E. lra.
Qed.
Lemma core_de : de <> 0.
Proof.
  intros Z. destruct core_abs as [A _]. destruct core_al as [B _]. rewrite Z, Rabs_R0 in A. lra.
Qed.

(* the signs: with C = |al| and S = |be| *)
Lemma core_cases :
  let C := Rabs al in let S := Rabs be in
  0 < C /\ 0 <= S /\ S <= 1 /\ C * C + S * S = 1 /\ Rabs de = C /\ Rabs ga = S /\ sg * al = - C /\ sg * sg = 1 /\
  ((sg * ga = S /\ be * de = C * S) \/ (sg * ga = - S /\ be * de = - (C * S))).
Proof.
  intros C S. destruct core_al as [A E]. destruct core_abs as [D G]. fold C S in A, E, D, G.
  assert (Sp : 0 <= S) by apply Rabs_pos.
  assert (sgq : sg * sg = 1) by (unfold sg; destruct (Rltb al 0); ring).
  assert (sga : sg * al = - C).
  { unfold sg, C. destruct (Rltb_spec al 0) as [L|L].
    - rewrite Rabs_left by lra. ring.
    - rewrite Rabs_right by lra. ring. }
  repeat (split; [first [exact A | exact Sp | exact E | exact D | exact G | exact sga | exact sgq |
    (destruct (Rle_dec S 1) as [L|L]; [exact L|exfalso; assert (1 * 1 < S * S) by (apply Rmult_le_0_lt_compat; lra);
      pose proof (Rle_0_sqr C) as Q; unfold Rsqr in Q; lra])]|]).
  assert (K : sg * ga = S \/ sg * ga = - S).
  { assert (sg * ga = ga \/ sg * ga = - ga) by (unfold sg; destruct (Rltb al 0); [left|right]; ring).
    assert (ga = S \/ ga = - S).
    { rewrite <- G. unfold Rabs. destruct (Rcase_abs ga); [right|left]; lra. }
    destruct H as [-> | ->]; destruct H0 as [-> | ->]; [left|right|right|left]; lra. }
  assert (X : be * de = - (al * ga)) by lra.
  assert (Y : al * ga = (sg * al) * (sg * ga)).
  { transitivity ((sg * sg) * (al * ga)); [rewrite sgq; ring|ring]. }
  destruct K as [K|K]; [left|right]; (split; [exact K|]); rewrite X, Y, sga, K; ring.
Qed.

Lemma core_overlap : c - Rabs de * kt <= ht /\ - ht <= c + Rabs de * kt.
Proof.
  destruct core_cases as (A & Sp & S1 & E & D & G & sga & sgq & K). cbv zeta in *.
  set (C := Rabs al) in *. set (S := Rabs be) in *.
  pose proof (abs_inv _ _ T) as T'. rewrite D, G in T'.
  assert (W' : forall e, e * e = 1 -> e * (be * Pn + de * Pt) - kt - hn * S - ht * C <= Pn - hn - kn * C - kt * S).
  { intros e He. pose proof W as W0. rewrite D in W0. apply Rle_trans with (2 := W0).
    assert (e * (be * Pn + de * Pt) <= Rabs (be * Pn + de * Pt)); [|lra].
    apply Rle_trans with (1 := Rle_abs _). rewrite Rabs_mult.
    replace (Rabs e) with 1; [lra|]. symmetry.
    replace 1 with (Rabs 1) by (apply Rabs_R1). apply sq_eq_abs. lra. }
  (* the sign of de: de = e C *)
  assert (De : exists e, e * e = 1 /\ e * de = C).
  { unfold Rabs in D. destruct (Rcase_abs de) in D; [exists (-1)|exists 1]; split; lra. }
  destruct De as (e & He & Hd).
  rewrite D. unfold c.
  destruct K as [[K1 K2]|[K1 K2]].
  - (* sg ga = S, be de = C S : be = e S *)
    assert (Be : e * be = S).
    { apply Rmult_eq_reg_l with C; [|lra]. rewrite <- Hd at 1.
      transitivity ((e * e) * (be * de)); [ring|]. rewrite He, K2. ring. }
    assert (R1 : sg * kn * ga = S * kn) by (rewrite <- K1; ring). rewrite R1.
    split; [|lra].
    destruct (Rle_dec (Pt + S * kn - C * kt) ht) as [L|L]; [exact L|exfalso].
    specialize (W' e He).
    assert (W2 : S * Pn + C * Pt - kt - hn * S - ht * C <= Pn - hn - kn * C - kt * S).
    { replace (S * Pn + C * Pt) with (e * (be * Pn + de * Pt)); [exact W'|]. rewrite <- Be, <- Hd. ring. }
    assert (L2 : 0 < C * (Pt + S * kn - C * kt - ht)) by (apply Rmult_lt_0_compat; lra).
    assert (L3 : 0 <= (1 - S) * (kn * C + kt * S + hn - Pn)) by (apply Rmult_le_pos; lra).
    assert (CC : C * C * kt = (1 - S * S) * kt) by (rewrite <- E; ring).
    lra.
  - assert (Be : e * be = - S).
    { apply Rmult_eq_reg_l with C; [|lra]. rewrite <- Hd at 1.
      transitivity ((e * e) * (be * de)); [ring|]. rewrite He, K2. ring. }
    assert (R1 : sg * kn * ga = - S * kn) by (rewrite <- K1; ring). rewrite R1.
    split; [lra|].
    destruct (Rle_dec (- ht) (Pt + - S * kn + C * kt)) as [L|L]; [exact L|exfalso].
    specialize (W' (- e) ltac:(lra)).
    assert (W2 : S * Pn - C * Pt - kt - hn * S - ht * C <= Pn - hn - kn * C - kt * S).
    { replace (S * Pn - C * Pt) with (- e * (be * Pn + de * Pt)); [exact W'|]. rewrite <- Hd.
      replace S with (- (e * be)) by lra. ring. }
    assert (L2 : 0 < C * (- ht - (Pt + - S * kn + C * kt))) by (apply Rmult_lt_0_compat; lra).
    assert (L3 : 0 <= (1 - S) * (kn * C + kt * S + hn - Pn)) by (apply Rmult_le_pos; lra).
    assert (CC : C * C * kt = (1 - S * S) * kt) by (rewrite <- E; ring).
    lra.
Qed.

(* the depth of the point of the incident face whose tangential coordinate is s *)
Let depth s := hn - (Pn + sg * kn * al + (s - c) / de * be).

Lemma core_depth :
  0 <= depth (Rmax (- ht) (c - Rabs de * kt)) \/ 0 <= depth (Rmin ht (c + Rabs de * kt)).
Proof.
  destruct core_cases as (A & Sp & S1 & E & D & G & sga & sgq & K). cbv zeta in *.
  set (C := Rabs al) in *. set (S := Rabs be) in *.
  pose proof core_de as Dn.
  assert (De : exists e, e * e = 1 /\ e * de = C).
  { unfold Rabs in D. destruct (Rcase_abs de) in D; [exists (-1)|exists 1]; split; lra. }
  destruct De as (e & He & Hd).
  assert (Dd : de * de = C * C).
  { transitivity ((e * e) * (de * de)); [rewrite He; ring|]. rewrite <- Hd. ring. }
  assert (Bd : forall s, (s - c) / de * be = (s - c) * (be * de) / (C * C)).
  { intros s. rewrite <- Dd. field. exact Dn. }
  assert (Kn : sg * kn * al = - C * kn) by (rewrite <- sga; ring).
  pose proof (abs_inv _ _ U) as U'. rewrite G in U'.
  assert (Uu : - (kn + hn * C + ht * S) <= sg * (al * Pn + ga * Pt) <= kn + hn * C + ht * S).
  { assert (sg = 1 \/ sg = -1) by (unfold sg; destruct (Rltb al 0); auto). destruct H as [-> | ->]; lra. }
  unfold depth. rewrite !Bd, Kn, D.
  destruct K as [[K1 K2]|[K1 K2]]; rewrite K2.
  - left. replace ((Rmax (- ht) (c - C * kt) - c) * (C * S) / (C * C)) with ((Rmax (- ht) (c - C * kt) - c) * S / C)
      by (field; lra).
    unfold Rmax. destruct (Rle_dec (- ht) (c - C * kt)) as [L|L].
    + replace ((c - C * kt - c) * S / C) with (- (kt * S)) by (field; lra). lra.
    + apply Rmult_le_reg_l with C; [exact A|].
      replace (C * (hn - (Pn + - C * kn + (- ht - c) * S / C))) with (C * hn - C * Pn + kn * (C * C) + (ht + c) * S)
        by (field; lra).
      replace (C * C) with (1 - S * S) by lra. unfold c.
      assert (sg * kn * ga = S * kn) as -> by (rewrite <- K1; ring).
      assert (X : sg * (al * Pn + ga * Pt) = - C * Pn + S * Pt) by (rewrite <- K1, <- sga; ring).
      rewrite X in Uu. rewrite Rmult_0_r. lra.
  - right. replace ((Rmin ht (c + C * kt) - c) * - (C * S) / (C * C)) with (- ((Rmin ht (c + C * kt) - c) * S / C))
      by (field; lra).
    unfold Rmin. destruct (Rle_dec ht (c + C * kt)) as [L|L].
    + apply Rmult_le_reg_l with C; [exact A|].
      replace (C * (hn - (Pn + - C * kn + - ((ht - c) * S / C)))) with (C * hn - C * Pn + kn * (C * C) + (ht - c) * S)
        by (field; lra).
      replace (C * C) with (1 - S * S) by lra. unfold c.
      assert (sg * kn * ga = - S * kn) as -> by (rewrite <- K1; ring).
      assert (X : sg * (al * Pn + ga * Pt) = - C * Pn - S * Pt) by (rewrite <- sga; replace S with (- (sg * ga)) by lra; ring).
      rewrite X in Uu. rewrite Rmult_0_r. lra.
    + replace (- ((c + C * kt - c) * S / C)) with (- (kt * S)) by (field; lra). lra.
Qed.
End core.
