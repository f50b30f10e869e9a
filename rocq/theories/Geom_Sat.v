(* The separating axis test is exact, and what the box-box test returns. *)
From Coq Require Import List Reals Arith Bool Lra Lia Psatz.
From Verif Require Import Outcome Ccd_Model Lin_Model Geom_Model Geom_Spec Geom_Circle Geom_Boxes Geom_Clip.
Import ListNotations.
Open Scope R_scope.

(* ---------- a point between lower and upper bounds ---------- *)
Lemma pick : forall (L U : list R), (forall l u, In l L -> In u U -> l <= u) -> L <> [] ->
  exists x, (forall l, In l L -> l <= x) /\ (forall u, In u U -> x <= u).
Proof.
  intros L U. induction L as [|a L IH]; intros H N; [contradiction|].
  destruct L as [|b L'].
  - exists a. split; [intros l [<-|[]]; lra|]. intros u Hu. apply H; [left; reflexivity|exact Hu].
  - destruct IH as (x & X1 & X2); [intros l u Hl Hu; apply H; [right; exact Hl|exact Hu]|discriminate|].
    exists (Rmax a x). split.
    + intros l [<-|Hl]; [apply Rmax_l|]. apply Rle_trans with x; [apply X1; exact Hl|apply Rmax_r].
    + intros u Hu. apply Rmax_lub; [apply H; [left; reflexivity|exact Hu]|apply X2; exact Hu].
Qed.

Lemma dle : forall n m s c, 0 < s -> 0 < c -> n * c <= m * s -> n / s <= m / c.
Proof.
  intros n m s c Hs Hc H. apply Rmult_le_reg_r with (s * c); [apply Rmult_lt_0_compat; assumption|].
  replace (n / s * (s * c)) with (n * c) by (field; lra).
  replace (m / c * (s * c)) with (m * s) by (field; lra). exact H.
Qed.
Lemma dle_l : forall n s x, 0 < s -> n / s <= x -> n <= x * s.
Proof.
  intros n s x Hs H. apply Rmult_le_compat_r with (r := s) in H; [|lra].
  replace (n / s * s) with n in H by (field; lra). exact H.
Qed.
Lemma dle_r : forall n s x, 0 < s -> x <= n / s -> x * s <= n.
Proof.
  intros n s x Hs H. apply Rmult_le_compat_r with (r := s) in H; [|lra].
  replace (n / s * s) with n in H by (field; lra). exact H.
Qed.

Section fm.
Variables (ax ay b1 b2 : R).
Hypothesis Hax : 0 <= ax.
Hypothesis Hay : 0 <= ay.
Hypothesis Hb1 : 0 <= b1.
Hypothesis Hb2 : 0 <= b2.

Definition meet (C S p1 p2 : R) : Prop :=
  exists X Y, - ax <= X <= ax /\ - ay <= Y <= ay /\ - b1 <= C * X + S * Y - p1 <= b1 /\ - b2 <= - S * X + C * Y - p2 <= b2.

Lemma meet_pos : forall C S p1 p2, 0 < C -> 0 < S -> C * C + S * S = 1 ->
  - (ax + C * b1 + S * b2) <= C * p1 - S * p2 <= ax + C * b1 + S * b2 ->
  - (ay + S * b1 + C * b2) <= S * p1 + C * p2 <= ay + S * b1 + C * b2 ->
  - (b1 + C * ax + S * ay) <= p1 <= b1 + C * ax + S * ay ->
  - (b2 + S * ax + C * ay) <= p2 <= b2 + S * ax + C * ay ->
  meet C S p1 p2.
Proof.
  intros C S p1 p2 HC HS E H1 H2 H3 H4.
  assert (CC : forall z, C * C * z = z - S * S * z).
  { intros z. replace (C * C) with (1 - S * S) by lra. ring. }
  destruct (pick [- ax / 1; (- p2 - b2 - ay * C) / S; (p1 - b1 - ay * S) / C; (C * (p1 - b1) - S * (p2 + b2)) / 1]
                 [ax / 1; (p1 + b1 + ay * S) / C; (ay * C - p2 + b2) / S; (C * (p1 + b1) - S * (p2 - b2)) / 1]) as (X & X1 & X2).
  { assert (P1 : 0 <= C * b1) by (apply Rmult_le_pos; lra).
    assert (P2 : 0 <= S * b2) by (apply Rmult_le_pos; lra).
    assert (P3 : 0 <= S * b1) by (apply Rmult_le_pos; lra).
    assert (P4 : 0 <= C * b2) by (apply Rmult_le_pos; lra).
    assert (P5 : 0 <= C * ay) by (apply Rmult_le_pos; lra).
    assert (P6 : 0 <= S * ay) by (apply Rmult_le_pos; lra).
    assert (P7 : 0 <= S * S * b2) by (apply Rmult_le_pos; [apply Rmult_le_pos|]; lra).
    assert (P8 : 0 <= C * C * b1) by (apply Rmult_le_pos; [apply Rmult_le_pos|]; lra).
    assert (Q1 : 0 <= C * (ay + S * b1 + C * b2 + (S * p1 + C * p2))) by (apply Rmult_le_pos; lra).
    assert (Q2 : 0 <= C * (ay + S * b1 + C * b2 - (S * p1 + C * p2))) by (apply Rmult_le_pos; lra).
    assert (Q3 : 0 <= S * (ay + S * b1 + C * b2 + (S * p1 + C * p2))) by (apply Rmult_le_pos; lra).
    assert (Q4 : 0 <= S * (ay + S * b1 + C * b2 - (S * p1 + C * p2))) by (apply Rmult_le_pos; lra).
    pose proof (CC b1). pose proof (CC b2). pose proof (CC p1). pose proof (CC p2). pose proof (CC ay).
    intros l u Hl Hu. cbn [In] in Hl, Hu.
    destruct Hl as [<-|[<-|[<-|[<-|[]]]]]; destruct Hu as [<-|[<-|[<-|[<-|[]]]]]; (apply dle; [lra|lra|]); try lra;
      (apply Rmult_le_compat_r; lra). }
  { discriminate. }
  pose proof (dle_l _ _ _ Rlt_0_1 (X1 _ (or_introl eq_refl))) as L1.
  pose proof (dle_l _ _ _ HS (X1 _ (or_intror (or_introl eq_refl)))) as L2.
  pose proof (dle_l _ _ _ HC (X1 _ (or_intror (or_intror (or_introl eq_refl))))) as L3.
  pose proof (dle_l _ _ _ Rlt_0_1 (X1 _ (or_intror (or_intror (or_intror (or_introl eq_refl)))))) as L4.
  pose proof (dle_r _ _ _ Rlt_0_1 (X2 _ (or_introl eq_refl))) as U1.
  pose proof (dle_r _ _ _ HC (X2 _ (or_intror (or_introl eq_refl)))) as U2.
  pose proof (dle_r _ _ _ HS (X2 _ (or_intror (or_intror (or_introl eq_refl))))) as U3.
  pose proof (dle_r _ _ _ Rlt_0_1 (X2 _ (or_intror (or_intror (or_intror (or_introl eq_refl)))))) as U4.
  clear X1 X2.
  destruct (pick [- ay / 1; (p1 - b1 - C * X) / S; (p2 - b2 + S * X) / C]
                 [ay / 1; (p1 + b1 - C * X) / S; (p2 + b2 + S * X) / C]) as (Y & Y1 & Y2).
  { pose proof (CC X).
    intros l u Hl Hu. cbn [In] in Hl, Hu.
    assert (0 <= S * b1) by (apply Rmult_le_pos; lra).
    assert (0 <= C * b2) by (apply Rmult_le_pos; lra).
    destruct Hl as [<-|[<-|[<-|[]]]]; destruct Hu as [<-|[<-|[<-|[]]]]; apply dle; lra. }
  { discriminate. }
  pose proof (dle_l _ _ _ Rlt_0_1 (Y1 _ (or_introl eq_refl))) as M1.
  pose proof (dle_l _ _ _ HS (Y1 _ (or_intror (or_introl eq_refl)))) as M2.
  pose proof (dle_l _ _ _ HC (Y1 _ (or_intror (or_intror (or_introl eq_refl))))) as M3.
  pose proof (dle_r _ _ _ Rlt_0_1 (Y2 _ (or_introl eq_refl))) as V1.
  pose proof (dle_r _ _ _ HS (Y2 _ (or_intror (or_introl eq_refl)))) as V2.
  pose proof (dle_r _ _ _ HC (Y2 _ (or_intror (or_intror (or_introl eq_refl))))) as V3.
  exists X, Y. lra.
Qed.
End fm.

Lemma meet_turn : forall ax ay b1 b2 C S p1 p2, meet ax ay b2 b1 (- S) C p2 (- p1) -> meet ax ay b1 b2 C S p1 p2.
Proof.
  intros ax ay b1 b2 C S p1 p2 (X & Y & A & B & D & E). exists X, Y. lra.
Qed.
Lemma meet_flip : forall ax ay b1 b2 C S p1 p2, meet ax ay b1 b2 (- C) (- S) (- p1) (- p2) -> meet ax ay b1 b2 C S p1 p2.
Proof.
  intros ax ay b1 b2 C S p1 p2 (X & Y & A & B & D & E). exists X, Y. lra.
Qed.

Definition meets_gap (ax ay b1 b2 C S p1 p2 : R) : Prop :=
  Rabs (C * p1 - S * p2) <= ax + Rabs C * b1 + Rabs S * b2 /\
  Rabs (S * p1 + C * p2) <= ay + Rabs S * b1 + Rabs C * b2 /\
  Rabs p1 <= b1 + Rabs C * ax + Rabs S * ay /\
  Rabs p2 <= b2 + Rabs S * ax + Rabs C * ay.

Lemma gap_turn : forall ax ay b1 b2 C S p1 p2,
  meets_gap ax ay b1 b2 C S p1 p2 -> meets_gap ax ay b2 b1 (- S) C p2 (- p1).
Proof.
  intros ax ay b1 b2 C S p1 p2 (A & B & D & E). unfold meets_gap. rewrite !Rabs_Ropp.
  replace (- S * p2 - C * - p1) with (C * p1 - S * p2) by ring.
  replace (C * p2 + - S * - p1) with (S * p1 + C * p2) by ring.
  repeat split; lra.
Qed.
Lemma gap_flip : forall ax ay b1 b2 C S p1 p2,
  meets_gap ax ay b1 b2 C S p1 p2 -> meets_gap ax ay b1 b2 (- C) (- S) (- p1) (- p2).
Proof.
  intros ax ay b1 b2 C S p1 p2 (A & B & D & E). unfold meets_gap. rewrite !Rabs_Ropp.
  replace (- C * - p1 - - S * - p2) with (C * p1 - S * p2) by ring.
  replace (- S * - p1 + - C * - p2) with (S * p1 + C * p2) by ring.
  repeat split; lra.
Qed.

Lemma meet_right : forall ax ay b1 b2, 0 <= ax -> 0 <= ay -> 0 <= b1 -> 0 <= b2 -> forall C S p1 p2,
  0 < C -> 0 <= S -> C * C + S * S = 1 -> meets_gap ax ay b1 b2 C S p1 p2 -> meet ax ay b1 b2 C S p1 p2.
Proof.
  intros ax ay b1 b2 Hax Hay Hb1 Hb2 C S p1 p2 HC HS E (A & B & D & F).
  rewrite (Rabs_pos_eq C) in * by lra. rewrite (Rabs_pos_eq S) in * by lra.
  apply abs_inv in A. apply abs_inv in B. apply abs_inv in D. apply abs_inv in F.
  destruct HS as [HS|HS].
  - apply meet_pos; assumption.
  - subst S. assert (C = 1).
    { assert (Z : (C - 1) * (C + 1) = 0) by lra. apply Rmult_integral in Z. lra. }
    subst C.
    destruct (pick [- ax; p1 - b1] [ax; p1 + b1]) as (X & X1 & X2); [|discriminate|].
    { intros l u [<-|[<-|[]]] [<-|[<-|[]]]; lra. }
    destruct (pick [- ay; p2 - b2] [ay; p2 + b2]) as (Y & Y1 & Y2); [|discriminate|].
    { intros l u [<-|[<-|[]]] [<-|[<-|[]]]; lra. }
    pose proof (X1 _ (or_introl eq_refl)). pose proof (X1 _ (or_intror (or_introl eq_refl))).
    pose proof (X2 _ (or_introl eq_refl)). pose proof (X2 _ (or_intror (or_introl eq_refl))).
    pose proof (Y1 _ (or_introl eq_refl)). pose proof (Y1 _ (or_intror (or_introl eq_refl))).
    pose proof (Y2 _ (or_introl eq_refl)). pose proof (Y2 _ (or_intror (or_introl eq_refl))).
    exists X, Y. lra.
Qed.

Lemma meet_all : forall ax ay b1 b2, 0 <= ax -> 0 <= ay -> 0 <= b1 -> 0 <= b2 -> forall C S p1 p2,
  C * C + S * S = 1 -> meets_gap ax ay b1 b2 C S p1 p2 -> meet ax ay b1 b2 C S p1 p2.
Proof.
  intros ax ay b1 b2 Hax Hay Hb1 Hb2 C S p1 p2 E G.
  destruct (Rlt_dec 0 C) as [P|P]; [destruct (Rle_dec 0 S) as [Q|Q]|].
  - apply meet_right; assumption.
  - apply meet_turn, meet_right; try assumption; try lra. apply gap_turn. exact G.
  - destruct (Rlt_dec 0 S) as [Q|Q].
    + apply meet_turn, meet_flip, meet_right; try assumption; try lra. apply gap_flip, gap_turn. exact G.
    + destruct (Req_dec C 0) as [Z|Z].
      * subst C. apply meet_turn, meet_right; try assumption; try lra; [|apply gap_turn; exact G].
        destruct (Req_dec S 0) as [Z|Z]; [subst S|]; lra.
      * apply meet_flip, meet_right; try assumption; try lra. apply gap_flip. exact G.
Qed.

(* ---------- boxes ---------- *)
Section boxes.
Variables (x0 : vec) (t0 : R) (r0 x1 : vec) (t1 : R) (r1 : vec).
Hypothesis H0 : 0 <= fst r0 /\ 0 <= snd r0.
Hypothesis H1 : 0 <= fst r1 /\ 0 <= snd r1.
Let M0 := rotation2 t0.
Let M1 := rotation2 t1.
Let gapf := gap x0 M0 r0 x1 M1 r1.
Let e0 := fst M0.
Let e1 := snd M0.
Let b0 := fst M1.
Let b1 := snd M1.
Let C := vdot b0 e0.
Let S := vdot b0 e1.

Lemma bx_10 : vdot b1 e0 = - S.
Proof. unfold b1, e0, S, b0, e1, M0, M1, rotation2, vdot. cbn [fst snd]. ring. Qed.
Lemma bx_11 : vdot b1 e1 = C.
Proof. unfold b1, e1, C, b0, e0, M0, M1, rotation2, vdot. cbn [fst snd]. ring. Qed.
Lemma bx_unit : C * C + S * S = 1.
Proof.
  unfold C, S. rewrite !(vdot_comm b0), <- (on2_parseval e0 e1 (on2_rot t0) b0 b0). apply (on2_rot t1).
Qed.
Lemma bx_abs : Rabs (vdot e0 b0) = Rabs C /\ Rabs (vdot e0 b1) = Rabs S /\ Rabs (vdot e1 b0) = Rabs S /\ Rabs (vdot e1 b1) = Rabs C.
Proof.
  rewrite (vdot_comm e0 b0), (vdot_comm e0 b1), (vdot_comm e1 b0), (vdot_comm e1 b1), bx_10, bx_11, Rabs_Ropp.
  repeat split; reflexivity.
Qed.
Lemma bx_p : forall p, vdot e0 p = C * vdot b0 p - S * vdot b1 p /\ vdot e1 p = S * vdot b0 p + C * vdot b1 p.
Proof.
  intros p. rewrite (on2_parseval b0 b1 (on2_rot t1) e0 p), (on2_parseval b0 b1 (on2_rot t1) e1 p), bx_10, bx_11. fold C S. split; ring.
Qed.

Let p := vsub x1 x0.
Lemma bx_gap : (forall g, (g < 4)%nat -> gapf g <= 0) <->
  meets_gap (fst r0) (snd r0) (fst r1) (snd r1) C S (vdot b0 p) (vdot b1 p).
Proof.
  destruct bx_abs as (A1 & A2 & A3 & A4). destruct (bx_p p) as [P1 P2].
  assert (G0 : gapf 0%nat = Rabs (C * vdot b0 p - S * vdot b1 p) - (Rabs C * fst r1 + Rabs S * snd r1 + fst r0)).
  { unfold gapf, gap, dist_of, width_of. cbn [mcol]. fold e0 e1 b0 b1 p. rewrite A1, A2, P1. reflexivity. }
  assert (G1 : gapf 1%nat = Rabs (S * vdot b0 p + C * vdot b1 p) - (Rabs S * fst r1 + Rabs C * snd r1 + snd r0)).
  { unfold gapf, gap, dist_of, width_of. cbn [mcol]. fold e0 e1 b0 b1 p. rewrite A3, A4, P2. reflexivity. }
  assert (G2 : gapf 2%nat = Rabs (vdot b0 p) - (Rabs C * fst r0 + Rabs S * snd r0 + fst r1)).
  { unfold gapf, gap, dist_of, width_of. cbn [mcol]. fold e0 e1 b0 b1 p. rewrite A1, A3. reflexivity. }
  assert (G3 : gapf 3%nat = Rabs (vdot b1 p) - (Rabs S * fst r0 + Rabs C * snd r0 + snd r1)).
  { unfold gapf, gap, dist_of, width_of. cbn [mcol]. fold e0 e1 b0 b1 p. rewrite A2, A4. reflexivity. }
  unfold meets_gap. split.
  - intros G. pose proof (G 0%nat ltac:(lia)). pose proof (G 1%nat ltac:(lia)).
    pose proof (G 2%nat ltac:(lia)). pose proof (G 3%nat ltac:(lia)). lra.
  - intros (Q1 & Q2 & Q3 & Q4) [|[|[|[|g]]]] Hg; try lia; lra.
Qed.

Definition common : Prop := exists z, in_box2 x0 t0 r0 z /\ in_box2 x1 t1 r1 z.

Lemma sat_complete : (forall g, (g < 4)%nat -> gapf g <= 0) -> common.
Proof.
  intros G. apply bx_gap in G.
  destruct H0 as [Ha Hb], H1 as [Hc Hd].
  destruct (meet_all (fst r0) (snd r0) (fst r1) (snd r1) Ha Hb Hc Hd C S _ _ bx_unit G) as (X & Y & B1 & B2 & B3 & B4).
  exists (vadd x0 (vadd (vscale X e0) (vscale Y e1))).
  assert (D : vsub (vadd x0 (vadd (vscale X e0) (vscale Y e1))) x0 = vadd (vscale X e0) (vscale Y e1)).
  { unfold vsub, vadd, vscale. cbn [fst snd]. f_equal; ring. }
  assert (D' : vsub (vadd x0 (vadd (vscale X e0) (vscale Y e1))) x1 = vsub (vadd (vscale X e0) (vscale Y e1)) p).
  { unfold p, vsub, vadd, vscale. cbn [fst snd]. f_equal; ring. }
  destruct (on2_rot t0) as (O1 & O2 & O3). fold M0 e0 e1 in O1, O2, O3.
  unfold in_box2. change (axis_x t0) with e0. change (axis_y t0) with e1. change (axis_x t1) with b0. change (axis_y t1) with b1.
  rewrite D, D'. rewrite !vdot_sub, !vdot_add, !vdot_scale, bx_10, bx_11, O1, O2, (vdot_comm e1 e0), O3. fold C S.
  split; split; apply abs_in; lra.
Qed.

Lemma abs_combo : forall a b u v h k, Rabs u <= h -> Rabs v <= k -> Rabs (a * u + b * v) <= Rabs a * h + Rabs b * k.
Proof.
  intros a b u v h k Hu Hv. apply Rle_trans with (1 := Rabs_triang _ _). rewrite !Rabs_mult.
  apply Rplus_le_compat; apply Rmult_le_compat_l; try apply Rabs_pos; assumption.
Qed.

(* how far box 0 and box 1 reach along a direction *)
Lemma reach0 : forall u z, in_box2 x0 t0 r0 z ->
  Rabs (vdot u (vsub z x0)) <= Rabs (vdot u e0) * fst r0 + Rabs (vdot u e1) * snd r0.
Proof.
  intros u z [A B]. rewrite (on2_parseval e0 e1 (on2_rot t0) u), !(vdot_comm _ u).
  apply abs_combo; rewrite (vdot_comm _ (vsub z x0)) in *; rewrite (vdot_comm (vsub z x0)); assumption.
Qed.
Lemma reach1 : forall u z, in_box2 x1 t1 r1 z ->
  Rabs (vdot u (vsub z x1)) <= Rabs (vdot u b0) * fst r1 + Rabs (vdot u b1) * snd r1.
Proof.
  intros u z [A B]. rewrite (on2_parseval b0 b1 (on2_rot t1) u), !(vdot_comm _ u).
  apply abs_combo; rewrite (vdot_comm _ (vsub z x1)) in *; rewrite (vdot_comm (vsub z x1)); assumption.
Qed.

(* a direction along which the centres are further apart than the reaches separates *)
Lemma reach_separates : forall u,
  Rabs (vdot u e0) * fst r0 + Rabs (vdot u e1) * snd r0 + (Rabs (vdot u b0) * fst r1 + Rabs (vdot u b1) * snd r1) < vdot u p ->
  separated_by u (in_box2 x0 t0 r0) (in_box2 x1 t1 r1).
Proof.
  intros u L.
  set (f0 := Rabs (vdot u e0) * fst r0 + Rabs (vdot u e1) * snd r0) in *.
  set (f1 := Rabs (vdot u b0) * fst r1 + Rabs (vdot u b1) * snd r1) in *.
  unfold p in L. rewrite vdot_sub in L.
  exists (/ 2 * (vdot u x0 + f0 + (vdot u x1 - f1))). split.
  - intros z Hz. pose proof (abs_inv _ _ (reach0 u z Hz)) as A. fold f0 in A. rewrite vdot_sub in A. lra.
  - intros z Hz. pose proof (abs_inv _ _ (reach1 u z Hz)) as A. fold f1 in A. rewrite vdot_sub in A. lra.
Qed.

Lemma axis_reach : forall g, exists u, (u = mcol M0 g \/ u = mcol M1 (g - 2)) /\ ((g < 4)%nat ->
  (face_normal t0 u \/ face_normal t1 u) /\ dist_of x0 M0 x1 M1 g = vdot u p /\
  width_of M0 r0 M1 r1 g = Rabs (vdot u e0) * fst r0 + Rabs (vdot u e1) * snd r0 + (Rabs (vdot u b0) * fst r1 + Rabs (vdot u b1) * snd r1)).
Proof.
  destruct (on2_rot t0) as (O1 & O2 & O3). fold M0 e0 e1 in O1, O2, O3.
  destruct (on2_rot t1) as (Q1 & Q2 & Q3). fold M1 b0 b1 in Q1, Q2, Q3.
  assert (Z : forall a, Rabs 0 * a = 0) by (intros; rewrite Rabs_R0; ring).
  assert (I : forall a, Rabs 1 * a = a) by (intros; rewrite Rabs_R1; ring).
  intros [|[|[|[|g]]]].
  - exists e0. split; [left; reflexivity|]. intros _. split; [left; left; reflexivity|]. split; [reflexivity|].
    unfold width_of. cbn [mcol]. fold e0 e1 b0 b1. rewrite O1, O3, Z, I. ring.
  - exists e1. split; [left; reflexivity|]. intros _. split; [left; right; right; left; reflexivity|]. split; [reflexivity|].
    unfold width_of. cbn [mcol]. fold e0 e1 b0 b1. rewrite O2, (vdot_comm e1 e0), O3, Z, I. ring.
  - exists b0. split; [right; reflexivity|]. intros _. split; [right; left; reflexivity|]. split; [reflexivity|].
    unfold width_of. cbn [mcol]. fold e0 e1 b0 b1. rewrite Q1, Q3, Z, I, (vdot_comm b0 e0), (vdot_comm b0 e1). ring.
  - exists b1. split; [right; reflexivity|]. intros _. split; [right; right; right; left; reflexivity|]. split; [reflexivity|].
    unfold width_of. cbn [mcol]. fold e0 e1 b0 b1.
    rewrite Q2, (vdot_comm b1 b0), Q3, Z, I, (vdot_comm b1 e0), (vdot_comm b1 e1). ring.
  - exists b1. split; [right; reflexivity|]. lia.
Qed.

Lemma face_neg : forall t u, face_normal t u -> face_normal t (vneg u).
Proof.
  assert (V : forall v : vec, vneg (vneg v) = v).
  { intros [a b]. unfold vneg. cbn [fst snd]. f_equal; ring. }
  intros t u [->|[->|[->| ->]]]; unfold face_normal; rewrite ?V; auto.
Qed.

Lemma gap_separates : forall g, (g < 4)%nat -> 0 < gapf g ->
  exists u, (face_normal t0 u \/ face_normal t1 u) /\ separated_by u (in_box2 x0 t0 r0) (in_box2 x1 t1 r1).
Proof.
  intros g Hg L. destruct (axis_reach g) as (u & _ & K). destruct (K Hg) as (F & D & W).
  unfold gapf, gap in L. rewrite D, W in L.
  unfold Rabs at 1 in L. destruct (Rcase_abs (vdot u p)) as [N|N] in L.
  - exists (vneg u). split; [destruct F; [left|right]; apply face_neg; assumption|].
    apply reach_separates. rewrite !vdot_neg_l, !Rabs_Ropp. lra.
  - exists u. split; [exact F|]. apply reach_separates. lra.
Qed.

Lemma separated_disjoint : forall u, separated_by u (in_box2 x0 t0 r0) (in_box2 x1 t1 r1) -> ~ common.
Proof. intros u (c & A & B) (z & Z0 & Z1). specialize (A z Z0). specialize (B z Z1). lra. Qed.

(* ---------- what each contact point is ---------- *)
Lemma inb0 : forall z, in_box2 x0 t0 r0 z <-> inb x0 e0 e1 (fst r0) (snd r0) z.
Proof. intros z. reflexivity. Qed.
End boxes.
