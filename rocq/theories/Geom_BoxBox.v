(* What the box-box test returns. *)
From Coq Require Import List Reals Arith Bool Lra Lia Psatz.
From Verif Require Import Outcome Ccd_Model Lin_Model Geom_Model Geom_Spec Geom_Circle Geom_Boxes Geom_Clip Geom_Sat.
Import ListNotations.
Open Scope R_scope.

(* signed gap along a direction u: centre distance minus the reaches of the two boxes *)
Definition reach (M : m2) (r u : vec) : R := Rabs (vdot u (fst M)) * fst r + Rabs (vdot u (snd M)) * snd r.
Definition gap_along (xa : vec) (Ma : m2) (ra xb : vec) (Mb : m2) (rb u : vec) : R :=
  Rabs (vdot u (vsub xb xa)) - (reach Ma ra u + reach Mb rb u).

Lemma reach_neg : forall M r u, reach M r (vneg u) = reach M r u.
Proof. intros. unfold reach. rewrite !vdot_neg_l, !Rabs_Ropp. reflexivity. Qed.
Lemma reach_at : forall M r u i, (i < 2)%nat ->
  reach M r u = Rabs (vdot u (mcol M i)) * at2 r i + Rabs (vdot u (mcol M (1 - i))) * at2 r (1 - i).
Proof. intros M r u [|[|i]] H; try lia; unfold reach; cbn [mcol at2 Nat.sub]; ring. Qed.
Lemma gap_along_neg : forall xa Ma ra xb Mb rb u,
  gap_along xa Ma ra xb Mb rb (vneg u) = gap_along xa Ma ra xb Mb rb u.
Proof. intros. unfold gap_along. rewrite !reach_neg, vdot_neg_l, Rabs_Ropp. reflexivity. Qed.
Lemma gap_along_swap : forall xa Ma ra xb Mb rb u,
  gap_along xb Mb rb xa Ma ra u = gap_along xa Ma ra xb Mb rb u.
Proof.
  intros. unfold gap_along. replace (vdot u (vsub xa xb)) with (- vdot u (vsub xb xa))
    by (unfold vdot, vsub; cbn [fst snd]; ring). rewrite Rabs_Ropp. ring.
Qed.
Lemma gap_is_along : forall x0 t0 r0 x1 t1 r1 g, (g < 4)%nat ->
  gap x0 (rotation2 t0) r0 x1 (rotation2 t1) r1 g
  = gap_along x0 (rotation2 t0) r0 x1 (rotation2 t1) r1
      (if Nat.ltb g 2 then mcol (rotation2 t0) g else mcol (rotation2 t1) (g - 2)).
Proof.
  intros x0 t0 r0 x1 t1 r1 g Hg.
  destruct (on2_rot t0) as (O1 & O2 & O3). destruct (on2_rot t1) as (Q1 & Q2 & Q3).
  set (M0 := rotation2 t0) in *. set (M1 := rotation2 t1) in *.
  assert (Z : forall a, Rabs 0 * a = 0) by (intros; rewrite Rabs_R0; ring).
  assert (I : forall a, Rabs 1 * a = a) by (intros; rewrite Rabs_R1; ring).
  unfold gap, gap_along, reach.
  destruct g as [|[|[|[|g]]]]; try lia; cbn [Nat.ltb Nat.leb Nat.sub mcol dist_of]; f_equal; unfold width_of; cbn [mcol].
  - rewrite O1, O3, Z, I. ring.
  - rewrite O2, (vdot_comm (snd M0) (fst M0)), O3, Z, I. ring.
  - rewrite Q1, Q3, Z, I, (vdot_comm (fst M1) (fst M0)), (vdot_comm (fst M1) (snd M0)). ring.
  - rewrite Q2, (vdot_comm (snd M1) (fst M1)), Q3, Z, I, (vdot_comm (snd M1) (fst M0)), (vdot_comm (snd M1) (snd M0)). ring.
Qed.

Lemma face_col : forall t i, face_normal t (mcol (rotation2 t) i).
Proof. intros t [|i]; [left; reflexivity|right; right; left; reflexivity]. Qed.
Lemma face_cols : forall t i m, (i < 2)%nat -> face_normal t m ->
  (m = mcol (rotation2 t) i \/ m = vneg (mcol (rotation2 t) i)) \/
  (m = mcol (rotation2 t) (1 - i) \/ m = vneg (mcol (rotation2 t) (1 - i))).
Proof.
  intros t [|[|i]] m H F; try lia; destruct F as [->|[->|[->| ->]]]; cbn [mcol Nat.sub]; unfold rotation2; cbn [fst snd];
    fold (axis_x t) (axis_y t); auto.
Qed.

Lemma inb_at : forall x t r i z, (i < 2)%nat ->
  in_box2 x t r z <-> inb x (mcol (rotation2 t) i) (mcol (rotation2 t) (1 - i)) (at2 r i) (at2 r (1 - i)) z.
Proof.
  intros x t r [|[|i]] z H; try lia; cbn [mcol at2 Nat.sub]; unfold in_box2, inb, rotation2; cbn [fst snd];
    fold (axis_x t) (axis_y t); tauto.
Qed.
Lemma inb_neg : forall x e0 e1 h0 h1 z, inb x (vneg e0) e1 h0 h1 z <-> inb x e0 e1 h0 h1 z.
Proof. intros. unfold inb. rewrite vdot_neg_l, Rabs_Ropp. reflexivity. Qed.
Lemma outward_ext : forall (A B : vec -> Prop) z n, (forall y, A y <-> B y) -> outward_normal A z n -> outward_normal B z n.
Proof. intros A B z n H (P & Q). split; [apply H; exact P|]. intros y Hy. apply Q, H. exact Hy. Qed.

Section clip_spec.
Variables (xa : vec) (ta : R) (ra xb : vec) (tb : R) (rb : vec) (ia : nat) (n2 : vec).
Let Ma := rotation2 ta.
Let Mb := rotation2 tb.
Let G u := gap_along xa Ma ra xb Mb rb u.
Hypothesis Hia : (ia < 2)%nat.
Hypothesis Hn2 : n2 = mcol Ma ia \/ n2 = vneg (mcol Ma ia).
Hypothesis Hra : 0 <= fst ra /\ 0 <= snd ra.
Hypothesis Hrb : 0 <= fst rb /\ 0 <= snd rb.
Hypothesis Hp : 0 <= vdot n2 (vsub xb xa).
Hypothesis Hg : G n2 <= 0.
Hypothesis Hm : forall u, face_normal ta u \/ face_normal tb u -> G u <= G n2.

Lemma at2_nn : forall (r : vec) i, 0 <= fst r /\ 0 <= snd r -> 0 <= at2 r i.
Proof. intros r [|i] [A B]; cbn [at2]; assumption. Qed.

Lemma cs_spec : clip xa Ma ra xb Mb rb ia n2 <> []
  /\ forall q, In q (clip xa Ma ra xb Mb rb ia n2) -> face_contact xa ta ra xb tb rb n2 q.
Proof.
  destruct (clip_is xa Ma ra xb Mb rb ia n2) as (ib & Hib & Big & ->).
  set (t := mcol Ma (1 - ia)). set (u := mcol Mb ib) in *. set (w := mcol Mb (1 - ib)) in *.
  assert (Fa : on2 n2 t).
  { destruct Hn2 as [-> | ->]; [|apply on2_neg]; apply on2_cols. }
  assert (Fb : on2 u w) by apply on2_cols.
  destruct Fa as (Fa1 & Fa2 & Fa3) eqn:EFa. destruct Fb as (Fb1 & Fb2 & Fb3) eqn:EFb.
  assert (Fn : face_normal ta n2) by (destruct Hn2 as [-> | ->]; [|apply face_neg]; apply face_col).
  assert (Mi : forall v, Rabs (vdot v (mcol Ma ia)) = Rabs (vdot v n2)).
  { intros v. destruct Hn2 as [-> | ->]; [reflexivity|].
    rewrite !(vdot_comm v), vdot_neg_l, Rabs_Ropp. reflexivity. }
  assert (Ra : forall v, reach Ma ra v = Rabs (vdot v n2) * at2 ra ia + Rabs (vdot v t) * at2 ra (1 - ia)).
  { intros v. rewrite (reach_at Ma ra v ia Hia), Mi. reflexivity. }
  assert (Rb : forall v, reach Mb rb v = Rabs (vdot v u) * at2 rb ib + Rabs (vdot v w) * at2 rb (1 - ib)).
  { intros v. apply (reach_at Mb rb v ib Hib). }
  assert (Z : forall a, Rabs 0 * a = 0) by (intros; rewrite Rabs_R0; ring).
  assert (I : forall a, Rabs 1 * a = a) by (intros; rewrite Rabs_R1; ring).
  assert (Gn : G n2 = vdot n2 (vsub xb xa) - at2 ra ia - at2 rb ib * Rabs (vdot u n2) - at2 rb (1 - ib) * Rabs (vdot w n2)).
  { unfold G, gap_along. rewrite Ra, Rb, Fa1, Fa3, Z, I, (Rabs_pos_eq _ Hp), (vdot_comm n2 u), (vdot_comm n2 w). ring. }
  assert (Gt : G t = Rabs (vdot t (vsub xb xa)) - (at2 ra (1 - ia) + at2 rb ib * Rabs (vdot t u) + at2 rb (1 - ib) * Rabs (vdot t w))).
  { unfold G, gap_along. rewrite Ra, Rb, Fa2, (vdot_comm t n2), Fa3, Z, I. ring. }
  assert (Gu : G u = Rabs (vdot u (vsub xb xa)) - (at2 rb ib + at2 ra ia * Rabs (vdot u n2) + at2 ra (1 - ia) * Rabs (vdot t u))).
  { unfold G, gap_along. rewrite Ra, Rb, Fb1, Fb3, Z, I, (vdot_comm u t). ring. }
  assert (Gw : G w = Rabs (vdot w (vsub xb xa)) - at2 rb (1 - ib) - at2 ra ia * Rabs (vdot w n2) - at2 ra (1 - ia) * Rabs (vdot t w)).
  { unfold G, gap_along. rewrite Ra, Rb, Fb2, (vdot_comm w u), Fb3, Z, I, (vdot_comm w t). ring. }
  assert (Ht : G t <= G n2) by (apply Hm; left; apply face_col).
  assert (Hu : G u <= G n2) by (apply Hm; right; apply face_col).
  assert (Hw : G w <= G n2) by (apply Hm; right; apply face_col).
  assert (HN : vdot n2 (vsub xb xa) - at2 ra ia - at2 rb ib * Rabs (vdot u n2) - at2 rb (1 - ib) * Rabs (vdot w n2) <= 0) by lra.
  assert (HT : Rabs (vdot t (vsub xb xa)) <= at2 ra (1 - ia) + at2 rb ib * Rabs (vdot t u) + at2 rb (1 - ib) * Rabs (vdot t w)) by lra.
  assert (HU : Rabs (vdot u (vsub xb xa)) <= at2 rb ib + at2 ra ia * Rabs (vdot u n2) + at2 ra (1 - ia) * Rabs (vdot t u)) by lra.
  assert (HW : Rabs (vdot w (vsub xb xa)) - at2 rb (1 - ib) - at2 ra ia * Rabs (vdot w n2) - at2 ra (1 - ia) * Rabs (vdot t w)
     <= vdot n2 (vsub xb xa) - at2 ra ia - at2 rb ib * Rabs (vdot u n2) - at2 rb (1 - ib) * Rabs (vdot w n2)) by lra.
  split.
  - apply cl_nonempty; try assumption; try (apply at2_nn; assumption).
  - intros q Hq.
    apply cl_points in Hq; try assumption; try (apply at2_nn; assumption).
    destruct Hq as (za & zb & m & d & D & OA & OB & Neg & Mu & Mw & E & Q).
    split; [exact Fn|].
    exists za, zb, m, d. split; [exact D|]. split.
    { revert OA. apply outward_ext. intros y. rewrite (inb_at xa ta ra ia y Hia).
      destruct Hn2 as [-> | ->]; [reflexivity|apply inb_neg]. }
    assert (Fm : face_normal tb m).
    { destruct Mu as [-> | ->]; [|apply face_neg]; apply face_col. }
    split; [exact Fm|]. split.
    { intros m' Hm'. pose proof (Rabs_pos (vdot u n2)).
      assert (Am : vdot m n2 = - Rabs (vdot u n2)).
      { rewrite <- (Rabs_left _ Neg) at 1 || idtac.
        destruct Mu as [-> | ->].
        - rewrite Rabs_left by exact Neg. ring.
        - rewrite vdot_neg_l in Neg |- *. rewrite Rabs_right by lra. reflexivity. }
      rewrite Am.
      destruct (face_cols tb ib m' Hib Hm') as [[-> | ->]|[-> | ->]]; rewrite ?vdot_neg_l; fold Mb; fold u w;
        [pose proof (abs_inv (vdot u n2) _ (Rle_refl _))|pose proof (abs_inv (vdot u n2) _ (Rle_refl _))
        |pose proof (abs_inv (vdot w n2) _ (Rle_refl _))|pose proof (abs_inv (vdot w n2) _ (Rle_refl _))]; lra. }
    split; [|split; [exact E|exact Q]].
    revert OB. apply outward_ext. intros y. symmetry. apply (inb_at xb tb rb ib y Hib).
Qed.
End clip_spec.

(* ---------- C36 ---------- *)
Lemma vscale_m1 : forall v : vec, vscale (-1) v = vneg v.
Proof. intros [a b]. unfold vscale, vneg. cbn [fst snd]. f_equal; ring. Qed.
Lemma vneg_vneg : forall v : vec, vneg (vneg v) = v.
Proof. intros [a b]. unfold vneg. cbn [fst snd]. f_equal; ring. Qed.

Lemma contact_len : forall xa Ra ra xb Rb rb ia n2, (length (clip xa Ra ra xb Rb rb ia n2) <= 2)%nat.
Proof.
  intros. destruct (clip_is xa Ra ra xb Rb rb ia n2) as (ib & _ & _ & ->). unfold clip_with.
  match goal with |- context [if Req_EM_T ?a ?b then _ else _] => destruct (Req_EM_T a b) end;
    rewrite ?app_length;
    repeat match goal with |- context [if Rltb ?a 0 then [] else [_]] => destruct (Rltb a 0) end; cbn [length]; lia.
Qed.

(* the furthest point of a box along u *)
Lemma box_extreme : forall x t r u, 0 <= fst r /\ 0 <= snd r ->
  exists p, in_box2 x t r p /\ vdot u (vsub p x) = reach (rotation2 t) r u.
Proof.
  intros x t r u [Hx Hy]. pose proof (sin2_cos2 t) as U. unfold Rsqr in U.
  pose (sg := fun a w : R => if Rle_dec 0 a then w else - w).
  assert (Sm : forall a w, a * sg a w = Rabs a * w).
  { intros a w. unfold sg, Rabs. destruct (Rle_dec 0 a), (Rcase_abs a); lra. }
  assert (Sb : forall a w, 0 <= w -> - w <= sg a w <= w).
  { intros a w H. unfold sg. destruct (Rle_dec 0 a); lra. }
  set (e0 := fst (rotation2 t)) in *. set (e1 := snd (rotation2 t)) in *.
  set (a := sg (vdot u e0) (fst r)). set (b := sg (vdot u e1) (snd r)).
  exists (vadd x (vadd (vscale a e0) (vscale b e1))).
  replace (vsub (vadd x (vadd (vscale a e0) (vscale b e1))) x) with (vadd (vscale a e0) (vscale b e1))
    by (destruct x; unfold vsub, vadd; cbn [fst snd]; f_equal; ring).
  split.
  - unfold in_box2. replace (vsub (vadd x (vadd (vscale a e0) (vscale b e1))) x) with (vadd (vscale a e0) (vscale b e1))
      by (destruct x; unfold vsub, vadd; cbn [fst snd]; f_equal; ring).
    split; apply abs_in.
    + replace (vdot (axis_x t) (vadd (vscale a e0) (vscale b e1))) with ((sin t * sin t + cos t * cos t) * a)
        by (unfold e0, e1, axis_x, rotation2, vdot, vadd, vscale; cbn [fst snd]; ring).
      rewrite U, Rmult_1_l. apply Sb. exact Hx.
    + replace (vdot (axis_y t) (vadd (vscale a e0) (vscale b e1))) with ((sin t * sin t + cos t * cos t) * b)
        by (unfold e0, e1, axis_y, rotation2, vdot, vadd, vscale; cbn [fst snd]; ring).
      rewrite U, Rmult_1_l. apply Sb. exact Hy.
  - transitivity (vdot u e0 * a + vdot u e1 * b); [unfold vdot, vadd, vscale; cbn [fst snd]; ring|].
    unfold a, b, reach. rewrite !Sm. reflexivity.
Qed.
Lemma overlap_exact : forall x0 t0 r0 x1 t1 r1 u, 0 <= fst r0 /\ 0 <= snd r0 -> 0 <= fst r1 /\ 0 <= snd r1 ->
  overlap_is u (in_box2 x0 t0 r0) (in_box2 x1 t1 r1) (reach (rotation2 t0) r0 u + reach (rotation2 t1) r1 u - vdot u (vsub x1 x0)).
Proof.
  intros x0 t0 r0 x1 t1 r1 u H0 H1. split.
  - destruct (box_extreme x0 t0 r0 u H0) as (p & Ip & Ep). destruct (box_extreme x1 t1 r1 (vneg u) H1) as (q & Iq & Eq).
    exists p, q. split; [exact Ip|]. split; [exact Iq|]. rewrite reach_neg, vdot_neg_l in Eq.
    rewrite <- Ep, <- Eq. unfold vdot, vsub. cbn [fst snd]. ring.
  - intros p q Ip Iq. pose proof (abs_inv _ _ (reach0 x0 t0 r0 u p Ip)) as A. pose proof (abs_inv _ _ (reach0 x1 t1 r1 u q Iq)) as B.
    change (- reach (rotation2 t0) r0 u <= vdot u (vsub p x0) <= reach (rotation2 t0) r0 u) in A.
    change (- reach (rotation2 t1) r1 u <= vdot u (vsub q x1) <= reach (rotation2 t1) r1 u) in B.
    replace (vdot u (vsub p q)) with (vdot u (vsub p x0) - vdot u (vsub q x1) - vdot u (vsub x1 x0)); [lra|].
    unfold vdot, vsub. cbn [fst snd]. ring.
Qed.
Lemma overlap_unique : forall u S T d e, overlap_is u S T d -> overlap_is u S T e -> d = e.
Proof.
  intros u S T d e ((p & q & P & Q & E) & A) ((p' & q' & P' & Q' & E') & A').
  pose proof (A p' q' P' Q'). pose proof (A' p q P Q). lra.
Qed.

Theorem box_box_spec : forall x0 t0 r0 x1 t1 r1,
  0 <= fst r0 /\ 0 <= snd r0 -> 0 <= fst r1 /\ 0 <= snd r1 ->
  match box_box x0 t0 r0 x1 t1 r1 with
  | Ok None =>
      ~ (exists z, in_box2 x0 t0 r0 z /\ in_box2 x1 t1 r1 z)
      /\ exists u, (face_normal t0 u \/ face_normal t1 u) /\ separated_by u (in_box2 x0 t0 r0) (in_box2 x1 t1 r1)
  | Ok (Some (n, points)) =>
      (exists z, in_box2 x0 t0 r0 z /\ in_box2 x1 t1 r1 z)
      /\ vdot n n = 1
      /\ (exists d, 0 <= d /\ overlap_is (vneg n) (in_box2 x0 t0 r0) (in_box2 x1 t1 r1) d
            /\ forall u e, face_normal t0 u \/ face_normal t1 u ->
                 overlap_is u (in_box2 x0 t0 r0) (in_box2 x1 t1 r1) e -> d <= e)
      /\ points <> [] /\ (length points <= 2)%nat
      /\ ((forall q, In q points -> face_contact x0 t0 r0 x1 t1 r1 (vneg n) q)
          \/ (forall q, In q points -> face_contact x1 t1 r1 x0 t0 r0 n q))
  | Exit | UB => False
  end.
Proof.
  intros x0 t0 r0 x1 t1 r1 H0 H1. unfold box_box.
  pose proof (axis_tests_spec x0 (rotation2 t0) r0 x1 (rotation2 t1) r1) as S.
  destruct (axis_tests x0 (rotation2 t0) r0 x1 (rotation2 t1) r1) as [[[[pen inv] f]|]|].
  - destruct S as (F & Pen & Inv & S).
    split; [apply (sat_complete x0 t0 r0 x1 t1 r1 H0 H1); intros g Hg; apply S; exact Hg|].
    set (n := if Nat.leb f 1 then mcol (rotation2 t0) f else mcol (rotation2 t1) (f - 2)).
    set (n' := if inv then vscale (-1) n else n).
    assert (Nn : face_normal t0 n \/ face_normal t1 n).
    { unfold n. destruct (Nat.leb f 1); [left|right]; apply face_col. }
    assert (N1 : vdot n n = 1).
    { unfold n. destruct (Nat.leb f 1); apply on2_cols. }
    assert (Dn : dist_of x0 (rotation2 t0) x1 (rotation2 t1) f = vdot n (vsub x1 x0)).
    { unfold n. destruct f as [|[|[|[|f]]]]; try lia; reflexivity. }
    rewrite Dn in Inv.
    assert (N'e : n' = n \/ n' = vneg n) by (unfold n'; destruct inv; [right; apply vscale_m1|left; reflexivity]).
    assert (N'1 : vdot n' n' = 1).
    { destruct N'e as [-> | ->]; [exact N1|]. rewrite <- N1. destruct n. unfold vdot, vneg. cbn [fst snd]. ring. }
    assert (Hp : 0 <= vdot n' (vsub x1 x0)).
    { unfold n'. rewrite Inv. destruct (Rltb_spec (vdot n (vsub x1 x0)) 0) as [L|L]; [|lra].
      rewrite vscale_m1, vdot_neg_l. lra. }
    set (G := gap_along x0 (rotation2 t0) r0 x1 (rotation2 t1) r1).
    assert (Gf : gap x0 (rotation2 t0) r0 x1 (rotation2 t1) r1 f = G n').
    { rewrite (gap_is_along _ _ _ _ _ _ f F). fold G.
      replace (if Nat.ltb f 2 then mcol (rotation2 t0) f else mcol (rotation2 t1) (f - 2)) with n by reflexivity.
      destruct N'e as [-> | ->]; [reflexivity|]. symmetry. apply gap_along_neg. }
    assert (Hg : G n' <= 0) by (rewrite <- Gf; apply S; exact F).
    assert (Hm : forall u, face_normal t0 u \/ face_normal t1 u -> G u <= G n').
    { assert (B : forall g, (g < 4)%nat -> G (if Nat.ltb g 2 then mcol (rotation2 t0) g else mcol (rotation2 t1) (g - 2)) <= G n').
      { intros g Hgg. unfold G at 1. rewrite <- (gap_is_along _ _ _ _ _ _ g Hgg), <- Gf. 
        rewrite <- Pen. apply S. exact Hgg. }
      pose proof (B 0%nat ltac:(lia)) as B0. pose proof (B 1%nat ltac:(lia)) as B1.
      pose proof (B 2%nat ltac:(lia)) as B2. pose proof (B 3%nat ltac:(lia)) as B3.
      cbn [Nat.ltb Nat.leb mcol Nat.sub] in B0, B1, B2, B3.
      assert (Gneg : forall v, G (vneg v) = G v) by (intros; apply gap_along_neg).
      intros u [[->|[->|[->| ->]]]|[->|[->|[->| ->]]]]; rewrite ?Gneg; assumption. }
    split.
    { rewrite vscale_m1, vdot_neg_l, vdot_comm, vdot_neg_l, Ropp_involutive. exact N'1. }
    split.
    { exists (- G n'). split; [lra|]. rewrite vscale_m1, vneg_vneg. split.
      - replace (- G n') with (reach (rotation2 t0) r0 n' + reach (rotation2 t1) r1 n' - vdot n' (vsub x1 x0)).
        + apply overlap_exact; assumption.
        + unfold G, gap_along. rewrite (Rabs_pos_eq _ Hp). ring.
      - intros u e Fu Oe. rewrite (overlap_unique _ _ _ _ _ Oe (overlap_exact x0 t0 r0 x1 t1 r1 u H0 H1)).
        pose proof (Hm u Fu) as K. unfold G at 1, gap_along in K. pose proof (Rle_abs (vdot u (vsub x1 x0))). lra. }
    rewrite vscale_m1.
    destruct (Nat.leb f 1) eqn:Ef.
    + assert (Hf : (f < 2)%nat) by (apply Nat.leb_le in Ef; lia).
      destruct (cs_spec x0 t0 r0 x1 t1 r1 f n' Hf N'e H0 H1 Hp Hg Hm) as [Ne Pts].
      split; [exact Ne|]. split; [apply contact_len|]. left. rewrite vneg_vneg. exact Pts.
    + assert (Hf : (f - 2 < 2)%nat) by lia.
      assert (N2e : vneg n' = mcol (rotation2 t1) (f - 2) \/ vneg n' = vneg (mcol (rotation2 t1) (f - 2))).
      { fold n. destruct N'e as [-> | ->]; [right; reflexivity|left; apply vneg_vneg]. }
      assert (Hp' : 0 <= vdot (vneg n') (vsub x0 x1)).
      { replace (vdot (vneg n') (vsub x0 x1)) with (vdot n' (vsub x1 x0)); [exact Hp|].
        unfold vdot, vneg, vsub. cbn [fst snd]. ring. }
      assert (Sw : forall v, gap_along x1 (rotation2 t1) r1 x0 (rotation2 t0) r0 v = G v) by (intros; apply gap_along_swap).
      assert (Gneg : forall v, G (vneg v) = G v) by (intros; apply gap_along_neg).
      destruct (cs_spec x1 t1 r1 x0 t0 r0 (f - 2) (vneg n') Hf N2e H1 H0 Hp') as [Ne Pts].
      { rewrite Sw, Gneg. exact Hg. }
      { intros u Hu. rewrite !Sw, Gneg. apply Hm. tauto. }
      split; [exact Ne|]. split; [apply contact_len|]. right. exact Pts.
  - exact S.
  - destruct S as (g & Hg & L).
    destruct (gap_separates x0 t0 r0 x1 t1 r1 g Hg L) as (u & Fu & Su).
    split; [|exists u; split; assumption].
    apply (separated_disjoint x0 t0 r0 x1 t1 r1 u Su).
Qed.
