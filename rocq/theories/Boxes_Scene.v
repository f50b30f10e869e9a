(* The contacts of the boxes of a scene. *)
From Coq Require Import List Reals Arith NArith Bool Lra Lia.
From Verif Require Import Outcome Ccd_Model Ccd_Spec ContactRb2_Model ContactRb3_Model Rot_Model Rot_Spec Rot_Alg Lin_Model Geom_Model Geom_Spec Geom_Sets Geom_Circle Geom_Space Geom_Aabb
  Wall_Model Wall_Spec Narrow_Model Boxes_Model Boxes_Spec Boxes_All Narrow_Spec Narrow_Proofs Narrow_Thms Narrow_Space Narrow_Total Narrow_Ex.
Import ListNotations.
Local Open Scope R_scope.

Lemma nudge : forall a b w, Rabs a < w -> exists e0, 0 < e0 /\ forall e, 0 < e <= e0 -> Rabs (a + e * b) < w.
Proof.
  intros a b w H. pose proof (Rabs_pos b) as B. exists ((w - Rabs a) / (Rabs b + 1)). split.
  - apply Rdiv_lt_0_compat; lra.
  - intros e [E0 E1]. eapply Rle_lt_trans; [apply Rabs_triang|]. rewrite Rabs_mult, (Rabs_pos_eq e) by lra.
    assert (e * (Rabs b + 1) <= w - Rabs a).
    { apply (Rmult_le_compat_r (Rabs b + 1)) in E1; [|lra]. unfold Rdiv in E1. rewrite Rmult_assoc, Rinv_l, Rmult_1_r in E1 by lra. exact E1. }
    lra.
Qed.
Lemma step_in : forall u x z y e, dot3 u (sub3 (add3 z (scale3 e (sub3 y z))) x) = dot3 u (sub3 z x) + e * dot3 u (sub3 y z).
Proof. intros [u0 u1 u2] [a b c] [p q r] [s t v] e. unfold dot3, sub3, add3, scale3. cbn [c0 c1 c2]. ring. Qed.
Lemma step_to : forall u x z e, dot3 u (sub3 (add3 z (scale3 e (sub3 x z))) x) = (1 - e) * dot3 u (sub3 z x).
Proof. intros [u0 u1 u2] [a b c] [p q r] e. unfold dot3, sub3, add3, scale3. cbn [c0 c1 c2]. ring. Qed.
(* a common point inside the first box gives one inside the second *)
Lemma deep_swap : forall x1 A1 w1 x2 A2 w2, positive3 w2 ->
  (exists z, deep_in x1 A1 w1 z /\ in_box3 x2 A2 w2 z) -> exists z, in_box3 x1 A1 w1 z /\ deep_in x2 A2 w2 z.
Proof.
  intros x1 A1 w1 x2 A2 w2 (W0 & W1 & W2) (z & (D0 & D1 & D2) & (B0 & B1 & B2)).
  destruct (nudge _ (dot3 (row0 (tr A1)) (sub3 x2 z)) _ D0) as (e0 & P0 & H0).
  destruct (nudge _ (dot3 (row1 (tr A1)) (sub3 x2 z)) _ D1) as (e1 & P1 & H1).
  destruct (nudge _ (dot3 (row2_ (tr A1)) (sub3 x2 z)) _ D2) as (e2 & P2 & H2).
  set (e := Rmin 1 (Rmin e0 (Rmin e1 e2))).
  pose proof (Rmin_l 1 (Rmin e0 (Rmin e1 e2))) as L. pose proof (Rmin_r 1 (Rmin e0 (Rmin e1 e2))) as R0.
  pose proof (Rmin_l e0 (Rmin e1 e2)) as L0. pose proof (Rmin_r e0 (Rmin e1 e2)) as R1.
  pose proof (Rmin_l e1 e2) as L1. pose proof (Rmin_r e1 e2) as R2.
  assert (E : 0 < e) by (unfold e; repeat apply Rmin_pos; lra). fold e in L, R0.
  exists (add3 z (scale3 e (sub3 x2 z))). split.
  - unfold in_box3. rewrite !step_in. repeat split; apply Rlt_le; [apply H0|apply H1|apply H2]; lra.
  - unfold deep_in. rewrite !step_to, !Rabs_mult, (Rabs_pos_eq (1 - e)) by lra.
    assert (K : forall a w, 0 < w -> 0 <= a <= w -> (1 - e) * a < w).
    { intros a w Hw Ha. assert (0 <= e * a) by (apply Rmult_le_pos; lra). destruct (Rle_lt_or_eq_dec a w (proj2 Ha)) as [Hl|He]; [lra|].
      subst a. assert (0 < e * w) by (apply Rmult_lt_0_compat; lra). lra. }
    repeat split; apply K; try assumption; (split; [apply Rabs_pos|assumption]).
Qed.

Section Scene.
  Variables (o : narrow3) (nb : nat) (fixed : nat -> bool) (shape : nat -> shape3) (q0 q1 : dvec).
  Hypothesis Few : (N.of_nat nb <= 4294967296)%N.
  Hypothesis Sized : forall i, (i < nb)%nat -> sized3 (shape i).
  Hypothesis Turned : forall i, (i < nb)%nat -> rotation (ori3 nb q1 i).
  Hypothesis Real : n3_box_box o = box_box3.

  Theorem scene_boxes : forall planes cyls set i j v w, rb3_active_set o nb fixed shape planes cyls q0 q1 = Ok set ->
    (i < j)%nat -> (j < nb)%nat -> shape i = Box3 v -> shape j = Box3 w ->
    (in_contact pair3 set i j -> ~ (fixed i = true /\ fixed j = true) /\ overlap3 nb shape q1 i j)
    /\ (~ (fixed i = true /\ fixed j = true) ->
        (exists z, deep_in (pos3 q1 i) (ori3 nb q1 i) v z /\ in_box3 (pos3 q1 j) (ori3 nb q1 j) w z) -> in_contact pair3 set i j).
  Proof.
    intros planes cyls set i j v w E Hij Hj Si Sj. pose proof (set3_exact o nb fixed shape q0 q1 Few Sized Turned planes cyls set E) as X.
    assert (Pv : positive3 v) by (pose proof (Sized i ltac:(lia)) as P; rewrite Si in P; exact P).
    assert (Pw : positive3 w) by (pose proof (Sized j ltac:(lia)) as P; rewrite Sj in P; exact P).
    assert (Bx : forall a u p, shape a = Box3 u -> (body3_points (body_at3 nb shape q1 a) p <-> in_box3 (pos3 q1 a) (ori3 nb q1 a) u p)).
    { intros a u p Ea. unfold body3_points, body_at3. cbn [b3_shape b3_x b3_R]. rewrite Ea. reflexivity. }
    assert (Meet : forall a b u u', shape a = Box3 u -> shape b = Box3 u' -> (a < nb)%nat -> (b < nb)%nat -> overlap3 nb shape q1 a b -> bounds_meet3 nb shape q1 a b).
    { intros a b u u' Ea Eb Ha Hb (p & Pa & Pb). exists (bounds3 nb shape q1 a), (bounds3 nb shape q1 b).
      pose proof (bounds3_tight nb shape q1 a (Turned a Ha) (Sized a Ha)) as Ta. pose proof (bounds3_tight nb shape q1 b (Turned b Hb) (Sized b Hb)) as Tb.
      split; [exact Ta|]. split; [exact Tb|]. exists p. split; [apply (proj1 Ta)|apply (proj1 Tb)]; unfold reach3; [rewrite Ea|rewrite Eb]; assumption. }
    assert (Ov : forall a b u u' c, shape a = Box3 u -> shape b = Box3 u' -> (a < nb)%nat -> (b < nb)%nat -> positive3 u -> positive3 u' ->
      from_pair3 o nb fixed shape q0 q1 a b c -> ~ ~ overlap3 nb shape q1 a b).
    { intros a b u u' c Ea Eb Ha Hb Pu Pu' F N. unfold from_pair3 in F. rewrite Ea, Eb, Real in F. destruct F as (p & n & I & _).
      rewrite all_apart in I; [destruct I|apply Turned, Ha|apply Turned, Hb|exact Pu|exact Pu'|].
      intros (z & Za & Zb). apply N. exists z. split; [apply (Bx a u z Ea), Za|apply (Bx b u' z Eb), Zb]. }
    assert (Mk : forall a b u u', shape a = Box3 u -> shape b = Box3 u' -> (a < nb)%nat -> (b < nb)%nat -> positive3 u -> positive3 u' -> a <> b ->
      fixed a = false -> (fixed b = false -> (a < b)%nat) ->
      (exists z, deep_in (pos3 q1 a) (ori3 nb q1 a) u z /\ in_box3 (pos3 q1 b) (ori3 nb q1 b) u' z) -> exists c, In c set /\ pair3 c = Some (a, b)).
    { intros a b u u' Ea Eb Ha Hb Pu Pu' Ne Fa Fb D.
      pose proof (all_overlapping _ _ _ _ _ _ (Turned a Ha) (Turned b Hb) Pu Pu' D) as K.
      destruct (box_box3 (pos3 q1 a) (ori3 nb q1 a) u (pos3 q1 b) (ori3 nb q1 b) u') as [|[p n] l] eqn:Eb3; [contradiction|].
      exists (point_contact fixed q0 a b p n). assert (Pc : pair3 (point_contact fixed q0 a b p n) = Some (a, b)) by (unfold point_contact; destruct (fixed b); reflexivity).
      split; [|exact Pc]. apply (X _ _ _ Pc Ne). repeat split; try assumption.
      - apply (Meet a b u u' Ea Eb Ha Hb). destruct D as (z & (D0 & D1 & D2) & Zb). exists z. split; [apply (Bx a u z Ea)|apply (Bx b u' z Eb), Zb].
        unfold in_box3. lra.
      - unfold from_pair3. rewrite Ea, Eb, Real. exists p, n. rewrite Eb3. split; [left; reflexivity|reflexivity]. }
    split.
    - intros (c & Hc & [Pc|Pc]); apply (X c _ _ Pc ltac:(lia)) in Hc; destruct Hc as (Ha & Hb & Fa & _ & _ & F).
      + split; [intros [Y _]; congruence|]. apply Classical_Prop.NNPP. exact (Ov i j v w c Si Sj Ha Hb Pv Pw F).
      + split; [intros [_ Y]; congruence|]. apply overlap3_sym, Classical_Prop.NNPP. exact (Ov j i w v c Sj Si Ha Hb Pw Pv F).
    - intros Nf D. destruct (fixed i) eqn:Fi.
      + assert (Fj : fixed j = false) by (destruct (fixed j); [exfalso; apply Nf; split; reflexivity|reflexivity]).
        destruct (Mk j i w v Sj Si ltac:(lia) ltac:(lia) Pw Pv ltac:(lia) Fj ltac:(congruence)) as (c & Hc & Pc).
        * destruct (deep_swap _ _ _ _ _ _ Pw D) as (z & Z1 & Z2). exists z. split; assumption.
        * exists c. split; [exact Hc|right; exact Pc].
      + destruct (Mk i j v w Si Sj ltac:(lia) ltac:(lia) Pv Pw ltac:(lia) Fi ltac:(intros _; exact Hij) D) as (c & Hc & Pc).
        exists c. split; [exact Hc|left; exact Pc].
  Qed.
End Scene.

(* a scene with two cubes, the second one at (x, y, z) *)
Definition all_free (i : nat) : bool := false.
Definition boxes_only : narrow3 := {| n3_box_box := box_box3; n3_mesh_mesh := fun _ _ _ _ _ _ => [] |}.
Lemma two_cubes : forall x y z, Rabs x <= 18 -> Rabs y <= 18 -> Rabs z <= 18 ->
  exists set, rb3_active_set boxes_only 2 all_free (two cube cube) [] [] (ex_q3 0 0 0 x y z) (ex_q3 0 0 0 x y z) = Ok set
  /\ (in_contact pair3 set 0 1 -> overlap3 2 (two cube cube) (ex_q3 0 0 0 x y z) 0 1)
  /\ (Rabs x < 2 -> Rabs y < 2 -> Rabs z < 2 -> in_contact pair3 set 0 1).
Proof.
  intros x y z Hx Hy Hz. set (q := ex_q3 0 0 0 x y z).
  destruct (ex_runs3 boxes_only all_free cube cube q 0 0 0 x y z) as [[H _]|[_ (set & E)]]; try (apply abs_in; lra); try assumption; try (right; left; reflexivity).
  - exfalso. destruct H as (i & j & Hij & Hj & (_ & [U|(_ & (s & U) & _)]) & _); destruct i as [|i]; [destruct j as [|[|j]]|lia|destruct j as [|[|j]]|lia]; try lia; discriminate U.
  - exists set. split; [exact E|].
    destruct (scene_boxes boxes_only 2 all_free (two cube cube) q q ltac:(cbn; lia)) with (planes := @nil rb3_plane) (cyls := @nil rb3_cyl) (set := set) (i := 0%nat) (j := 1%nat) (v := V3 1 1 1) (w := V3 1 1 1)
      as [K1 K2]; try reflexivity; try lia; try exact E.
    + intros i _. apply ex_sized3; right; left; reflexivity.
    + intros i Hi. apply ex_rotation3, Hi.
    + split; [intros C; apply K1 in C; apply C|]. intros Lx Ly Lz. apply K2; [intros [Y _]; discriminate Y|].
      destruct (ex_pos3 0 0 0 x y z) as [P0 P1]. unfold q. rewrite P0, P1, !ex_turned3 by lia.
      exists (V3 (x / 2) (y / 2) (z / 2)). split.
      * unfold deep_in, tr, id3, diag3, dot3, sub3. cbn [row0 row1 row2_ c0 c1 c2].
        assert (Q : forall a, Rabs a < 2 -> Rabs (a / 2) < 1) by (intros a Ha; unfold Rdiv; rewrite Rabs_mult, (Rabs_pos_eq (/ 2)) by lra; lra).
        repeat split; [replace (1 * (x / 2 - 0) + 0 * (y / 2 - 0) + 0 * (z / 2 - 0)) with (x / 2) by ring
                      |replace (0 * (x / 2 - 0) + 1 * (y / 2 - 0) + 0 * (z / 2 - 0)) with (y / 2) by ring
                      |replace (0 * (x / 2 - 0) + 0 * (y / 2 - 0) + 1 * (z / 2 - 0)) with (z / 2) by ring]; apply Q; assumption.
      * apply in_box3_id. cbn [c0 c1 c2]. assert (Q : forall a, Rabs a < 2 -> Rabs (a / 2 - a) <= 1).
        { intros a Ha. replace (a / 2 - a) with (- (a * / 2)) by field. rewrite Rabs_Ropp, Rabs_mult, (Rabs_pos_eq (/ 2)) by lra. lra. }
        repeat split; apply Q; assumption.
Qed.
