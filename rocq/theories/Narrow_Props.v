(* C56: bodies that overlap get contacts. *)
From Coq Require Import List Reals Arith NArith Bool Lra Lia.
From Verif Require Import Outcome Ccd_Model Ccd_Spec ContactRb2_Model ContactRb3_Model Rot_Model Rot_Spec Rot_Alg Lin_Model Geom_Model Geom_Spec Geom_Sets Geom_Circle Geom_Space Geom_Aabb
  Wall_Model Wall_Spec Narrow_Model Narrow_Spec Narrow_Proofs Narrow_Thms Narrow_Space Narrow_Total Narrow_Ex.
Import ListNotations.
Local Open Scope R_scope.

(* ---------- the plane ---------- *)
(* two bodies that are not both scripted have a contact exactly when they collide: discs when they share a point at some time
   of the step, the other pairs when they share a point at its end *)
Theorem C56_planar_exact : forall nb fixed shape planes q0 q1 v set i j, (N.of_nat nb <= 4294967296)%N -> (forall i, (i < nb)%nat -> sized2 (shape i)) ->
  rb2_active_set nb fixed shape planes q0 q1 v = Ok set -> (i < j)%nat -> (j < nb)%nat ->
  (in_contact pair2 set i j <-> ~ (fixed i = true /\ fixed j = true) /\ collide2 shape q0 q1 i j).
Proof. intros nb fixed shape planes q0 q1 v set i j Few Sized. apply (set2_exact nb fixed shape q0 q1 v Few Sized). Qed.
Print Assumptions C56_planar_exact.
(* what a contact says: the first body is free, of two free bodies it has the lower number, and the normal and the point
   describe how the shapes touch *)
Theorem C56_planar_contacts : forall nb fixed shape planes q0 q1 v set c a b, (N.of_nat nb <= 4294967296)%N -> (forall i, (i < nb)%nat -> sized2 (shape i)) ->
  rb2_active_set nb fixed shape planes q0 q1 v = Ok set -> In c set -> pair2 c = Some (a, b) -> a <> b ->
  (a < nb)%nat /\ (b < nb)%nat /\ fixed a = false /\ (fixed b = false -> (a < b)%nat)
  /\ two_sided2 c = negb (fixed b)
  /\ describes2 shape q0 q1 a b c (rb2_normal c)
  /\ (fixed b = true -> exists r n, shape a = Circle2 r /\ c = KinCircle a r n b (seg2 q0 (3 * b)) (seg2 v (3 * b)) (v (3 * b + 2)%nat)).
Proof. intros nb fixed shape planes q0 q1 v set c a b Few Sized. apply (set2_contacts nb fixed shape q0 q1 v Few Sized). Qed.
Print Assumptions C56_planar_contacts.
Theorem C56_planar_count : forall nb fixed q0 q1 v shape planes set i j, (N.of_nat nb <= 4294967296)%N -> (forall i, (i < nb)%nat -> sized2 (shape i)) ->
  rb2_active_set nb fixed shape planes q0 q1 v = Ok set -> (i < j)%nat -> (j < nb)%nat ->
  (count_between pair2 i j set <= 2)%nat
  /\ (is_circle (shape i) = true \/ is_circle (shape j) = true -> (count_between pair2 i j set <= 1)%nat).
Proof. intros nb fixed q0 q1 v shape planes set i j Few. apply (set2_count nb fixed q0 q1 v Few). Qed.
Print Assumptions C56_planar_count.
(* in a bounded scene the set is built, unless a scripted body and a free box have boxes that meet: then the program ends *)
Theorem C56_planar_runs : forall nb fixed shape planes q0 q1 v M m, (N.of_nat nb <= 4294967296)%N -> (forall i, (i < nb)%nat -> sized2 (shape i)) ->
  (0 < nb)%nat -> 0 < m -> 2 * M + 1 < 4294967000 * m ->
  (forall i p, (i < nb)%nat -> reach2 shape q0 q1 i p -> Rabs (fst p) <= M /\ Rabs (snd p) <= M) ->
  (forall i, (i < nb)%nat -> exists p p', reach2 shape q0 q1 i p /\ reach2 shape q0 q1 i p' /\ m <= fst p' - fst p) ->
  let stuck := exists i j, (i < j)%nat /\ (j < nb)%nat /\ unsupported2 fixed shape i j /\ bounds_meet2 shape q0 q1 i j in
  (stuck /\ rb2_active_set nb fixed shape planes q0 q1 v = Exit) \/ (~ stuck /\ exists set, rb2_active_set nb fixed shape planes q0 q1 v = Ok set).
Proof. exact set2_runs. Qed.
Print Assumptions C56_planar_runs.

(* ---------- space ---------- *)
(* the contacts between bodies are exactly those of the pairs whose boxes meet at the end of the step *)
Theorem C56_spatial_exact : forall o nb fixed shape planes cyls q0 q1 set, (N.of_nat nb <= 4294967296)%N -> (forall i, (i < nb)%nat -> sized3 (shape i)) ->
  (forall i, (i < nb)%nat -> rotation (ori3 nb q1 i)) ->
  rb3_active_set o nb fixed shape planes cyls q0 q1 = Ok set ->
  forall c a b, pair3 c = Some (a, b) -> a <> b ->
  (In c set <-> (a < nb)%nat /\ (b < nb)%nat /\ fixed a = false /\ (fixed b = false -> (a < b)%nat)
                /\ bounds_meet3 nb shape q1 a b /\ from_pair3 o nb fixed shape q0 q1 a b c).
Proof. intros o nb fixed shape planes cyls q0 q1 set Few Sized Turned. apply (set3_exact o nb fixed shape q0 q1 Few Sized Turned). Qed.
Print Assumptions C56_spatial_exact.
Theorem C56_spatial_balls : forall o nb fixed shape planes cyls q0 q1 set i j r s, (N.of_nat nb <= 4294967296)%N -> (forall i, (i < nb)%nat -> sized3 (shape i)) ->
  (forall i, (i < nb)%nat -> rotation (ori3 nb q1 i)) ->
  rb3_active_set o nb fixed shape planes cyls q0 q1 = Ok set ->
  (i < j)%nat -> (j < nb)%nat -> shape i = Sphere3 r -> shape j = Sphere3 s ->
  (in_contact pair3 set i j <-> ~ (fixed i = true /\ fixed j = true) /\ overlap3 nb shape q1 i j) /\ (count_between pair3 i j set <= 1)%nat.
Proof.
  intros o nb fixed shape planes cyls q0 q1 set i j r s Few Sized Turned E Hij Hj Si Sj. split.
  - exact (set3_spheres o nb fixed shape q0 q1 Few Sized Turned planes cyls set i j r s E Hij Hj Si Sj).
  - exact (set3_count o nb fixed q0 q1 Few shape planes cyls set i j r s Sized Turned E Hij Hj Si Sj).
Qed.
Print Assumptions C56_spatial_balls.
(* in a bounded scene the contacts between bodies are found, unless bodies of different kinds or touching staples have boxes
   that meet: then the program ends *)
Theorem C56_spatial_runs : forall o nb fixed shape planes cyls q0 q1 M m, (N.of_nat nb <= 4294967296)%N -> (forall i, (i < nb)%nat -> sized3 (shape i)) ->
  (forall i, (i < nb)%nat -> rotation (ori3 nb q1 i)) ->
  (0 < nb)%nat -> 0 < m -> 2 * M + 1 <= 1600 * m ->
  (forall i p, (i < nb)%nat -> reach3 nb shape q1 i p -> Rabs (c0 p) <= M /\ Rabs (c1 p) <= M /\ Rabs (c2 p) <= M) ->
  (forall i, (i < nb)%nat -> exists p p', reach3 nb shape q1 i p /\ reach3 nb shape q1 i p' /\ m <= c0 p' - c0 p) ->
  let stuck := exists i j, (i < j)%nat /\ (j < nb)%nat /\ unsupported3 nb fixed shape q1 i j /\ bounds_meet3 nb shape q1 i j in
  (stuck /\ rb3_active_set o nb fixed shape planes cyls q0 q1 = Exit) \/ (~ stuck /\ exists bodies, body_body_set3 o nb fixed shape q0 q1 = Ok bodies).
Proof. exact set3_runs. Qed.
Print Assumptions C56_spatial_runs.

(* ---------- what goes wrong ---------- *)
Definition free : nat -> bool := fun _ => false.
Definition first_fixed (i : nat) : bool := (i =? 0)%nat.
Lemma two_few : (N.of_nat 2 <= 4294967296)%N.
Proof. cbn. lia. Qed.

(* a disc that crosses a box within one step gets no contact, although the two share points half way *)
Theorem C56_fast_disc_box_refuted : exists nb shape q0 q1 v set, (forall i, (i < nb)%nat -> sized2 (shape i))
  /\ rb2_active_set nb free shape [] q0 q1 v = Ok set /\ ~ in_contact pair2 set 0 1
  /\ exists q, (forall k, q k = / 2 * (q0 k + q1 k)) /\ overlap2 shape q 0 1.
Proof.
  exists 2%nat, ex_shape2, (ex_q2 (-10) 0 0 0), (ex_q2 10 0 0 0), (fun _ => 0).
  destruct (ex_runs2 free (fun _ => 0) (-10) 0 10 0 0 0) as [[H _]|[_ (set & E)]]; try (apply abs_in; lra).
  - destruct H as (i & j & _ & _ & [(F & _)|(F & _)] & _); discriminate.
  - exists set. split; [exact ex_sized2|]. split; [exact E|]. split.
    + rewrite (C56_planar_exact 2 free ex_shape2 [] _ _ _ set 0 1 two_few ex_sized2 E) by lia. intros [_ (p & D & B)].
      unfold body2_points, body_at2, ex_shape2 in D, B. cbn [b2_shape b2_x b2_theta] in D, B. unfold seg2, ex_q2, vals in D, B. cbn [nth Nat.mul Nat.add] in D, B.
      apply box_at_origin in B. cbn [fst snd] in B. destruct B as [B _]. apply abs_inv in B. unfold in_disc, vdot, vsub in D. cbn [fst snd] in D. apply side in D; lra.
    + exists (ex_q2 0 0 0 0). split.
      * intros k. unfold ex_q2, vals. do 6 (destruct k as [|k]; [cbn [nth]; lra|]). cbn [nth]. destruct k; cbn [nth]; lra.
      * exists (0, 0). unfold body2_points, body_at2, ex_shape2. cbn [b2_shape b2_x b2_theta]. unfold seg2, ex_q2, vals. cbn [nth Nat.mul Nat.add]. split.
        -- unfold in_disc, vdot, vsub. cbn [fst snd]. lra.
        -- apply box_at_origin. cbn [fst snd]. split; apply abs_in; lra.
Qed.
Print Assumptions C56_fast_disc_box_refuted.

(* a scripted disc near a free box ends the program, although the two never touch *)
Theorem C56_scripted_disc_near_box_refuted : exists nb fixed shape q v, (forall i, (i < nb)%nat -> sized2 (shape i))
  /\ rb2_active_set nb fixed shape [] q q v = Exit
  /\ forall i j, (i < nb)%nat -> (j < nb)%nat -> i <> j -> ~ overlap2 shape q i j.
Proof.
  assert (No : ~ overlap2 ex_shape2 (ex_q2 0 0 (9 / 5) (9 / 5)) 0 1).
  { intros (p & D & B). unfold body2_points, body_at2, ex_shape2 in D, B. cbn [b2_shape b2_x b2_theta] in D, B. unfold seg2, ex_q2, vals in D, B. cbn [nth Nat.mul Nat.add] in D, B.
    apply box_at_origin in B. cbn [fst snd] in B. destruct B as [B0 B1]. apply abs_inv in B0, B1. unfold in_disc, vdot, vsub in D. cbn [fst snd] in D.
    assert (4 / 5 * (4 / 5) <= (fst p - 0) * (fst p - 0)) by (apply Rmult_le_compat; lra). assert (4 / 5 * (4 / 5) <= (snd p - 0) * (snd p - 0)) by (apply Rmult_le_compat; lra). lra. }
  exists 2%nat, first_fixed, ex_shape2, (ex_q2 0 0 (9 / 5) (9 / 5)), (fun _ => 0). split; [exact ex_sized2|]. split.
  - destruct (ex_runs2 first_fixed (fun _ => 0) 0 0 0 0 (9 / 5) (9 / 5)) as [[_ H]|[H _]]; try (apply abs_in; lra); [exact H|]. exfalso. apply H.
    exists 0%nat, 1%nat. split; [lia|]. split; [lia|]. split; [left; repeat split; reflexivity|].
    exists ((-1, -1), (1, 1)), ((4 / 5, 4 / 5), (14 / 5, 14 / 5)). split; [|split].
    + assert (P : forall a b, a * a + b * b = 1 -> reach2 ex_shape2 (ex_q2 0 0 (9 / 5) (9 / 5)) (ex_q2 0 0 (9 / 5) (9 / 5)) 0 (a, b)).
      { intros a b N. exists 0. split; [lra|]. unfold in_disc, at_time, vdot, vsub, seg2, ex_q2, vals. cbn [fst snd nth Nat.mul Nat.add]. lra. }
      split.
      * intros p (t & _ & D). unfold in_disc, at_time, vdot, vsub, seg2, ex_q2, vals in D. cbn [fst snd nth Nat.mul Nat.add] in D. apply side in D; [|lra].
        unfold within2. cbn [fst snd]. lra.
      * intros b' E. pose proof (E _ (P (-1) 0 ltac:(lra))) as A1. pose proof (E _ (P 1 0 ltac:(lra))) as A2. pose proof (E _ (P 0 (-1) ltac:(lra))) as A3.
        pose proof (E _ (P 0 1 ltac:(lra))) as A4. unfold within2 in *. cbn [fst snd] in *. lra.
    + assert (P : forall a b, Rabs (a - 9 / 5) <= 1 -> Rabs (b - 9 / 5) <= 1 -> reach2 ex_shape2 (ex_q2 0 0 (9 / 5) (9 / 5)) (ex_q2 0 0 (9 / 5) (9 / 5)) 1 (a, b)).
      { intros a b A B. unfold reach2, ex_shape2, seg2, ex_q2, vals. cbn [nth Nat.mul Nat.add]. apply box_at_origin. cbn [fst snd]. split; assumption. }
      split.
      * intros p D. unfold reach2, ex_shape2, seg2, ex_q2, vals in D. cbn [nth Nat.mul Nat.add] in D. apply box_at_origin in D. cbn [fst snd] in D. destruct D as [D0 D1].
        apply abs_inv in D0, D1. unfold within2. cbn [fst snd]. lra.
      * intros b' E. pose proof (E _ (P (4 / 5) (4 / 5) ltac:(apply abs_in; lra) ltac:(apply abs_in; lra))) as A1.
        pose proof (E _ (P (14 / 5) (14 / 5) ltac:(apply abs_in; lra) ltac:(apply abs_in; lra))) as A2. unfold within2 in *. cbn [fst snd] in *. lra.
    + exists (1, 1). unfold within2. cbn [fst snd]. lra.
  - intros [|[|i]] [|[|j]] Hi Hj Ne; try lia; [exact No|]. intros (p & A & B). apply No. exists p. split; assumption.
Qed.
Print Assumptions C56_scripted_disc_near_box_refuted.

(* balls that pass through each other within one step get no contact *)
Theorem C56_fast_balls_refuted : forall o, exists nb shape q0 q1 set, (forall i, (i < nb)%nat -> sized3 (shape i))
  /\ (forall i, (i < nb)%nat -> rotation (ori3 nb q1 i))
  /\ rb3_active_set o nb free shape [] [] q0 q1 = Ok set /\ ~ in_contact pair3 set 0 1
  /\ exists q, (forall k, q k = / 2 * (q0 k + q1 k)) /\ overlap3 nb shape q 0 1.
Proof.
  intros o. exists 2%nat, (two ball ball), (ex_q3 (-10) 0 0 0 0 0), (ex_q3 10 0 0 0 0 0).
  destruct (ex_runs3 o free ball ball (ex_q3 (-10) 0 0 0 0 0) 10 0 0 0 0 0) as [[H _]|[_ (set & E)]]; try (apply abs_in; lra); try (left; reflexivity).
  - destruct H as (i & j & Hij & Hj & [_ [K|(_ & (s & K) & _)]] & _); destruct i as [|i]; destruct j as [|j]; try lia; discriminate.
  - exists set. assert (Sz : forall i, (i < 2)%nat -> sized3 (two ball ball i)) by (intros i _; apply ex_sized3; left; reflexivity).
    assert (Rt : forall i, (i < 2)%nat -> rotation (ori3 2 (ex_q3 10 0 0 0 0 0) i)) by (intros i Hi; apply ex_rotation3, Hi).
    split; [exact Sz|]. split; [exact Rt|]. split; [exact E|]. split.
    + intros C. apply (C56_spatial_balls o 2 free (two ball ball) [] [] _ _ set 0 1 1 1 two_few Sz Rt E ltac:(lia) ltac:(lia) eq_refl eq_refl) in C. destruct C as [_ (p & A & B)].
      unfold body3_points, body_at3, two, ball in A, B. cbn [b3_shape b3_x b3_R] in A, B. destruct (ex_pos3 10 0 0 0 0 0) as [P0 P1]. rewrite P0 in A. rewrite P1 in B.
      apply ball_comps in A; [|lra]. apply ball_comps in B; [|lra]. cbn [c0 c1 c2] in A, B. lra.
    + exists (ex_q3 0 0 0 0 0 0). split.
      * intros k. unfold ex_q3, vals. do 24 (destruct k as [|k]; [cbn [nth]; lra|]). cbn [nth]. destruct k; cbn [nth]; lra.
      * exists (V3 0 0 0). unfold body3_points, body_at3, two, ball. cbn [b3_shape b3_x b3_R]. destruct (ex_pos3 0 0 0 0 0 0) as [P0 P1]. rewrite P0, P1.
        unfold in_ball3, dot3, sub3. cbn [c0 c1 c2]. lra.
Qed.
Print Assumptions C56_fast_balls_refuted.

(* two staples lying flat on each other touch, yet nothing is reported: their boxes leave out the thickness of the wire *)
Theorem C56_flat_staples_refuted : forall o, exists nb shape q set, (forall i, (i < nb)%nat -> sized3 (shape i))
  /\ (forall i, (i < nb)%nat -> rotation (ori3 nb q i))
  /\ rb3_active_set o nb free shape [] [] q q = Ok set /\ ~ in_contact pair3 set 0 1 /\ overlap3 nb shape q 0 1.
Proof.
  intros o. exists 2%nat, (two clip clip), (ex_q3 0 0 0 0 0 (4 / 5)).
  assert (Sm : small clip) by (right; right; reflexivity).
  assert (Sz : forall i, (i < 2)%nat -> sized3 (two clip clip i)) by (intros i _; apply ex_sized3; exact Sm).
  assert (Rt : forall i, (i < 2)%nat -> rotation (ori3 2 (ex_q3 0 0 0 0 0 (4 / 5)) i)) by (intros i Hi; apply ex_rotation3, Hi).
  destruct (ex_pos3 0 0 0 0 0 (4 / 5)) as [P0 P1].
  assert (Flat : forall i, (i < 2)%nat -> forall p, reach3 2 (two clip clip) (ex_q3 0 0 0 0 0 (4 / 5)) i p -> c2 p = c2 (pos3 (ex_q3 0 0 0 0 0 (4 / 5)) i)).
  { intros i Hi p H. unfold reach3 in H. replace (two clip clip i) with clip in H by (destruct i; reflexivity). destruct H as (v & H & ->). rewrite ex_turned3, mul3_id by exact Hi.
    apply clip_flat in H. unfold within3 in H. cbn [fst snd c0 c1 c2] in H. unfold add3. cbn [c2]. lra. }
  assert (Apart : ~ bounds_meet3 2 (two clip clip) (ex_q3 0 0 0 0 0 (4 / 5)) 0 1).
  { intros (a & b & [Ea Ta] & [Eb Tb] & p & Pa & Pb).
    specialize (Ta (V3 (c0 (fst a)) (c1 (fst a)) 0, V3 (c0 (snd a)) (c1 (snd a)) 0)). specialize (Tb (V3 (c0 (fst b)) (c1 (fst b)) (4 / 5), V3 (c0 (snd b)) (c1 (snd b)) (4 / 5))).
    assert (Xa : encloses3 (V3 (c0 (fst a)) (c1 (fst a)) 0, V3 (c0 (snd a)) (c1 (snd a)) 0) (reach3 2 (two clip clip) (ex_q3 0 0 0 0 0 (4 / 5)) 0)).
    { intros z Z. pose proof (Flat 0%nat ltac:(lia) z Z) as F. rewrite P0 in F. apply Ea in Z. unfold within3 in *. cbn [fst snd c0 c1 c2] in *. lra. }
    assert (Xb : encloses3 (V3 (c0 (fst b)) (c1 (fst b)) (4 / 5), V3 (c0 (snd b)) (c1 (snd b)) (4 / 5)) (reach3 2 (two clip clip) (ex_q3 0 0 0 0 0 (4 / 5)) 1)).
    { intros z Z. pose proof (Flat 1%nat ltac:(lia) z Z) as F. rewrite P1 in F. apply Eb in Z. unfold within3 in *. cbn [fst snd c0 c1 c2] in *. lra. }
    apply Ta in Xa. apply Tb in Xb. unfold within3 in *. cbn [fst snd c0 c1 c2] in *. lra. }
  destruct (ex_runs3 o free clip clip (ex_q3 0 0 0 0 0 (4 / 5)) 0 0 0 0 0 (4 / 5)) as [[H _]|[_ (set & E)]]; try (apply abs_in; lra); try exact Sm.
  - exfalso. destruct H as (i & j & Hij & Hj & _ & B). apply Apart. destruct i as [|i]; destruct j as [|[|j]]; try lia. exact B.
  - exists set. split; [exact Sz|]. split; [exact Rt|]. split; [exact E|]. split.
    + intros (c & Hc & [Pc|Pc]); apply (C56_spatial_exact o 2 free (two clip clip) [] [] _ _ set two_few Sz Rt E c _ _ Pc ltac:(lia)) in Hc;
        destruct Hc as (_ & _ & _ & _ & _ & F); exact F.
    + exists (V3 0 (- (2 / 3)) (2 / 5)). unfold body3_points, body_at3, two, clip. cbn [b3_shape b3_x b3_R]. rewrite !ex_turned3 by lia. rewrite P0, P1.
      unfold in_staple, mk_staple. cbn [st_w st_l st_r]. split; exists 1%nat; (split; [lia|]); exists (/ 2); (split; [lra|]); rewrite !mul3_id;
        unfold in_ball3, along, staple_corner, dot3, sub3, add3, scale3; cbn [c0 c1 c2]; lra.
Qed.
Print Assumptions C56_flat_staples_refuted.

(* a ball near a cube ends the program, although the two do not touch *)
Theorem C56_ball_near_cube_refuted : forall o, exists nb shape q, (forall i, (i < nb)%nat -> sized3 (shape i))
  /\ (forall i, (i < nb)%nat -> rotation (ori3 nb q i))
  /\ rb3_active_set o nb free shape [] [] q q = Exit
  /\ forall i j, (i < nb)%nat -> (j < nb)%nat -> i <> j -> ~ overlap3 nb shape q i j.
Proof.
  intros o. exists 2%nat, (two ball cube), (ex_q3 0 0 0 (9 / 5) (9 / 5) 0). destruct (ex_pos3 0 0 0 (9 / 5) (9 / 5) 0) as [P0 P1].
  assert (Sz : forall i, (i < 2)%nat -> sized3 (two ball cube i)) by (intros i _; apply ex_sized3; [left|right; left]; reflexivity).
  assert (Rt : forall i, (i < 2)%nat -> rotation (ori3 2 (ex_q3 0 0 0 (9 / 5) (9 / 5) 0) i)) by (intros i Hi; apply ex_rotation3, Hi).
  assert (No : ~ overlap3 2 (two ball cube) (ex_q3 0 0 0 (9 / 5) (9 / 5) 0) 0 1).
  { intros (p & A & B). unfold body3_points, body_at3, two, ball, cube in A, B. cbn [b3_shape b3_x b3_R] in A, B. rewrite ex_turned3 in B by lia. rewrite P0 in A. rewrite P1 in B.
    apply in_box3_id in B. cbn [c0 c1 c2] in B. destruct B as (B0 & B1 & _). apply abs_inv in B0, B1. unfold in_ball3, dot3, sub3 in A. cbn [c0 c1 c2] in A.
    assert (4 / 5 * (4 / 5) <= (c0 p - 0) * (c0 p - 0)) by (apply Rmult_le_compat; lra). assert (4 / 5 * (4 / 5) <= (c1 p - 0) * (c1 p - 0)) by (apply Rmult_le_compat; lra).
    pose proof (sq_nn (c2 p - 0)). lra. }
  split; [exact Sz|]. split; [exact Rt|]. split.
  - destruct (ex_runs3 o free ball cube (ex_q3 0 0 0 (9 / 5) (9 / 5) 0) 0 0 0 (9 / 5) (9 / 5) 0) as [[_ H]|[H _]]; try (apply abs_in; lra);
      [left; reflexivity|right; left; reflexivity|exact H|]. exfalso. apply H.
    exists 0%nat, 1%nat. split; [lia|]. split; [lia|]. split; [split; [intros [X _]; discriminate|left; reflexivity]|].
    exists (bounds3 2 (two ball cube) (ex_q3 0 0 0 (9 / 5) (9 / 5) 0) 0), (bounds3 2 (two ball cube) (ex_q3 0 0 0 (9 / 5) (9 / 5) 0) 1).
    pose proof (bounds3_tight 2 (two ball cube) _ 0 (Rt 0%nat ltac:(lia)) (Sz 0%nat ltac:(lia))) as T0.
    pose proof (bounds3_tight 2 (two ball cube) _ 1 (Rt 1%nat ltac:(lia)) (Sz 1%nat ltac:(lia))) as T1.
    split; [exact T0|]. split; [exact T1|]. destruct T0 as [T0 _], T1 as [T1 _]. exists (V3 1 1 0).
    assert (In0 : forall p, reach3 2 (two ball cube) (ex_q3 0 0 0 (9 / 5) (9 / 5) 0) 0 p <-> in_ball3 (V3 0 0 0) 1 p).
    { intros p. unfold reach3, body3_points, body_at3, two, ball. cbn [b3_shape b3_x b3_R]. rewrite P0. reflexivity. }
    assert (In1 : forall p, reach3 2 (two ball cube) (ex_q3 0 0 0 (9 / 5) (9 / 5) 0) 1 p <-> in_box3 (V3 (9 / 5) (9 / 5) 0) id3 (V3 1 1 1) p).
    { intros p. unfold reach3, body3_points, body_at3, two, cube. cbn [b3_shape b3_x b3_R]. rewrite P1, ex_turned3 by lia. reflexivity. }
    split.
    + assert (K : forall a b c, a * a + b * b + c * c = 1 -> within3 (bounds3 2 (two ball cube) (ex_q3 0 0 0 (9 / 5) (9 / 5) 0) 0) (V3 a b c)).
      { intros a b c N. apply T0, In0. unfold in_ball3, dot3, sub3. cbn [c0 c1 c2]. lra. }
      pose proof (K 1 0 0 ltac:(lra)) as K1. pose proof (K 0 1 0 ltac:(lra)) as K2. unfold within3 in *. cbn [c0 c1 c2] in *. lra.
    + apply T1, In1, in_box3_id. cbn [c0 c1 c2]. repeat split; apply abs_in; lra.
  - intros [|[|i]] [|[|j]] Hi Hj Ne; try lia; [exact No|]. intros (p & A & B). apply No. exists p. split; assumption.
Qed.
Print Assumptions C56_ball_near_cube_refuted.

(* ---------- the hypotheses are met ---------- *)
(* a disc resting on a square: a contact, and the set is built *)
Example C56_planar_case : exists set, rb2_active_set 2 free ex_shape2 [] (ex_q2 0 2 0 0) (ex_q2 0 (3 / 2) 0 0) (fun _ => 0) = Ok set /\ in_contact pair2 set 0 1
  /\ count_between pair2 0 1 set = 1%nat.
Proof.
  destruct (ex_runs2 free (fun _ => 0) 0 2 0 (3 / 2) 0 0) as [[H _]|[_ (set & E)]]; try (apply abs_in; lra).
  - destruct H as (i & j & _ & _ & [(F & _)|(F & _)] & _); discriminate.
  - exists set. split; [exact E|].
    assert (C : in_contact pair2 set 0 1).
    { apply (C56_planar_exact 2 free ex_shape2 [] _ _ _ set 0 1 two_few ex_sized2 E); [lia|lia|]. split; [intros [X _]; discriminate|].
      unfold collide2, ex_shape2. exists (0, 1). unfold body2_points, body_at2. cbn [b2_shape b2_x b2_theta]. unfold seg2, ex_q2, vals. cbn [nth Nat.mul Nat.add]. split.
      - unfold in_disc, vdot, vsub. cbn [fst snd]. lra.
      - apply box_at_origin. cbn [fst snd]. split; apply abs_in; lra. }
    split; [exact C|]. apply Nat.le_antisymm.
    + apply (C56_planar_count 2 free _ _ _ ex_shape2 [] set 0 1 two_few ex_sized2 E); [lia|lia|left; reflexivity].
    + destruct C as (c & Hc & Pc). unfold count_between.
      assert (I : In c (filter (fun c => match pair2 c with Some (a, b) => ((a =? 0) && (b =? 1) || (a =? 1) && (b =? 0))%nat | None => false end) set)).
      { apply filter_In. split; [exact Hc|]. destruct Pc as [-> | ->]; reflexivity. }
      destruct (filter _ set); [destruct I|cbn [length]; lia].
Qed.
(* two overlapping balls, one of them scripted *)
Example C56_spatial_case : forall o, exists set, rb3_active_set o 2 first_fixed (two ball ball) [] [] (ex_q3 0 0 0 3 0 0) (ex_q3 0 0 0 1 0 0) = Ok set
  /\ in_contact pair3 set 0 1 /\ exists c, In c set /\ pair3 c = Some (1, 0)%nat.
Proof.
  intros o. destruct (ex_runs3 o first_fixed ball ball (ex_q3 0 0 0 3 0 0) 0 0 0 1 0 0) as [[H _]|[_ (set & E)]]; try (apply abs_in; lra); try (left; reflexivity).
  - destruct H as (i & j & Hij & Hj & [_ [K|(_ & (s & K) & _)]] & _); destruct i as [|i]; destruct j as [|j]; try lia; discriminate.
  - exists set. split; [exact E|]. assert (Sz : forall i, (i < 2)%nat -> sized3 (two ball ball i)) by (intros i _; apply ex_sized3; left; reflexivity).
    assert (Rt : forall i, (i < 2)%nat -> rotation (ori3 2 (ex_q3 0 0 0 1 0 0) i)) by (intros i Hi; apply ex_rotation3, Hi).
    assert (C : in_contact pair3 set 0 1).
    { apply (C56_spatial_balls o 2 first_fixed (two ball ball) [] [] _ _ set 0 1 1 1 two_few Sz Rt E ltac:(lia) ltac:(lia) eq_refl eq_refl). split; [intros [_ X]; discriminate|].
      exists (V3 (/ 2) 0 0). unfold body3_points, body_at3, two, ball. cbn [b3_shape b3_x b3_R]. destruct (ex_pos3 0 0 0 1 0 0) as [P0 P1]. rewrite P0, P1.
      unfold in_ball3, dot3, sub3. cbn [c0 c1 c2]. lra. }
    split; [exact C|]. destruct C as (c & Hc & [Pc|Pc]); [|exists c; split; assumption].
    exfalso. apply (C56_spatial_exact o 2 first_fixed (two ball ball) [] [] _ _ set two_few Sz Rt E c _ _ Pc ltac:(lia)) in Hc. destruct Hc as (_ & _ & X & _). discriminate.
Qed.
