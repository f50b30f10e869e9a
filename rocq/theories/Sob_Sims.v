(* The three simulators have the laws that the general theorem needs. *)
From Coq Require Import List Reals Arith Bool Lia Lra.
From Verif Require Import Outcome Ccd_Model Lin_Model Lin_Proofs ContactBall_Model ContactRb2_Model ContactRb3_Model Contact_Spec
  Sob_Model Sob_Spec Sob_Proofs Sob_Thms.
Import ListNotations.
Open Scope R_scope.

Lemma shaped2 : forall E, shaped 2 2 E -> exists a b c e, E = [[a; b]; [c; e]].
Proof.
  intros E [L H]. destruct E as [|x [|y [|z E]]]; try discriminate.
  assert (Hx := H x (or_introl eq_refl)). assert (Hy := H y (or_intror (or_introl eq_refl))).
  destruct x as [|a [|b [|? ?]]]; try discriminate. destruct y as [|c [|e [|? ?]]]; try discriminate. now exists a, b, c, e.
Qed.
Lemma shaped3 : forall E, shaped 3 3 E -> exists a b c e f g h i j, E = [[a; b; c]; [e; f; g]; [h; i; j]].
Proof.
  intros E [L H]. destruct E as [|x [|y [|z [|? E]]]]; try discriminate.
  assert (Hx := H x (or_introl eq_refl)). assert (Hy := H y (or_intror (or_introl eq_refl))).
  assert (Hz := H z (or_intror (or_intror (or_introl eq_refl)))).
  destruct x as [|a [|b [|c [|? ?]]]]; try discriminate. destruct y as [|e [|f [|g [|? ?]]]]; try discriminate.
  destruct z as [|h [|i [|j [|? ?]]]]; try discriminate. now exists a, b, c, e, f, g, h, i, j.
Qed.

Lemma slot_all : forall s ng k, (0 < s)%nat -> (k < s * ng)%nat -> exists b o, (b < ng)%nat /\ (o < s)%nat /\ k = slot_of s ng b o.
Proof.
  intros s ng k Hs Hk. exists (k / s)%nat, (k mod s)%nat. unfold slot_of. repeat split.
  - apply Nat.div_lt_upper_bound; lia.
  - apply Nat.mod_upper_bound. lia.
  - apply Nat.div_mod. lia.
Qed.

Lemma slot3_all : forall ng k, (k < 6 * ng)%nat -> exists b o, (b < ng)%nat /\ (o < 6)%nat /\ k = slot3 3 ng b o.
Proof.
  intros ng k Hk. destruct (Nat.ltb_spec k (3 * ng)).
  - destruct (slot_all 3 ng k) as [b [o [Hb [Ho E]]]]; try lia. exists b, o. unfold slot3. rewrite (proj2 (Nat.ltb_lt o 3) Ho).
    unfold slot_of in E. repeat split; lia.
  - destruct (slot_all 3 ng (k - 3 * ng)) as [b [o [Hb [Ho E]]]]; try lia. exists b, (3 + o)%nat. unfold slot3.
    destruct (Nat.ltb_spec (3 + o) 3); [lia|]. unfold slot_of in E. repeat split; lia.
Qed.

Ltac shape_tac := cbn; split; [reflexivity|intros ? Hin_; cbn in Hin_; repeat (destruct Hin_ as [<- | Hin_]; [reflexivity|]); destruct Hin_].

(* ---------- balls ---------- *)
Lemma ball_laws : sim_laws ball_sim.
Proof.
  constructor; try (cbn; lia).
  - apply slot_of_ok.
  - apply slot_of_ok.
  - intros ng k Hk. now apply slot_all; [cbn; lia|].
  - intros c i oj i' oj' B [_ J]. cbn [ball_sim k_bodies] in B. injection B as B.
    destruct c as [ci cj n r0 r1 t|ci cj n r0 r1 kk t|ci r p|ci n r]; cbn [b_bodies] in B; injection B as <- <-; destruct oj' as [j'|]; try contradiction.
    + exists (BallBall i' j' n r0 r1 t). split; [reflexivity|]. split; [|split].
      * intros f [F1 F2]. unfold remap. cbn. rewrite F1. cbn. now rewrite F2.
      * intros f [F1 F2]. unfold remap. cbn. rewrite F1. cbn. now rewrite F2.
      * intros nb q v nb' q' v' E [[_ V1] [_ V2]]. split; [reflexivity|]. split; [reflexivity|]. cbn [ball_sim k_ndotv b_evalNdotV].
        unfold same_body, slot_of in V1, V2. cbn [ball_sim k_vslot k_s] in V1, V2. unfold slot_of in V1, V2.
        unfold seg2. now rewrite !V1, !V2 by lia.
    + exists (KickBallBall i' j' n r0 r1 kk t). split; [reflexivity|]. split; [|split].
      * intros f [F1 F2]. unfold remap. cbn. rewrite F1. cbn. now rewrite F2.
      * intros f [F1 F2]. unfold remap. cbn. rewrite F1. cbn. now rewrite F2.
      * intros nb q v nb' q' v' E [[_ V1] [_ V2]]. split; [reflexivity|]. split; [reflexivity|]. cbn [ball_sim k_ndotv b_evalNdotV].
        unfold same_body in V1, V2. cbn [ball_sim k_vslot k_s] in V1, V2. unfold slot_of in V1, V2.
        unfold seg2. now rewrite !V1, !V2 by lia.
    + exists (BallPlane i' r p). split; [reflexivity|]. split; [|split].
      * intros f [F1 F2]. unfold remap. cbn. rewrite F1. reflexivity.
      * intros f [F1 F2]. unfold remap. cbn. rewrite F1. reflexivity.
      * intros nb q v nb' q' v' E [[_ V1] _]. split; [reflexivity|]. split; [reflexivity|]. cbn [ball_sim k_ndotv b_evalNdotV].
        unfold same_body in V1. cbn [ball_sim k_vslot k_s] in V1. unfold slot_of in V1.
        unfold seg2. now rewrite !V1 by lia.
    + exists (BallDrum i' n r). split; [reflexivity|]. split; [|split].
      * intros f [F1 F2]. unfold remap. cbn. rewrite F1. reflexivity.
      * intros f [F1 F2]. unfold remap. cbn. rewrite F1. reflexivity.
      * intros nb q v nb' q' v' E [[_ V1] _]. split; [reflexivity|]. split; [reflexivity|]. cbn [ball_sim k_ndotv b_evalNdotV].
        unfold same_body in V1. cbn [ball_sim k_vslot k_s] in V1. unfold slot_of in V1.
        unfold seg2. now rewrite !V1 by lia.
  - intros c i oj q E B SE. cbn [ball_sim k_bodies k_d] in *. injection B as B. destruct (shaped2 E SE) as [a [b [c' [e ->]]]].
    eexists _, _, _. split; [reflexivity|]. split; [reflexivity|]. split; [reflexivity|]. split; [shape_tac|]. split; [reflexivity|].
    destruct c as [ci cj n r0 r1 t|ci cj n r0 r1 kk t|ci r p|ci n r]; cbn [b_bodies] in B; injection B as <- <-; cbn;
      try exact Logic.I; (split; [shape_tac|reflexivity]).
Qed.

(* ---------- planar rigid bodies ---------- *)
Lemma rb2_laws : sim_laws rb2_sim.
Proof.
  constructor; try (cbn; lia).
  - apply slot_of_ok.
  - apply slot_of_ok.
  - intros ng k Hk. now apply slot_all; [cbn; lia|].
  - intros c i oj i' oj' B [_ J]. cbn [rb2_sim k_bodies] in B. injection B as B.
    assert (SB : forall nb x b nb' x' b', same_body 3 (slot_of 3) nb x b nb' x' b' ->
      seg2 x' (3 * b') = seg2 x (3 * b) /\ x' (3 * b' + 2)%nat = x (3 * b + 2)%nat).
    { intros nb x b nb' x' b' S. unfold same_body, slot_of in S. unfold seg2. now rewrite !S by lia. }
    destruct c as [ci cj n p r0 r1|ci cj n a0 a1|ci cj n a0 a1|ci cj n a0 a1 kk|ci r n kk kx kv ko|ci a p|ci r p];
      cbn [rb2_bodies] in B; injection B as <- <-; destruct oj' as [j'|]; try contradiction.
    + exists (CircleCircle i' j' n p r0 r1). split; [reflexivity|]. split; [|split];
        [intros f [F1 F2]; unfold remap; cbn; rewrite F1; cbn; now rewrite F2..|].
      intros nb q v nb' q' v' E [[Q1 V1] [Q2 V2]]. cbn [rb2_sim k_qs k_qslot k_s k_vslot] in *.
      apply SB in Q1, V1, Q2, V2. destruct Q1 as [Q1 Q1'], Q2 as [Q2 Q2'], V1 as [V1 V1'], V2 as [V2 V2'].
      cbn [rb2_sim k_H0 k_H1 k_ndotv]. destruct (basis2 E) as [bn bt]. cbn [rb2_H0 rb2_H1 rb2_evalNdotV]. unfold rb2_relvel, point_velocity2. now rewrite ?Q1, ?Q2, ?V1, ?V2, ?V1', ?V2', ?Q1', ?Q2'.
    + exists (BodyBody2 i' j' n a0 a1). split; [reflexivity|]. split; [|split];
        [intros f [F1 F2]; unfold remap; cbn; rewrite F1; cbn; now rewrite F2..|].
      intros nb q v nb' q' v' E [[Q1 V1] [Q2 V2]]. cbn [rb2_sim k_qs k_qslot k_s k_vslot] in *.
      apply SB in Q1, V1, Q2, V2. destruct Q1 as [Q1 Q1'], Q2 as [Q2 Q2'], V1 as [V1 V1'], V2 as [V2 V2'].
      cbn [rb2_sim k_H0 k_H1 k_ndotv]. destruct (basis2 E) as [bn bt]. cbn [rb2_H0 rb2_H1 rb2_evalNdotV]. unfold rb2_relvel, point_velocity2. now rewrite ?Q1, ?Q2, ?V1, ?V2, ?V1', ?V2', ?Q1', ?Q2'.
    + exists (TeleCircleCircle i' j' n a0 a1). split; [reflexivity|]. split; [|split];
        [intros f [F1 F2]; unfold remap; cbn; rewrite F1; cbn; now rewrite F2..|].
      intros nb q v nb' q' v' E [[Q1 V1] [Q2 V2]]. cbn [rb2_sim k_qs k_qslot k_s k_vslot] in *.
      apply SB in Q1, V1, Q2, V2. destruct Q1 as [Q1 Q1'], Q2 as [Q2 Q2'], V1 as [V1 V1'], V2 as [V2 V2'].
      cbn [rb2_sim k_H0 k_H1 k_ndotv]. destruct (basis2 E) as [bn bt]. cbn [rb2_H0 rb2_H1 rb2_evalNdotV]. unfold rb2_relvel, point_velocity2. now rewrite ?Q1, ?Q2, ?V1, ?V2, ?V1', ?V2', ?Q1', ?Q2'.
    + exists (KickCircleCircle i' j' n a0 a1 kk). split; [reflexivity|]. split; [|split];
        [intros f [F1 F2]; unfold remap; cbn; rewrite F1; cbn; now rewrite F2..|].
      intros nb q v nb' q' v' E [[Q1 V1] [Q2 V2]]. cbn [rb2_sim k_qs k_qslot k_s k_vslot] in *.
      apply SB in Q1, V1, Q2, V2. destruct Q1 as [Q1 Q1'], Q2 as [Q2 Q2'], V1 as [V1 V1'], V2 as [V2 V2'].
      cbn [rb2_sim k_H0 k_H1 k_ndotv]. destruct (basis2 E) as [bn bt]. cbn [rb2_H0 rb2_H1 rb2_evalNdotV]. unfold rb2_relvel, point_velocity2. now rewrite ?Q1, ?Q2, ?V1, ?V2, ?V1', ?V2', ?Q1', ?Q2'.
    + exists (KinCircle i' r n kk kx kv ko). split; [reflexivity|]. split; [|split];
        [intros f [F1 F2]; unfold remap; cbn; rewrite F1; reflexivity..|].
      intros nb q v nb' q' v' E [[Q1 V1] _]. cbn [rb2_sim k_qs k_qslot k_s k_vslot] in *.
      apply SB in Q1, V1. destruct Q1 as [Q1 Q1'], V1 as [V1 V1'].
      cbn [rb2_sim k_H0 k_H1 k_ndotv]. destruct (basis2 E) as [bn bt]. cbn [rb2_H0 rb2_H1 rb2_evalNdotV]. unfold kin_point_velocity, kin_contact_point. now rewrite ?Q1, ?V1, ?V1', ?Q1'.
    + exists (PlaneBody2 i' a p). split; [reflexivity|]. split; [|split];
        [intros f [F1 F2]; unfold remap; cbn; rewrite F1; reflexivity..|].
      intros nb q v nb' q' v' E [[Q1 V1] _]. cbn [rb2_sim k_qs k_qslot k_s k_vslot] in *.
      apply SB in Q1, V1. destruct Q1 as [Q1 Q1'], V1 as [V1 V1'].
      cbn [rb2_sim k_H0 k_H1 k_ndotv]. destruct (basis2 E) as [bn bt]. cbn [rb2_H0 rb2_H1 rb2_evalNdotV]. unfold rb2_relvel, point_velocity2. now rewrite ?Q1, ?V1, ?V1', ?Q1'.
    + exists (PlaneCircle i' r p). split; [reflexivity|]. split; [|split];
        [intros f [F1 F2]; unfold remap; cbn; rewrite F1; reflexivity..|].
      intros nb q v nb' q' v' E [[Q1 V1] _]. cbn [rb2_sim k_qs k_qslot k_s k_vslot] in *.
      apply SB in Q1, V1. destruct Q1 as [Q1 Q1'], V1 as [V1 V1'].
      cbn [rb2_sim k_H0 k_H1 k_ndotv]. destruct (basis2 E) as [bn bt]. cbn [rb2_H0 rb2_H1 rb2_evalNdotV]. unfold plane_point_velocity2, kin_contact_point. now rewrite ?Q1, ?V1, ?V1', ?Q1'.
  - intros c i oj q E B SE. cbn [rb2_sim k_bodies k_d k_s] in *. injection B as B. destruct (shaped2 E SE) as [a [b [c' [e ->]]]].
    eexists _, _, _. split; [reflexivity|]. split; [reflexivity|]. split; [reflexivity|].
    destruct c as [ci cj n p r0 r1|ci cj n a0 a1|ci cj n a0 a1|ci cj n a0 a1 kk|ci r n kk kx kv ko|ci aa p|ci r p];
      cbn [rb2_bodies] in B; injection B as <- <-; (split; [shape_tac|]); (split; [reflexivity|]); cbn;
      try exact Logic.I; (split; [shape_tac|reflexivity]).
Qed.

(* ---------- rigid bodies in space ---------- *)
Lemma rb3_laws : sim_laws rb3_sim.
Proof.
  constructor; try (cbn; lia).
  - apply (slot3_ok 3).
  - apply (slot3_ok 9).
  - intros ng k Hk. now apply slot3_all.
  - intros c i oj i' oj' B [_ J]. cbn [rb3_sim k_bodies] in B.
    assert (SB : forall w nb x b nb' x' b', same_body (3 + w) (slot3 w) nb x b nb' x' b' -> seg3 x' (3 * b') = seg3 x (3 * b)).
    { intros w nb x b nb' x' b' S. unfold same_body in S. assert (S0 := S 0%nat ltac:(lia)). assert (S1 := S 1%nat ltac:(lia)). assert (S2 := S 2%nat ltac:(lia)).
      unfold slot3 in S0, S1, S2. cbn [Nat.ltb Nat.leb] in S0, S1, S2. unfold seg3. now rewrite S0, S1, S2. }
    assert (SA : forall nb x b nb' x' b', same_body 6 (slot3 3) nb x b nb' x' b' -> seg3 x' (3 * (nb' + b')) = seg3 x (3 * (nb + b))).
    { intros nb x b nb' x' b' S. unfold same_body in S. assert (S0 := S 3%nat ltac:(lia)). assert (S1 := S 4%nat ltac:(lia)). assert (S2 := S 5%nat ltac:(lia)).
      unfold slot3 in S0, S1, S2. cbn [Nat.ltb Nat.leb Nat.sub] in S0, S1, S2. rewrite !Nat.mul_add_distr_l. unfold seg3. now rewrite S0, S1, S2. }
    destruct c as [ci cj n p r0 r1|ci cj n a0 a1|ci cj n a0 a1|cs cb n a0 a1|ci kk n a|ci r n kk|ci n a p|ci r p|ci r cy|ci a cy];
      cbn [rb3_sim_bodies rb3_bodies] in B; try discriminate; injection B as <- <-; destruct oj' as [j'|]; try contradiction.
    + exists (SphereSphere i' j' n p r0 r1). split; [reflexivity|]. split; [|split];
        [intros f [F1 F2]; unfold remap; cbn; rewrite F1; cbn; now rewrite F2..|].
      intros nb q v nb' q' v' E [[Q1 V1] [Q2 V2]]. cbn [rb3_sim k_qs k_qslot k_s k_vslot] in *.
      apply (SB 9%nat) in Q1, Q2. assert (W1 := SA _ _ _ _ _ _ V1). assert (W2 := SA _ _ _ _ _ _ V2). apply (SB 3%nat) in V1, V2.
      cbn [rb3_sim k_H0 k_H1 k_ndotv rb3_H0 rb3_H1 rb3_evalNdotV]. unfold point_velocity3. now rewrite ?Q1, ?Q2, ?V1, ?V2, ?W1, ?W2.
    + exists (TeleSphereSphere i' j' n a0 a1). split; [reflexivity|]. split; [|split];
        [intros f [F1 F2]; unfold remap; cbn; rewrite F1; cbn; now rewrite F2..|].
      intros nb q v nb' q' v' E [[Q1 V1] [Q2 V2]]. cbn [rb3_sim k_qs k_qslot k_s k_vslot] in *.
      apply (SB 9%nat) in Q1, Q2. assert (W1 := SA _ _ _ _ _ _ V1). assert (W2 := SA _ _ _ _ _ _ V2). apply (SB 3%nat) in V1, V2.
      cbn [rb3_sim k_H0 k_H1 k_ndotv rb3_H0 rb3_H1 rb3_evalNdotV]. unfold point_velocity3. now rewrite ?Q1, ?Q2, ?V1, ?V2, ?W1, ?W2.
    + exists (BodyBody3 i' j' n a0 a1). split; [reflexivity|]. split; [|split];
        [intros f [F1 F2]; unfold remap; cbn; rewrite F1; cbn; now rewrite F2..|].
      intros nb q v nb' q' v' E [[Q1 V1] [Q2 V2]]. cbn [rb3_sim k_qs k_qslot k_s k_vslot] in *.
      apply (SB 9%nat) in Q1, Q2. assert (W1 := SA _ _ _ _ _ _ V1). assert (W2 := SA _ _ _ _ _ _ V2). apply (SB 3%nat) in V1, V2.
      cbn [rb3_sim k_H0 k_H1 k_ndotv rb3_H0 rb3_H1 rb3_evalNdotV]. unfold point_velocity3. now rewrite ?Q1, ?Q2, ?V1, ?V2, ?W1, ?W2.
    + exists (KinBody i' kk n a). split; [reflexivity|]. split; [|split]; [intros f [F1 F2]; unfold remap; cbn; rewrite F1; reflexivity..|].
      intros nb q v nb' q' v' E [[Q1 V1] _]. cbn [rb3_sim k_qs k_qslot k_s k_vslot] in *.
      apply (SB 9%nat) in Q1. assert (W1 := SA _ _ _ _ _ _ V1). apply (SB 3%nat) in V1.
      cbn [rb3_sim k_H0 k_H1 k_ndotv rb3_H0 rb3_H1 rb3_evalNdotV]. unfold point_velocity3. now rewrite ?Q1, ?V1, ?W1.
    + exists (KinSphere i' r n kk). split; [reflexivity|]. split; [|split]; [intros f [F1 F2]; unfold remap; cbn; rewrite F1; reflexivity..|].
      intros nb q v nb' q' v' E [[Q1 V1] _]. cbn [rb3_sim k_qs k_qslot k_s k_vslot] in *.
      apply (SB 9%nat) in Q1. assert (W1 := SA _ _ _ _ _ _ V1). apply (SB 3%nat) in V1.
      cbn [rb3_sim k_H0 k_H1 k_ndotv rb3_H0 rb3_H1 rb3_evalNdotV]. unfold point_velocity3. now rewrite ?Q1, ?V1, ?W1.
    + exists (PlaneBody3 i' n a p). split; [reflexivity|]. split; [|split]; [intros f [F1 F2]; unfold remap; cbn; rewrite F1; reflexivity..|].
      intros nb q v nb' q' v' E [[Q1 V1] _]. cbn [rb3_sim k_qs k_qslot k_s k_vslot] in *.
      apply (SB 9%nat) in Q1. assert (W1 := SA _ _ _ _ _ _ V1). apply (SB 3%nat) in V1.
      cbn [rb3_sim k_H0 k_H1 k_ndotv rb3_H0 rb3_H1 rb3_evalNdotV]. unfold point_velocity3. now rewrite ?Q1, ?V1, ?W1.
    + exists (PlaneSphere i' r p). split; [reflexivity|]. split; [|split]; [intros f [F1 F2]; unfold remap; cbn; rewrite F1; reflexivity..|].
      intros nb q v nb' q' v' E [[Q1 V1] _]. cbn [rb3_sim k_qs k_qslot k_s k_vslot] in *.
      apply (SB 9%nat) in Q1. assert (W1 := SA _ _ _ _ _ _ V1). apply (SB 3%nat) in V1.
      cbn [rb3_sim k_H0 k_H1 k_ndotv rb3_H0 rb3_H1 rb3_evalNdotV]. unfold plane_point_velocity3. now rewrite ?Q1, ?V1, ?W1.
    + exists (CylSphere i' r cy). split; [reflexivity|]. split; [|split]; [intros f [F1 F2]; unfold remap; cbn; rewrite F1; reflexivity..|].
      intros nb q v nb' q' v' E [[Q1 V1] _]. cbn [rb3_sim k_qs k_qslot k_s k_vslot] in *.
      apply (SB 9%nat) in Q1. assert (W1 := SA _ _ _ _ _ _ V1). apply (SB 3%nat) in V1.
      cbn [rb3_sim k_H0 k_H1 k_ndotv rb3_H0 rb3_H1 rb3_evalNdotV]. unfold cyl_point_velocity, cyl_n. now rewrite ?Q1, ?V1, ?W1.
    + exists (CylBody i' a cy). split; [reflexivity|]. split; [|split]; [intros f [F1 F2]; unfold remap; cbn; rewrite F1; reflexivity..|].
      intros nb q v nb' q' v' E [[Q1 V1] _]. cbn [rb3_sim k_qs k_qslot k_s k_vslot] in *.
      apply (SB 9%nat) in Q1. assert (W1 := SA _ _ _ _ _ _ V1). apply (SB 3%nat) in V1.
      cbn [rb3_sim k_H0 k_H1 k_ndotv rb3_H0 rb3_H1 rb3_evalNdotV]. unfold point_velocity3, cyl_n. now rewrite ?Q1, ?V1, ?W1.
  - intros c i oj q E B SE. cbn [rb3_sim k_bodies k_d k_s] in *. destruct (shaped3 E SE) as [a0 [a1 [a2 [b0 [b1 [b2 [e0 [e1 [e2 ->]]]]]]]]].
    destruct c as [ci cj n p r0 r1|ci cj n aa0 aa1|ci cj n aa0 aa1|cs cb n aa0 aa1|ci kk n a|ci r n kk|ci n a p|ci r p|ci r cy|ci a cy];
      cbn [rb3_sim_bodies rb3_bodies] in B; try discriminate; injection B as <- <-;
      (eexists _, _, _; split; [reflexivity|]; split; [reflexivity|]; split; [reflexivity|]; split; [shape_tac|]; split; [reflexivity|]; cbn;
      try exact Logic.I; (split; [shape_tac|reflexivity])).
Qed.
