(* Final lemmas for Grid_Props *)
From Coq Require Import List NArith ZArith QArith Reals Lia Lra Bool Sorted ZifyBool ZifyNat ZifyN.
From Flocq Require Import Core IEEE754.BinarySingleNaN.
From Verif Require Import Outcome Grid_Model Grid_Spec Grid_Proofs Grid_Arith Grid_Dim Grid_Exact.
Import ListNotations.
Open Scope N_scope.

Lemma le_alt64 (a b : b64) : fin a -> fin b -> (val a <= val b)%R -> alt binary64 b a = false.
Proof.
  intros Fa Fb H. cbn [binary64 alt]. rewrite (Bltb_correct 53 1024 b a Fb Fa). apply Rlt_bool_false. exact H.
Qed.

Lemma complete2_64 (bs : list (box2 binary64)) s out i j : indexable bs ->
  Forall finite2 bs -> Forall inhabited2R bs ->
  getPotentialOverlaps2 binary64 bs s = Ok out ->
  i < j -> meeting meet2R bs i j -> In (i, j) out.
Proof.
  intros Hi F W E Hij (a & b & Ha & Hb & (p & (P1 & P2 & P3 & P4) & (Q1 & Q2 & Q3 & Q4))).
  rewrite Forall_forall in F, W.
  destruct (F a) as (A1 & A2 & A3 & A4); [eapply nth_error_In; exact Ha|].
  destruct (F b) as (B1 & B2 & B3 & B4); [eapply nth_error_In; exact Hb|].
  eapply (any_complete2 binary64 binary64_laws); eauto.
  - apply Forall_forall. intros c Ic. destruct (F c Ic) as (C1 & C2 & C3 & C4).
    destruct (W c Ic) as (q & R1 & R2 & R3 & R4). split; apply le_alt64; auto; lra.
  - apply overlaps2_intro; apply le_alt64; auto; lra.
Qed.
Lemma complete3_64 (bs : list (box3 binary64)) s out i j : indexable bs ->
  Forall finite3 bs -> Forall inhabited3R bs ->
  getPotentialOverlaps3 binary64 bs s = Ok out ->
  i < j -> meeting meet3R bs i j -> In (i, j) out.
Proof.
  intros Hi F W E Hij (a & b & Ha & Hb & (p & (P1 & P2 & P3 & P4 & P5 & P6) & (Q1 & Q2 & Q3 & Q4 & Q5 & Q6))).
  rewrite Forall_forall in F, W.
  destruct (F a) as (A1 & A2 & A3 & A4 & A5 & A6); [eapply nth_error_In; exact Ha|].
  destruct (F b) as (B1 & B2 & B3 & B4 & B5 & B6); [eapply nth_error_In; exact Hb|].
  eapply (any_complete3 binary64 binary64_laws); eauto.
  - apply Forall_forall. intros c Ic. destruct (F c Ic) as (C1 & C2 & C3 & C4 & C5 & C6).
    destruct (W c Ic) as (q & R1 & R2 & R3 & R4 & R5 & R6). repeat split; apply le_alt64; auto; lra.
  - apply overlaps3_intro; apply le_alt64; auto; lra.
Qed.

Lemma complete2_exact (bs : list (box2 exact)) s out i j : indexable bs -> Forall proper2 bs ->
  getPotentialOverlaps2 exact bs s = Ok out -> i < j -> meeting meet2 bs i j -> In (i, j) out.
Proof.
  intros Hi W E Hij (a & b & Ha & Hb & M). rewrite Forall_forall in W.
  eapply (any_complete2 exact exact_laws); eauto.
  - apply Forall_forall; intros; apply proper2_wf; auto.
  - apply overlaps2_meet; auto; apply W; eapply nth_error_In; eauto.
Qed.
Lemma complete3_exact (bs : list (box3 exact)) s out i j : indexable bs -> Forall proper3 bs ->
  getPotentialOverlaps3 exact bs s = Ok out -> i < j -> meeting meet3 bs i j -> In (i, j) out.
Proof.
  intros Hi W E Hij (a & b & Ha & Hb & M). rewrite Forall_forall in W.
  eapply (any_complete3 exact exact_laws); eauto.
  - apply Forall_forall; intros; apply proper3_wf; auto.
  - apply overlaps3_meet; auto; apply W; eapply nth_error_In; eauto.
Qed.

(* every pair returned in double arithmetic really overlaps *)
Lemma alt64_le (a b : b64) : fin a -> fin b -> alt binary64 b a = false -> (val a <= val b)%R.
Proof. intros Fa Fb H. apply not_lt_val; auto. Qed.
Lemma axis_meet (la ua lb ub : R) : (la <= ua -> lb <= ub -> lb <= ua -> la <= ub ->
  la <= Rmax la lb <= ua /\ lb <= Rmax la lb <= ub)%R.
Proof. intros. unfold Rmax. destruct (Rle_dec la lb); lra. Qed.
Lemma sound2_64 (bs : list (box2 binary64)) s out i j : indexable bs ->
  Forall finite2 bs -> Forall inhabited2R bs ->
  getPotentialOverlaps2 binary64 bs s = Ok out -> In (i, j) out ->
  In (i, j) s \/ (i <= j /\ meeting meet2R bs i j).
Proof.
  intros Hi F W E H. eapply any_sound2 in H as [|(L & a & b & Ha & Hb & O)]; eauto. right. split; auto.
  exists a, b. repeat split; auto. rewrite Forall_forall in F, W.
  assert (Ia : In a bs) by (eapply nth_error_In; exact Ha).
  assert (Ib : In b bs) by (eapply nth_error_In; exact Hb).
  destruct (F a Ia) as (A1 & A2 & A3 & A4). destruct (F b Ib) as (B1 & B2 & B3 & B4).
  destruct (W a Ia) as (p & P1 & P2 & P3 & P4). destruct (W b Ib) as (q & Q1 & Q2 & Q3 & Q4).
  apply overlaps2_inv in O as (O1 & O2 & O3 & O4).
  apply alt64_le in O1, O2, O3, O4; auto.
  destruct (axis_meet (val (fst (lo2 a))) (val (fst (up2 a))) (val (fst (lo2 b))) (val (fst (up2 b)))); try lra.
  destruct (axis_meet (val (snd (lo2 a))) (val (snd (up2 a))) (val (snd (lo2 b))) (val (snd (up2 b)))); try lra.
  exists (Rmax (val (fst (lo2 a))) (val (fst (lo2 b))), Rmax (val (snd (lo2 a))) (val (snd (lo2 b)))).
  split; repeat split; cbn [fst snd]; tauto.
Qed.
Lemma sound3_64 (bs : list (box3 binary64)) s out i j : indexable bs ->
  Forall finite3 bs -> Forall inhabited3R bs ->
  getPotentialOverlaps3 binary64 bs s = Ok out -> In (i, j) out ->
  In (i, j) s \/ (i <= j /\ meeting meet3R bs i j).
Proof.
  intros Hi F W E H. eapply any_sound3 in H as [|(L & a & b & Ha & Hb & O)]; eauto. right. split; auto.
  exists a, b. repeat split; auto. rewrite Forall_forall in F, W.
  assert (Ia : In a bs) by (eapply nth_error_In; exact Ha).
  assert (Ib : In b bs) by (eapply nth_error_In; exact Hb).
  destruct (F a Ia) as (A1 & A2 & A3 & A4 & A5 & A6). destruct (F b Ib) as (B1 & B2 & B3 & B4 & B5 & B6).
  destruct (W a Ia) as (p & P1 & P2 & P3 & P4 & P5 & P6). destruct (W b Ib) as (q & Q1 & Q2 & Q3 & Q4 & Q5 & Q6).
  apply overlaps3_inv in O as ((O1 & O2 & O3) & O4 & O5 & O6).
  apply alt64_le in O1, O2, O3, O4, O5, O6; auto.
  destruct (axis_meet (val (c0 (lo3 a))) (val (c0 (up3 a))) (val (c0 (lo3 b))) (val (c0 (up3 b)))); try lra.
  destruct (axis_meet (val (c1 (lo3 a))) (val (c1 (up3 a))) (val (c1 (lo3 b))) (val (c1 (up3 b)))); try lra.
  destruct (axis_meet (val (c2 (lo3 a))) (val (c2 (up3 a))) (val (c2 (lo3 b))) (val (c2 (up3 b)))); try lra.
  exists (Rmax (val (c0 (lo3 a))) (val (c0 (lo3 b))), Rmax (val (c1 (lo3 a))) (val (c1 (lo3 b))), Rmax (val (c2 (lo3 a))) (val (c2 (lo3 b)))).
  split; repeat split; unfold c0, c1, c2 in *; cbn [fst snd]; tauto.
Qed.

Lemma all_pairs2 (bs : list (box2 exact)) : indexable bs -> Forall proper2 bs ->
  exactly_meeting meet2 bs (getPotentialOverlapsAllPairs2 exact bs []).
Proof.
  intros Hi W. rewrite Forall_forall in W. split; [apply all_pairs_sorted; constructor|].
  intros i j. unfold getPotentialOverlapsAllPairs2. rewrite all_pairs_spec by auto.
  unfold meeting. split; intros (L & a & b & Ha & Hb & O); (split; [exact L|]); exists a, b; (split; [exact Ha|split; [exact Hb|]]);
    (apply overlaps2_meet; [apply W; eapply nth_error_In; exact Ha|apply W; eapply nth_error_In; exact Hb|exact O]).
Qed.
Lemma all_pairs3 (bs : list (box3 exact)) : indexable bs -> Forall proper3 bs ->
  exactly_meeting meet3 bs (getPotentialOverlapsAllPairs3 exact bs []).
Proof.
  intros Hi W. rewrite Forall_forall in W. split; [apply all_pairs_sorted; constructor|].
  intros i j. unfold getPotentialOverlapsAllPairs3. rewrite all_pairs_spec by auto.
  unfold meeting. split; intros (L & a & b & Ha & Hb & O); (split; [exact L|]); exists a, b; (split; [exact Ha|split; [exact Hb|]]);
    (apply overlaps3_meet; [apply W; eapply nth_error_In; exact Ha|apply W; eapply nth_error_In; exact Hb|exact O]).
Qed.

Lemma exact_grid2 (bs : list (box2 exact)) X Y : bs <> [] -> indexable bs -> Forall proper2 bs ->
  spread2 bs X Y -> (X < 4294967296)%Z -> (Y < 4294967296)%Z -> (X * Y <= 4294967296)%Z ->
  exists out, getPotentialOverlaps2 exact bs [] = Ok out /\ exactly_meeting meet2 bs out /\
    out = getPotentialOverlapsAllPairs2 exact bs [].
Proof.
  intros Hne Hi W Sp HX HY HXY.
  destruct (exact2 bs X Y Hne W Sp HX HY HXY Hi []) as (out & E & S & H); [constructor|].
  assert (EM : exactly_meeting meet2 bs out).
  { split; auto. intros i j. rewrite H. cbn [In]. tauto. }
  exists out. repeat split; auto; try (apply EM; auto).
  destruct (all_pairs2 bs Hi W) as [S' H']. apply pair_set_ext; auto.
  intros [i j]. rewrite H'. apply EM.
Qed.
Lemma exact_grid3 (bs : list (box3 exact)) X Y Z : bs <> [] -> indexable bs -> Forall proper3 bs ->
  spread3 bs X Y Z -> (X < 4294967296)%Z -> (Y < 4294967296)%Z -> (Z < 4294967296)%Z -> (X * Y * Z <= 4294967296)%Z ->
  exists out, getPotentialOverlaps3 exact bs [] = Ok out /\ exactly_meeting meet3 bs out /\
    out = getPotentialOverlapsAllPairs3 exact bs [].
Proof.
  intros Hne Hi W Sp HX HY HZ HXY.
  destruct (exact3 bs X Y Z Hne W Sp HX HY HZ HXY Hi []) as (out & E & S & H); [constructor|].
  assert (EM : exactly_meeting meet3 bs out).
  { split; auto. intros i j. rewrite H. cbn [In]. tauto. }
  exists out. repeat split; auto; try (apply EM; auto).
  destruct (all_pairs3 bs Hi W) as [S' H']. apply pair_set_ext; auto.
  intros [i j]. rewrite H'. apply EM.
Qed.

Lemma trial2 (t : box2 exact) (bs : list (box2 exact)) out : proper2 t -> Forall proper2 bs ->
  exists found, getPotentialOverlapsTrial2 exact t bs out = out ++ found /\ StronglySorted N.lt found /\
    forall i, In i found <-> exists b, box_at bs i b /\ meet2 b t.
Proof.
  intros Ht W. rewrite Forall_forall in W. unfold getPotentialOverlapsTrial2. rewrite trial_gen.
  eexists; split; [reflexivity|]. split.
  - assert (G : forall f n i, StronglySorted N.lt (map N.of_nat (filter f (seq i n))) /\
       Forall (fun x => N.of_nat i <= x) (map N.of_nat (filter f (seq i n)))).
    { intros f n. induction n as [|n IH]; intros i; cbn [seq filter]; [split; constructor|].
      destruct (IH (Datatypes.S i)) as [S1 S2]. destruct (f i); cbn [map].
      - split; constructor; auto.
        + eapply Forall_impl; [|exact S2]. cbv beta. lia.
        + lia.
        + eapply Forall_impl; [|exact S2]. cbv beta. lia.
      - split; auto. eapply Forall_impl; [|exact S2]. cbv beta. lia. }
    apply G.
  - intros i. rewrite in_map_iff. unfold box_at. split.
    + intros (k & <- & I). apply filter_In in I as [I1 I2]. rewrite Nat.sub_0_r in I2. rewrite Nat2N.id.
      destruct (nth_error bs k) as [b|] eqn:E; [|discriminate]. exists b. split; auto.
      apply overlaps2_meet; auto. apply W. eapply nth_error_In; eauto.
    + intros (b & E & M). exists (N.to_nat i). split; [lia|]. apply filter_In. split.
      * apply in_seq. assert (N.to_nat i < length bs)%nat; [|lia]. apply nth_error_Some. congruence.
      * rewrite Nat.sub_0_r, E. apply overlaps2_meet; auto. apply W. eapply nth_error_In; eauto.
Qed.
