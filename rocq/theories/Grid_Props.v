(* C14, C15: the broad phase. *)
From Coq Require Import List NArith ZArith QArith Reals Lia Lra Bool Sorted.
From Flocq Require Import Core IEEE754.BinarySingleNaN.
From Verif Require Import Outcome Grid_Model Grid_Spec Grid_Proofs Grid_Arith Grid_Dim Grid_Exact Grid_Final.
Import ListNotations.
Open Scope N_scope.

(* C14 in the arithmetic the program uses: whatever rounding does, and even when the 32-bit cell
   keys wrap, a call that returns has every meeting pair. *)
Theorem C14_grid2_complete_binary64 : forall (bs : list (box2 binary64)) s out i j,
  indexable bs -> Forall finite2 bs -> Forall inhabited2R bs ->
  getPotentialOverlaps2 binary64 bs s = Ok out ->
  i < j -> meeting meet2R bs i j -> In (i, j) out.
Proof. exact complete2_64. Qed.
Print Assumptions C14_grid2_complete_binary64.
Theorem C14_grid3_complete_binary64 : forall (bs : list (box3 binary64)) s out i j,
  indexable bs -> Forall finite3 bs -> Forall inhabited3R bs ->
  getPotentialOverlaps3 binary64 bs s = Ok out ->
  i < j -> meeting meet3R bs i j -> In (i, j) out.
Proof. exact complete3_64. Qed.
Print Assumptions C14_grid3_complete_binary64.

Theorem C14_grid2_complete : forall (bs : list (box2 exact)) s out i j,
  indexable bs -> Forall proper2 bs ->
  getPotentialOverlaps2 exact bs s = Ok out -> i < j -> meeting meet2 bs i j -> In (i, j) out.
Proof. exact complete2_exact. Qed.
Print Assumptions C14_grid2_complete.
Theorem C14_grid3_complete : forall (bs : list (box3 exact)) s out i j,
  indexable bs -> Forall proper3 bs ->
  getPotentialOverlaps3 exact bs s = Ok out -> i < j -> meeting meet3 bs i j -> In (i, j) out.
Proof. exact complete3_exact. Qed.
Print Assumptions C14_grid3_complete.

(* C15: with at most 2^32 cells the grid returns, and its answer is the reference's. *)
Theorem C15_grid2_exact : forall (bs : list (box2 exact)) X Y,
  bs <> [] -> indexable bs -> Forall proper2 bs ->
  spread2 bs X Y -> (X < 4294967296)%Z -> (Y < 4294967296)%Z -> (X * Y <= 4294967296)%Z ->
  exists out, getPotentialOverlaps2 exact bs [] = Ok out /\ exactly_meeting meet2 bs out /\
    out = getPotentialOverlapsAllPairs2 exact bs [].
Proof. exact exact_grid2. Qed.
Print Assumptions C15_grid2_exact.
Theorem C15_grid3_exact : forall (bs : list (box3 exact)) X Y Z,
  bs <> [] -> indexable bs -> Forall proper3 bs ->
  spread3 bs X Y Z -> (X < 4294967296)%Z -> (Y < 4294967296)%Z -> (Z < 4294967296)%Z ->
  (X * Y * Z <= 4294967296)%Z ->
  exists out, getPotentialOverlaps3 exact bs [] = Ok out /\ exactly_meeting meet3 bs out /\
    out = getPotentialOverlapsAllPairs3 exact bs [].
Proof. exact exact_grid3. Qed.
Print Assumptions C15_grid3_exact.

(* the reference itself *)
Theorem C15_all_pairs2 : forall (bs : list (box2 exact)), indexable bs -> Forall proper2 bs ->
  exactly_meeting meet2 bs (getPotentialOverlapsAllPairs2 exact bs []).
Proof. exact all_pairs2. Qed.
Print Assumptions C15_all_pairs2.
Theorem C15_all_pairs3 : forall (bs : list (box3 exact)), indexable bs -> Forall proper3 bs ->
  exactly_meeting meet3 bs (getPotentialOverlapsAllPairs3 exact bs []).
Proof. exact all_pairs3. Qed.
Print Assumptions C15_all_pairs3.

(* the one-box query appends the meeting boxes in increasing order *)
Theorem C15_trial_exact : forall (t : box2 exact) (bs : list (box2 exact)) out, proper2 t -> Forall proper2 bs ->
  exists found, getPotentialOverlapsTrial2 exact t bs out = out ++ found /\ StronglySorted N.lt found /\
    forall i, In i found <-> exists b, box_at bs i b /\ meet2 b t.
Proof. exact trial2. Qed.
Print Assumptions C15_trial_exact.

(* In double arithmetic every pair returned meets; a box may however be paired with itself. *)
Theorem C15_grid2_sound_binary64 : forall (bs : list (box2 binary64)) s out i j,
  indexable bs -> Forall finite2 bs -> Forall inhabited2R bs ->
  getPotentialOverlaps2 binary64 bs s = Ok out -> In (i, j) out ->
  In (i, j) s \/ (i <= j /\ meeting meet2R bs i j).
Proof. exact sound2_64. Qed.
Print Assumptions C15_grid2_sound_binary64.
Theorem C15_grid3_sound_binary64 : forall (bs : list (box3 binary64)) s out i j,
  indexable bs -> Forall finite3 bs -> Forall inhabited3R bs ->
  getPotentialOverlaps3 binary64 bs s = Ok out -> In (i, j) out ->
  In (i, j) s \/ (i <= j /\ meeting meet3R bs i j).
Proof. exact sound3_64. Qed.
Print Assumptions C15_grid3_sound_binary64.

(* ---------- findings ---------- *)

(* Two unit boxes 4294967293 apart: the keys wrap and box 0 is reported against itself. *)
Definition far_boxes : list (box2 exact) :=
  [Box2 (ar := exact) (0, 0)%Q (1, 1)%Q; Box2 (ar := exact) (4294967293 # 1, 0)%Q (4294967294 # 1, 1)%Q].
Theorem C15_key_wrap_self_pair_refuted :
  Forall proper2 far_boxes /\ exists out, getPotentialOverlaps2 exact far_boxes [] = Ok out /\ In (0, 0) out.
Proof.
  split.
  - repeat constructor; cbn; unfold Qlt; cbn; lia.
  - exists [(0, 0); (1, 1)]. split; [vm_compute; reflexivity|now left].
Qed.
Print Assumptions C15_key_wrap_self_pair_refuted.

(* A single box from -2^40 to 2^40: the 1e-6 margins are rounded away, the last cell index equals
   the number of cells, two cells share a key and the box is reported against itself. *)
Definition huge_box : list (box2 binary64) :=
  [Box2 (ar := binary64) (b64_of (-1) 40, b64_of (-1) 40) (b64_of 1 40, b64_of 1 40)].
Lemma huge_box_run : getPotentialOverlaps2 binary64 huge_box [] = Ok [(0, 0)].
Proof. vm_compute. reflexivity. Qed.
Theorem C15_rounding_self_pair_refuted :
  Forall finite2 huge_box /\ exists out, getPotentialOverlaps2 binary64 huge_box [] = Ok out /\ In (0, 0) out.
Proof.
  split.
  - repeat constructor.
  - exists [(0, 0)]. split; [exact huge_box_run|now left].
Qed.
Print Assumptions C15_rounding_self_pair_refuted.

(* No boxes at all: the grid size is computed from 0/0 and infinities, an undefined cast. *)
Theorem C15_no_boxes_refuted :
  getPotentialOverlaps2 exact [] [] = UB /\ getPotentialOverlaps3 exact [] [] = UB /\
  getPotentialOverlapsAllPairs2 exact [] [] = [].
Proof. repeat split. Qed.
Print Assumptions C15_no_boxes_refuted.

(* ---------- the hypotheses are met ---------- *)
Definition three_boxes : list (box2 exact) :=
  [Box2 (ar := exact) (0, 0)%Q (1, 1)%Q; Box2 (ar := exact) (1, 1 # 2)%Q (2, 3 # 2)%Q; Box2 (ar := exact) (5, 5)%Q (7, 6)%Q].
Example three_boxes_spread : spread2 three_boxes 6 6.
Proof.
  intros h (e & He & H1 & H2 & Eh) a b Ia Ib.
  assert (Ee : (e == 4)%Q).
  { destruct He as [-> | ->]; [vm_compute; reflexivity|]. exfalso. vm_compute in H1. apply H1. reflexivity. }
  assert (Vh : (h == 4 # 3)%Q) by (rewrite Eh, Ee; reflexivity).
  cbn in Ia, Ib. rewrite Vh.
  repeat (destruct Ia as [<-|Ia]); try destruct Ia; repeat (destruct Ib as [<-|Ib]); try destruct Ib;
    split; vm_compute; discriminate.
Qed.
Example three_boxes_result : getPotentialOverlaps2 exact three_boxes [] = Ok [(0, 1)].
Proof. vm_compute. reflexivity. Qed.
Example three_boxes_proper : Forall proper2 three_boxes.
Proof. repeat constructor; cbn; unfold Qlt; cbn; lia. Qed.

Definition two_cubes : list (box3 exact) :=
  [Box3 (ar := exact) (0, 0, 0)%Q (1, 1, 1)%Q; Box3 (ar := exact) (1, 1 # 2, 1 # 3)%Q (2, 3 # 2, 2)%Q].
Example two_cubes_spread : spread3 two_cubes 2 2 2.
Proof.
  intros h (e & He & H1 & H2 & H3 & Eh) a b Ia Ib.
  assert (Ee : (e == 8 # 3)%Q).
  { destruct He as [-> |[-> | ->]]; [| |vm_compute; reflexivity]; exfalso; vm_compute in H3; apply H3; reflexivity. }
  assert (Vh : (h == 4 # 3)%Q) by (rewrite Eh, Ee; reflexivity).
  cbn in Ia, Ib. rewrite Vh.
  repeat (destruct Ia as [<-|Ia]); try destruct Ia; repeat (destruct Ib as [<-|Ib]); try destruct Ib;
    repeat split; vm_compute; discriminate.
Qed.
Example two_cubes_result : getPotentialOverlaps3 exact two_cubes [] = Ok [(0, 1)].
Proof. vm_compute. reflexivity. Qed.

(* doubles: 0..1, 1..2 (touching) and 5..7 *)
Definition three_boxes64 : list (box2 binary64) :=
  [Box2 (ar := binary64) (b64_of 0 0, b64_of 0 0) (b64_of 1 0, b64_of 1 0);
   Box2 (ar := binary64) (b64_of 1 0, b64_of 1 (-1)) (b64_of 2 0, b64_of 3 (-1));
   Box2 (ar := binary64) (b64_of 5 0, b64_of 5 0) (b64_of 7 0, b64_of 6 0)].
Example three_boxes64_result : getPotentialOverlaps2 binary64 three_boxes64 [] = Ok [(0, 1)].
Proof. vm_compute. reflexivity. Qed.
Example three_boxes64_finite : Forall finite2 three_boxes64.
Proof. repeat constructor. Qed.
