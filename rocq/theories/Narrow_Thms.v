(* The planar contact set as a whole. *)
From Coq Require Import List Reals Arith NArith Bool Lra Lia.
From Verif Require Import Outcome Grid_Model Grid_Spec Grid_Proofs Grid_Dim Grid_Real Ccd_Model Ccd_Spec Ccd_Proofs Lin_Model ContactRb2_Model ContactRb3_Model
  Rot_Model Rot_Spec Rot_Alg Geom_Model Geom_Spec Geom_Sets Geom_Circle Geom_BoxBox Geom_Aabb Wall_Model Wall_Spec Wall_Thms Wall_More Narrow_Model Narrow_Spec Narrow_Proofs.
Import ListNotations.
Local Open Scope R_scope.

Lemma box_at_seq : forall {B} (f : nat -> B) nb i b, box_at (map f (seq 0 nb)) i b <-> (N.to_nat i < nb)%nat /\ b = f (N.to_nat i).
Proof.
  intros B f nb i b. unfold box_at. destruct (lt_dec (N.to_nat i) nb) as [L|L].
  - rewrite nth_error_map, (nth_error_nth' _ 0%nat) by (rewrite seq_length; exact L). rewrite seq_nth by exact L. cbn [option_map Nat.add].
    split; [intros E; split; [exact L|congruence]|intros [_ ->]; reflexivity].
  - rewrite (proj2 (nth_error_None _ _)) by (rewrite map_length, seq_length; lia). split; [discriminate|intros [H _]; contradiction].
Qed.
Lemma plane_pairs2 : forall q1 fixed shape nb planes c, In c (map snd (rb2_plane_set q1 fixed shape nb planes)) -> pair2 c = None.
Proof.
  intros q1 fixed shape nb planes c H. apply in_map_iff in H. destruct H as ([k c'] & <- & H). unfold rb2_plane_set, Wall_Model.all_pairs in H.
  apply in_flat_map in H. destruct H as (kp & _ & H). apply in_flat_map in H. destruct H as (i & _ & H). destruct (fixed i); [destruct H|].
  destruct (shape i) as [r|w].
  - destruct (disc_plane_active _ _ _ _); [|destruct H]. destruct H as [H|[]]. injection H as <- <-. reflexivity.
  - apply in_flat_map in H. destruct H as (a & _ & H). destruct (Wall_Model.Rleb _ _); [|destruct H]. destruct H as [H|[]]. injection H as <- <-. reflexivity.
Qed.

(* swapping the bodies so that a scripted one comes second *)
Lemma dispatch2_core : forall fixed shape q0 q1 v i j,
  dispatch2 fixed shape q0 q1 v i j =
    if fixed i && fixed j then Ok [] else if fixed i then core2 fixed shape q0 q1 v j i else core2 fixed shape q0 q1 v i j.
Proof. intros fixed shape q0 q1 v i j. unfold dispatch2, core2. destruct (fixed i), (fixed j); reflexivity. Qed.

Section Set2.
  Context (nb : nat) (fixed : nat -> bool) (shape : nat -> shape2) (q0 q1 v : dvec).
  Hypothesis Few : (N.of_nat nb <= 4294967296)%N.
  Hypothesis Sized : forall i, (i < nb)%nat -> sized2 (shape i).

  Let boxes := map (collision_box2 shape q0 q1) (seq 0 nb).
  Lemma boxes_indexable : indexable boxes.
  Proof. unfold indexable, boxes. rewrite map_length, seq_length. exact Few. Qed.
  Lemma boxes_wf : Forall (wf2 real) boxes.
  Proof.
    apply Forall_forall. intros b H. apply in_map_iff in H. destruct H as (i & <- & H). apply in_seq in H. apply collision_box_wf, Sized. lia.
  Qed.
  Lemma possible_iff : forall out i j, getPotentialOverlaps2 real boxes [] = Ok out -> (i < j)%nat -> (j < nb)%nat ->
    (In (N.of_nat i, N.of_nat j) out <-> bounds_meet2 shape q0 q1 i j).
  Proof.
    intros out i j E Hij Hj. rewrite <- overlaps_bounds by (apply Sized; lia). split.
    - intros H. apply (any_sound2 real boxes [] out _ _ boxes_indexable E) in H. destruct H as [[]|(_ & a & b & Ha & Hb & O)].
      apply box_at_seq in Ha, Hb. rewrite !Nat2N.id in *. destruct Ha as [_ ->]. destruct Hb as [_ ->]. exact O.
    - intros O. apply (any_complete2 real real_laws boxes [] out (N.of_nat i) (N.of_nat j) (collision_box2 shape q0 q1 i) (collision_box2 shape q0 q1 j) boxes_indexable boxes_wf E).
      + lia.
      + apply box_at_seq. rewrite Nat2N.id. split; [lia|reflexivity].
      + apply box_at_seq. rewrite Nat2N.id. split; [lia|reflexivity].
      + exact O.
  Qed.
  Lemma possible_range : forall out a b, getPotentialOverlaps2 real boxes [] = Ok out -> In (a, b) out ->
    (N.to_nat a <= N.to_nat b)%nat /\ (N.to_nat b < nb)%nat.
  Proof.
    intros out a b E H. apply (any_sound2 real boxes [] out _ _ boxes_indexable E) in H. destruct H as [[]|(L & x & y & _ & Hb & _)].
    apply box_at_seq in Hb. lia.
  Qed.

  (* one candidate pair i < j *)
  Lemma dispatch2_ok : forall i j, (i < j)%nat -> (j < nb)%nat ->
    (unsupported2 fixed shape i j /\ dispatch2 fixed shape q0 q1 v i j = Exit)
    \/ (~ unsupported2 fixed shape i j /\ exists cs, dispatch2 fixed shape q0 q1 v i j = Ok cs
        /\ (cs <> [] <-> ~ (fixed i = true /\ fixed j = true) /\ collide2 shape q0 q1 i j) /\ (length cs <= 2)%nat
        /\ (is_circle (shape i) = true \/ is_circle (shape j) = true -> (length cs <= 1)%nat)
        /\ forall c, In c cs -> exists a b, ((a = i /\ b = j) \/ (a = j /\ b = i)) /\ fixed a = false /\ (fixed b = false -> (a < b)%nat)
             /\ good2 fixed shape q0 q1 v a b c).
  Proof.
    intros i j Hij Hj. rewrite dispatch2_core. unfold unsupported2. destruct (fixed i) eqn:Fi; destruct (fixed j) eqn:Fj; cbn [andb].
    - right. split; [intros [(_ & X & _)|(_ & X & _)]; discriminate|]. exists []. split; [reflexivity|]. split; [|split; [cbn; lia|split; [cbn; lia|intros c []]]].
      split; [intros X; exfalso; apply X; reflexivity|]. intros [X _]. exfalso. apply X. split; reflexivity.
    - destruct (core2_ok fixed shape q0 q1 v j i (Sized j Hj) (Sized i ltac:(lia)) Fj ltac:(congruence)) as [(A & B & C)|(A & cs & B & C & D & D1 & F)].
      + left. split; [left; repeat split; assumption|exact C].
      + right. split; [intros [(_ & _ & X)|(X & _)]; [apply A; split; assumption|discriminate]|]. exists cs. split; [exact B|]. split; [|split; [exact D|split; [tauto|]]].
        * rewrite C, collide2_sym. split; [intros X; split; [intros [_ Y]; discriminate|exact X]|intros [_ X]; exact X].
        * intros c Hc. exists j, i. split; [right; split; reflexivity|]. split; [exact Fj|]. split; [congruence|]. rewrite Forall_forall in F. apply F, Hc.
    - destruct (core2_ok fixed shape q0 q1 v i j (Sized i ltac:(lia)) (Sized j Hj) Fi ltac:(congruence)) as [(A & B & C)|(A & cs & B & C & D & D1 & F)].
      + left. split; [right; repeat split; assumption|exact C].
      + right. split; [intros [(X & _)|(_ & _ & X)]; [discriminate|apply A; split; assumption]|]. exists cs. split; [exact B|]. split; [|split; [exact D|split; [tauto|]]].
        * rewrite C. split; [intros X; split; [intros [Y _]; discriminate|exact X]|intros [_ X]; exact X].
        * intros c Hc. exists i, j. split; [left; split; reflexivity|]. split; [exact Fi|]. split; [congruence|]. rewrite Forall_forall in F. apply F, Hc.
    - destruct (core2_ok fixed shape q0 q1 v i j (Sized i ltac:(lia)) (Sized j Hj) Fi (fun _ => Hij)) as [(A & B & C)|(A & cs & B & C & D & D1 & F)]; [congruence|].
      right. split; [intros [(X & _)|(X & _)]; discriminate|]. exists cs. split; [exact B|]. split; [|split; [exact D|split; [tauto|]]].
      + rewrite C. split; [intros X; split; [intros [Y _]; discriminate|exact X]|intros [_ X]; exact X].
      + intros c Hc. exists i, j. split; [left; split; reflexivity|]. split; [exact Fi|]. split; [intros _; exact Hij|]. rewrite Forall_forall in F. apply F, Hc.
  Qed.
  (* a body paired with itself does not end the program, and its contacts name it twice *)
  Lemma dispatch2_self : forall i, (i < nb)%nat -> exists cs, dispatch2 fixed shape q0 q1 v i i = Ok cs /\ forall c, In c cs -> pair2 c = Some (i, i).
  Proof.
    intros i Hi. rewrite dispatch2_core. destruct (fixed i) eqn:Fi; cbn [andb]; [exists []; split; [reflexivity|intros c []]|]. unfold core2. pose proof (Sized i Hi) as Sz.
    destruct (shape i) as [r|w].
    - eexists. split; [reflexivity|]. intros c. unfold circle_circle_narrow2. destruct (ccd _ _ _ _ _ _); [|intros []]. rewrite Fi. cbn [negb]. intros [<-|[]]. reflexivity.
    - unfold box_box_narrow2. rewrite Fi. cbn [orb]. cbn [sized2] in Sz.
      pose proof (box_box_spec (seg2 q1 (3 * i)) (q1 (3 * i + 2)%nat) w (seg2 q1 (3 * i)) (q1 (3 * i + 2)%nat) w ltac:(lra) ltac:(lra)) as X.
      destruct (box_box _ _ _ _ _ _) as [[[n ps]|]| |]; try contradiction; cbn [obind]; eexists; (split; [reflexivity|]); [|intros c []].
      intros c Hc. apply in_map_iff in Hc. destruct Hc as (p & <- & _). reflexivity.
  Qed.
  Lemma dispatch2_kind : forall out p, getPotentialOverlaps2 real boxes [] = Ok out -> In p out ->
    dispatch2 fixed shape q0 q1 v (N.to_nat (fst p)) (N.to_nat (snd p)) = Exit
    \/ exists cs, dispatch2 fixed shape q0 q1 v (N.to_nat (fst p)) (N.to_nat (snd p)) = Ok cs.
  Proof.
    intros out [a b] E H. cbn [fst snd]. destruct (possible_range out a b E H) as [L R]. destruct (Nat.eq_dec (N.to_nat a) (N.to_nat b)) as [Eq|Ne].
    - rewrite Eq. destruct (dispatch2_self _ R) as (cs & D & _). right. exists cs. exact D.
    - destruct (dispatch2_ok (N.to_nat a) (N.to_nat b) ltac:(lia) R) as [[_ D]|[_ (cs & D & _)]]; [left; exact D|right; exists cs; exact D].
  Qed.

  (* where the contacts of the set come from *)
  Lemma set2_from : forall planes set c, rb2_active_set nb fixed shape planes q0 q1 v = Ok set ->
    forall a b, pair2 c = Some (a, b) -> a <> b ->
    (In c set <-> exists i j cs, (i < j)%nat /\ (j < nb)%nat /\ bounds_meet2 shape q0 q1 i j /\ dispatch2 fixed shape q0 q1 v i j = Ok cs /\ In c cs).
  Proof.
    intros planes set c E a b Pc Nab. unfold rb2_active_set in E. apply obind_Ok_inv in E. destruct E as (bs & E & Es). injection Es as <-.
    unfold body_body_set2 in E. apply obind_Ok_inv in E. destruct E as (out & Eo & E). pose proof (gather_ok _ _ E) as G. fold boxes in Eo. rewrite in_app_iff. split.
    - intros [H|H]; [|apply plane_pairs2 in H; congruence]. apply G in H. destruct H as (cs & Hl & Hc). apply in_map_iff in Hl. destruct Hl as ([x y] & D & Hxy).
      cbn [fst snd] in D. destruct (possible_range out x y Eo Hxy) as [L R]. destruct (Nat.eq_dec (N.to_nat x) (N.to_nat y)) as [Eq|Ne].
      + exfalso. rewrite Eq in D. destruct (dispatch2_self _ R) as (cs' & D' & Pc'). rewrite D' in D. injection D as ->. rewrite (Pc' c Hc) in Pc. congruence.
      + exists (N.to_nat x), (N.to_nat y), cs. split; [lia|]. split; [exact R|]. split; [|split; [exact D|exact Hc]].
        apply (possible_iff out _ _ Eo); [lia|exact R|]. rewrite !N2Nat.id. exact Hxy.
    - intros (i & j & cs & Hij & Hj & B & D & Hc). left. apply G. exists cs. split; [|exact Hc]. apply in_map_iff. exists (N.of_nat i, N.of_nat j). cbn [fst snd].
      rewrite !Nat2N.id. split; [exact D|]. apply (possible_iff out i j Eo Hij Hj). exact B.
  Qed.

  Theorem set2_exact : forall planes set i j, rb2_active_set nb fixed shape planes q0 q1 v = Ok set -> (i < j)%nat -> (j < nb)%nat ->
    (in_contact pair2 set i j <-> ~ (fixed i = true /\ fixed j = true) /\ collide2 shape q0 q1 i j).
  Proof.
    intros planes set i j E Hij Hj. split.
    - intros (c & Hc & Pc).
      assert (X : exists i' j' cs, (i' < j')%nat /\ (j' < nb)%nat /\ bounds_meet2 shape q0 q1 i' j' /\ dispatch2 fixed shape q0 q1 v i' j' = Ok cs /\ In c cs).
      { destruct Pc as [Pc|Pc]; apply (set2_from planes set c E _ _ Pc); try lia; exact Hc. }
      destruct X as (i' & j' & cs & Hij' & Hj' & _ & D & Hcs).
      destruct (dispatch2_ok i' j' Hij' Hj') as [[_ D']|[_ (cs' & D' & N & _ & _ & P)]]; [congruence|]. rewrite D in D'. injection D' as <-.
      destruct (P c Hcs) as (a & b & Ab & _ & _ & (Pc' & _)).
      assert (i' = i /\ j' = j) as [-> ->] by (destruct Pc as [Pc|Pc]; rewrite Pc in Pc'; injection Pc' as -> ->; lia).
      apply N. intros ->. destruct Hcs.
    - intros [Nf C].
      destruct (dispatch2_ok i j Hij Hj) as [[U D]|[_ (cs & D & N & _ & _ & P)]].
      + exfalso. unfold rb2_active_set in E. apply obind_Ok_inv in E. destruct E as (bs & E & _). unfold body_body_set2 in E. apply obind_Ok_inv in E. destruct E as (out & Eo & E).
        fold boxes in Eo. rewrite gather_exit in E; [discriminate| |].
        * intros o Ho. apply in_map_iff in Ho. destruct Ho as (p & <- & Hp). apply (dispatch2_kind out p Eo Hp).
        * apply in_map_iff. exists (N.of_nat i, N.of_nat j). cbn [fst snd]. rewrite !Nat2N.id. split; [exact D|]. apply (possible_iff out i j Eo Hij Hj).
          apply collide2_bounds; [apply Sized; lia|apply Sized; exact Hj|exact C].
      + destruct cs as [|c cs]; [exfalso; apply (proj2 N); [split; assumption|reflexivity]|]. destruct (P c (or_introl eq_refl)) as (a & b & Ab & _ & _ & (Pc & _)).
        exists c. split.
        * apply (set2_from planes set c E a b Pc ltac:(lia)). exists i, j, (c :: cs). split; [exact Hij|]. split; [exact Hj|]. split; [|split; [exact D|left; reflexivity]].
          apply collide2_bounds; [apply Sized; lia|apply Sized; exact Hj|exact C].
        * destruct Ab as [[-> ->]|[-> ->]]; [left|right]; exact Pc.
  Qed.

  Theorem set2_contacts : forall planes set c a b, rb2_active_set nb fixed shape planes q0 q1 v = Ok set -> In c set -> pair2 c = Some (a, b) -> a <> b ->
    (a < nb)%nat /\ (b < nb)%nat /\ fixed a = false /\ (fixed b = false -> (a < b)%nat)
    /\ two_sided2 c = negb (fixed b)
    /\ describes2 shape q0 q1 a b c (rb2_normal c)
    /\ (fixed b = true -> exists r n, shape a = Circle2 r /\ c = KinCircle a r n b (seg2 q0 (3 * b)) (seg2 v (3 * b)) (v (3 * b + 2)%nat)).
  Proof.
    intros planes set c a b E Hc Pc Nab. apply (set2_from planes set c E a b Pc Nab) in Hc. destruct Hc as (i & j & cs & Hij & Hj & _ & D & Hcs).
    destruct (dispatch2_ok i j Hij Hj) as [[_ D']|[_ (cs' & D' & _ & _ & _ & P)]]; [congruence|]. rewrite D in D'. injection D' as <-.
    destruct (P c Hcs) as (a' & b' & Ab & Fa & Fb & (Pc' & Ts & De & Ki)). rewrite Pc in Pc'. injection Pc' as <- <-.
    split; [lia|]. split; [lia|]. repeat (split; [assumption|]). exact Ki.
  Qed.

  Theorem set2_exit : forall planes out, getPotentialOverlaps2 real boxes [] = Ok out ->
    ((exists i j, (i < j)%nat /\ (j < nb)%nat /\ unsupported2 fixed shape i j /\ bounds_meet2 shape q0 q1 i j)
     /\ rb2_active_set nb fixed shape planes q0 q1 v = Exit)
    \/ (~ (exists i j, (i < j)%nat /\ (j < nb)%nat /\ unsupported2 fixed shape i j /\ bounds_meet2 shape q0 q1 i j)
        /\ exists set, rb2_active_set nb fixed shape planes q0 q1 v = Ok set).
  Proof.
    intros planes out Eo. unfold rb2_active_set, body_body_set2. fold boxes. rewrite Eo. cbn [obind].
    set (l := map _ out).
    assert (K : forall o, In o l -> o = Exit \/ exists cs, o = Ok cs).
    { intros o Ho. apply in_map_iff in Ho. destruct Ho as (p & <- & Hp). apply (dispatch2_kind out p Eo Hp). }
    assert (X : In Exit l <-> exists i j, (i < j)%nat /\ (j < nb)%nat /\ unsupported2 fixed shape i j /\ bounds_meet2 shape q0 q1 i j).
    { split.
      - intros H. apply in_map_iff in H. destruct H as ([x y] & D & Hxy). cbn [fst snd] in D. destruct (possible_range out x y Eo Hxy) as [L R].
        destruct (Nat.eq_dec (N.to_nat x) (N.to_nat y)) as [Eq|Ne].
        + exfalso. rewrite Eq in D. destruct (dispatch2_self _ R) as (cs' & D' & _). congruence.
        + destruct (dispatch2_ok (N.to_nat x) (N.to_nat y) ltac:(lia) R) as [[U _]|[_ (cs & D' & _)]]; [|congruence].
          exists (N.to_nat x), (N.to_nat y). split; [lia|]. split; [exact R|]. split; [exact U|]. apply (possible_iff out _ _ Eo); [lia|exact R|]. rewrite !N2Nat.id. exact Hxy.
      - intros (i & j & Hij & Hj & U & B). apply in_map_iff. exists (N.of_nat i, N.of_nat j). cbn [fst snd]. rewrite !Nat2N.id.
        split; [|apply (possible_iff out i j Eo Hij Hj); exact B]. destruct (dispatch2_ok i j Hij Hj) as [[_ D]|[N _]]; [exact D|contradiction]. }
    assert (Dec : In Exit l \/ ~ In Exit l).
    { clear -K. induction l as [|o l IH]; [right; intros []|]. destruct (K o (or_introl eq_refl)) as [->|[cs ->]]; [left; left; reflexivity|].
      destruct IH as [I|I]; [intros o Ho; apply K; right; exact Ho|left; right; exact I|right; intros [H|H]; [discriminate|contradiction]]. }
    destruct Dec as [D|D].
    - left. split; [apply X; exact D|]. rewrite (gather_exit l K D). reflexivity.
    - right. split; [rewrite <- X; exact D|]. destruct (gather_total l) as [s Es].
      + intros o Ho. destruct (K o Ho) as [->|H]; [contradiction|exact H].
      + rewrite Es. cbn [obind]. eexists. reflexivity.
  Qed.

  (* the grid can always be built when the scene is bounded and no body is too thin *)
  Theorem set2_grid : forall M m, (0 < nb)%nat -> 0 < m -> 2 * M + 1 < 4294967000 * m ->
    (forall i p, (i < nb)%nat -> reach2 shape q0 q1 i p -> Rabs (fst p) <= M /\ Rabs (snd p) <= M) ->
    (forall i, (i < nb)%nat -> exists p p', reach2 shape q0 q1 i p /\ reach2 shape q0 q1 i p' /\ m <= fst p' - fst p) ->
    exists out, getPotentialOverlaps2 real boxes [] = Ok out.
  Proof.
    intros M m Hnb Hm HM In_ Wide. apply (real_total2 boxes [] M m).
    - unfold boxes. destruct nb; [lia|discriminate].
    - apply Forall_forall. intros b H. apply in_map_iff in H. destruct H as (i & <- & H). apply in_seq in H. assert (Hi : (i < nb)%nat) by lia.
      destruct (bounds2_tight shape q0 q1 i (Sized i Hi)) as [En Ti]. destruct (collision_box_wf shape q0 q1 i (Sized i Hi)) as [W1 W2].
      apply alt_real_false in W1, W2. destruct (Wide i Hi) as (p & p' & P & P' & Wd). apply En in P, P'.
      assert (T : encloses2 ((- M, - M), (M, M)) (reach2 shape q0 q1 i)).
      { intros z Z. destruct (In_ i z Hi Z) as [Z0 Z1]. apply abs_inv in Z0. apply abs_inv in Z1. unfold within2. cbn [fst snd]. lra. }
      specialize (Ti _ T). unfold within2, bounds2 in *. cbn [fst snd] in *. unfold in_arena.
      set (b := collision_box2 shape q0 q1 i) in *. clearbody b. cbn [real sc] in *.
      destruct b as [[l0 l1] [u0 u1]]. cbn [lo2 up2 fst snd] in *. cbn [real sc] in *.
      destruct P as [[P1 P2] [P3 P4]]. destruct P' as [[P1' P2'] [P3' P4']]. destruct Ti as (T1 & T2 & T3 & T4).
      repeat (split; [assumption|]). apply Rle_trans with (1 := Wd). unfold Rminus. apply Rplus_le_compat; [exact P2'|apply Ropp_le_contravar; exact P1].
    - exact Hm.
    - exact HM.
  Qed.
End Set2.
