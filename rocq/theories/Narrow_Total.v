(* Bounded scenes: the contact sets are built or the program ends, and no pair of bodies gets too many contacts. *)
From Coq Require Import List Reals Arith NArith Bool Lra Lia Sorted.
From Verif Require Import Outcome Grid_Model Grid_Spec Grid_Proofs Grid_Dim Grid_Real Grid_Real3 Ccd_Model Ccd_Spec Ccd_Proofs ContactRb2_Model ContactRb3_Model
  Rot_Model Rot_Spec Rot_Alg Lin_Model Geom_Model Geom_Spec Geom_Sets Geom_Circle Geom_Space Geom_Aabb Wall_Model Wall_Spec Wall_Geo Wall_Thms Wall_More Narrow_Model Narrow_Spec
  Narrow_Proofs Narrow_Thms Narrow_Space.
Import ListNotations.
Local Open Scope R_scope.

Lemma pair_set_nodup : forall s, is_pair_set s -> NoDup s.
Proof.
  intros s H. induction H as [|p s H IH F]; constructor; [|exact IH]. intros I. rewrite Forall_forall in F. apply (pair_lt_irrefl p), F, I.
Qed.
Lemma possible_nodup2 : forall bs out, getPotentialOverlaps2 real bs [] = Ok out -> NoDup out.
Proof.
  intros bs out E. unfold getPotentialOverlaps2 in E. apply obind_Ok_inv in E. destruct E as ([[mn dims] h] & _ & E). apply obind_Ok_inv in E. destruct E as (m & _ & E).
  injection E as <-. apply pair_set_nodup, scan_sorted. constructor.
Qed.
Lemma possible_nodup3 : forall bs out, getPotentialOverlaps3 real bs [] = Ok out -> NoDup out.
Proof.
  intros bs out E. unfold getPotentialOverlaps3 in E. apply obind_Ok_inv in E. destruct E as ([[mn dims] h] & _ & E). apply obind_Ok_inv in E. destruct E as (m & _ & E).
  injection E as <-. apply pair_set_nodup, scan_sorted. constructor.
Qed.
Lemma filter_none : forall {A} (P : A -> bool) l, (forall x, In x l -> P x = false) -> filter P l = [].
Proof.
  intros A P l. induction l as [|x l IH]; intros H; [reflexivity|]. cbn [filter]. rewrite (H x (or_introl eq_refl)). apply IH. intros y Hy. apply H. right. exact Hy.
Qed.
Lemma gather_none : forall {A K} (f : K -> outcome (list A)) (P : A -> bool) l s, gather (map f l) = Ok s ->
  (forall k cs c, In k l -> f k = Ok cs -> In c cs -> P c = false) -> filter P s = [].
Proof.
  intros A K f P l s E H. apply filter_none. intros c Hc. apply (gather_ok _ _ E) in Hc. destruct Hc as (cs & Hl & Hc). apply in_map_iff in Hl.
  destruct Hl as (k & Ek & Hk). apply (H k cs c Hk Ek Hc).
Qed.
Lemma filter_short : forall {A} (P : A -> bool) l, (length (filter P l) <= length l)%nat.
Proof. intros A P l. induction l as [|x l IH]; cbn [filter length]; [lia|]. destruct (P x); cbn [length]; lia. Qed.
Lemma gather_count : forall {A K} (dec : forall a b : K, {a = b} + {a <> b}) (f : K -> outcome (list A)) (P : A -> bool) (k0 : K) n l s, NoDup l -> gather (map f l) = Ok s ->
  (forall k cs c, In k l -> k <> k0 -> f k = Ok cs -> In c cs -> P c = false) ->
  (forall cs, f k0 = Ok cs -> (length cs <= n)%nat) -> (length (filter P s) <= n)%nat.
Proof.
  intros A K dec f P k0 n l. induction l as [|k l IH]; intros s N E H B; cbn [map gather] in E.
  - injection E as <-. cbn [filter length]. lia.
  - apply obind_Ok_inv in E. destruct E as (a & Ea & E). apply obind_Ok_inv in E. destruct E as (b & Eb & E). injection E as <-.
    inversion N as [|? ? Nk Nl]; subst. rewrite filter_app, app_length.
    assert (D : k = k0 \/ filter P a = []).
    { destruct (dec k k0) as [Q|Q]; [left; exact Q|right]. apply filter_none. intros c Hc. apply (H k a c (or_introl eq_refl) Q Ea Hc). }
    destruct D as [->|D].
    + rewrite (gather_none f P l b Eb).
      * pose proof (B a Ea) as La. pose proof (filter_short P a) as Lf. cbn [length]. lia.
      * intros k cs c Hk. apply H; [right; exact Hk|]. intros ->. contradiction.
    + rewrite D. cbn [length Nat.add]. apply (IH b Nl Eb); [|exact B]. intros k' cs c Hk. apply H. right. exact Hk.
Qed.

Definition np_dec : forall a b : N * N, {a = b} + {a <> b}.
Proof. decide equality; apply N.eq_dec. Defined.
Lemma between_false : forall {C} (pair : C -> option (nat * nat)) c i j a b, pair c = Some (a, b) -> ~ ((a = i /\ b = j) \/ (a = j /\ b = i)) ->
  (match pair c with Some (a, b) => ((a =? i) && (b =? j) || (a =? j) && (b =? i))%nat | None => false end) = false.
Proof.
  intros C pair c i j a b E N. rewrite E. destruct (Nat.eqb_spec a i), (Nat.eqb_spec b j), (Nat.eqb_spec a j), (Nat.eqb_spec b i); cbn [andb orb]; tauto.
Qed.

Section Counts.
  Context (o : narrow3) (nb : nat) (fixed : nat -> bool) (q0 q1 v : dvec).
  Hypothesis Few : (N.of_nat nb <= 4294967296)%N.

  Theorem set2_count : forall shape planes set i j, (forall i, (i < nb)%nat -> sized2 (shape i)) ->
    rb2_active_set nb fixed shape planes q0 q1 v = Ok set -> (i < j)%nat -> (j < nb)%nat ->
    (count_between pair2 i j set <= 2)%nat
    /\ (is_circle (shape i) = true \/ is_circle (shape j) = true -> (count_between pair2 i j set <= 1)%nat).
  Proof.
    intros shape planes set i j Sized E Hij Hj. unfold rb2_active_set in E. apply obind_Ok_inv in E. destruct E as (bs & E & Es). injection Es as <-.
    unfold body_body_set2 in E. apply obind_Ok_inv in E. destruct E as (out & Eo & E). unfold count_between. rewrite filter_app, app_length.
    rewrite (filter_none _ (map snd (rb2_plane_set q1 fixed shape nb planes))) by (intros c Hc; rewrite (plane_pairs2 _ _ _ _ _ _ Hc); reflexivity).
    cbn [length]. rewrite Nat.add_0_r.
    assert (G : forall n, (forall cs, dispatch2 fixed shape q0 q1 v i j = Ok cs -> (length cs <= n)%nat) ->
      (length (filter (fun c => match pair2 c with Some (a, b) => ((a =? i) && (b =? j) || (a =? j) && (b =? i))%nat | None => false end) bs) <= n)%nat).
    { intros n B. apply (gather_count np_dec (fun p => dispatch2 fixed shape q0 q1 v (N.to_nat (fst p)) (N.to_nat (snd p))) _ (N.of_nat i, N.of_nat j) n out bs (possible_nodup2 _ _ Eo) E).
      - intros [x y] cs c Hp Ne D Hc. cbn [fst snd] in D. destruct (possible_range nb fixed shape q0 q1 Few Sized out x y Eo Hp) as [L R].
        destruct (Nat.eq_dec (N.to_nat x) (N.to_nat y)) as [Eq|Nq].
        + rewrite Eq in D. destruct (dispatch2_self nb fixed shape q0 q1 v Sized _ R) as (cs' & D' & P). rewrite D' in D. injection D as ->.
          apply (between_false pair2 c i j _ _ (P c Hc)). lia.
        + destruct (dispatch2_ok nb fixed shape q0 q1 v Few Sized (N.to_nat x) (N.to_nat y) ltac:(lia) R) as [[_ D']|[_ (cs' & D' & _ & _ & _ & P)]]; rewrite D' in D; [discriminate|].
          injection D as ->. destruct (P c Hc) as (a & b & Ab & _ & _ & (Pc & _)). apply (between_false pair2 c i j a b Pc). intros K. apply Ne.
          assert (N.to_nat x = i /\ N.to_nat y = j) as [<- <-] by lia. rewrite !N2Nat.id. reflexivity.
      - cbn [fst snd]. rewrite !Nat2N.id. exact B. }
    destruct (dispatch2_ok nb fixed shape q0 q1 v Few Sized i j Hij Hj) as [[_ D]|[_ (cs & D & _ & L2 & L1 & _)]].
    - split; [|intros _]; apply G; intros cs D'; congruence.
    - split; [|intros H]; apply G; intros cs' D'; rewrite D in D'; injection D' as <-; [exact L2|apply L1, H].
  Qed.

  Theorem set3_count : forall shape planes cyls set i j r s, (forall i, (i < nb)%nat -> sized3 (shape i)) -> (forall i, (i < nb)%nat -> rotation (ori3 nb q1 i)) ->
    rb3_active_set o nb fixed shape planes cyls q0 q1 = Ok set -> (i < j)%nat -> (j < nb)%nat -> shape i = Sphere3 r -> shape j = Sphere3 s ->
    (count_between pair3 i j set <= 1)%nat.
  Proof.
    intros shape planes cyls set i j r s Sized Turned E Hij Hj Si Sj. unfold rb3_active_set in E. apply obind_Ok_inv in E. destruct E as (bs & E & Es).
    apply obind_Ok_inv in Es. destruct Es as (ps & Ep & Es). apply obind_Ok_inv in Es. destruct Es as (cs0 & Ec & Es). injection Es as <-.
    unfold body_body_set3 in E. apply obind_Ok_inv in E. destruct E as (out & Eo & E). unfold count_between. rewrite filter_app, app_length.
    rewrite (filter_none _ (map snd ps ++ map snd cs0)) by (intros c Hc; rewrite (wall_pairs3 _ _ _ _ _ _ _ _ _ _ Ep Ec Hc); reflexivity).
    cbn [length]. rewrite Nat.add_0_r.
    apply (gather_count np_dec (fun p => dispatch3 o nb fixed shape q0 q1 (N.to_nat (fst p)) (N.to_nat (snd p))) _ (N.of_nat i, N.of_nat j) 1 out bs (possible_nodup3 _ _ Eo) E).
    - intros [x y] cs c Hp Ne D Hc. cbn [fst snd] in D. destruct (possible_range3 nb fixed shape q1 Few Sized Turned out x y Eo Hp) as [L R].
      destruct (Nat.eq_dec (N.to_nat x) (N.to_nat y)) as [Eq|Nq].
      + rewrite Eq in D. destruct (dispatch3_self o nb fixed shape q0 q1 Sized Turned _ R) as [[D' _]|(cs' & D' & P)]; rewrite D' in D; [discriminate|]. injection D as ->.
        apply (between_false pair3 c i j _ _ (P c Hc)). lia.
      + destruct (dispatch3_ok o nb fixed shape q0 q1 Few Sized Turned (N.to_nat x) (N.to_nat y) ltac:(lia) R) as [[_ D']|[_ (cs' & D' & P)]]; rewrite D' in D; [discriminate|].
        injection D as ->. apply P in Hc. destruct Hc as (a & b & Ab & _ & _ & F). apply from_pair3_pair in F. apply (between_false pair3 c i j a b F). intros K. apply Ne.
        assert (N.to_nat x = i /\ N.to_nat y = j) as [<- <-] by lia. rewrite !N2Nat.id. reflexivity.
    - intros cs. cbn [fst snd]. rewrite !Nat2N.id, dispatch3_core. unfold core3. rewrite Si, Sj. pose proof (Sized i ltac:(lia)) as Zi. pose proof (Sized j Hj) as Zj.
      rewrite Si in Zi. rewrite Sj in Zj. cbn [sized3] in Zi, Zj.
      destruct (fixed i && fixed j); [intros D; injection D as <-; cbn [length]; lia|].
      destruct (fixed i); intros D; injection D as <-; apply sphere_sphere_narrow_ok; lra.
  Qed.
End Counts.

(* a bounded planar scene: either an unsupported pair has meeting bounds and the program ends, or the set is built *)
Theorem set2_runs : forall nb fixed shape planes q0 q1 v M m, (N.of_nat nb <= 4294967296)%N -> (forall i, (i < nb)%nat -> sized2 (shape i)) ->
  (0 < nb)%nat -> 0 < m -> 2 * M + 1 < 4294967000 * m ->
  (forall i p, (i < nb)%nat -> reach2 shape q0 q1 i p -> Rabs (fst p) <= M /\ Rabs (snd p) <= M) ->
  (forall i, (i < nb)%nat -> exists p p', reach2 shape q0 q1 i p /\ reach2 shape q0 q1 i p' /\ m <= fst p' - fst p) ->
  let stuck := exists i j, (i < j)%nat /\ (j < nb)%nat /\ unsupported2 fixed shape i j /\ bounds_meet2 shape q0 q1 i j in
  (stuck /\ rb2_active_set nb fixed shape planes q0 q1 v = Exit) \/ (~ stuck /\ exists set, rb2_active_set nb fixed shape planes q0 q1 v = Ok set).
Proof.
  intros nb fixed shape planes q0 q1 v M m Few Sized Hnb Hm HM In_ Wide stuck.
  destruct (set2_grid nb fixed shape q0 q1 Few Sized M m Hnb Hm HM In_ Wide) as (out & E). exact (set2_exit nb fixed shape q0 q1 v Few Sized planes out E).
Qed.
Theorem set3_runs : forall o nb fixed shape planes cyls q0 q1 M m, (N.of_nat nb <= 4294967296)%N -> (forall i, (i < nb)%nat -> sized3 (shape i)) ->
  (forall i, (i < nb)%nat -> rotation (ori3 nb q1 i)) ->
  (0 < nb)%nat -> 0 < m -> 2 * M + 1 <= 1600 * m ->
  (forall i p, (i < nb)%nat -> reach3 nb shape q1 i p -> Rabs (c0 p) <= M /\ Rabs (c1 p) <= M /\ Rabs (c2 p) <= M) ->
  (forall i, (i < nb)%nat -> exists p p', reach3 nb shape q1 i p /\ reach3 nb shape q1 i p' /\ m <= c0 p' - c0 p) ->
  let stuck := exists i j, (i < j)%nat /\ (j < nb)%nat /\ unsupported3 nb fixed shape q1 i j /\ bounds_meet3 nb shape q1 i j in
  (stuck /\ rb3_active_set o nb fixed shape planes cyls q0 q1 = Exit) \/ (~ stuck /\ exists bodies, body_body_set3 o nb fixed shape q0 q1 = Ok bodies).
Proof.
  intros o nb fixed shape planes cyls q0 q1 M m Few Sized Turned Hnb Hm HM In_ Wide stuck.
  destruct (set3_grid nb fixed shape q1 Few Sized Turned M m Hnb Hm ltac:(lra) In_ Wide) as (out & E & S).
  exact (set3_exit o nb fixed shape q0 q1 Few Sized Turned planes cyls out E (S HM)).
Qed.
