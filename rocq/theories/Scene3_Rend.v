(* Renderers of planes and portals: sorting, deleting, renumbering. *)
From Coq Require Import ZArith NArith QArith Bool Ascii String List Lia ZifyBool ZifyNat ZifyN Permutation Sorted.
From Verif Require Import Outcome Str_Model Rational_Model RatParse_Model Scene_Text Scene_Model Scene_Spec Scene_Proofs Scene2_Model Scene2_Spec Scene3_Model Scene3_Spec.
From Verif Require State_Spec State_Proofs.
Import ListNotations.
Open Scope list_scope.

Notation keep := State_Proofs.keep.
Notation rank := State_Proofs.rank.
Notation without := State_Spec.without.

(* ---------------------------------------------------------------- sorting *)
Lemma insert_by_perm {A} (x : nat * A) l : Permutation (insert_by x l) (x :: l).
Proof.
  induction l as [|y l IH]; cbn [insert_by]; [reflexivity|]. destruct (Nat.leb _ _); [reflexivity|].
  rewrite IH. apply perm_swap.
Qed.
Lemma sort_by_perm {A} (l : list (nat * A)) : Permutation (sort_by l) l.
Proof. induction l as [|x l IH]; [reflexivity|]. cbn. rewrite insert_by_perm. constructor. exact IH. Qed.
Definition ordered {A} (l : list (nat * A)) : Prop := StronglySorted le (map fst l).
Lemma insert_by_sorted {A} (x : nat * A) l : ordered l -> ordered (insert_by x l).
Proof.
  unfold ordered. induction l as [|y l IH]; cbn [insert_by map]; intros H; [repeat constructor|].
  inversion H as [|? ? H1 H2]; subst. destruct (Nat.leb_spec (fst x) (fst y)).
  - cbn [map]. constructor; [exact H|]. constructor; [assumption|]. eapply Forall_impl; [|exact H2]. cbv beta. intros; lia.
  - cbn [map]. constructor; [auto|]. apply (forall_perm _ (map fst (x :: l))).
    + symmetry. apply Permutation_map, insert_by_perm.
    + cbn [map]. constructor; [lia|exact H2].
Qed.
Lemma sort_by_sorted {A} (l : list (nat * A)) : ordered (sort_by l).
Proof. induction l as [|x l IH]; [constructor|]. cbn. apply insert_by_sorted, IH. Qed.
Lemma sort_by_id {A} (l : list (nat * A)) : ordered l -> sort_by l = l.
Proof.
  unfold ordered. induction l as [|x l IH]; intros H; [reflexivity|]. cbn [map] in H. inversion H as [|? ? H1 H2]; subst.
  cbn [sort_by fold_right]. fold (sort_by l). rewrite IH by exact H1. destruct l as [|y l]; [reflexivity|]. cbn [insert_by].
  inversion H2; subst. destruct (Nat.leb_spec (fst x) (fst y)); [reflexivity|lia].
Qed.

(* ---------------------------------------------------------------- deleting *)
Definition member (ix : list nat) (i : nat) : bool := existsb (Nat.eqb i) ix.
Lemma member_iff ix i : member ix i = true <-> In i ix.
Proof.
  unfold member. rewrite existsb_exists. split.
  - intros (j & Hj & E). apply Nat.eqb_eq in E. congruence.
  - intros H. exists i. split; [exact H|apply Nat.eqb_refl].
Qed.
Lemma member_false ix i : member ix i = false <-> ~ In i ix.
Proof. rewrite <- member_iff. destruct (member ix i); split; congruence. Qed.
Lemma member_same ix ix' : (forall i, In i ix <-> In i ix') -> forall i, member ix i = member ix' i.
Proof. intros H i. apply eq_true_iff_eq. rewrite !member_iff. apply H. Qed.
Lemma filter_filter {A} (f g : A -> bool) l : filter f (filter g l) = filter (fun x => g x && f x) l.
Proof.
  induction l as [|x l IH]; [reflexivity|]. cbn [filter]. destruct (g x) eqn:E; cbn [filter andb]; rewrite ?IH; reflexivity.
Qed.
Lemma filter_same {A} (f g : A -> bool) l : (forall x, f x = g x) -> filter f l = filter g l.
Proof. intros H. induction l as [|x l IH]; [reflexivity|]. cbn [filter]. rewrite H, IH. reflexivity. Qed.
Lemma drop_renderers_filter removed rs : drop_renderers removed rs = filter (fun r => negb (member removed (fst r))) rs.
Proof.
  unfold drop_renderers.
  rewrite (filter_same _ (fun r : nat * (ext * ext) => negb (member (rev removed) (fst r)))).
  2:{ intros r. f_equal. apply member_same. intros i. apply in_rev. }
  generalize (rev removed) as ix. intros ix. revert rs. induction ix as [|i ix IH]; intros rs; cbn [fold_left].
  - induction rs as [|r rs IHr]; [reflexivity|]. cbn. f_equal. exact IHr.
  - rewrite IH, filter_filter. apply filter_same. intros r. unfold member. cbn [existsb]. destruct (Nat.eqb (fst r) i); reflexivity.
Qed.
Lemma filter_ordered {A} (f : nat * A -> bool) l : ordered l -> ordered (filter f l).
Proof.
  unfold ordered. induction l as [|x l IH]; cbn [filter map]; intros H; [exact H|]. inversion H as [|? ? H1 H2]; subst.
  destruct (f x); [|auto]. cbn [map]. constructor; [auto|]. rewrite Forall_forall in *. intros y Hy. apply H2.
  apply in_map_iff in Hy as (z & <- & Hz). apply filter_In in Hz as [Hz _]. apply in_map, Hz.
Qed.

(* ---------------------------------------------------------------- renumbering *)
Lemma first_larger_bound i old : (first_larger i old <= List.length old)%nat.
Proof. induction old as [|j old IH]; cbn [first_larger List.length]; [lia|]. destruct (Nat.ltb i j); lia. Qed.
Lemma renumber_one_nth old : StronglySorted le old -> forall new i, List.length new = List.length old ->
  renumber_one old new i = map (fun p => if Nat.ltb i (fst p) then pred (snd p) else snd p) (combine old new).
Proof.
  unfold renumber_one. induction 1 as [|j old H1 IH H2]; intros new i L; [destruct new; [reflexivity|discriminate]|].
  destruct new as [|n new]; [discriminate|]. cbn [List.length] in L. cbn [first_larger combine map fst snd].
  destruct (Nat.ltb_spec i j).
  - cbn [firstn skipn app map]. f_equal.
    assert (forall o w, Forall (fun y => (i < y)%nat) o -> List.length w = List.length o ->
      map pred w = map (fun p : nat * nat => if (i <? fst p)%nat then pred (snd p) else snd p) (combine o w)) as G.
    { induction o as [|a o IHo]; intros w Ho Lw; destruct w; try discriminate; [reflexivity|]. inversion Ho; subst. cbn [combine map fst snd].
      destruct (Nat.ltb_spec i a); [|lia]. f_equal. apply IHo; [assumption|]. cbn in Lw. lia. }
    apply G; [|lia]. eapply Forall_impl; [|exact H2]. cbv beta. intros; lia.
  - cbn [firstn skipn app]. f_equal. apply IH. lia.
Qed.
Fixpoint below_count (ix : list nat) (o : nat) : nat :=
  match ix with [] => 0 | i :: t => (if Nat.ltb i o then 1 else 0) + below_count t o end.
Lemma renumber_fold old : StronglySorted le old -> forall ix c, List.length c = List.length old ->
  fold_left (renumber_one old) ix (map (fun p => (fst p - snd p)%nat) (combine old c)) =
  map (fun p => (fst p - snd p)%nat) (combine old (map (fun p => (snd p + below_count ix (fst p))%nat) (combine old c))).
Proof.
  intros HS. induction ix as [|i ix IH]; intros c L; cbn [fold_left below_count].
  - clear. revert c. induction old as [|o old IH]; intros [|x c]; cbn [combine map fst snd]; try reflexivity. f_equal; [lia|apply IH].
  - rewrite renumber_one_nth by (try exact HS; rewrite map_length, combine_length; lia).
    replace (map _ (combine old (map _ (combine old c)))) with
      (map (fun p => (fst p - snd p)%nat) (combine old (map (fun p => (snd p + if Nat.ltb i (fst p) then 1 else 0)%nat) (combine old c)))).
    + rewrite IH by (rewrite map_length, combine_length; lia). clear. revert c.
      induction old as [|o old IH]; intros [|x c]; cbn [combine map fst snd]; try reflexivity. f_equal; [destruct (Nat.ltb i o); lia|apply IH].
    + clear. revert c. induction old as [|o old IH]; intros [|x c]; cbn [combine map fst snd]; try reflexivity. f_equal; [destruct (Nat.ltb i o); lia|apply IH].
Qed.
Lemma below_count_perm a b : Permutation a b -> forall o, below_count a o = below_count b o.
Proof. induction 1; intros o; cbn [below_count]; rewrite ?IHPermutation; try lia; congruence. Qed.
Lemma below_count_S ix o : NoDup ix -> below_count ix (S o) = (below_count ix o + if member ix o then 1 else 0)%nat.
Proof.
  induction 1 as [|i ix H1 H2 IH]; cbn [below_count member existsb]; [reflexivity|]. fold (member ix o). rewrite IH.
  destruct (Nat.eqb_spec o i) as [->|N]; cbn [orb].
  - apply member_false in H1. rewrite H1. destruct (Nat.ltb_spec i (S i)), (Nat.ltb_spec i i); lia.
  - destruct (Nat.ltb_spec i (S o)), (Nat.ltb_spec i o), (member ix o); lia.
Qed.
Lemma below_count_rank ix o : NoDup ix -> (o - below_count ix o)%nat = rank (member ix) o /\ (below_count ix o <= o)%nat.
Proof.
  intros N. induction o as [|o [IH L]]; [cbn [rank]; split; [lia|]; clear; induction ix as [|i ix IH]; cbn [below_count]; [lia|]; destruct (Nat.ltb_spec i 0); lia|].
  rewrite below_count_S by exact N. cbn [State_Proofs.rank]. rewrite <- IH. destruct (member ix o); lia.
Qed.
Lemma renumber_rank removed rs : NoDup removed -> ordered rs ->
  renumber removed rs = map (fun r => (rank (member removed) (fst r), snd r)) rs.
Proof.
  intros N H. unfold renumber.
  assert (map fst rs = map (fun p => (fst p - snd p)%nat) (combine (map fst rs) (map (fun _ => 0%nat) rs))) as E.
  { clear. induction rs as [|r rs IH]; [reflexivity|]. cbn [map combine fst snd]. rewrite <- IH. f_equal. lia. }
  rewrite E at 2. rewrite renumber_fold by (try exact H; rewrite !map_length; reflexivity).
  assert (forall o, below_count (rev removed) o = below_count removed o) as B by (apply below_count_perm; symmetry; apply Permutation_rev).
  clear E H. induction rs as [|r rs IH]; [reflexivity|]. cbn [map combine fst snd]. rewrite <- IH. f_equal. f_equal.
  rewrite B. cbn [plus]. apply below_count_rank, N.
Qed.
Lemma rank_mono m a b : (a <= b)%nat -> (rank m a <= rank m b)%nat.
Proof. induction 1; [lia|]. cbn [State_Proofs.rank]. destruct (m m0); lia. Qed.
Lemma rank_ordered {A} m (rs : list (nat * A)) : ordered rs -> ordered (map (fun r => (rank m (fst r), snd r)) rs).
Proof.
  unfold ordered. rewrite map_map. cbn [fst]. rewrite <- (map_map fst (rank m)). generalize (map fst rs) as l. clear rs.
  induction 1 as [|x l H1 IH H2]; [constructor|]. cbn [map]. constructor; [exact IH|]. apply Forall_map. eapply Forall_impl; [|exact H2].
  cbv beta. intros y Hy. apply rank_mono, Hy.
Qed.
Lemma without_rank {A} ix (l : list A) o : (o <= List.length l)%nat -> ~ In o ix ->
  nth_error l o = nth_error (without ix l) (rank (member ix) o).
Proof.
  intros Ho Hi. rewrite State_Proofs.without_keep. change (fun i => existsb (Nat.eqb i) ix) with (member ix).
  destruct (nth_error l o) eqn:E.
  - symmetry. apply State_Proofs.keep_nth; [exact E|]. now apply member_false.
  - symmetry. apply nth_error_None in E. apply nth_error_None. rewrite State_Proofs.keep_length. apply rank_mono. exact E.
Qed.
Lemma without_length {A} ix (l : list A) : List.length (without ix l) = rank (member ix) (List.length l).
Proof. rewrite State_Proofs.without_keep. apply State_Proofs.keep_length. Qed.

(* ---------------------------------------------------------------- portal renderers *)
Definition lastw (k : nat) (rs : list (nat * (ext * ext))) : ext * ext :=
  fold_left (fun h r => if Nat.eqb (fst r) k then snd r else h) rs zero2.
Lemma half_widths_last a b rs : a <> b -> half_widths (a, b) rs = (lastw a rs, lastw b rs).
Proof.
  intros N. unfold half_widths, lastw. cbn [fst snd]. generalize zero2 at 1 3 as h1. generalize zero2 as h2.
  induction rs as [|r rs IH]; intros h2 h1; cbn [fold_left]; [reflexivity|].
  destruct (Nat.eqb_spec (fst r) a).
  - destruct (Nat.eqb_spec (fst r) b); [congruence|]. cbn [fst snd]. apply IH.
  - destruct (Nat.eqb_spec (fst r) b); cbn [fst snd]; apply IH.
Qed.
Lemma lastw_cases k rs : (In (k, lastw k rs) rs) \/ (forall w, ~ In (k, w) rs) /\ lastw k rs = zero2.
Proof.
  unfold lastw. generalize zero2 as h. induction rs as [|[j w] rs IH]; intros h; cbn [fold_left fst snd]; [right; split; [intros w []|reflexivity]|].
  destruct (Nat.eqb_spec j k) as [->|N].
  - destruct (IH w) as [H|[H E]]; [left; right; exact H|]. left. left. rewrite E. reflexivity.
  - destruct (IH h) as [H|[H E]]; [left; right; exact H|]. right. split; [|exact E]. intros w' [K|K]; [congruence|exact (H _ K)].
Qed.
Lemma lastw_draws k rs : draws rs k (lastw k rs).
Proof. destruct (lastw_cases k rs) as [H|[H E]]; [left; exact H|right; split; [exact H|exact E]]. Qed.
Lemma draws_unique rs k w : (forall w1 w2, In (k, w1) rs -> In (k, w2) rs -> w1 = w2) -> draws rs k w -> lastw k rs = w.
Proof.
  intros U [H|[H ->]]; destruct (lastw_cases k rs) as [K|[K E]].
  - eapply U; eassumption.
  - destruct (K _ H).
  - destruct (H _ K).
  - exact E.
Qed.
Lemma ext_zero_iff e : ext_zero e = true <-> is_zero e.
Proof. destruct e; cbn; [apply Qeq_bool_iff|split; [discriminate|tauto]..]. Qed.
Lemma widths_zero_iff (h : (ext * ext) * (ext * ext)) :
  forallb ext_zero [fst (fst h); snd (fst h); fst (snd h); snd (snd h)] = true <-> no_width (fst h) /\ no_width (snd h).
Proof.
  cbn [forallb]. rewrite andb_true_r, !andb_true_iff, !ext_zero_iff. unfold no_width. tauto.
Qed.
Lemma portal_renderers_in rs : forall links k i h, In (i, h) (portal_renderers k links rs) <->
  exists ab, (k <= i)%nat /\ nth_error links (i - k) = Some ab /\ h = half_widths ab rs /\ ~ (no_width (fst h) /\ no_width (snd h)).
Proof.
  induction links as [|ab links IH]; intros k i h; cbn [portal_renderers].
  - split; [intros []|]. intros (ab & _ & E & _). destruct (i - k)%nat; discriminate.
  - assert ((exists ab', (S k <= i)%nat /\ nth_error links (i - S k) = Some ab' /\ h = half_widths ab' rs /\ ~ (no_width (fst h) /\ no_width (snd h))) \/
            (i = k /\ h = half_widths ab rs /\ ~ (no_width (fst h) /\ no_width (snd h))) <->
            exists ab', (k <= i)%nat /\ nth_error (ab :: links) (i - k) = Some ab' /\ h = half_widths ab' rs /\ ~ (no_width (fst h) /\ no_width (snd h))) as C.
    { split.
      - intros [(ab' & H1 & H2 & H3)|(-> & H3)].
        + exists ab'. split; [lia|]. split; [|exact H3]. replace (i - k)%nat with (S (i - S k)) by lia. exact H2.
        + exists ab. split; [lia|]. rewrite Nat.sub_diag. split; [reflexivity|exact H3].
      - intros (ab' & H1 & H2 & H3). destruct (Nat.eq_dec i k) as [->|N].
        + right. rewrite Nat.sub_diag in H2. injection H2 as <-. auto.
        + left. exists ab'. split; [lia|]. replace (i - k)%nat with (S (i - S k)) in H2 by lia. auto. }
    rewrite <- C, <- IH. pose proof (widths_zero_iff (half_widths ab rs)) as W.
    destruct (forallb _ _).
    + split; [auto|]. intros [H|(_ & -> & H)]; [exact H|]. destruct H. now apply W.
    + cbn [In]. split.
      * intros [E|H]; [|auto]. injection E as <- <-. right. repeat split. intros H. apply W in H. discriminate.
      * intros [H|(-> & -> & _)]; auto.
Qed.
Lemma portal_renderers_sorted rs : forall links k, StronglySorted lt (map fst (portal_renderers k links rs)) /\
  Forall (fun i => (k <= i)%nat) (map fst (portal_renderers k links rs)).
Proof.
  induction links as [|ab links IH]; intros k; cbn [portal_renderers]; [split; constructor|]. destruct (IH (S k)) as [I1 I2].
  destruct (forallb _ _).
  - split; [exact I1|]. eapply Forall_impl; [|exact I2]. cbv beta. intros; lia.
  - cbn [map fst]. split.
    + constructor; [exact I1|]. eapply Forall_impl; [|exact I2]. cbv beta. intros; lia.
    + constructor; [lia|]. eapply Forall_impl; [|exact I2]. cbv beta. intros; lia.
Qed.
(* two strictly increasing lists with the same members are the same *)
Lemma increasing_same {A} : forall l l' : list (nat * A), StronglySorted lt (map fst l) -> StronglySorted lt (map fst l') ->
  (forall i h, In (i, h) l <-> In (i, h) l') -> l = l'.
Proof.
  induction l as [|[i h] l IH]; intros [|[j g] l'] S1 S2 H.
  - reflexivity.
  - exfalso. apply (H j g). left. reflexivity.
  - exfalso. apply (H i h). left. reflexivity.
  - cbn [map fst] in S1, S2. inversion S1 as [|? ? T1 F1]; subst. inversion S2 as [|? ? T2 F2]; subst.
    rewrite Forall_forall in F1, F2.
    assert ((i, h) = (j, g)) as E.
    { destruct (proj1 (H i h) (or_introl eq_refl)) as [E|E]; [symmetry; exact E|].
      destruct (proj2 (H j g) (or_introl eq_refl)) as [E'|E']; [exact E'|].
      specialize (F2 i (in_map fst _ _ E)). specialize (F1 j (in_map fst _ _ E')). lia. }
    injection E as -> ->. f_equal. apply IH; [assumption..|]. intros i' h'. split; intros K.
    + destruct (proj1 (H i' h') (or_intror K)) as [E|E]; [|exact E]. injection E as -> ->. specialize (F1 i' (in_map fst _ _ K)). lia.
    + destruct (proj2 (H i' h') (or_intror K)) as [E|E]; [|exact E]. injection E as -> ->. specialize (F2 i' (in_map fst _ _ K)). lia.
Qed.
