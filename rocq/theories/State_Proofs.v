From Coq Require Import ZArith List Reals Arith Bool Lia Lra.
From Verif Require Import Outcome Ccd_Model Lin_Model State_Model State_Spec.
Import ListNotations.
Open Scope R_scope.
Open Scope outcome_scope.

(* ---------- keep ---------- *)
Fixpoint keep {A} (m : nat -> bool) (k : nat) (l : list A) : list A :=
  match l with
  | [] => []
  | x :: r => if m k then keep m (S k) r else x :: keep m (S k) r
  end.

Lemma keep_app : forall {A} m (a b : list A) k, keep m k (a ++ b) = keep m k a ++ keep m (k + length a) b.
Proof.
  intros A m a. induction a as [|x a IH]; intros b k; cbn [app keep length].
  - rewrite Nat.add_0_r. reflexivity.
  - rewrite IH. replace (k + S (length a))%nat with (S k + length a)%nat by lia. destruct (m k); reflexivity.
Qed.

Lemma keep_map : forall {A B} (f : A -> B) m l k, keep m k (map f l) = map f (keep m k l).
Proof. intros A B f m l. induction l as [|x l IH]; intros k; cbn [map keep]; [reflexivity|]. rewrite IH. destruct (m k); reflexivity. Qed.

Lemma keep_ext : forall {A} m m' (l : list A) k, (forall i, (k <= i < k + length l)%nat -> m i = m' i) -> keep m k l = keep m' k l.
Proof.
  intros A m m' l. induction l as [|x l IH]; intros k H; cbn [keep]; [reflexivity|].
  cbn [length] in H. rewrite (H k) by lia. rewrite (IH (S k)) by (intros; apply H; lia). reflexivity.
Qed.

Lemma without_keep : forall {A} (ix : list nat) (l : list A), without ix l = keep (fun i => existsb (Nat.eqb i) ix) 0 l.
Proof.
  intros A ix l. unfold without. generalize 0%nat. induction l as [|x l IH]; intros k; [reflexivity|].
  cbn [length seq combine filter keep fst]. destruct (existsb (Nat.eqb k) ix); cbn [negb]; [apply IH|].
  cbn [map snd]. f_equal. apply IH.
Qed.

Lemma keep_forall2 : forall {A B} (P : A -> B -> Prop) m l l' k, Forall2 P l l' -> Forall2 P (keep m k l) (keep m k l').
Proof.
  intros A B P m l l' k H. revert k. induction H as [|x y l l' Hp H IH]; intros k; cbn [keep]; [constructor|].
  destruct (m k); [apply IH|]. constructor; [exact Hp|apply IH].
Qed.

Lemma forall2_impl : forall {A B} (P Q : A -> B -> Prop) l l', (forall a b, P a b -> Q a b) -> Forall2 P l l' -> Forall2 Q l l'.
Proof. intros A B P Q l l' H F. induction F; constructor; auto. Qed.

Lemma keep_forall : forall {A} (P : A -> Prop) m l k, Forall P l -> Forall P (keep m k l).
Proof.
  intros A P m l k H. revert k. induction H as [|x l Hp H IH]; intros k; cbn [keep]; [constructor|].
  destruct (m k); [apply IH|]. constructor; [exact Hp|apply IH].
Qed.

(* ---------- arrays ---------- *)
Lemma set_nth_length : forall {A} (l : list A) i x, length (set_nth l i x) = length l.
Proof. intros A l. induction l as [|y l IH]; intros [|i] x; cbn [set_nth length]; congruence. Qed.
Lemma set_nth_same : forall {A} (l : list A) i x, (i < length l)%nat -> nth_error (set_nth l i x) i = Some x.
Proof. intros A l. induction l as [|y l IH]; intros [|i] x H; cbn [set_nth length nth_error] in *; try lia; [reflexivity|]. apply IH. lia. Qed.
Lemma set_nth_other : forall {A} (l : list A) i j x, i <> j -> nth_error (set_nth l i x) j = nth_error l j.
Proof. intros A l. induction l as [|y l IH]; intros [|i] [|j] x H; cbn [set_nth nth_error]; try congruence. apply IH. lia. Qed.
Lemma firstn_set_nth : forall {A} (l : list A) i x, (i < length l)%nat -> firstn (S i) (set_nth l i x) = firstn i l ++ [x].
Proof.
  intros A l. induction l as [|y l IH]; intros [|i] x H; cbn [length] in H; try lia; [reflexivity|].
  change (set_nth (y :: l) (S i) x) with (y :: set_nth l i x). rewrite !firstn_cons. cbn [app]. f_equal. apply IH. lia.
Qed.
Lemma firstn_S : forall {A} (l : list A) i x, nth_error l i = Some x -> firstn (S i) l = firstn i l ++ [x].
Proof. intros A l. induction l as [|y l IH]; intros [|i] x H; cbn [nth_error] in H; try discriminate.
  - injection H as ->. reflexivity.
  - rewrite !firstn_cons. cbn [app]. f_equal. apply IH. exact H. Qed.

Lemma oset_ok : forall {A} (l : list A) i x, (i < length l)%nat -> oset l i x = Ok (set_nth l i x).
Proof. intros. unfold oset. destruct (Nat.ltb_spec i (length l)); [reflexivity|lia]. Qed.
Lemma oget_ok : forall {A} (l : list A) i x, nth_error l i = Some x -> oget l i = Ok x.
Proof. intros. unfold oget. rewrite H. reflexivity. Qed.

(* ---------- the loop ---------- *)
Section Loop.
Context {St : Type} (dead : St -> nat -> outcome bool) (move : nat -> nat -> St -> outcome St).
Variable (n : nat) (m : nat -> bool) (P : nat -> nat -> St -> Prop).
Hypothesis Hdead : forall to from s, P to from s -> (from < n)%nat -> dead s from = Ok (m from).
Hypothesis Hskip : forall to from s, P to from s -> (from < n)%nat -> m from = true -> P to (S from) s.
Hypothesis Hmove : forall to from s, P to from s -> (from < n)%nat -> m from = false ->
  exists s', move to from s = Ok s' /\ P (S to) (S from) s'.

Lemma compact_ok : forall fuel to from s, P to from s -> (from <= n)%nat -> (n - from < fuel)%nat ->
  exists to' s', compact dead move fuel n to from s = Ok (to', s') /\ P to' n s'.
Proof.
  induction fuel as [|fuel IH]; intros to from s HP Hf Hfuel; [lia|]. cbn [compact].
  destruct (Nat.ltb_spec from n) as [Hlt|Hge].
  - rewrite (Hdead to from s HP Hlt). cbn [obind]. destruct (m from) eqn:Em.
    + apply IH; [apply Hskip; assumption|lia|lia].
    + destruct (Hmove to from s HP Hlt Em) as (s' & E & HP'). rewrite E. cbn [obind]. apply IH; [exact HP'|lia|lia].
  - exists to, s. split; [reflexivity|]. replace n with from by lia. exact HP.
Qed.
End Loop.

(* one array during the loop: the first to entries are the kept ones among the first from, the rest untouched *)
Definition tidy {A} (m : nat -> bool) (l0 l : list A) (to from : nat) : Prop :=
  length l = length l0 /\ firstn to l = keep m 0 (firstn from l0) /\ (to <= from)%nat
  /\ (forall j, (from <= j)%nat -> nth_error l j = nth_error l0 j).

Lemma tidy_start : forall {A} m (l : list A), tidy m l l 0 0.
Proof. intros. repeat split; auto. Qed.

Lemma tidy_skip : forall {A} m (l0 l : list A) to from, tidy m l0 l to from -> (from < length l0)%nat -> m from = true ->
  tidy m l0 l to (S from).
Proof.
  intros A m l0 l to from (H1 & H2 & H3 & H4) Hlt Hm. split; [exact H1|]. split; [|split; [lia|intros; apply H4; lia]].
  destruct (nth_error l0 from) as [x|] eqn:E; [|apply nth_error_None in E; lia].
  rewrite (firstn_S _ _ _ E), keep_app. cbn [keep]. rewrite firstn_length, Nat.min_l by lia. cbn [plus]. rewrite Hm, app_nil_r. exact H2.
Qed.

Lemma tidy_copy : forall {A} m (l0 l : list A) to from, tidy m l0 l to from -> (from < length l0)%nat -> m from = false ->
  exists l', copy l to from = Ok l' /\ tidy m l0 l' (S to) (S from).
Proof.
  intros A m l0 l to from (H1 & H2 & H3 & H4) Hlt Hm.
  destruct (nth_error l0 from) as [x|] eqn:E; [|apply nth_error_None in E; lia].
  exists (set_nth l to x). split.
  - unfold copy. rewrite (oget_ok l from x) by (rewrite H4 by lia; exact E). cbn [obind]. apply oset_ok. lia.
  - split; [rewrite set_nth_length; exact H1|]. split; [|split; [lia|]].
    + rewrite firstn_set_nth by lia. rewrite (firstn_S _ _ _ E), keep_app. cbn [keep].
      rewrite firstn_length, Nat.min_l by lia. cbn [plus]. rewrite Hm, H2. reflexivity.
    + intros j Hj. rewrite set_nth_other by lia. apply H4. lia.
Qed.

Lemma tidy_done : forall {A} m (l0 l : list A) to from, tidy m l0 l to from -> (length l0 <= from)%nat -> firstn to l = keep m 0 l0.
Proof. intros A m l0 l to from (_ & H & _) Hge. rewrite H, firstn_all2 by exact Hge. reflexivity. Qed.

Lemma nonempty_match : forall {A B} (ix : list A) (a b : B), ix <> [] -> match ix with [] => a | _ :: _ => b end = b.
Proof. intros A B [|x l] a b H; [contradiction|reflexivity]. Qed.

(* ---------- removeBodies ---------- *)
Definition named (ix : list nat) (i : nat) : bool := existsb (Nat.eqb i) ix.

Lemma mark_all : forall ix q, (forall i, In i ix -> (i < length q)%nat) ->
  exists q', ofold mark ix q = Ok q' /\ length q' = length q
  /\ (forall i, named ix i = false -> nth_error q' i = nth_error q i)
  /\ (forall i t, named ix i = true -> nth_error q' i = Some t -> fst (fst t) = None).
Proof.
  induction ix as [|k ix IH]; intros q H.
  - exists q. split; [reflexivity|]. split; [reflexivity|]. split; [reflexivity|]. intros i t Hn. discriminate.
  - cbn [ofold]. unfold mark at 1. destruct (nth_error q k) as [t|] eqn:E; [|apply nth_error_None in E; specialize (H k (or_introl eq_refl)); lia].
    rewrite (oget_ok _ _ _ E). cbn [obind]. rewrite oset_ok by (apply H; left; reflexivity). cbn [obind].
    destruct (IH (set_nth q k (None, snd (fst t), snd t))) as (q' & E' & L & N & D).
    { intros i Hi. rewrite set_nth_length. apply H. right. exact Hi. }
    exists q'. split; [exact E'|]. split; [rewrite L, set_nth_length; reflexivity|]. split.
    + intros i Hi. cbn [named existsb] in Hi. apply orb_false_iff in Hi. destruct Hi as [H1 H2]. apply Nat.eqb_neq in H1.
      rewrite N by exact H2. apply set_nth_other. lia.
    + intros i u Hi Hu. destruct (named ix i) eqn:Ni; [apply (D i u Ni Hu)|].
      rewrite N in Hu by exact Ni. cbn [named existsb] in Hi. fold (named ix i) in Hi. rewrite Ni, orb_false_r in Hi. apply Nat.eqb_eq in Hi. subst i.
      rewrite set_nth_same in Hu by (apply H; left; reflexivity). injection Hu as <-. reflexivity.
Qed.

Lemma nth_map_some : forall {A B} (f : A -> B) l i y, nth_error (map f l) i = Some y -> exists x, nth_error l i = Some x /\ y = f x.
Proof. intros A B f l. induction l as [|a l IH]; intros [|i] y H; cbn [map nth_error] in *; try discriminate; [injection H as <-; eauto|apply IH; exact H]. Qed.

Lemma remove_bodies_gen : forall s bs gs ix, represents s bs gs -> ix <> [] -> (forall i, In i ix -> (i < length bs)%nat) ->
  exists s', remove_bodies s ix = Ok s'
  /\ represents s' (keep (fun i => named ix i || match nth_error bs i with Some b => isnan (fst (fst (b_pos b))) | None => false end) 0 bs) gs
  /\ s_gidx s' = keep (fun i => named ix i || match nth_error bs i with Some b => isnan (fst (fst (b_pos b))) | None => false end) 0 (s_gidx s).
Proof.
  intros s bs gs ix (Rq & Rv & RM & RMi & Rf & Rg & Ri) Hne Hix.
  set (m := fun i => named ix i || match nth_error bs i with Some b => isnan (fst (fst (b_pos b))) | None => false end).
  destruct (mark_all ix (s_q s)) as (q' & E & L & N & D). { intros i Hi. rewrite Rq, map_length. apply Hix. exact Hi. }
  assert (length (s_q s) = length bs) as Lq by (rewrite Rq, map_length; reflexivity).
  assert (length (s_v s) = length bs) as Lv by (rewrite Rv, map_length; reflexivity).
  assert (length (s_M s) = length bs) as LM by (rewrite RM, map_length; reflexivity).
  assert (length (s_Minv s) = length bs) as LMi by (rewrite RMi, map_length; reflexivity).
  assert (length (s_fixed s) = length bs) as Lf by (rewrite Rf, map_length; reflexivity).
  assert (length (s_gidx s) = length bs) as Lg by (clear - Ri; induction Ri; cbn [length]; congruence).
  assert (forall i t, nth_error q' i = Some t -> isnan (fst (fst t)) = m i) as Hm.
  { intros i t Ht. unfold m. destruct (named ix i) eqn:Ni.
    - rewrite (D i t Ni Ht). reflexivity.
    - rewrite N, Rq in Ht by exact Ni. destruct (nth_map_some _ _ _ _ Ht) as (b & -> & ->). reflexivity. }
  unfold remove_bodies. rewrite nonempty_match by exact Hne. rewrite E. cbn [obind].
  set (s1 := RbState q' (s_v s) (s_M s) (s_Minv s) (s_fixed s) (s_gidx s) (s_geo s)).
  assert (exists to' s', compact body_dead body_move (S (length q')) (length q') 0 0 s1 = Ok (to', s')
    /\ (tidy m q' (s_q s') to' (length q') /\ tidy m (s_v s) (s_v s') to' (length q') /\ tidy m (s_M s) (s_M s') to' (length q')
        /\ tidy m (s_Minv s) (s_Minv s') to' (length q') /\ tidy m (s_fixed s) (s_fixed s') to' (length q')
        /\ tidy m (s_gidx s) (s_gidx s') to' (length q') /\ s_geo s' = s_geo s)) as (to' & s' & Ec & T1 & T2 & T3 & T4 & T5 & T6 & T7).
  { apply (compact_ok body_dead body_move (length q') m
      (fun to from t => tidy m q' (s_q t) to from /\ tidy m (s_v s) (s_v t) to from /\ tidy m (s_M s) (s_M t) to from
        /\ tidy m (s_Minv s) (s_Minv t) to from /\ tidy m (s_fixed s) (s_fixed t) to from
        /\ tidy m (s_gidx s) (s_gidx t) to from /\ s_geo t = s_geo s)); [| | | |lia|lia].
    - intros to from t (A & _) Hlt. unfold body_dead. destruct A as (_ & _ & _ & A). 
      destruct (nth_error q' from) as [u|] eqn:Eu; [|apply nth_error_None in Eu; lia].
      rewrite (oget_ok (s_q t) from u) by (rewrite A by lia; exact Eu). cbn [obind]. rewrite (Hm from u Eu). reflexivity.
    - intros to from t (A1 & A2 & A3 & A4 & A5 & A6 & A7) Hlt Hmm.
      split; [apply tidy_skip; [assumption|lia|assumption]|]. split; [apply tidy_skip; [assumption|lia|assumption]|].
      split; [apply tidy_skip; [assumption|lia|assumption]|]. split; [apply tidy_skip; [assumption|lia|assumption]|].
      split; [apply tidy_skip; [assumption|lia|assumption]|]. split; [apply tidy_skip; [assumption|lia|assumption]|exact A7].
    - intros to from t (A1 & A2 & A3 & A4 & A5 & A6 & A7) Hlt Hmm. unfold body_move.
      destruct (tidy_copy _ _ _ _ _ A1 ltac:(lia) Hmm) as (x1 & E1 & B1). rewrite E1. cbn [obind].
      destruct (tidy_copy _ _ _ _ _ A2 ltac:(lia) Hmm) as (x2 & E2 & B2). rewrite E2. cbn [obind].
      destruct (tidy_copy _ _ _ _ _ A3 ltac:(lia) Hmm) as (x3 & E3 & B3). rewrite E3. cbn [obind].
      destruct (tidy_copy _ _ _ _ _ A4 ltac:(lia) Hmm) as (x4 & E4 & B4). rewrite E4. cbn [obind].
      destruct (tidy_copy _ _ _ _ _ A5 ltac:(lia) Hmm) as (x5 & E5 & B5). rewrite E5. cbn [obind].
      destruct (tidy_copy _ _ _ _ _ A6 ltac:(lia) Hmm) as (x6 & E6 & B6). rewrite E6. cbn [obind].
      eexists. split; [reflexivity|]. cbn [s_q s_v s_M s_Minv s_fixed s_gidx s_geo].
      exact (conj B1 (conj B2 (conj B3 (conj B4 (conj B5 (conj B6 A7)))))).
    - subst s1. cbn [s_q s_v s_M s_Minv s_fixed s_gidx s_geo]. repeat split; auto. }
  rewrite Ec. cbn [obind fst snd]. eexists. split; [reflexivity|].
  pose proof (tidy_done _ _ _ _ _ T1 ltac:(lia)) as U1. pose proof (tidy_done _ _ _ _ _ T2 ltac:(lia)) as U2.
  pose proof (tidy_done _ _ _ _ _ T3 ltac:(lia)) as U3. pose proof (tidy_done _ _ _ _ _ T4 ltac:(lia)) as U4.
  pose proof (tidy_done _ _ _ _ _ T5 ltac:(lia)) as U5. pose proof (tidy_done _ _ _ _ _ T6 ltac:(lia)) as U6.
  split; [|exact U6].
  unfold represents. cbn [s_q s_v s_M s_Minv s_fixed s_gidx s_geo].
  rewrite U1, U2, U3, U4, U5, U6, T7. rewrite <- !keep_map, <- Rv, <- RM, <- RMi, <- Rf.
  split; [|split; [reflexivity|split; [reflexivity|split; [reflexivity|split; [reflexivity|split; [exact Rg|apply keep_forall2; exact Ri]]]]]].
  (* the kept positions are the original ones *)
  rewrite <- Rq. clear - N L m. 
  assert (forall i, m i = false -> nth_error q' i = nth_error (s_q s) i) as H.
  { intros i Hi. apply N. unfold m in Hi. apply orb_false_iff in Hi. apply Hi. }
  clear N. assert (forall k (a b : list triple), length a = length b ->
    (forall i, m (k + i)%nat = false -> nth_error a i = nth_error b i) -> keep m k a = keep m k b) as G.
  { intros k a. revert k. induction a as [|x a IH]; intros k [|y b] Hl Hn; try discriminate; [reflexivity|]. cbn [keep].
    rewrite (IH (S k) b); [|cbn [length] in Hl; lia|].
    - destruct (m k) eqn:Ek; [reflexivity|]. specialize (Hn 0%nat). rewrite Nat.add_0_r in Hn. specialize (Hn Ek). cbn [nth_error] in Hn. congruence.
    - intros i Hi. specialize (Hn (S i)). replace (k + S i)%nat with (S k + i)%nat in Hn by lia. exact (Hn Hi). }
  apply (G 0%nat); [exact L|]. intros i Hi. apply H. exact Hi.
Qed.

Lemma remove_bodies_ok : forall s bs gs ix, represents s bs gs -> Forall located bs -> (forall i, In i ix -> (i < length bs)%nat) ->
  exists s', remove_bodies s ix = Ok s' /\ represents s' (without ix bs) gs /\ s_gidx s' = without ix (s_gidx s).
Proof.
  intros s bs gs ix HR Hl Hix. destruct ix as [|i0 ix0] eqn:Eix.
  - exists s. split; [reflexivity|]. rewrite !without_keep.
    assert (forall A k (l : list A), keep (fun i => existsb (Nat.eqb i) []) k l = l) as G; [|rewrite !G; split; [exact HR|reflexivity]].
    clear. intros A k l. revert k. induction l as [|b l IH]; intros k; cbn [keep existsb]; [reflexivity|]. rewrite IH. reflexivity.
  - rewrite <- Eix in *. assert (ix <> []) as Hne by (rewrite Eix; discriminate).
    destruct (remove_bodies_gen s bs gs ix HR Hne Hix) as (s' & E & HR' & HG). exists s'. split; [exact E|].
    assert (forall i, named ix i || match nth_error bs i with Some b => isnan (fst (fst (b_pos b))) | None => false end = existsb (Nat.eqb i) ix) as Q.
    { intros i. unfold named. destruct (nth_error bs i) as [b|] eqn:Eb; [|rewrite orb_false_r; reflexivity].
      rewrite Forall_forall in Hl. destruct (Hl b (nth_error_In _ _ Eb)) as [x Hx]. rewrite Hx. cbn [isnan]. rewrite orb_false_r. reflexivity. }
    rewrite !without_keep. split.
    + erewrite keep_ext; [exact HR'|]. intros i _. symmetry. apply Q.
    + rewrite HG. apply keep_ext. intros i _. apply Q.
Qed.

Lemma without_same : forall {A} ix ix' (l : list A), (forall i, In i ix <-> In i ix') -> without ix l = without ix' l.
Proof.
  intros A ix ix' l H. rewrite !without_keep. apply keep_ext. intros i _. apply eq_true_iff_eq. rewrite !existsb_exists.
  split; intros (k & Hk & E); exists k; (split; [apply H; exact Hk|exact E]).
Qed.

Lemma represents_inj : forall s s' bs gs, represents s bs gs -> represents s' bs gs -> s_gidx s = s_gidx s' -> s = s'.
Proof.
  intros [q v M Mi f gi g] [q' v' M' Mi' f' gi' g'] bs gs (A1 & A2 & A3 & A4 & A5 & A6 & _) (B1 & B2 & B3 & B4 & B5 & B6 & _) E.
  cbn [s_q s_v s_M s_Minv s_fixed s_gidx s_geo] in *. subst. reflexivity.
Qed.

Lemma remove_same_set : forall s bs gs ix ix', represents s bs gs -> Forall located bs -> (forall i, In i ix -> (i < length bs)%nat) ->
  (forall i, In i ix <-> In i ix') -> remove_bodies s ix = remove_bodies s ix'.
Proof.
  intros s bs gs ix ix' HR HL Hix H. destruct (remove_bodies_ok s bs gs ix HR HL Hix) as (s1 & E1 & R1 & G1).
  destruct (remove_bodies_ok s bs gs ix' HR HL) as (s2 & E2 & R2 & G2). { intros i Hi. apply Hix. apply H. exact Hi. }
  rewrite E1, E2. f_equal. rewrite (without_same ix ix' bs H) in R1. apply (represents_inj s1 s2 _ _ R1 R2).
  rewrite G1, G2. apply without_same. exact H.
Qed.

Lemma remove_bodies_beyond : forall s bs gs ix, represents s bs gs -> (exists i, In i ix /\ (length bs <= i)%nat) -> remove_bodies s ix = UB.
Proof.
  intros s bs gs ix (Rq & _) (i & Hi & Hge). unfold remove_bodies. rewrite nonempty_match by (intros ->; destruct Hi).
  assert (forall ix q, In i ix -> (length q <= i)%nat -> ofold mark ix q = UB) as H.
  { clear. induction ix as [|k ix IH]; intros q Hi Hge; [destruct Hi|]. cbn [ofold]. unfold mark at 1, oget.
    destruct (nth_error q k) as [t|] eqn:E; [|reflexivity]. cbn [obind].
    assert (k < length q)%nat as Hk by (apply nth_error_Some; congruence). rewrite oset_ok by exact Hk. cbn [obind].
    destruct Hi as [->|Hi]; [lia|]. apply IH; [exact Hi|]. rewrite set_nth_length. exact Hge. }
  rewrite H; [reflexivity|exact Hi|rewrite Rq, map_length; exact Hge].
Qed.

(* ---------- removeGeometry ---------- *)
Lemma null_all : forall ix (g : list (option shape)), (forall i, In i ix -> (i < length g)%nat) ->
  exists g', ofold (fun g i => oset g i None) ix g = Ok g' /\ length g' = length g
  /\ (forall i, nth_error g' i = if named ix i then (match nth_error g i with Some _ => Some None | None => None end) else nth_error g i).
Proof.
  induction ix as [|k ix IH]; intros g H.
  - exists g. repeat split; reflexivity.
  - cbn [ofold]. rewrite oset_ok by (apply H; left; reflexivity). cbn [obind].
    destruct (IH (set_nth g k None)) as (g' & E & L & N). { intros i Hi. rewrite set_nth_length. apply H. right. exact Hi. }
    exists g'. split; [exact E|]. split; [rewrite L, set_nth_length; reflexivity|].
    intros i. rewrite N. cbn [named existsb]. fold (named ix i). destruct (Nat.eqb_spec i k) as [->|Hne].
    + cbn [orb]. pose proof (H k (or_introl eq_refl)) as Hk. rewrite set_nth_same by exact Hk.
      destruct (nth_error g k) eqn:Eg; [|apply nth_error_None in Eg; lia]. destruct (named ix k); reflexivity.
    + cbn [orb]. rewrite set_nth_other by lia. reflexivity.
Qed.

(* how many of the first k positions are kept *)
Fixpoint rank (m : nat -> bool) (k : nat) : nat :=
  match k with O => O | S k => if m k then rank m k else S (rank m k) end.

Lemma rank_le : forall m k, (rank m k <= k)%nat.
Proof. induction k as [|k IH]; cbn [rank]; [lia|]. destruct (m k); lia. Qed.

Lemma keep_length : forall {A} m (l : list A), length (keep m 0 l) = rank m (length l).
Proof.
  intros A m l. induction l as [|x l IH] using rev_ind; [reflexivity|].
  rewrite keep_app, !app_length. cbn [keep length plus]. rewrite Nat.add_1_r. cbn [rank]. rewrite IH. destruct (m (length l)); cbn [length]; lia.
Qed.

Lemma keep_nth : forall {A} m (l : list A) i x, nth_error l i = Some x -> m i = false -> nth_error (keep m 0 l) (rank m i) = Some x.
Proof.
  intros A m l i x H Hm. assert (i < length l)%nat as Hi by (apply nth_error_Some; congruence).
  rewrite <- (firstn_skipn i l) at 1. rewrite keep_app. rewrite nth_error_app2.
  - rewrite keep_length, firstn_length, Nat.min_l, Nat.sub_diag by lia. cbn [plus].
    assert (skipn i l = x :: skipn (S i) l) as ->.
    { clear - H. revert i H. induction l as [|y l IH]; intros [|i] H; cbn [nth_error] in H; try discriminate; [injection H as ->; reflexivity|]. apply IH. exact H. }
    cbn [keep]. rewrite Hm. reflexivity.
  - rewrite keep_length, firstn_length, Nat.min_l by lia. lia.
Qed.

Definition geo_inv (m : nat -> bool) (gs : list shape) (to from : nat) (s : list (option shape) * list (option nat)) : Prop :=
  length (fst s) = length gs /\ length (snd s) = length gs /\ to = rank m from
  /\ firstn to (fst s) = map Some (keep m 0 (firstn from gs))
  /\ (forall j, (from <= j)%nat -> nth_error (fst s) j = if m j then (match nth_error gs j with Some _ => Some None | None => None end)
                                                       else match nth_error gs j with Some g => Some (Some g) | None => None end)
  /\ (forall j, (j < length gs)%nat -> nth_error (snd s) j = Some (if (j <? from)%nat && negb (m j) then Some (rank m j) else None)).

Lemma compact_geometry : forall (gs : list shape) (m : nat -> bool) (g0 : list (option shape)), length g0 = length gs ->
  (forall j, nth_error g0 j = if m j then (match nth_error gs j with Some _ => Some None | None => None end)
                              else match nth_error gs j with Some g => Some (Some g) | None => None end) ->
  exists to' s', compact geo_dead geo_move (S (length g0)) (length g0) 0 0 (g0, repeat None (length g0)) = Ok (to', s')
  /\ geo_inv m gs to' (length gs) s'.
Proof.
  intros gs m g0 L0 H0.
  rewrite <- L0.
  apply (compact_ok geo_dead geo_move (length g0) m (geo_inv m gs)); [| | | |lia|lia].
  - intros to from [a b] (A1 & A2 & A3 & A4 & A5 & A6) Hlt. cbn [fst snd] in *. unfold geo_dead. cbn [fst].
    rewrite L0 in Hlt. specialize (A5 from (Nat.le_refl _)).
    destruct (nth_error gs from) as [g|] eqn:Eg; [|apply nth_error_None in Eg; lia].
    destruct (m from).
    + rewrite (oget_ok _ _ _ A5). reflexivity.
    + rewrite (oget_ok _ _ _ A5). reflexivity.
  - intros to from [a b] (A1 & A2 & A3 & A4 & A5 & A6) Hlt Hm. cbn [fst snd] in *. rewrite L0 in Hlt.
    destruct (nth_error gs from) as [g|] eqn:Eg; [|apply nth_error_None in Eg; lia].
    split; [exact A1|]. split; [exact A2|]. split; [cbn [rank]; rewrite Hm; exact A3|]. cbn [fst snd]. split; [|split].
    + rewrite A4, (firstn_S _ _ _ Eg), keep_app. cbn [keep]. rewrite firstn_length, Nat.min_l by lia. cbn [plus]. rewrite Hm, app_nil_r. reflexivity.
    + intros j Hj. apply A5. lia.
    + intros j Hj. rewrite A6 by exact Hj. destruct (Nat.ltb_spec j from); destruct (Nat.ltb_spec j (S from)); try lia; [reflexivity| |reflexivity].
      replace j with from by lia. rewrite Hm. reflexivity.
  - intros to from [a b] (A1 & A2 & A3 & A4 & A5 & A6) Hlt Hm. cbn [fst snd] in *. rewrite L0 in Hlt.
    destruct (nth_error gs from) as [g|] eqn:Eg; [|apply nth_error_None in Eg; lia].
    pose proof (A5 from (Nat.le_refl _)) as Ef. rewrite Hm, Eg in Ef. pose proof (rank_le m from) as Hr.
    unfold geo_move. cbn [fst snd]. rewrite (oget_ok _ _ _ Ef). cbn [obind]. rewrite oset_ok by lia. cbn [obind].
    rewrite oset_ok by (rewrite set_nth_length; lia). cbn [obind]. rewrite oset_ok by lia. cbn [obind].
    eexists. split; [reflexivity|]. split; [cbn [fst]; rewrite !set_nth_length; exact A1|]. split; [cbn [snd]; rewrite set_nth_length; exact A2|].
    split; [cbn [rank]; rewrite Hm; lia|]. cbn [fst snd]. split; [|split].
    + rewrite firstn_set_nth by (rewrite set_nth_length; lia).
      assert (firstn to (set_nth a from None) = firstn to a) as ->.
      { assert (to <= from)%nat as Hle by lia. clear - Hle. revert to from Hle. induction a as [|y a IH]; intros [|to] [|from] Hle; try reflexivity; [lia|].
        cbn [set_nth firstn]. f_equal. apply IH. lia. }
      rewrite A4, (firstn_S _ _ _ Eg), keep_app, map_app. cbn [keep]. rewrite firstn_length, Nat.min_l by lia. cbn [plus]. rewrite Hm. reflexivity.
    + intros j Hj. rewrite set_nth_other by lia. rewrite set_nth_other by lia. apply A5. lia.
    + intros j Hj. destruct (Nat.eq_dec j from) as [->|Hne].
      * rewrite set_nth_same by lia. rewrite Hm. destruct (Nat.ltb_spec from (S from)); [|lia]. cbn [andb negb]. rewrite A3. reflexivity.
      * rewrite set_nth_other by lia. rewrite A6 by exact Hj.
        destruct (Nat.ltb_spec j from); destruct (Nat.ltb_spec j (S from)); try lia; reflexivity.
  - unfold geo_inv. cbn [fst snd rank]. split; [exact L0|]. split; [rewrite repeat_length; exact L0|]. split; [reflexivity|]. split; [reflexivity|].
    split; [intros j _; apply H0|]. intros j Hj. cbn [Nat.ltb Nat.leb andb]. rewrite <- L0 in Hj. clear - Hj. revert j Hj. induction (length g0) as [|n IH]; intros [|j] Hj; cbn [repeat nth_error]; try lia; [reflexivity|]. apply IH. lia.
Qed.

Lemma read_ptrs : forall l, omapM read_ptr (map Some l) = Ok l.
Proof. induction l as [|g l IH]; [reflexivity|]. cbn [map omapM read_ptr obind]. rewrite IH. reflexivity. Qed.

Lemma geometry_start : forall (gs : list shape) (ix : list nat) (g' : list (option shape)), (forall i, nth_error g' i = if named ix i then (match nth_error (map Some gs) i with Some _ => Some None | None => None end)
   else nth_error (map Some gs) i) ->
  forall j, nth_error g' j = if named ix j then (match nth_error gs j with Some _ => Some None | None => None end)
                              else match nth_error gs j with Some g => Some (Some g) | None => None end.
Proof.
  intros gs ix g' H j. rewrite H. clear H. 
  assert (nth_error (map Some gs) j = match nth_error gs j with Some g => Some (Some g) | None => None end) as ->.
  { revert j. induction gs as [|g gs IH]; intros [|j]; try reflexivity. apply IH. }
  destruct (nth_error gs j); reflexivity.
Qed.

Lemma remove_geometry_ok : forall s bs gs ix, represents s bs gs -> (forall i, In i ix -> (i < length gs)%nat) ->
  (forall i, In i (s_gidx s) -> ~ In i ix) ->
  exists s', remove_geometry s ix = Ok s' /\ represents s' bs (without ix gs).
Proof.
  intros s bs gs ix (Rq & Rv & RM & RMi & Rf & Rg & Ri) Hix Hfree. destruct ix as [|i0 ix0] eqn:Eix.
  - exists s. split; [reflexivity|]. rewrite without_keep.
    assert (forall k, keep (fun i => existsb (Nat.eqb i) []) k gs = gs) as ->; [|repeat split; assumption].
    clear. induction gs as [|b gs IH]; intros k; cbn [keep existsb]; [reflexivity|]. rewrite IH. reflexivity.
  - rewrite <- Eix in *. unfold remove_geometry. rewrite nonempty_match by (rewrite Eix; discriminate). clear Eix i0 ix0.
    rewrite Rg. destruct (null_all ix (map Some gs)) as (g' & E & L & N). { intros i Hi. rewrite map_length. apply Hix. exact Hi. }
    rewrite E. cbn [obind]. rewrite map_length in L.
    destruct (compact_geometry gs (named ix) g' L (geometry_start gs ix g' N)) as (to & [ga im] & Ec & A1 & A2 & A3 & A4 & A5 & A6).
    rewrite Ec. cbn [obind fst snd] in *. rewrite A4, firstn_all2 by lia. rewrite read_ptrs. cbn [obind].
    assert (exists gi, omapM (read_map im) (s_gidx s) = Ok gi /\ Forall2 (fun i b => nth_error (without ix gs) i = Some (b_shape b)) gi bs) as (gi & Eg & Hg).
    { rewrite without_keep. clear - Ri A6 Hfree. induction Ri as [|i b l bs' Hb H IH]; [exists []; split; [reflexivity|constructor]|].
      destruct IH as (gi & Eg & Hg). { intros j Hj. apply Hfree. right. exact Hj. }
      assert (i < length gs)%nat as Hi by (apply nth_error_Some; congruence).
      assert (named ix i = false) as Hn.
      { unfold named. destruct (existsb (Nat.eqb i) ix) eqn:Ex; [|reflexivity]. exfalso. apply existsb_exists in Ex. destruct Ex as (k & Hk & Ek).
        apply Nat.eqb_eq in Ek. subst k. apply (Hfree i); [left; reflexivity|exact Hk]. }
      exists (rank (named ix) i :: gi). split.
      - cbn [omapM]. unfold read_map at 1. rewrite (oget_ok im i (Some (rank (named ix) i))).
        + cbn [obind]. rewrite Eg. reflexivity.
        + rewrite A6 by exact Hi. rewrite Hn. destruct (Nat.ltb_spec i (length gs)); [reflexivity|lia].
      - constructor; [|exact Hg]. apply keep_nth; [exact Hb|exact Hn]. }
    rewrite Eg. cbn [obind]. eexists. split; [reflexivity|]. unfold represents. cbn [s_q s_v s_M s_Minv s_fixed s_gidx s_geo].
    rewrite without_keep in *. repeat split; try assumption.
Qed.

Lemma omapM_UB : forall {A B} (f : A -> outcome B) l, (forall a, In a l -> f a <> Exit) -> (exists a, In a l /\ f a = UB) -> omapM f l = UB.
Proof.
  intros A B f l Hx (a & Ha & E). induction l as [|x l IH]; [destruct Ha|]. cbn [omapM].
  destruct (f x) eqn:Ex; [|exfalso; apply (Hx x); [left; reflexivity|exact Ex]|reflexivity]. cbn [obind].
  destruct Ha as [->|Ha]; [congruence|]. rewrite IH; [reflexivity| |exact Ha]. intros b Hb. apply Hx. right. exact Hb.
Qed.

Lemma remove_geometry_used : forall s bs gs ix, represents s bs gs -> (forall i, In i ix -> (i < length gs)%nat) ->
  (exists i, In i (s_gidx s) /\ In i ix) -> remove_geometry s ix = UB.
Proof.
  intros s bs gs ix (Rq & Rv & RM & RMi & Rf & Rg & Ri) Hix (k & Hk & Hki).
  unfold remove_geometry. rewrite nonempty_match by (intros ->; destruct Hki).
  rewrite Rg. destruct (null_all ix (map Some gs)) as (g' & E & L & N). { intros i Hi. rewrite map_length. apply Hix. exact Hi. }
  rewrite E. cbn [obind]. rewrite map_length in L.
  destruct (compact_geometry gs (named ix) g' L (geometry_start gs ix g' N)) as (to & [ga im] & Ec & A1 & A2 & A3 & A4 & A5 & A6).
  rewrite Ec. cbn [obind fst snd] in *. rewrite A4, firstn_all2 by lia. rewrite read_ptrs. cbn [obind].
  rewrite omapM_UB; [reflexivity| |].
  - intros i _. unfold read_map, oget. destruct (nth_error im i) as [[j|]|]; discriminate.
  - exists k. split; [exact Hk|]. unfold read_map. pose proof (Hix k Hki) as Hlt. rewrite (oget_ok _ _ _ (A6 k Hlt)).
    assert (named ix k = true) as Hn by (unfold named; apply existsb_exists; exists k; split; [exact Hki|apply Nat.eqb_refl]).
    rewrite Hn, andb_false_r. reflexivity.
Qed.

(* ---------- addBody ---------- *)
Lemma copy_all : forall {A} (l : list A), omapM (oget l) (seq 0 (length l)) = Ok l.
Proof.
  intros A l. assert (forall a b : list A, omapM (oget (a ++ b)) (seq (length a) (length b)) = Ok b) as H.
  { intros a b. revert a. induction b as [|x b IH]; intros a; [reflexivity|]. cbn [length seq omapM].
    unfold oget at 1. rewrite nth_error_app2, Nat.sub_diag by lia. cbn [nth_error obind].
    specialize (IH (a ++ [x])). rewrite <- app_assoc in IH. cbn [app] in IH. rewrite app_length in IH. cbn [length] in IH.
    rewrite Nat.add_1_r in IH. rewrite IH. reflexivity. }
  apply (H [] l).
Qed.

Lemma mass_value : forall g rho, mass_and_inertia g rho = (solid_mass rho g, solid_inertia rho g).
Proof.
  intros [r|a b] rho; unfold mass_and_inertia, solid_mass, solid_inertia, disc_inertia, plate_inertia, disc_mass, plate_mass; f_equal; field.
Qed.

Lemma add_body_ok : forall s bs gs x v theta omega rho geo fixed g, represents s bs gs -> nth_error gs geo = Some g ->
  exists s', add_body s x v theta omega rho geo fixed = Ok s'
  /\ represents s' (bs ++ [new_body x v theta omega rho g fixed]) gs.
Proof.
  intros s bs gs x v theta omega rho geo fixed g (Rq & Rv & RM & RMi & Rf & Rg & Ri) Hg. unfold add_body.
  assert (length (s_q s) = length bs) as Lq by (rewrite Rq, map_length; reflexivity).
  assert (length (s_gidx s) = length bs) as Lg by (clear - Ri; induction Ri; cbn [length]; congruence).
  unfold push. rewrite Rv, map_length, Lq, Nat.eqb_refl. cbn [obind]. rewrite Lg, Nat.eqb_refl. cbn [obind].
  rewrite Rg, (oget_ok _ _ _ Hg). cbn [obind].
  assert (length bs = length (s_M s)) as L1 by (rewrite RM, map_length; reflexivity).
  assert (length bs = length (s_Minv s)) as L2 by (rewrite RMi, map_length; reflexivity).
  rewrite L1, copy_all. cbn [obind]. rewrite <- L1, L2, copy_all. cbn [obind]. eexists. split; [reflexivity|].
  unfold represents. cbn [s_q s_v s_M s_Minv s_fixed s_gidx s_geo]. rewrite !map_app. cbn [map].
  rewrite mass_value. cbn [fst snd]. unfold new_body. cbn [b_pos b_vel b_mass b_imass b_fixed b_shape].
  assert (forall y, 1 / y = / y) as D by (intros; unfold Rdiv; ring). rewrite !D.
  rewrite Rq, RM, RMi, Rf. repeat split; try reflexivity. apply Forall2_app; [exact Ri|]. constructor; [exact Hg|constructor].
Qed.

Lemma solid_pos : forall rho g, 0 < rho -> proper g -> 0 < solid_mass rho g /\ 0 < solid_inertia rho g.
Proof.
  intros rho [r|a b] Hr H; cbn [proper solid_mass solid_inertia] in *.
  - pose proof PI_RGT_0. assert (0 < r * r) by (apply Rmult_lt_0_compat; exact H).
    assert (0 < disc_mass rho r) by (unfold disc_mass; apply Rmult_lt_0_compat; [assumption|apply Rmult_lt_0_compat; assumption]).
    split; [assumption|]. unfold disc_inertia. apply Rmult_lt_0_compat; [apply Rmult_lt_0_compat; assumption|lra].
  - destruct H as [Ha Hb]. assert (0 < plate_mass rho a b) by (unfold plate_mass; repeat apply Rmult_lt_0_compat; lra).
    split; [assumption|]. unfold plate_inertia. apply Rmult_lt_0_compat; [apply Rmult_lt_0_compat; [assumption|]|lra].
    apply Rplus_lt_0_compat; apply Rmult_lt_0_compat; lra.
Qed.

Lemma new_body_good : forall x v theta omega rho g fixed, 0 < rho -> proper g ->
  located (new_body x v theta omega rho g fixed) /\ massive (new_body x v theta omega rho g fixed).
Proof.
  intros x v theta omega rho g fixed Hr Hg. destruct (solid_pos rho g Hr Hg) as [Hm HI]. split.
  - exists (fst x). reflexivity.
  - exists (solid_mass rho g), (solid_inertia rho g). split; [reflexivity|]. split; [exact Hm|]. split; [exact HI|].
    exists (/ solid_mass rho g), (/ solid_inertia rho g). split; [reflexivity|]. split; apply Rinv_r; lra.
Qed.

Lemma forall_without : forall {A} (P : A -> Prop) ix l, Forall P l -> Forall P (without ix l).
Proof. intros. rewrite without_keep. apply keep_forall. assumption. Qed.

(* ---------- histories ---------- *)

Lemma forallb_existsb : forall n l, forallb (fun i => Nat.ltb i n) l = negb (existsb (fun i => Nat.leb n i) l).
Proof.
  intros n l. induction l as [|x l IH]; [reflexivity|]. cbn [forallb existsb]. rewrite IH, negb_orb. f_equal. apply Nat.ltb_antisym.
Qed.

Lemma state_step_ok : forall s bs gs c, represents s bs gs -> good bs gs ->
  match spec_step (bs, gs) c with
  | None => state_step s c = Exit
  | Some (bs', gs') =>
      (match c with DeleteGeometry l => forall i, In i (s_gidx s) -> ~ In i l | _ => True end ->
         exists s', state_step s c = Ok s' /\ represents s' bs' gs')
      /\ good bs' gs'
      /\ (forall s', state_step s c = Ok s' -> represents s' bs' gs')
  end.
Proof.
  intros s bs gs c HR (HL & HM & HP). pose proof HR as (Rq & Rv & RM & RMi & Rf & Rg & Ri). destruct c as [r|x v theta omega rho geo fixed|l|l]; cbn [spec_step state_step].
  - destruct (Rlt_dec 0 r) as [H|H]; destruct (Rle_dec r 0) as [H'|H']; try lra; [|reflexivity].
    assert (represents (add_circle s r) bs (gs ++ [Circle r])) as G.
    { unfold represents, add_circle. cbn [s_q s_v s_M s_Minv s_fixed s_gidx s_geo]. rewrite Rg. repeat split; try assumption.
      eapply forall2_impl; [|exact Ri]. intros i b Hb. cbn beta in *. rewrite nth_error_app1; [exact Hb|]. apply nth_error_Some. congruence. }
    split; [intros _; eexists; split; [reflexivity|exact G]|]. split.
    + split; [assumption|]. split; [assumption|]. apply Forall_app. split; [assumption|]. constructor; [exact H|constructor].
    + intros s' E. injection E as <-. exact G.
  - destruct (Rlt_dec 0 rho) as [H|H]; destruct (Rle_dec rho 0) as [H'|H']; try lra; [|reflexivity]. rewrite Rg.
    destruct (Z.leb_spec 0 geo) as [Hz|Hz]; cbn [andb].
    2:{ destruct (Z.ltb_spec geo 0); [reflexivity|lia]. }
    destruct (Z.ltb_spec geo 0) as [Hz'|Hz']; [lia|]. cbn [orb].
    destruct (Z.ltb_spec geo (Z.of_nat (length gs))) as [Hg|Hg]; destruct (Z.leb_spec (Z.of_nat (length gs)) geo) as [Hg'|Hg']; try lia; [|reflexivity].
    destruct (nth_error gs (Z.to_nat geo)) as [g|] eqn:Eg; [|apply nth_error_None in Eg; lia].
    assert (proper g) as Hpg by (rewrite Forall_forall in HP; apply HP; apply (nth_error_In _ _ Eg)).
    assert (forall fx, good (bs ++ [new_body x v theta omega rho g fx]) gs) as HG.
    { intros fx. destruct (new_body_good x v theta omega rho g fx H Hpg) as [N1 N2]. split; [|split; [|exact HP]]; apply Forall_app; (split; [assumption|]); (constructor; [assumption|constructor]). }
    destruct (Z.eqb_spec fixed 0) as [->|H0].
    + cbn [Z.eqb negb andb]. destruct (add_body_ok s bs gs x v theta omega rho (Z.to_nat geo) false g HR Eg) as (s' & E & HR').
      split; [intros _; exists s'; split; assumption|]. split; [apply HG|]. intros s2 E2. rewrite E in E2. injection E2 as <-. exact HR'.
    + cbn [negb andb]. destruct (Z.eqb_spec fixed 1) as [->|H1]; cbn [negb].
      * destruct (add_body_ok s bs gs x v theta omega rho (Z.to_nat geo) true g HR Eg) as (s' & E & HR').
        split; [intros _; exists s'; split; assumption|]. split; [apply HG|]. intros s2 E2. rewrite E in E2. injection E2 as <-. exact HR'.
      * reflexivity.
  - rewrite Rq, map_length, forallb_existsb. destruct (existsb _ l) eqn:Ex; cbn [negb]; [reflexivity|].
    destruct (remove_bodies_ok s bs gs l HR HL) as (s' & E & HR' & _).
    { intros i Hi. destruct (Nat.lt_ge_cases i (length bs)) as [?|Hge]; [assumption|]. exfalso.
      assert (existsb (fun i => Nat.leb (length bs) i) l = true) by (apply existsb_exists; exists i; split; [exact Hi|apply Nat.leb_le; exact Hge]). congruence. }
    split; [intros _; exists s'; split; assumption|]. split.
    + split; [|split; [|exact HP]]; apply forall_without; assumption.
    + intros s2 E2. rewrite E in E2. injection E2 as <-. exact HR'.
  - rewrite Rg, forallb_existsb. destruct (existsb _ l) eqn:Ex; cbn [negb]; [reflexivity|].
    assert (forall i, In i l -> (i < length gs)%nat) as Hl.
    { intros i Hi. destruct (Nat.lt_ge_cases i (length gs)) as [?|Hge]; [assumption|]. exfalso.
      assert (existsb (fun i => Nat.leb (length gs) i) l = true) by (apply existsb_exists; exists i; split; [exact Hi|apply Nat.leb_le; exact Hge]). congruence. }
    split; [intros Hfree; destruct (remove_geometry_ok s bs gs l HR Hl Hfree) as (s' & E & HR'); exists s'; split; assumption|]. split.
    + split; [exact HL|]. split; [exact HM|]. apply forall_without. exact HP.
    + intros s2 E2. destruct (List.Exists_dec (fun i => In i l) (s_gidx s)) as [Hex|Hno]; [intros i; apply in_dec; apply Nat.eq_dec| |].
      * apply Exists_exists in Hex. rewrite (remove_geometry_used s bs gs l HR Hl Hex) in E2. discriminate.
      * destruct (remove_geometry_ok s bs gs l HR Hl) as (s' & E & HR').
        { intros i Hi Hin. apply Hno. apply Exists_exists. exists i. split; assumption. }
        rewrite E in E2. injection E2 as <-. exact HR'.
Qed.

Lemma state_run_ok : forall cs s bs gs s', represents s bs gs -> good bs gs -> state_run s cs = Ok s' ->
  exists bs' gs', spec_run (bs, gs) cs = Some (bs', gs') /\ represents s' bs' gs' /\ good bs' gs'.
Proof.
  induction cs as [|c cs IH]; intros s bs gs s' HR HG E; cbn [state_run ofold spec_run] in *.
  - injection E as <-. exists bs, gs. split; [reflexivity|]. split; assumption.
  - pose proof (state_step_ok s bs gs c HR HG) as H. destruct (spec_step (bs, gs) c) as [[bs1 gs1]|].
    + destruct (state_step s c) as [s1| |] eqn:Es; cbn [obind] in E; try discriminate.
      destruct H as (_ & HG1 & H). apply (IH s1 bs1 gs1); [apply H; reflexivity|exact HG1|exact E].
    + rewrite H in E. discriminate.
Qed.


Lemma state_run_total : forall cs s bs gs, represents s bs gs -> good bs gs -> spares_shapes s cs ->
  match spec_run (bs, gs) cs with
  | None => state_run s cs = Exit
  | Some (bs', gs') => exists s', state_run s cs = Ok s' /\ represents s' bs' gs' /\ good bs' gs'
  end.
Proof.
  induction cs as [|c cs IH]; intros s bs gs HR HG HS; unfold state_run; cbn [ofold spec_run].
  - exists s. split; [reflexivity|]. split; assumption.
  - pose proof (state_step_ok s bs gs c HR HG) as H. destruct (spec_step (bs, gs) c) as [[bs1 gs1]|].
    + destruct H as (H & HG1 & _). destruct H as (s1 & E1 & HR1).
      { destruct c as [r|x v theta omega rho geo fixed|l|l]; try exact I. apply (HS [] l cs s); reflexivity. }
      rewrite E1. cbn [obind]. apply (IH s1 bs1 gs1 HR1 HG1). intros pre l post s2 Ec Er. apply (HS (c :: pre) l post s2).
      * rewrite Ec. reflexivity.
      * unfold state_run. cbn [ofold]. rewrite E1. exact Er.
    + rewrite H. reflexivity.
Qed.

(* ---------- balls ---------- *)
Lemma flat2_length : forall {A B} (f : A -> B) l, length (flat_map (fun b => [f b; f b]) l) = (2 * length l)%nat.
Proof. intros A B f l. induction l as [|x l IH]; [reflexivity|]. cbn [flat_map length app]. rewrite IH. lia. Qed.

Lemma push_ball_ok : forall s bs q v r m fixed, holds_balls s bs ->
  exists s', push_ball s q v r m fixed = Ok s' /\ holds_balls s' (bs ++ [Ball q v r m fixed]).
Proof.
  intros s bs q v r m fixed (Rq & Rv & Rr & Rf & RM & RMi). unfold push_ball, push.
  rewrite Rq, Rv, Rr, Rf, !map_length, Nat.eqb_refl. cbn [obind].
  assert (2 * length bs = length (t_M s))%nat as L1 by (rewrite RM; symmetry; exact (flat2_length k_m bs)).
  assert (2 * length bs = length (t_Minv s))%nat as L2 by (rewrite RMi; symmetry; exact (flat2_length (fun b => / k_m b) bs)).
  rewrite L1, copy_all. cbn [obind]. rewrite <- L1, L2, copy_all. cbn [obind]. eexists. split; [reflexivity|].
  unfold holds_balls. cbn [t_q t_v t_r t_fixed t_M t_Minv]. rewrite !map_app, !flat_map_app. cbn [map flat_map app k_q k_v k_r k_m k_fixed].
  rewrite RM, RMi. assert (1 / m = / m) as -> by (unfold Rdiv; ring). repeat split; reflexivity.
Qed.

Lemma insert_balls_ok : forall l s bs, holds_balls s bs -> Forall acceptable l ->
  exists s', insert_balls s l = Ok s' /\ holds_balls s' (bs ++ map as_ball l).
Proof.
  induction l as [|a l IH]; intros s bs HR H.
  - exists s. split; [reflexivity|]. cbn [map]. rewrite app_nil_r. exact HR.
  - inversion H as [|? ? (H1 & H2 & H3) H4]; subst. cbn [insert_balls ofold]. unfold insert_ball at 1.
    destruct (Rle_dec (a_r a) 0); [lra|]. destruct (Rle_dec (a_m a) 0); [lra|].
    assert (negb (a_fixed a =? 0)%Z && negb (a_fixed a =? 1)%Z = false) as -> by (destruct H3 as [-> | ->]; reflexivity).
    destruct (push_ball_ok s bs (a_q a) (a_v a) (a_r a) (a_m a) (a_fixed a =? 1)%Z HR) as (s1 & E & HR1). rewrite E. cbn [obind].
    destruct (IH s1 _ HR1 H4) as (s' & E' & HR'). exists s'. split; [exact E'|]. rewrite <- app_assoc in HR'. exact HR'.
Qed.

Lemma insert_ball_rejects : forall s a, ~ acceptable a -> insert_ball s a = Exit.
Proof.
  intros s a H. unfold insert_ball. destruct (Rle_dec (a_r a) 0); [reflexivity|]. destruct (Rle_dec (a_m a) 0); [reflexivity|].
  destruct (Z.eqb_spec (a_fixed a) 0) as [E|E]; [exfalso; apply H; split; [lra|split; [lra|left; exact E]]|].
  destruct (Z.eqb_spec (a_fixed a) 1) as [E1|E1]; [exfalso; apply H; split; [lra|split; [lra|right; exact E1]]|]. reflexivity.
Qed.
