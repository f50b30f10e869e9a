(* Lemmas about the So-bogus interface: copying bodies, renumbering, orthonormal bases, columns under renumbering. *)
From Coq Require Import List Reals Arith Bool Lia Lra.
From Verif Require Import Outcome Ccd_Model Lin_Model Lin_Proofs Sob_Model.
Import ListNotations.
Open Scope R_scope.

(* ---------- element-wise copies ---------- *)
Lemma puts_app : forall a b x, puts (a ++ b) x = puts b (puts a x).
Proof. intros a b x. unfold puts. apply fold_left_app. Qed.

Lemma puts_out : forall l x k, ~ In k (map fst l) -> puts l x k = x k.
Proof.
  induction l as [|e l IH]; intros x k H; [reflexivity|]. cbn [map In] in H. unfold puts. cbn [fold_left].
  change (fold_left (fun d e => put d (fst e) (snd e)) l (put x (fst e) (snd e))) with (puts l (put x (fst e) (snd e))).
  rewrite IH by tauto. unfold put. destruct (Nat.eqb_spec k (fst e)); [subst; tauto|reflexivity].
Qed.

Lemma puts_in : forall l x k y, (forall y', In (k, y') l -> y' = y) -> In k (map fst l) -> puts l x k = y.
Proof.
  induction l as [|e l IH]; intros x k y F H; [destruct H|].
  change (puts (e :: l) x) with (puts l (put x (fst e) (snd e))).
  destruct (in_dec Nat.eq_dec k (map fst l)) as [I|I].
  - apply IH; [|exact I]. intros y' Hy. apply F. now right.
  - rewrite puts_out by exact I. destruct H as [H|H]; [|contradiction]. unfold put. rewrite <- H, Nat.eqb_refl.
    apply F. left. destruct e as [e1 e2]. cbn [fst snd] in *. now subst.
Qed.

(* a doubly indexed copy *)
Lemma puts_grid_in : forall (key : nat -> nat -> nat) (val : nat -> nat -> R) n w x l o,
  (forall l o l' o', (l < n)%nat -> (o < w)%nat -> (l' < n)%nat -> (o' < w)%nat -> key l o = key l' o' -> l = l' /\ o = o') ->
  (l < n)%nat -> (o < w)%nat ->
  puts (flat_map (fun l => map (fun o => (key l o, val l o)) (seq 0 w)) (seq 0 n)) x (key l o) = val l o.
Proof.
  intros key val n w x l o inj Hl Ho.
  apply puts_in.
  - intros y' H. apply in_flat_map in H. destruct H as [l' [Hl' H]]. apply in_map_iff in H. destruct H as [o' [E H]].
    apply in_seq in Hl', H. injection E as E1 E2. destruct (inj l' o' l o) as [-> ->]; try lia. now subst.
  - apply in_map_iff. exists (key l o, val l o). split; [reflexivity|]. apply in_flat_map. exists l.
    split; [apply in_seq; lia|]. apply in_map_iff. exists o. split; [reflexivity|apply in_seq; lia].
Qed.

Lemma puts_grid_out : forall (key : nat -> nat -> nat) (val : nat -> nat -> R) n w x k,
  (forall l o, (l < n)%nat -> (o < w)%nat -> key l o <> k) ->
  puts (flat_map (fun l => map (fun o => (key l o, val l o)) (seq 0 w)) (seq 0 n)) x k = x k.
Proof.
  intros key val n w x k H. apply puts_out. intros I. apply in_map_iff in I. destruct I as [[k' y] [E I]].
  cbn [fst] in E. subst k'. apply in_flat_map in I. destruct I as [l [Hl I]]. apply in_map_iff in I. destruct I as [o [E I]].
  apply in_seq in Hl, I. injection E as E1 _. apply (H l o); [lia|lia|exact E1].
Qed.

(* ---------- the slots of the bodies ---------- *)
Definition slots_ok (w : nat) (slot : nat -> nat -> nat -> nat) : Prop :=
  forall nb b o b' o', (b < nb)%nat -> (o < w)%nat -> (b' < nb)%nat -> (o' < w)%nat -> slot nb b o = slot nb b' o' -> b = b' /\ o = o'.

Lemma slot_of_ok : forall w, slots_ok w (slot_of w).
Proof. intros w nb b o b' o' _ Ho _ Ho' E. unfold slot_of in E. apply (row_inj w); assumption. Qed.

Lemma slot3_ok : forall w, slots_ok (3 + w) (slot3 w).
Proof.
  intros w nb b o b' o' Hb Ho Hb' Ho' E. unfold slot3 in E.
  destruct (Nat.ltb_spec o 3), (Nat.ltb_spec o' 3); try lia.
  assert (A : (w * b + (o - 3) = w * b' + (o' - 3))%nat) by lia.
  apply (row_inj w) in A; lia.
Qed.

Section Copies.
Context (w : nat) (slot : nat -> nat -> nat -> nat) (inj : slots_ok w slot).

Lemma extract_in : forall ng ltg x l o, (l < length ltg)%nat -> (o < w)%nat ->
  extract w slot ng ltg x (slot (length ltg) l o) = x (slot ng (nth l ltg 0%nat) o).
Proof.
  intros ng ltg x l o Hl Ho. unfold extract.
  apply (puts_grid_in (fun l o => slot (length ltg) l o) (fun l o => x (slot ng (nth l ltg 0%nat) o))); try assumption.
  intros; apply (inj (length ltg)); assumption.
Qed.

Lemma reorder_in : forall s nl x l o, s = w -> (l < nl)%nat -> (o < w)%nat -> reorder s slot nl x (slot nl l o) = x (s * l + o)%nat.
Proof.
  intros s nl x l o -> Hl Ho. unfold reorder.
  apply (puts_grid_in (fun l o => slot nl l o) (fun l o => x (w * l + o)%nat)); try assumption.
  intros; apply (inj nl); assumption.
Qed.

Lemma scatter_in : forall ng ltg xl x l o, NoDup ltg -> (forall b, In b ltg -> (b < ng)%nat) -> (l < length ltg)%nat -> (o < w)%nat ->
  scatter w slot ng ltg xl x (slot ng (nth l ltg 0%nat) o) = xl (slot (length ltg) l o).
Proof.
  intros ng ltg xl x l o ND R Hl Ho. unfold scatter.
  apply (puts_grid_in (fun l o => slot ng (nth l ltg 0%nat) o) (fun l o => xl (slot (length ltg) l o))); try assumption.
  intros l1 o1 l2 o2 H1 H2 H3 H4 E. apply (inj ng) in E; try assumption; try (apply R; now apply nth_In).
  destruct E as [E ->]. split; [|reflexivity]. apply (proj1 (NoDup_nth ltg 0%nat) ND); assumption.
Qed.

Lemma scatter_out : forall ng ltg xl x b o, (forall b, In b ltg -> (b < ng)%nat) -> (b < ng)%nat -> ~ In b ltg -> (o < w)%nat ->
  scatter w slot ng ltg xl x (slot ng b o) = x (slot ng b o).
Proof.
  intros ng ltg xl x b o R Hb N Ho. unfold scatter.
  apply (puts_grid_out (fun l o => slot ng (nth l ltg 0%nat) o) (fun l o => xl (slot (length ltg) l o))).
  intros l o' Hl Ho' E. apply (inj ng) in E; try assumption; [|apply R; now apply nth_In].
  destruct E as [E _]. apply N. rewrite <- E. now apply nth_In.
Qed.
End Copies.

(* ---------- orthonormal bases ---------- *)
Definition shaped (n m : nat) (l : list (list R)) : Prop := length l = n /\ forall x, In x l -> length x = m.
Definition orthonormal_cols (d : nat) (E : list (list R)) : Prop :=
  shaped d d E /\ forall i j, (i < d)%nat -> (j < d)%nat -> ldot (nth i E []) (nth j E []) = if Nat.eqb i j then 1 else 0.

Lemma shaped_nth : forall n m l k, shaped n m l -> (k < n)%nat -> length (nth k l []) = m.
Proof. intros n m l k [H1 H2] Hk. apply H2. apply nth_In. now rewrite H1. Qed.

Lemma at_map_seq : forall n f k, (k < n)%nat -> at_ (map f (seq 0 n)) k = f k.
Proof.
  intros n f k H. unfold at_. rewrite (nth_indep _ 0 (f 0%nat)) by (rewrite map_length, seq_length; lia).
  rewrite map_nth, seq_nth by lia. reflexivity.
Qed.

Lemma list_ext : forall (a b : list R), length a = length b -> (forall k, (k < length a)%nat -> at_ a k = at_ b k) -> a = b.
Proof. intros a b L H. apply (nth_ext a b 0 0 L). exact H. Qed.

Lemma to_world_length : forall d E a, length (to_world d E a) = d.
Proof. intros. unfold to_world. now rewrite map_length, seq_length. Qed.

Lemma rsum_swap : forall n m f, rsum n (fun i => rsum m (fun j => f i j)) = rsum m (fun j => rsum n (fun i => f i j)).
Proof.
  intros n m f. induction n as [|n IH].
  - cbn [rsum]. symmetry. now apply rsum_zero.
  - cbn [rsum]. rewrite IH. symmetry. rewrite <- rsum_plus. apply rsum_ext. intros; reflexivity.
Qed.

(* E^T ( E a ) = a *)
Lemma local_world : forall d E a, orthonormal_cols d E -> length a = d -> to_local E (to_world d E a) = a.
Proof.
  intros d E a [S O] La. destruct S as [S1 S2].
  apply list_ext; [unfold to_local; now rewrite map_length, S1|].
  unfold to_local. rewrite map_length, S1. intros k Hk.
  unfold at_ at 1. rewrite (nth_indep _ 0 (ldot [] (to_world d E a))) by (rewrite map_length; lia).
  rewrite (map_nth (fun b => ldot b (to_world d E a))). unfold ldot.
  rewrite (shaped_nth d d E k (conj S1 S2) Hk).
  transitivity (rsum d (fun e => rsum d (fun j => at_ a j * (at_ (nth k E []) e * at_ (nth j E []) e)))).
  { apply rsum_ext. intros e He. unfold to_world. rewrite at_map_seq by exact He. rewrite <- rsum_scal. apply rsum_ext. intros; ring. }
  rewrite rsum_swap.
  transitivity (rsum d (fun j => at_ a j * (if Nat.eqb k j then 1 else 0))).
  { apply rsum_ext. intros j Hj. rewrite rsum_scal. f_equal. rewrite <- (O k j Hk Hj). unfold ldot.
    now rewrite (shaped_nth d d E k (conj S1 S2) Hk). }
  rewrite (rsum_one d _ k Hk).
  - rewrite Nat.eqb_refl. ring.
  - intros i Hi N. destruct (Nat.eqb_spec k i); [congruence|ring].
Qed.

(* ---------- renumbering ---------- *)
Lemma find_from_ok : forall ltg b k, In b ltg -> exists l, find_from k ltg b = Ok (k + l)%nat /\ (l < length ltg)%nat /\ nth l ltg 0%nat = b.
Proof.
  induction ltg as [|g ltg IH]; intros b k H; [destruct H|]. cbn [find_from].
  destruct (Nat.eqb_spec g b) as [E|E].
  - exists 0%nat. rewrite Nat.add_0_r. subst. cbn. repeat split; lia.
  - destruct H as [H|H]; [congruence|]. destruct (IH b (S k) H) as [l [H1 [H2 H3]]]. exists (S l).
    rewrite H1. cbn [length nth]. repeat split; [f_equal; lia|lia|exact H3].
Qed.

Lemma ltg_at_ok : forall ltg l, (l < length ltg)%nat -> ltg_at ltg l = Ok (nth l ltg 0%nat).
Proof. intros ltg l H. unfold ltg_at. now rewrite (nth_error_nth' ltg 0%nat H). Qed.

Section Ltg.
Context {C : Type} (K : sim C).
Definition touches (c : C) (b : nat) : Prop := exists i oj, k_bodies K c = Ok (i, oj) /\ (b = i \/ oj = Some b).
Definition placed (ng : nat) (c : C) : Prop :=
  exists i oj, k_bodies K c = Ok (i, oj) /\ (i < ng)%nat /\ match oj with Some j => (j < ng)%nat | None => True end.

Lemma mark_all : forall ng cs p, Forall (placed ng) cs ->
  exists p', ofold (mark_contact K ng) cs p = Ok p' /\ forall b, p' b = true <-> p b = true \/ exists c, In c cs /\ touches c b.
Proof.
  intros ng. induction cs as [|c cs IH]; intros p F.
  - exists p. split; [reflexivity|]. intros b. split; [tauto|]. intros [H|[c [[] _]]]. exact H.
  - inversion F as [|? ? [i [oj [B [Hi Hj]]]] F2]; subst.
    set (p1 := fun b => if Nat.eqb b i then true else p b).
    set (p2 := match oj with Some j => fun b => if Nat.eqb b j then true else p1 b | None => p1 end).
    assert (E : mark_contact K ng p c = Ok p2).
    { unfold mark_contact. rewrite B. cbn [obind fst snd]. unfold mark at 1. rewrite (proj2 (Nat.ltb_lt _ _) Hi). cbn [obind].
      destruct oj as [j|]; [|reflexivity]. unfold mark. rewrite (proj2 (Nat.ltb_lt _ _) Hj). reflexivity. }
    destruct (IH p2 F2) as [p' [E' H']]. exists p'. cbn [ofold]. rewrite E. cbn [obind]. split; [exact E'|].
    intros b. rewrite H'. assert (P2 : p2 b = true <-> p b = true \/ touches c b).
    { unfold touches. rewrite B. unfold p2, p1. destruct oj as [j|].
      - destruct (Nat.eqb_spec b j), (Nat.eqb_spec b i); subst; split; intros H; try (right; eexists _, _; split; [reflexivity|tauto]);
          try reflexivity; try tauto.
        destruct H as [H|[i' [oj' [Q H]]]]; [exact H|]. injection Q as <- <-. destruct H as [H|H]; [congruence|injection H as H; congruence].
      - destruct (Nat.eqb_spec b i); subst; split; intros H; try (right; eexists _, _; split; [reflexivity|tauto]); try reflexivity; try tauto.
        destruct H as [H|[i' [oj' [Q H]]]]; [exact H|]. injection Q as <- <-. destruct H as [H|H]; [congruence|discriminate]. }
    rewrite P2. cbn [In]. split.
    + intros [[H|H]|[c' [I H]]]; [tauto|right; exists c; tauto|right; exists c'; tauto].
    + intros [H|[c' [[<-|I] H]]]; [tauto|tauto|right; exists c'; tauto].
Qed.

Lemma ltg_ok : forall ng cs, Forall (placed ng) cs ->
  exists ltg, build_ltg K ng cs = Ok ltg /\ NoDup ltg /\ (forall b, In b ltg -> (b < ng)%nat) /\
    (forall b, (b < ng)%nat -> (In b ltg <-> exists c, In c cs /\ touches c b)).
Proof.
  intros ng cs F. destruct (mark_all ng cs (fun _ => false) F) as [p [E H]].
  exists (filter p (seq 0 ng)). unfold build_ltg. rewrite E. cbn [obind]. split; [reflexivity|]. split.
  { apply NoDup_filter. apply seq_NoDup. }
  split.
  { intros b I. apply filter_In in I. destruct I as [I _]. apply in_seq in I. lia. }
  intros b Hb. rewrite filter_In, H, in_seq. split; [intros [_ [D|D]]; [discriminate|exact D]|]. intros D. split; [lia|now right].
Qed.
End Ltg.

(* ---------- columns ---------- *)
Lemma entry_map : forall (f : nat -> nat) (g : nat -> R) n k,
  entry (map (fun o => (f o, g o)) (seq 0 n)) k = rsum n (fun o => if Nat.eqb (f o) k then g o else 0).
Proof.
  intros f g n k. induction n as [|n IH]; [reflexivity|]. rewrite seq_S, map_app, entry_app, IH. cbn [rsum].
  f_equal. unfold entry. cbn. lra.
Qed.

Lemma col_dot_map : forall (f : nat -> nat) (g : nat -> R) n x,
  col_dot (map (fun o => (f o, g o)) (seq 0 n)) x = rsum n (fun o => g o * x (f o)).
Proof.
  intros f g n k. induction n as [|n IH]; [reflexivity|]. rewrite seq_S, map_app, col_dot_app, IH. cbn [rsum].
  f_equal. unfold col_dot. cbn. lra.
Qed.

(* column c over the slots of the local bodies is column c' over the slots of the bodies they stand for *)
Definition same_col (s n ng : nat) (ltg : list nat) (ls gs : nat -> nat -> nat) (c c' : col) : Prop :=
  (forall l o, (l < n)%nat -> (o < s)%nat -> entry c (ls l o) = entry c' (gs (nth l ltg 0%nat) o)) /\
  (forall b o, (b < ng)%nat -> (o < s)%nat -> ~ In b ltg -> entry c' (gs b o) = 0) /\
  (forall x y, (forall l o, (l < n)%nat -> (o < s)%nat -> x (ls l o) = y (gs (nth l ltg 0%nat) o)) -> col_dot c x = col_dot c' y).

Section Cols.
Context {C : Type} (K : sim C).
Let s := k_s K.
Context (ng : nat) (ltg : list nat) (ls gs : nat -> nat -> nat).
Hypothesis (ND : NoDup ltg) (RG : forall b, In b ltg -> (b < ng)%nat).
Hypothesis ls_inj : forall b o b' o', (b < length ltg)%nat -> (o < s)%nat -> (b' < length ltg)%nat -> (o' < s)%nat ->
  ls b o = ls b' o' -> b = b' /\ o = o'.
Hypothesis gs_inj : forall b o b' o', (b < ng)%nat -> (o < s)%nat -> (b' < ng)%nat -> (o' < s)%nat -> gs b o = gs b' o' -> b = b' /\ o = o'.

Lemma place_entry : forall (slot : nat -> nat -> nat) nb, 
  (forall b o b' o', (b < nb)%nat -> (o < s)%nat -> (b' < nb)%nat -> (o' < s)%nat -> slot b o = slot b' o' -> b = b' /\ o = o') ->
  forall b x b' o', (b < nb)%nat -> (b' < nb)%nat -> (o' < s)%nat ->
  entry (place K slot b x) (slot b' o') = if Nat.eqb b b' then at_ x o' else 0.
Proof.
  intros slot nb inj b x b' o' Hb Hb' Ho. unfold place. rewrite entry_map. fold s.
  destruct (Nat.eqb_spec b b') as [<-|N].
  - rewrite (rsum_one s _ o' Ho).
    + now rewrite Nat.eqb_refl.
    + intros i Hi Ni. destruct (Nat.eqb_spec (slot b i) (slot b o')) as [E|E]; [|reflexivity].
      apply inj in E; try assumption. tauto.
  - apply rsum_zero. intros i Hi. destruct (Nat.eqb_spec (slot b i) (slot b' o')) as [E|E]; [|reflexivity].
    apply inj in E; try assumption. tauto.
Qed.

Lemma place_same : forall l x, (l < length ltg)%nat ->
  same_col s (length ltg) ng ltg ls gs (place K ls l x) (place K gs (nth l ltg 0%nat) x).
Proof.
  intros l x Hl. assert (Hg : forall l, (l < length ltg)%nat -> (nth l ltg 0 < ng)%nat) by (intros; apply RG; now apply nth_In).
  split; [|split].
  - intros l' o Hl' Ho. rewrite (place_entry ls (length ltg) ls_inj) by assumption.
    rewrite (place_entry gs ng gs_inj) by auto.
    destruct (Nat.eqb_spec l l') as [->|N]; [now rewrite Nat.eqb_refl|].
    destruct (Nat.eqb_spec (nth l ltg 0%nat) (nth l' ltg 0%nat)) as [E|_]; [|reflexivity].
    apply (proj1 (NoDup_nth ltg 0%nat) ND) in E; tauto.
  - intros b o Hb Ho N. rewrite (place_entry gs ng gs_inj) by auto.
    destruct (Nat.eqb_spec (nth l ltg 0%nat) b) as [E|_]; [|reflexivity]. exfalso. apply N. rewrite <- E. now apply nth_In.
  - intros y z H. unfold place. rewrite !col_dot_map. apply rsum_ext. intros o Ho. now rewrite H.
Qed.

Lemma same_app : forall n a a' b b', same_col s n ng ltg ls gs a a' -> same_col s n ng ltg ls gs b b' ->
  same_col s n ng ltg ls gs (a ++ b) (a' ++ b').
Proof.
  intros n a a' b b' [A1 [A2 A3]] [B1 [B2 B3]]. split; [|split].
  - intros l o Hl Ho. now rewrite !entry_app, A1, B1.
  - intros g o Hg Ho N. rewrite entry_app, A2, B2 by assumption. ring.
  - intros x y H. now rewrite !col_dot_app, (A3 x y H), (B3 x y H).
Qed.

Lemma same_nil : forall n, same_col s n ng ltg ls gs [] [].
Proof. intros n. repeat split; intros; reflexivity. Qed.

Lemma impulse_same : forall n l l', Forall2 (fun c c' => same_col s n ng ltg ls gs (fst c) (fst c') /\ snd c = snd c') l l' ->
  (forall b o, (b < n)%nat -> (o < s)%nat -> impulse l (ls b o) = impulse l' (gs (nth b ltg 0%nat) o)) /\
  (forall b o, (b < ng)%nat -> (o < s)%nat -> ~ In b ltg -> impulse l' (gs b o) = 0).
Proof.
  intros n l l' F. induction F as [|c c' l l' [[A1 [A2 _]] B] F [IH1 IH2]]; [split; reflexivity|]. split.
  - intros b o Hb Ho. unfold impulse in *. cbn [fold_right]. rewrite (IH1 b o Hb Ho), (A1 b o Hb Ho), B. reflexivity.
  - intros b o Hb Ho N. unfold impulse in *. cbn [fold_right]. rewrite (IH2 b o Hb Ho N), (A2 b o Hb Ho N). ring.
Qed.

Lemma hcols_same : forall i oj i' oj' h0 h1, (i' < length ltg)%nat -> nth i' ltg 0%nat = i ->
  match oj, oj' with Some j, Some j' => (j' < length ltg)%nat /\ nth j' ltg 0%nat = j | None, None => True | _, _ => False end ->
  Forall2 (same_col s (length ltg) ng ltg ls gs) (hcols K ls (i', oj') h0 h1) (hcols K gs (i, oj) h0 h1).
Proof.
  intros i oj i' oj' h0 h1 Hi <- Hj. unfold hcols. induction (seq 0 (k_d K)) as [|k ks IH]; [constructor|]. cbn [map].
  constructor; [|exact IH]. cbn [fst snd]. apply same_app; [now apply place_same|].
  destruct oj as [j|], oj' as [j'|]; try contradiction; [|apply same_nil].
  destruct Hj as [Hj <-]. destruct h1 as [h1|]; [now apply place_same|apply same_nil].
Qed.
End Cols.
