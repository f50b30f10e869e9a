From Coq Require Import List Reals Arith Bool Lra Lia Sorted.
From Verif Require Import Outcome Ccd_Model Geom_Circle Sparse_Model Sparse_Spec.
Import ListNotations.
Local Open Scope nat_scope.

(* ---------- positions ---------- *)
Lemma nth_error_slice : forall {A} (l : list A) s e k, nth_error (slice l s e) k = if Nat.ltb (s + k) e then nth_error l (s + k) else None.
Proof.
  intros A l s e k. unfold slice. destruct (Nat.ltb_spec (s + k) e) as [H|H].
  - rewrite nth_error_firstn || idtac.
    revert l s e k H. assert (F : forall (l : list A) n k, k < n -> nth_error (firstn n l) k = nth_error l k).
    { induction l as [|x l IH]; intros [|n] [|k] H; try lia; try reflexivity. cbn [firstn nth_error]. apply IH. lia. }
    intros l s e k H. rewrite F by lia. revert l. induction s as [|s IH]; intros l; [reflexivity|]. destruct l as [|x l]; [destruct k; reflexivity|].
    cbn [skipn Nat.add nth_error]. clear -H. revert l. induction s as [|s IH]; intros l; [reflexivity|]. destruct l as [|y l]; [destruct k; reflexivity|]. cbn [skipn Nat.add nth_error]. apply IH. lia.
  - apply nth_error_None. rewrite firstn_length. lia.
Qed.
Lemma slice_length : forall {A} (l : list A) s e, length (slice l s e) = min (e - s) (length l - s).
Proof. intros A l s e. unfold slice. rewrite firstn_length, skipn_length. reflexivity. Qed.
Lemma nth_error_combine : forall {A B} (l : list A) (m : list B) k, nth_error (combine l m) k = match nth_error l k, nth_error m k with Some a, Some b => Some (a, b) | _, _ => None end.
Proof.
  induction l as [|x l IH]; intros m k; [destruct k; reflexivity|]. destruct m as [|y m]; [destruct k; cbn [combine nth_error]; [reflexivity|destruct (nth_error l k); reflexivity]|].
  destruct k as [|k]; [reflexivity|]. cbn [combine nth_error]. apply IH.
Qed.
Lemma stored_column : forall a r c v, stored a r c v <-> In (r, v) (column a c).
Proof.
  intros a r c v. unfold stored, column. cbv zeta. set (s := nth c (m_outer a) 0). set (e := nth (S c) (m_outer a) 0). split.
  - intros (k & Hk & I & V). apply nth_error_In with (k - s). rewrite nth_error_combine, !nth_error_slice.
    replace (s + (k - s)) with k by lia. destruct (Nat.ltb_spec k e); [|lia]. rewrite I, V. reflexivity.
  - intros H. apply In_nth_error in H. destruct H as [j H]. rewrite nth_error_combine, !nth_error_slice in H. destruct (Nat.ltb_spec (s + j) e); [|discriminate].
    destruct (nth_error (m_inner a) (s + j)) eqn:I; [|discriminate]. destruct (nth_error (m_vals a) (s + j)) eqn:V; [|discriminate]. inversion H; subst.
    exists (s + j). split; [lia|]. split; assumption.
Qed.
(* columns of a well formed matrix are sorted by row *)
Definition rows_below (l : list (nat * R)) : Prop := StronglySorted (fun x y => fst x < fst y) l.
Lemma sorted_of_steps : forall l : list (nat * R), (forall k x y, nth_error l k = Some x -> nth_error l (S k) = Some y -> fst x < fst y) -> rows_below l.
Proof.
  intros l H. apply Sorted_StronglySorted; [intros x y z; apply Nat.lt_trans|]. induction l as [|x l IH]; constructor.
  - apply IH. intros k x0 y H0 H1. apply (H (S k)); assumption.
  - destruct l as [|y l]; constructor. apply (H 0 x y); reflexivity.
Qed.
Lemma column_sorted : forall a c, valid_csc a -> c < m_cols a -> rows_below (column a c).
Proof.
  intros a c (_ & _ & _ & _ & _ & _ & S) Hc. apply sorted_of_steps. intros k [r1 v1] [r2 v2] H1 H2. unfold column in H1, H2. cbv zeta in H1, H2.
  rewrite nth_error_combine, !nth_error_slice in H1, H2. set (s := nth c (m_outer a) 0) in *. set (e := nth (Datatypes.S c) (m_outer a) 0) in *.
  destruct (Nat.ltb_spec (s + k) e); [|discriminate]. destruct (Nat.ltb_spec (s + Datatypes.S k) e); [|discriminate].
  replace (s + Datatypes.S k) with (Datatypes.S (s + k)) in * by lia.
  destruct (nth_error (m_inner a) (s + k)) eqn:I1; [|discriminate]. destruct (nth_error (m_vals a) (s + k)); [|discriminate].
  destruct (nth_error (m_inner a) (Datatypes.S (s + k))) eqn:I2; [|discriminate]. destruct (nth_error (m_vals a) (Datatypes.S (s + k))); [|discriminate].
  inversion H1; inversion H2; subst. cbn [fst]. apply (S c (s + k) r1 r2 Hc); try assumption; fold s e; lia.
Qed.
Lemma sorted_unique : forall l r v w, rows_below l -> In (r, v) l -> In (r, w) l -> v = w.
Proof.
  induction l as [|x l IH]; intros r v w S H1 H2; [destruct H1|]. inversion S as [|? ? S' F]; subst. rewrite Forall_forall in F. destruct H1 as [->|H1], H2 as [H2|H2].
  - inversion H2. reflexivity.
  - apply F in H2. cbn [fst] in H2. lia.
  - subst x. apply F in H1. cbn [fst] in H1. lia.
  - eapply IH; eassumption.
Qed.
Lemma lookup_in : forall l r v, rows_below l -> In (r, v) l -> lookup l r = v.
Proof.
  intros l r v S H. unfold lookup. destruct (find (fun e => Nat.eqb (fst e) r) l) as [[r' w]|] eqn:F.
  - apply find_some in F. destruct F as [I E]. cbn [fst] in E. apply Nat.eqb_eq in E. subst r'. cbn [snd]. eapply sorted_unique; eassumption.
  - apply (find_none _ _ F) in H. cbn [fst] in H. rewrite Nat.eqb_refl in H. discriminate.
Qed.
Lemma lookup_out : forall l r, (forall v, ~ In (r, v) l) -> lookup l r = 0%R.
Proof.
  intros l r H. unfold lookup. destruct (find (fun e => Nat.eqb (fst e) r) l) as [[r' w]|] eqn:F; [|reflexivity].
  apply find_some in F. destruct F as [I E]. cbn [fst] in E. apply Nat.eqb_eq in E. subst r'. exfalso. exact (H w I).
Qed.
Theorem coeff_entry : forall a r c, valid_csc a -> c < m_cols a -> entry_is a r c (coeff a r c).
Proof.
  intros a r c V Hc. unfold entry_is, coeff. destruct (find (fun e => Nat.eqb (fst e) r) (column a c)) as [[r' w]|] eqn:F.
  - left. apply find_some in F. destruct F as [I E]. cbn [fst] in E. apply Nat.eqb_eq in E. subst r'. rewrite (lookup_in _ _ w (column_sorted a c V Hc) I). apply stored_column. exact I.
  - assert (K : forall w, ~ In (r, w) (column a c)) by (intros w I; apply (find_none _ _ F) in I; cbn [fst] in I; rewrite Nat.eqb_refl in I; discriminate).
    right. split; [apply lookup_out; exact K|]. intros w S. apply stored_column in S. exact (K w S).
Qed.
Theorem entry_unique : forall a r c v w, valid_csc a -> c < m_cols a -> entry_is a r c v -> entry_is a r c w -> v = w.
Proof.
  intros a r c v w V Hc [H1|[-> H1]] [H2|[-> H2]]; try reflexivity.
  - apply stored_column in H1, H2. eapply sorted_unique; [apply (column_sorted a c V Hc)|eassumption..].
  - exfalso. exact (H2 v H1).
  - exfalso. exact (H1 w H2).
Qed.

(* ---------- inserting in order ---------- *)
Lemma insert_last : forall l r v, Forall (fun e => fst e < r) l -> insert_entry r v l = l ++ [(r, v)].
Proof.
  induction l as [|[r' v'] l IH]; intros r v F; [reflexivity|]. inversion F; subst. cbn [fst] in *. cbn [insert_entry].
  destruct (Nat.ltb_spec r r'); [lia|]. rewrite IH by assumption. reflexivity.
Qed.
Lemma insert_all : forall l acc, rows_below (acc ++ l) -> fold_left (fun acc e => insert_entry (fst e) (snd e) acc) l acc = acc ++ l.
Proof.
  induction l as [|[r v] l IH]; intros acc S; [rewrite app_nil_r; reflexivity|]. cbn [fold_left fst snd].
  rewrite insert_last.
  - rewrite IH; rewrite <- app_assoc; cbn [app]; [reflexivity|exact S].
  - clear IH. induction acc as [|x acc IHa]; [constructor|]. inversion S as [|? ? S' F]; subst. constructor; [|apply IHa; exact S'].
    rewrite Forall_forall in F. specialize (F (r, v)). cbn [fst] in F. apply F. apply in_or_app. right. left. reflexivity.
Qed.
Theorem extract_cols_ok : forall a cols, valid_csc a -> (forall c, In c cols -> c < m_cols a) -> extract_cols a cols = Ok (map (column a) cols).
Proof.
  intros a cols V H. induction cols as [|c cols IH]; [reflexivity|]. cbn [extract_cols map]. destruct (Nat.ltb_spec c (m_cols a)) as [K|K].
  - rewrite IH by (intros; apply H; right; assumption). cbn [obind]. rewrite insert_all by (apply column_sorted; assumption). reflexivity.
  - exfalso. specialize (H c (or_introl eq_refl)). lia.
Qed.
Theorem extract_out_of_range : forall a cols c, In c cols -> m_cols a <= c -> extractColumns a cols = UB.
Proof.
  intros a cols c. unfold extractColumns. induction cols as [|d cols IH]; intros I H; [destruct I|]. cbn [extract_cols]. destruct (Nat.ltb_spec d (m_cols a)) as [K|K]; [|reflexivity].
  destruct I as [->|I]; [lia|]. specialize (IH I H). destruct (extract_cols a cols); cbn [obind] in *; [discriminate|discriminate|reflexivity].
Qed.

(* ---------- packing ---------- *)
Lemma offsets_length : forall cs s, length (offsets s cs) = S (length cs).
Proof. induction cs as [|c cs IH]; intros s; [reflexivity|]. cbn [offsets length]. rewrite IH. reflexivity. Qed.
Lemma offsets_nth : forall cs s k, k <= length cs -> nth k (offsets s cs) 0 = s + length (concat (firstn k cs)).
Proof.
  induction cs as [|c cs IH]; intros s k H; cbn [length] in H.
  - assert (k = 0) by lia. subst k. cbn [offsets nth firstn concat length]. lia.
  - destruct k as [|k]; cbn [offsets nth firstn concat length]; [lia|]. rewrite IH by lia. rewrite app_length. lia.
Qed.
Lemma firstn_S : forall {A} (l : list A) k x, nth_error l k = Some x -> firstn (S k) l = firstn k l ++ [x].
Proof. induction l as [|y l IH]; intros [|k] x H; try discriminate. - inversion H. reflexivity. - cbn [firstn nth_error app] in *. f_equal. apply IH. exact H. Qed.
Lemma concat_pos : forall (cs : list (list (nat * R))) k c j, nth_error cs k = Some c -> j < length c -> nth_error (concat cs) (length (concat (firstn k cs)) + j) = nth_error c j.
Proof.
  induction cs as [|d cs IH]; intros [|k] c j H Hj; try discriminate.
  - inversion H; subst. cbn [firstn concat length Nat.add]. rewrite nth_error_app1 by exact Hj. reflexivity.
  - cbn [nth_error] in H. cbn [firstn concat]. rewrite app_length. rewrite nth_error_app2 by lia. rewrite <- (IH k c j H Hj). f_equal. lia.
Qed.
Lemma compress_cols : forall rows cs, m_cols (compress rows cs) = length cs.
Proof. intros rows cs. unfold m_cols, compress. cbn [m_outer]. rewrite offsets_length. reflexivity. Qed.
Lemma compress_bounds : forall rows cs k c, nth_error cs k = Some c ->
  nth k (m_outer (compress rows cs)) 0 = length (concat (firstn k cs)) /\ nth (S k) (m_outer (compress rows cs)) 0 = length (concat (firstn k cs)) + length c.
Proof.
  intros rows cs k c H. unfold compress. cbn [m_outer]. assert (k < length cs) by (apply nth_error_Some; rewrite H; discriminate). rewrite !offsets_nth by lia.
  rewrite (firstn_S cs k c H), concat_app, app_length. cbn [concat]. rewrite app_nil_r. split; lia.
Qed.
Lemma compress_stored : forall rows cs k c r v, nth_error cs k = Some c -> (stored (compress rows cs) r k v <-> In (r, v) c).
Proof.
  intros rows cs k c r v H. destruct (compress_bounds rows cs k c H) as [B1 B2]. unfold stored. rewrite B1, B2. unfold compress. cbn [m_inner m_vals]. split.
  - intros (p & Hp & I & V). rewrite nth_error_map in I, V. replace p with (length (concat (firstn k cs)) + (p - length (concat (firstn k cs)))) in I, V by lia.
    rewrite (concat_pos cs k c) in I, V by (try assumption; lia). destruct (nth_error c (p - length (concat (firstn k cs)))) as [[r' v']|] eqn:E; [|discriminate].
    cbn [option_map fst snd] in I, V. inversion I; inversion V; subst. eapply nth_error_In. exact E.
  - intros I. apply In_nth_error in I. destruct I as [j E]. assert (Hj : j < length c) by (apply nth_error_Some; rewrite E; discriminate).
    exists (length (concat (firstn k cs)) + j). split; [lia|]. rewrite !nth_error_map, (concat_pos cs k c j H Hj), E. split; reflexivity.
Qed.
Lemma compress_valid : forall rows cs, (forall c, In c cs -> rows_below c /\ forall e, In e c -> fst e < rows) -> valid_csc (compress rows cs).
Proof.
  intros rows cs H. unfold valid_csc. rewrite compress_cols. split; [unfold compress; cbn [m_outer]; rewrite offsets_length; lia|].
  split; [unfold compress; cbn [m_outer]; rewrite offsets_nth by lia; reflexivity|].
  split; [unfold compress; cbn [m_outer m_inner]; rewrite offsets_nth, firstn_all, map_length by lia; reflexivity|].
  split; [unfold compress; cbn [m_vals m_inner]; rewrite !map_length; reflexivity|]. split; [|split].
  - intros c Hc. destruct (nth_error cs c) as [l|] eqn:E; [|apply nth_error_None in E; lia]. destruct (compress_bounds rows cs c l E) as [-> ->]. lia.
  - intros k r E. unfold compress in E. cbn [m_inner] in E. apply nth_error_In in E. apply in_map_iff in E. destruct E as (e & <- & I). apply in_concat in I. destruct I as (c & I1 & I2).
    unfold compress. cbn [m_rows]. apply (H c I1). exact I2.
  - intros c k r1 r2 Hc K1 K2 I1 I2. destruct (nth_error cs c) as [l|] eqn:E; [|apply nth_error_None in E; lia]. destruct (compress_bounds rows cs c l E) as [B1 B2]. rewrite B1 in K1. rewrite B2 in K2.
    unfold compress in I1, I2. cbn [m_inner] in I1, I2. rewrite nth_error_map in I1, I2. set (s := length (concat (firstn c cs))) in *.
    replace k with (s + (k - s)) in I1 by lia. replace (S k) with (s + S (k - s)) in I2 by lia. unfold s in I1, I2. rewrite (concat_pos cs c l) in I1, I2 by (try assumption; fold s; lia). fold s in I1, I2.
    destruct (nth_error l (k - s)) as [e1|] eqn:E1; [|discriminate]. destruct (nth_error l (S (k - s))) as [e2|] eqn:E2; [|discriminate]. inversion I1; inversion I2; subst.
    destruct (H l (nth_error_In _ _ E)) as [S _]. clear -S E1 E2. revert S E1 E2. generalize (k - s). intros j. revert l. induction j as [|j IH]; intros [|x l] S E1 E2; try discriminate.
    + inversion S as [|? ? S' F]; subst. cbn [nth_error] in *. inversion E1; subst. rewrite Forall_forall in F. apply F. apply nth_error_In with 0. exact E2.
    + inversion S as [|? ? S' F]; subst. cbn [nth_error] in *. eapply IH; eassumption.
Qed.

Theorem extractColumns_ok : forall a cols, valid_csc a -> (forall c, In c cols -> c < m_cols a) ->
  exists b, extractColumns a cols = Ok b /\ valid_csc b /\ m_rows b = m_rows a /\ m_cols b = length cols
    /\ (forall k c r v, nth_error cols k = Some c -> (stored b r k v <-> stored a r c v))
    /\ (forall k c r v, nth_error cols k = Some c -> (entry_is b r k v <-> entry_is a r c v)).
Proof.
  intros a cols V H. unfold extractColumns. rewrite (extract_cols_ok a cols V H). cbn [obind]. eexists. split; [reflexivity|].
  assert (St : forall k c r v, nth_error cols k = Some c -> (stored (compress (m_rows a) (map (column a) cols)) r k v <-> stored a r c v)).
  { intros k c r v E. rewrite (compress_stored (m_rows a) (map (column a) cols) k (column a c)) by (rewrite nth_error_map, E; reflexivity). symmetry. apply stored_column. }
  split; [|split; [reflexivity|split; [rewrite compress_cols, map_length; reflexivity|split; [exact St|]]]].
  - apply compress_valid. intros l I. apply in_map_iff in I. destruct I as (c & <- & I). split; [apply column_sorted; [exact V|apply H; exact I]|].
    intros [r v] Ie. apply stored_column in Ie. destruct Ie as (k & _ & Ik & _). cbn [fst]. destruct V as (_ & _ & _ & _ & _ & Rg & _). exact (Rg k r Ik).
  - intros k c r v E. unfold entry_is. split; (intros [K|[K1 K2]]; [left; apply (St k c r v E); exact K|right; split; [exact K1|intros w S; apply (K2 w); apply (St k c r w E); exact S]]).
Qed.

(* ---------- the predicates ---------- *)
Theorem isIdentity_stored : forall a tol, isIdentity a tol = true <->
  m_rows a = m_cols a /\ forall r c v, c < m_cols a -> stored a r c v -> (Rabs (v - (if Nat.eqb r c then 1 else 0)) <= tol)%R.
Proof.
  intros a tol. unfold isIdentity, isSquare. rewrite andb_true_iff, Nat.eqb_eq, forallb_forall. split; intros [H1 H2]; split; try exact H1.
  - intros r c v Hc S. apply stored_column in S. specialize (H2 c ltac:(apply in_seq; lia)). rewrite forallb_forall in H2. specialize (H2 _ S). cbn [fst snd] in H2.
    destruct (Nat.eqb r c); [destruct (Rltb_spec tol (Rabs (v - 1))); [discriminate|lra]|]. rewrite Rminus_0_r. destruct (Rltb_spec tol (Rabs v)); [discriminate|lra].
  - intros c Hc. apply in_seq in Hc. rewrite forallb_forall. intros [r v] I. cbn [fst snd]. specialize (H2 r c v ltac:(lia) (proj2 (stored_column a r c v) I)).
    destruct (Nat.eqb r c); [destruct (Rltb_spec tol (Rabs (v - 1))); [lra|reflexivity]|]. rewrite Rminus_0_r in H2. destruct (Rltb_spec tol (Rabs v)); [lra|reflexivity].
Qed.
Theorem isIdentity_full : forall a tol, valid_csc a -> (0 <= tol)%R -> (forall c, c < m_cols a -> exists v, stored a c c v) ->
  (isIdentity a tol = true <-> m_rows a = m_cols a /\ forall r c v, c < m_cols a -> entry_is a r c v -> (Rabs (v - (if Nat.eqb r c then 1 else 0)) <= tol)%R).
Proof.
  intros a tol V Ht D. rewrite isIdentity_stored. split; intros [H1 H2]; split; try exact H1; intros r c v Hc K.
  - destruct K as [K|[-> K]]; [apply H2; assumption|]. destruct (Nat.eqb_spec r c) as [->|N]; [destruct (D c Hc) as [w S]; exfalso; exact (K w S)|].
    replace (0 - 0)%R with 0%R by ring. rewrite Rabs_R0. exact Ht.
  - apply H2; [exact Hc|left; exact K].
Qed.
Lemma coeff_none : forall a r c, (forall v, ~ stored a r c v) -> coeff a r c = 0%R.
Proof. intros a r c H. unfold coeff. apply lookup_out. intros v I. apply (H v), stored_column, I. Qed.
Theorem isSymmetric_ok : forall a tol, valid_csc a -> m_rows a = m_cols a -> (0 <= tol)%R ->
  (isSymmetric a tol = true <-> forall r c v w, r < m_cols a -> c < m_cols a -> entry_is a r c v -> entry_is a c r w -> (Rabs (v - w) <= tol)%R).
Proof.
  intros a tol V Sq Ht. unfold isSymmetric. rewrite forallb_forall. split.
  - intros H r c v w Hr Hc E1 E2. rewrite (entry_unique a r c v (coeff a r c) V Hc E1 (coeff_entry a r c V Hc)), (entry_unique a c r w (coeff a c r) V Hr E2 (coeff_entry a c r V Hr)).
    assert (K : forall c r, c < m_cols a -> (exists v, stored a r c v) -> (Rabs (coeff a r c - coeff a c r) <= tol /\ Rabs (coeff a c r - coeff a r c) <= tol)%R).
    { clear - H. intros c r Hc [v S]. apply stored_column in S. specialize (H c ltac:(apply in_seq; lia)). rewrite forallb_forall in H. specialize (H _ S). cbn [fst] in H.
      apply andb_true_iff in H. destruct H as [H1 H2]. destruct (Rltb_spec tol (Rabs (coeff a r c - coeff a c r))); [discriminate|]. destruct (Rltb_spec tol (Rabs (coeff a c r - coeff a r c))); [discriminate|]. lra. }
    destruct (coeff_entry a r c V Hc) as [S|[Z1 N1]]; [apply (K c r Hc); exists (coeff a r c); exact S|].
    destruct (coeff_entry a c r V Hr) as [S|[Z2 N2]]; [apply (K r c Hr); exists (coeff a c r); exact S|].
    rewrite Z1, Z2. replace (0 - 0)%R with 0%R by ring. rewrite Rabs_R0. exact Ht.
  - intros H c Hc. apply in_seq in Hc. rewrite forallb_forall. intros [r v] I. cbn [fst]. assert (Hr : r < m_cols a).
    { apply stored_column in I. destruct I as (k & _ & Ik & _). destruct V as (_ & _ & _ & _ & _ & Rg & _). specialize (Rg k r Ik). lia. }
    assert (Hc' : c < m_cols a) by lia. pose proof (H r c _ _ Hr Hc' (coeff_entry a r c V Hc') (coeff_entry a c r V Hr)) as L1. pose proof (H c r _ _ Hc' Hr (coeff_entry a c r V Hr) (coeff_entry a r c V Hc')) as L2.
    destruct (Rltb_spec tol (Rabs (coeff a r c - coeff a c r))); [exfalso; lra|]. destruct (Rltb_spec tol (Rabs (coeff a c r - coeff a r c))); [exfalso; lra|]. reflexivity.
Qed.
