From Coq Require Import List Reals Arith Lra Lia Bool Sorted FinFun.
From Verif Require Import Outcome Ccd_Model Lin_Model Lin_Proofs Rot_Alg Quad_Model Quad_Proofs Sparse_Model Sparse_Spec Sparse_Proofs Nlp_Model Nlp_Spec.
Import ListNotations.
Open Scope R_scope.

(* ---------- slopes of quadratics ---------- *)
Lemma slope : forall F a b c, (forall t, F t = a + b * t + c * (t * t)) -> derivable_pt_lim F 0 b.
Proof.
  intros F a b c H eps Pe. assert (Pc : 0 < Rabs c + 1) by (pose proof (Rabs_pos c); lra).
  assert (Pd : 0 < eps / (Rabs c + 1)) by (apply Rdiv_lt_0_compat; assumption).
  exists (mkposreal _ Pd). intros h Hh Lh. cbn [pos] in Lh. rewrite Rplus_0_l, !H. replace ((a + b * h + c * (h * h) - (a + b * 0 + c * (0 * 0))) / h - b) with (c * h) by (field; exact Hh).
  rewrite Rabs_mult. apply Rle_lt_trans with ((Rabs c + 1) * Rabs h); [|].
  - apply Rmult_le_compat_r; [apply Rabs_pos|lra].
  - apply Rmult_lt_reg_r with (/ (Rabs c + 1)); [apply Rinv_0_lt_compat; exact Pc|]. replace ((Rabs c + 1) * Rabs h * / (Rabs c + 1)) with (Rabs h) by (field; lra). exact Lh.
Qed.
Lemma mv_along : forall n A x h t i, mv n A (along x h t) i = mv n A x i + t * mv n A h i.
Proof. intros n A x h t i. unfold mv, along. rewrite <- rsum_scale, <- rsum_plus. apply rsum_same. intros. ring. Qed.
Lemma dotn_along : forall n y x h t, dotn n y (along x h t) = dotn n y x + t * dotn n y h.
Proof. intros n y x h t. unfold dotn, along. rewrite <- rsum_scale, <- rsum_plus. apply rsum_same. intros. ring. Qed.

(* ---------- the lower triangle ---------- *)
Lemma dense_app : forall p1 v1 p2 v2 i j, length p1 = length v1 -> dense (p1 ++ p2) (v1 ++ v2) i j = dense p1 v1 i j + dense p2 v2 i j.
Proof.
  induction p1 as [|[r c] p1 IH]; intros [|v v1] p2 v2 i j L; try discriminate; cbn [app dense]; [ring|]. rewrite IH by (cbn [length] in L; lia). ring.
Qed.
Definition low_pat (c : nat) (l : list (nat * R)) : list (nat * nat) := flat_map (fun e => if Nat.ltb (fst e) c then [] else [(fst e, c)]) l.
Definition low_val (c : nat) (l : list (nat * R)) : list R := flat_map (fun e => if Nat.ltb (fst e) c then [] else [snd e]) l.
Lemma low_length : forall c l, length (low_pat c l) = length (low_val c l).
Proof. intros c l. induction l as [|e l IH]; [reflexivity|]. cbn [low_pat low_val flat_map]. rewrite !app_length. fold (low_pat c l) (low_val c l). rewrite IH. destruct (Nat.ltb (fst e) c); reflexivity. Qed.
Lemma low_in : forall c l r k, In (r, k) (low_pat c l) <-> k = c /\ (c <= r)%nat /\ exists v, In (r, v) l.
Proof.
  intros c l r k. unfold low_pat. rewrite in_flat_map. split.
  - intros [[r1 v] [I H]]. cbn [fst] in H. destruct (Nat.ltb_spec r1 c); [destruct H|]. destruct H as [H|[]]. assert (r1 = r) by congruence. assert (c = k) by congruence. subst. split; [reflexivity|]. split; [lia|]. exists v. exact I.
  - intros (-> & L & v & I). exists (r, v). split; [exact I|]. cbn [fst]. destruct (Nat.ltb_spec r c); [lia|]. left. reflexivity.
Qed.
Lemma dense_outside : forall p v i j, ~ In (i, j) p -> dense p v i j = 0.
Proof.
  induction p as [|[r c] p IH]; intros [|w v] i j N; try reflexivity. cbn [dense]. rewrite IH by (intros H; apply N; right; exact H).
  destruct (Nat.eqb_spec r i) as [->|]; [|ring]. destruct (Nat.eqb_spec c j) as [->|]; [|ring]. exfalso. apply N. left. reflexivity.
Qed.
Lemma dense_low : forall c l i, rows_below l -> (c <= i)%nat -> dense (low_pat c l) (low_val c l) i c = lookup l i.
Proof.
  intros c l i. induction l as [|[r v] l IH]; intros S Hi; [reflexivity|]. inversion S as [|? ? S1 F]; subst. rewrite Forall_forall in F. cbn [low_pat low_val flat_map fst snd].
  fold (low_pat c l) (low_val c l). unfold lookup. cbn [find fst]. destruct (Nat.eqb_spec r i) as [->|N].
  - destruct (Nat.ltb_spec i c); [lia|]. cbn [app dense snd]. rewrite !Nat.eqb_refl. rewrite dense_outside; [ring|]. rewrite low_in. intros (_ & _ & w & I). apply F in I. cbn [fst] in I. lia.
  - fold (lookup l i). destruct (Nat.ltb r c); cbn [app dense].
    + apply IH; assumption.
    + rewrite (proj2 (Nat.eqb_neq r i) N), Rplus_0_l. apply IH; assumption.
Qed.
Definition pat_upto (a : csc) (k : nat) := flat_map (fun c => low_pat c (column a c)) (seq 0 k).
Definition val_upto (a : csc) (k : nat) := flat_map (fun c => low_val c (column a c)) (seq 0 k).
Lemma pat_step : forall a k, pat_upto a (S k) = pat_upto a k ++ low_pat k (column a k).
Proof. intros a k. unfold pat_upto. rewrite seq_S, flat_map_app. cbn [flat_map Nat.add]. rewrite app_nil_r. reflexivity. Qed.
Lemma val_step : forall a k, val_upto a (S k) = val_upto a k ++ low_val k (column a k).
Proof. intros a k. unfold val_upto. rewrite seq_S, flat_map_app. cbn [flat_map Nat.add]. rewrite app_nil_r. reflexivity. Qed.
Lemma upto_length : forall a k, length (pat_upto a k) = length (val_upto a k).
Proof. intros a k. induction k as [|k IH]; [reflexivity|]. rewrite pat_step, val_step, !app_length, IH, low_length. reflexivity. Qed.
Lemma upto_in : forall a k r c, In (r, c) (pat_upto a k) <-> (c < k /\ c <= r)%nat /\ exists v, In (r, v) (column a c).
Proof.
  intros a k r c. induction k as [|k IH].
  - split; [intros []|]. intros [[H _] _]. lia.
  - rewrite pat_step, in_app_iff, IH, low_in. split.
    + intros [[[H1 H2] H3]|(-> & H2 & H3)]; (split; [lia|exact H3]).
    + intros [[H1 H2] H3]. destruct (Nat.eq_dec c k) as [->|]; [right; split; [reflexivity|split; assumption]|left; split; [lia|exact H3]].
Qed.
Lemma dense_upto : forall a k i j, valid_csc a -> (k <= m_cols a)%nat -> dense (pat_upto a k) (val_upto a k) i j = if Nat.ltb j k then if Nat.leb j i then coeff a i j else 0 else 0.
Proof.
  intros a k i j V. induction k as [|k IH]; intros Hk; [reflexivity|]. rewrite pat_step, val_step, dense_app by apply upto_length. rewrite IH by lia.
  destruct (Nat.eq_dec j k) as [->|N].
  - rewrite Nat.ltb_irrefl, (proj2 (Nat.ltb_lt k (S k))) by lia. destruct (Nat.leb_spec k i).
    + rewrite dense_low; [unfold coeff; ring| |assumption]. apply column_sorted; [exact V|lia].
    + rewrite dense_outside; [ring|]. rewrite low_in. intros (_ & H1 & _). lia.
  - rewrite (dense_outside (low_pat k (column a k))). 2:{ rewrite low_in. intros (E & _). lia. }
    rewrite Rplus_0_r. destruct (Nat.ltb_spec j k), (Nat.ltb_spec j (S k)); try lia; reflexivity.
Qed.
Lemma NoDup_app_ : forall (A : Type) (l1 l2 : list A), NoDup l1 -> NoDup l2 -> (forall x, In x l1 -> ~ In x l2) -> NoDup (l1 ++ l2).
Proof.
  intros A l1 l2 N1 N2 H. induction l1 as [|x l1 IH]; [exact N2|]. inversion N1; subst. cbn [app]. constructor.
  - rewrite in_app_iff. intros [K|K]; [contradiction|]. exact (H x (or_introl eq_refl) K).
  - apply IH; [assumption|]. intros y Hy. apply H. right. exact Hy.
Qed.
Lemma low_nodup : forall c l, rows_below l -> NoDup (low_pat c l).
Proof.
  intros c l S. induction l as [|[r v] l IH]; [constructor|]. inversion S as [|? ? S1 F]; subst. rewrite Forall_forall in F. cbn [low_pat flat_map fst]. fold (low_pat c l).
  destruct (Nat.ltb r c); cbn [app]; [apply IH; exact S1|]. constructor; [|apply IH; exact S1]. rewrite low_in. intros (_ & _ & w & I). apply F in I. cbn [fst] in I. lia.
Qed.
Lemma upto_nodup : forall a k, valid_csc a -> (k <= m_cols a)%nat -> NoDup (pat_upto a k).
Proof.
  intros a k V. induction k as [|k IH]; intros Hk; [constructor|]. rewrite pat_step. apply NoDup_app_.
  - apply IH. lia.
  - apply low_nodup, column_sorted; [exact V|lia].
  - intros [r c]. rewrite upto_in, low_in. intros [[H1 _] _] (H2 & _). lia.
Qed.
Lemma count_low : forall c l num, fold_left (fun num e => if Nat.ltb (fst e) c then num else S num) l num = (num + length (low_pat c l))%nat.
Proof.
  intros c l. induction l as [|e l IH]; intros num; cbn [fold_left low_pat flat_map]; [cbn [length]; lia|]. rewrite IH, app_length. fold (low_pat c l). destruct (Nat.ltb (fst e) c); cbn [length]; lia.
Qed.
Lemma count_upto : forall a k num, fold_left (fun num c => fold_left (fun num e => if Nat.ltb (fst e) c then num else S num) (column a c) num) (seq 0 k) num = (num + length (pat_upto a k))%nat.
Proof.
  intros a k. induction k as [|k IH]; intros num; [cbn [seq fold_left pat_upto flat_map length]; lia|]. rewrite seq_S, fold_left_app, IH. cbn [fold_left Nat.add]. rewrite count_low, pat_step, app_length. lia.
Qed.
Lemma pattern_is : forall a, sparsityPatternLowerTriangular a = pat_upto a (m_cols a).
Proof. reflexivity. Qed.
Lemma values_are : forall a, valuesLowerTriangular a = val_upto a (m_cols a).
Proof. reflexivity. Qed.
Theorem nz_is : forall a, nzLowerTriangular a = length (sparsityPatternLowerTriangular a).
Proof. intros a. unfold nzLowerTriangular. rewrite count_upto, pattern_is. reflexivity. Qed.
Lemma dense_scaled : forall s p v i j, dense p (map (fun w => w * s) v) i j = s * dense p v i j.
Proof.
  intros s. induction p as [|[r c] p IH]; intros [|w v] i j; cbn [dense map]; try ring. rewrite IH. destruct (Nat.eqb r i); [destruct (Nat.eqb c j)|]; ring.
Qed.
Lemma row_of : forall a c r v, valid_csc a -> In (r, v) (column a c) -> (r < m_rows a)%nat.
Proof. intros a c r v (_ & _ & _ & _ & _ & B & _) H. apply stored_column in H. destruct H as (k & _ & I & _). exact (B k r I). Qed.

Section Common.
  Variables (Q : csc) (A : dvec).
  Hypotheses (V : valid_csc Q) (Sq : m_rows Q = m_cols Q) (Sy : symmetric (m_cols Q) (coeff Q)).
  Let n := m_cols Q.
  Lemma objective_slope : forall x h, derivable_pt_lim (fun t => 1 / 2 * dotn n (along x h t) (smv Q (along x h t)) + dotn n A (along x h t)) 0 (rsum n (fun j => (smv Q x j + A j) * h j)).
  Proof.
    intros x h. apply (slope _ (1 / 2 * dotn n x (smv Q x) + dotn n A x) _ (1 / 2 * dotn n h (smv Q h))). intros t.
    assert (E : dotn n (along x h t) (smv Q (along x h t)) = dotn n x (smv Q x) + 2 * t * dotn n (smv Q x) h + t * t * dotn n h (smv Q h)).
    { transitivity (dotn n (along x h t) (along (smv Q x) (smv Q h) t)).
      - apply dotn_ext; [reflexivity|]. intros i _. unfold smv. rewrite mv_along. reflexivity.
      - rewrite dotn_along, !(dotn_comm n (along x h t)), !dotn_along. rewrite (dotn_comm n (smv Q h) x). assert (T : dotn n x (smv Q h) = dotn n (smv Q x) h) by (apply dotn_sym; exact Sy). rewrite T.
        rewrite (dotn_comm n (smv Q x) x), (dotn_comm n (smv Q h) h). ring. }
    rewrite E, dotn_along. replace (rsum n (fun j => (smv Q x j + A j) * h j)) with (dotn n (smv Q x) h + dotn n A h); [field|]. unfold dotn. rewrite <- rsum_plus. apply rsum_same. intros. ring.
  Qed.
  Lemma lower_full : forall i j, (i < n)%nat -> (j < n)%nat -> from_lower (dense (sparsityPatternLowerTriangular Q) (valuesLowerTriangular Q)) i j = coeff Q i j.
  Proof.
    intros i j Hi Hj. unfold from_lower. rewrite pattern_is, values_are. fold n. rewrite !dense_upto by (try exact V; unfold n; lia). rewrite (proj2 (Nat.ltb_lt j n)), (proj2 (Nat.ltb_lt i n)) by assumption.
    destruct (Nat.leb_spec j i); [reflexivity|]. rewrite (proj2 (Nat.leb_le i j)) by lia. apply Sy; assumption.
  Qed.
  Lemma pattern_in_range : forall r c, In (r, c) (sparsityPatternLowerTriangular Q) -> (c <= r /\ r < n)%nat.
  Proof. intros r c H. rewrite pattern_is, upto_in in H. destruct H as [[H1 H2] [v H3]]. apply row_of in H3; [|exact V]. unfold n. lia. Qed.
  Lemma pattern_nodup : NoDup (sparsityPatternLowerTriangular Q).
  Proof. rewrite pattern_is. apply upto_nodup; [exact V|lia]. Qed.
  Lemma values_length : length (valuesLowerTriangular Q) = nzLowerTriangular Q.
  Proof. rewrite nz_is, pattern_is, values_are. symmetry. apply upto_length. Qed.

  Theorem qp_states_derivatives : forall alpha, states_derivatives (qpnlp Q A alpha).
  Proof.
    intros alpha. unfold states_derivatives. cbn [qpnlp t_f t_grad t_g t_n t_m t_jac_pattern t_jac_values t_hess_values t_hess_pattern t_nnz_jac t_nnz_hess].
    split; [intros x h; apply objective_slope|]. split; [intros x h i Hi; lia|]. split.
    { intros x s lam. exists (map (fun v => v * s) (valuesLowerTriangular Q)). split; [reflexivity|]. split; [rewrite map_length; apply values_length|]. intros h j Hj.
      apply (slope _ (s * (smv Q x j + A j)) _ 0). intros t. unfold lagrangian_gradient. cbn [qpnlp t_grad t_m rsum]. unfold smv. rewrite mv_along.
      replace (rsum (m_cols Q) (fun k => from_lower (dense (sparsityPatternLowerTriangular Q) (map (fun v => v * s) (valuesLowerTriangular Q))) j k * h k)) with (s * mv (m_cols Q) (coeff Q) h j); [ring|].
      unfold mv. rewrite <- rsum_scale. apply rsum_same. intros k Hk. unfold from_lower. rewrite !dense_scaled. rewrite <- (lower_full j k Hj Hk). unfold from_lower. destruct (Nat.leb k j); ring. }
    split; [reflexivity|]. split; [reflexivity|]. split; [intros r c []|]. split; [constructor|]. split; [symmetry; apply nz_is|]. split; [apply pattern_in_range|apply pattern_nodup].
  Qed.
End Common.

(* ---------- the diagonal ---------- *)
Lemma set_nth_length : forall (A : Type) (l : list A) k x, length (set_nth l k x) = length l.
Proof. intros A l. induction l as [|y l IH]; intros [|k] x; cbn [set_nth length]; try reflexivity. rewrite IH. reflexivity. Qed.
Lemma set_nth_nth : forall (A : Type) (l : list A) k x j d, nth j (set_nth l k x) d = if (Nat.eqb j k && Nat.ltb k (length l))%bool then x else nth j l d.
Proof.
  intros A l. induction l as [|y l IH]; intros k x j d.
  - cbn [set_nth length]. replace (Nat.ltb k 0) with false by (symmetry; apply Nat.ltb_ge; lia). rewrite andb_false_r. reflexivity.
  - destruct k as [|k], j as [|j]; cbn [set_nth nth length]; try reflexivity. rewrite IH. reflexivity.
Qed.
Definition pair_dec : forall x y : nat * nat, {x = y} + {x <> y}.
Proof. intros [a b] [c d]. destruct (Nat.eq_dec a c) as [->|N]; [|right; congruence]. destruct (Nat.eq_dec b d) as [->|N]; [left; reflexivity|right; congruence]. Defined.
Lemma diagonal_loop_ok : forall pattern i d k, (k < length d)%nat ->
  length (diagonal_loop i pattern d) = length d
  /\ (In (k, k) pattern -> exists q, nth_error pattern q = Some (k, k) /\ nth k (diagonal_loop i pattern d) 0%nat = (i + q)%nat)
  /\ (~ In (k, k) pattern -> nth k (diagonal_loop i pattern d) 0%nat = nth k d 0%nat).
Proof.
  induction pattern as [|[r c] pattern IH]; intros i d k Hk; cbn [diagonal_loop fst snd].
  - split; [reflexivity|]. split; [intros []|reflexivity].
  - set (d1 := if Nat.eqb r c then set_nth d r i else d). assert (L : length d1 = length d) by (unfold d1; destruct (Nat.eqb r c); [apply set_nth_length|reflexivity]).
    destruct (IH (S i) d1 k ltac:(lia)) as (H1 & H2 & H3). split; [lia|].
    assert (Hd : (r, c) <> (k, k) -> nth k d1 0%nat = nth k d 0%nat).
    { intros N. unfold d1. destruct (Nat.eqb_spec r c) as [->|]; [|reflexivity]. rewrite set_nth_nth. destruct (Nat.eqb_spec k c) as [->|]; [congruence|reflexivity]. }
    destruct (in_dec pair_dec (k, k) pattern) as [I|I].
    + split; [|intros N; exfalso; apply N; right; exact I]. intros _. destruct (H2 I) as (q & E1 & E2). exists (S q). split; [exact E1|]. rewrite E2. lia.
    + specialize (H3 I). split.
      * intros [E|K]; [|contradiction]. assert (r = k) by congruence. assert (c = k) by congruence. subst r c. exists 0%nat. split; [reflexivity|]. rewrite H3. unfold d1. rewrite Nat.eqb_refl, set_nth_nth, Nat.eqb_refl, (proj2 (Nat.ltb_lt k (length d)) Hk). cbn [andb]. lia.
      * intros N. rewrite H3. apply Hd. intros E. apply N. left. exact E.
Qed.
Theorem diagonal_indices_ok : forall n pattern k, (k < n)%nat -> In (k, k) pattern -> nth_error pattern (nth k (diagonal_indices n pattern) 0%nat) = Some (k, k).
Proof.
  intros n pattern k Hk I. unfold diagonal_indices. destruct (diagonal_loop_ok pattern 0 (repeat 0%nat n) k) as (_ & H & _); [rewrite repeat_length; exact Hk|]. destruct (H I) as (q & E1 & E2). rewrite E2. exact E1.
Qed.
Lemma dense_set : forall p v k y x r c i j, nth_error p k = Some (r, c) -> nth_error v k = Some y ->
  dense p (set_nth v k (y + x)) i j = dense p v i j + if Nat.eqb r i then if Nat.eqb c j then x else 0 else 0.
Proof.
  induction p as [|[r0 c0] p IH]; intros [|w v] [|k] y x r c i j H1 H2; try discriminate; cbn [nth_error] in H1, H2; cbn [set_nth dense].
  - assert (r0 = r) by congruence. assert (c0 = c) by congruence. assert (w = y) by congruence. subst. destruct (Nat.eqb r i); [destruct (Nat.eqb c j)|]; ring.
  - rewrite (IH v k y x r c i j H1 H2). ring.
Qed.
Lemma add_nth_ok : forall p v k x r c, length p = length v -> nth_error p k = Some (r, c) -> exists w, add_nth v k x = Ok w /\ length w = length v
  /\ forall i j, dense p w i j = dense p v i j + if Nat.eqb r i then if Nat.eqb c j then x else 0 else 0.
Proof.
  intros p v k x r c L H. assert (K : (k < length v)%nat) by (rewrite <- L; apply nth_error_Some; congruence). unfold add_nth. destruct (nth_error v k) as [y|] eqn:E.
  - exists (set_nth v k (y + x)). split; [reflexivity|]. split; [apply set_nth_length|]. intros i j. apply dense_set; assumption.
  - apply nth_error_None in E. lia.
Qed.
Theorem add_diagonals_ok : forall n pattern lam m v, (2 * m <= n)%nat -> length pattern = length v -> (forall k, (k < n)%nat -> In (k, k) pattern) ->
  exists w, add_diagonals m (diagonal_indices n pattern) lam v = Ok w /\ length w = length v
  /\ forall i j, dense pattern w i j = dense pattern v i j + if Nat.eqb i j then if Nat.ltb i (2 * m) then 2 * lam (Nat.div i 2) else 0 else 0.
Proof.
  intros n pattern lam m v. induction m as [|m IH]; intros Hm L D.
  - exists v. split; [reflexivity|]. split; [reflexivity|]. intros i j. destruct (Nat.ltb_spec i (2 * 0)); [lia|]. destruct (Nat.eqb i j); ring.
  - destruct (IH ltac:(lia) L D) as (w & E & Lw & F). cbn [add_diagonals]. rewrite E. cbn [obind].
    destruct (add_nth_ok pattern w (nth (2 * m + 0) (diagonal_indices n pattern) 0%nat) (2 * lam m) (2 * m + 0)%nat (2 * m + 0)%nat) as (w1 & E1 & L1 & F1); [lia|apply diagonal_indices_ok; [lia|apply D; lia]|].
    rewrite E1. cbn [obind].
    destruct (add_nth_ok pattern w1 (nth (2 * m + 1) (diagonal_indices n pattern) 0%nat) (2 * lam m) (2 * m + 1)%nat (2 * m + 1)%nat) as (w2 & E2 & L2 & F2); [lia|apply diagonal_indices_ok; [lia|apply D; lia]|].
    exists w2. split; [exact E2|]. split; [lia|]. intros i j. rewrite F2, F1, F.
    destruct (Nat.eqb_spec i j) as [->|N].
    + destruct (Nat.eqb_spec (2 * m + 0) j) as [Ea|Na], (Nat.eqb_spec (2 * m + 1) j) as [Eb|Nb]; try lia.
      * destruct (Nat.ltb_spec j (2 * m)), (Nat.ltb_spec j (2 * S m)); try lia. replace (Nat.div j 2) with m; [ring|]. subst j. rewrite Nat.add_0_r, Nat.mul_comm, Nat.div_mul by lia. reflexivity.
      * destruct (Nat.ltb_spec j (2 * m)), (Nat.ltb_spec j (2 * S m)); try lia. replace (Nat.div j 2) with m; [ring|]. subst j. rewrite Nat.mul_comm, Nat.div_add_l by lia. cbn [Nat.div Nat.divmod fst]. lia.
      * destruct (Nat.ltb_spec j (2 * m)), (Nat.ltb_spec j (2 * S m)); try lia; ring.
    + destruct (Nat.eqb_spec (2 * m + 0) i), (Nat.eqb_spec (2 * m + 0) j), (Nat.eqb_spec (2 * m + 1) i), (Nat.eqb_spec (2 * m + 1) j); try lia; ring.
Qed.

(* ---------- the discs ---------- *)
Lemma dense_jac : forall n x i j, dense (map (fun k => (Nat.div k 2, k)) (seq 0 n)) (map (fun k => 2 * x k) (seq 0 n)) i j = if Nat.ltb j n then if Nat.eqb (Nat.div j 2) i then 2 * x j else 0 else 0.
Proof.
  intros n x i j. induction n as [|n IH]; [reflexivity|]. rewrite seq_S, !map_app, dense_app by (rewrite !map_length; reflexivity). rewrite IH. cbn [map dense Nat.add].
  destruct (Nat.eqb_spec n j) as [->|N].
  - rewrite Nat.ltb_irrefl, (proj2 (Nat.ltb_lt j (S j))) by lia. destruct (Nat.eqb (Nat.div j 2) i); ring.
  - destruct (Nat.ltb_spec j n), (Nat.ltb_spec j (S n)); try lia; destruct (Nat.eqb (Nat.div n 2) i); ring.
Qed.
Lemma half_even : forall n, Nat.even n = true -> (2 * Nat.div n 2 = n)%nat.
Proof. intros n E. apply Nat.even_spec in E. destruct E as [k ->]. rewrite (Nat.mul_comm 2 k), Nat.div_mul by lia. lia. Qed.
Lemma half_lt : forall n j, Nat.even n = true -> (j < n)%nat -> (Nat.div j 2 < Nat.div n 2)%nat.
Proof. intros n j E H. pose proof (half_even n E). pose proof (Nat.div_mod j 2 ltac:(lia)). lia. Qed.
Section Discs.
  Variables (Q : csc) (A C : dvec).
  Hypotheses (V : valid_csc Q) (Sq : m_rows Q = m_cols Q) (Sy : symmetric (m_cols Q) (coeff Q)) (Ev : Nat.even (m_cols Q) = true)
    (Dg : forall k, (k < m_cols Q)%nat -> exists v, stored Q k k v).
  Let n := m_cols Q.
  Lemma disc_lagrangian : forall beta s lam x j, (j < n)%nat -> lagrangian_gradient (smoothnlp Q A C beta) s lam x j = s * (smv Q x j + A j) + 2 * lam (Nat.div j 2) * x j.
  Proof.
    intros beta s lam x j Hj. unfold lagrangian_gradient. cbn [smoothnlp t_grad t_m t_jac_pattern t_jac_values]. f_equal.
    rewrite (rsum_one _ _ (Nat.div j 2)).
    - rewrite dense_jac, (proj2 (Nat.ltb_lt j (m_cols Q)) Hj), Nat.eqb_refl. ring.
    - apply half_lt; assumption.
    - intros i Hi N. rewrite dense_jac. destruct (Nat.ltb j (m_cols Q)); [|ring]. destruct (Nat.eqb_spec (Nat.div j 2) i); [congruence|ring].
  Qed.
  Theorem smooth_states_derivatives : forall beta, states_derivatives (smoothnlp Q A C beta).
  Proof.
    intros beta. unfold states_derivatives. cbn [smoothnlp t_f t_g t_n t_m t_jac_pattern t_jac_values t_hess_values t_hess_pattern t_nnz_jac t_nnz_hess].
    split; [intros x h; apply objective_slope; assumption|]. split.
    { intros x h i Hi. pose proof (half_even n Ev) as H2. fold n in Hi.
      apply (slope _ (x (2 * i + 0)%nat * x (2 * i + 0)%nat + x (2 * i + 1)%nat * x (2 * i + 1)%nat) _ (h (2 * i + 0)%nat * h (2 * i + 0)%nat + h (2 * i + 1)%nat * h (2 * i + 1)%nat)).
      intros t. fold n. assert (E : rsum n (fun j => dense (map (fun k => (Nat.div k 2, k)) (seq 0 n)) (map (fun k => 2 * x k) (seq 0 n)) i j * h j) = 2 * x (2 * i + 0)%nat * h (2 * i + 0)%nat + 2 * x (2 * i + 1)%nat * h (2 * i + 1)%nat).
      { transitivity (rsum n (fun j => (if Nat.eqb j (2 * i + 0) then 2 * x j * h j else 0) + (if Nat.eqb j (2 * i + 1) then 2 * x j * h j else 0))).
        - apply rsum_same. intros j Hj. rewrite dense_jac, (proj2 (Nat.ltb_lt j n) Hj). pose proof (Nat.div_mod j 2 ltac:(lia)). pose proof (Nat.mod_upper_bound j 2 ltac:(lia)).
          destruct (Nat.eqb_spec (Nat.div j 2) i), (Nat.eqb_spec j (2 * i + 0)), (Nat.eqb_spec j (2 * i + 1)); try lia; ring.
        - rewrite rsum_plus. rewrite (rsum_one n _ (2 * i + 0)%nat), (rsum_one n _ (2 * i + 1)%nat); rewrite ?Nat.eqb_refl; try reflexivity; try lia.
          + intros k _ N. destruct (Nat.eqb_spec k (2 * i + 1)); [lia|reflexivity].
          + intros k _ N. destruct (Nat.eqb_spec k (2 * i + 0)); [lia|reflexivity]. }
      rewrite E. unfold along. ring. }
    split.
    { intros x s lam. pose proof (half_even n Ev) as H2. fold n.
      destruct (add_diagonals_ok n (sparsityPatternLowerTriangular Q) lam (Nat.div n 2) (map (fun v => v * s) (valuesLowerTriangular Q))) as (w & E & Lw & F).
      - lia.
      - rewrite map_length, values_length, nz_is. reflexivity.
      - intros k Hk. rewrite pattern_is, upto_in. split; [unfold n in Hk; lia|]. destruct (Dg k Hk) as [v S]. exists v. apply stored_column. exact S.
      - exists w. split; [exact E|]. split; [rewrite Lw, map_length; apply values_length|]. intros h j Hj.
        apply (slope _ (s * (smv Q x j + A j) + 2 * lam (Nat.div j 2) * x j) _ 0). intros t. rewrite disc_lagrangian by exact Hj.
        unfold smv. rewrite mv_along. fold n.
        replace (rsum n (fun k => from_lower (dense (sparsityPatternLowerTriangular Q) w) j k * h k)) with (s * mv n (coeff Q) h j + 2 * lam (Nat.div j 2) * h j); [unfold along; ring|].
        transitivity (rsum n (fun k => s * (coeff Q j k * h k) + if Nat.eqb j k then 2 * lam (Nat.div k 2) * h k else 0)).
        + rewrite rsum_plus, rsum_scale. f_equal. rewrite (rsum_one n _ j); [rewrite Nat.eqb_refl; reflexivity|exact Hj|]. intros k _ N. destruct (Nat.eqb_spec j k); [congruence|reflexivity].
        + apply rsum_same. intros k Hk. assert (G : from_lower (dense (sparsityPatternLowerTriangular Q) w) j k = s * from_lower (dense (sparsityPatternLowerTriangular Q) (valuesLowerTriangular Q)) j k + if Nat.eqb j k then 2 * lam (Nat.div k 2) else 0).
          { unfold from_lower. rewrite !F, !dense_scaled. rewrite (Nat.eqb_sym k j). destruct (Nat.eqb_spec j k) as [->|N].
            - rewrite Nat.leb_refl, H2, (proj2 (Nat.ltb_lt k n) Hk). reflexivity.
            - destruct (Nat.leb k j); reflexivity. }
          rewrite G, (lower_full Q V Sq Sy j k Hj Hk). destruct (Nat.eqb j k); ring. }
    split; [rewrite map_length, seq_length; reflexivity|]. split; [intros x; rewrite map_length, seq_length; reflexivity|].
    split. { intros r c H. apply in_map_iff in H. destruct H as (k & E & I). apply in_seq in I. assert (k = c) by congruence. assert (Nat.div k 2 = r) by congruence. subst r c. split; [apply half_lt; [exact Ev|lia]|lia]. }
    split. { apply Injective_map_NoDup; [|apply seq_NoDup]. intros a b E. congruence. }
    split; [symmetry; apply nz_is|]. split; [apply pattern_in_range; assumption|apply pattern_nodup; assumption].
  Qed.
End Discs.
