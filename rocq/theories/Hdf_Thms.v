From Coq Require Import String Ascii List Bool Arith ZArith Lia.
Import ListNotations.
From Verif Require Import Outcome Hdf_Model Hdf_Spec Hdf_Proofs.
Local Open Scope string_scope. Local Open Scope list_scope.

Section T.
Context {A : Type}.
Implicit Types (h : h5 A).

(* -- storage orders -- *)
Lemma grid_length {B} (f : nat -> nat -> B) r c s :
  List.length (flat_map (fun i => map (f i) (seq 0 c)) (seq s r)) = r * c.
Proof.
  revert s; induction r as [|r IH]; intros s; cbn; [reflexivity|].
  rewrite app_length, map_length, seq_length, IH. reflexivity.
Qed.
Lemma grid_nth {B} (f : nat -> nat -> B) r c s i j :
  i < r -> j < c -> nth_error (flat_map (fun i => map (f i) (seq 0 c)) (seq s r)) (i * c + j) = Some (f (s + i) j).
Proof.
  revert s i; induction r as [|r IH]; intros s i Hi Hj; [lia|]. cbn [seq flat_map].
  destruct i as [|i].
  - cbn [Nat.mul Nat.add]. rewrite nth_error_app1 by (rewrite map_length, seq_length; exact Hj).
    rewrite nth_error_map. rewrite (nth_error_nth' _ 0) by (rewrite seq_length; exact Hj). rewrite seq_nth by exact Hj. cbn. do 2 f_equal. lia.
  - rewrite nth_error_app2; rewrite map_length, seq_length; [|nia].
    replace (S i * c + j - c) with (i * c + j) by (cbn; lia). rewrite IH by lia. f_equal. f_equal. lia.
Qed.
Lemma nth_nth_error {B} (l : list B) k d : k < List.length l -> nth_error l k = Some (nth k l d).
Proof. intros H. apply nth_error_nth'. exact H. Qed.

Definition to_file (m : emat A) : list (elem A) :=
  if em_row_major m then em_data m else row_major_copy (em_rows m) (em_cols m) (em_data m).
Lemma to_file_length m : well_formed m -> List.length (to_file m) = em_rows m * em_cols m.
Proof. intros W. unfold to_file. destruct (em_row_major m); [exact W|]. unfold row_major_copy. apply grid_length. Qed.
Lemma to_file_entry m i j : well_formed m -> i < em_rows m -> j < em_cols m ->
  nth_error (to_file m) (i * em_cols m + j) = entry m i j.
Proof.
  intros W Hi Hj. unfold entry. apply Nat.ltb_lt in Hi as Hi'. apply Nat.ltb_lt in Hj as Hj'. rewrite Hi', Hj'. cbn.
  unfold to_file. destruct (em_row_major m); [reflexivity|]. unfold row_major_copy. rewrite grid_nth by assumption.
  cbn. symmetry. apply nth_nth_error. rewrite W. nia.
Qed.
Definition from_file (rm : bool) (r c : nat) (d : list (elem A)) : emat A :=
  mkMat rm r c (if rm then d else col_major_copy r c d).
Lemma from_file_entry rm r c d i j : List.length d = r * c -> i < r -> j < c ->
  entry (from_file rm r c d) i j = nth_error d (i * c + j).
Proof.
  intros L Hi Hj. unfold entry, from_file; cbn [em_row_major em_rows em_cols em_data]. apply Nat.ltb_lt in Hi as Hi'. apply Nat.ltb_lt in Hj as Hj'. rewrite Hi', Hj'. cbn.
  destruct rm; [reflexivity|]. unfold col_major_copy. rewrite grid_nth by assumption. cbn. symmetry. apply nth_nth_error. rewrite L. nia.
Qed.
Lemma round m rm : well_formed m -> same_table m (from_file rm (em_rows m) (em_cols m) (to_file m)).
Proof.
  intros W. repeat split. intros i j.
  destruct (lt_dec i (em_rows m)) as [Hi|Hi]; [destruct (lt_dec j (em_cols m)) as [Hj|Hj]|].
  - rewrite from_file_entry; auto; [|apply to_file_length; exact W]. apply to_file_entry; auto.
  - unfold entry, from_file. cbn [em_row_major em_rows em_cols em_data]. apply Nat.ltb_nlt in Hj. rewrite Hj, !andb_false_r. reflexivity.
  - unfold entry, from_file. cbn [em_row_major em_rows em_cols em_data]. apply Nat.ltb_nlt in Hi. rewrite Hi. reflexivity.
Qed.

(* -- groups -- *)
Lemma open_group_inv path h h' q :
  open_group path h = (h', Ok q) -> q = path /\ h_root h' = h_root h /\ h_mode h' = h_mode h /\ h_mode h <> Closed /\ group_there (h_root h) path /\ (quiet h -> h' = h).
Proof.
  unfold open_group. intros H. apply bind_inv in H. destruct H as (h1 & u & H1 & H). apply call_ok_inv in H1. destruct H1 as (M & R & Q).
  unfold bind, get_mode, get_root, ret, throw in H.
  destruct (h_mode h1) eqn:E; [inversion H| |]; destruct (find (h_root h1) path) as [[kids|p]|] eqn:F; inversion H; subst;
    rewrite R in F; (split; [reflexivity|split; [exact R|split; [congruence|split; [congruence|split; [exists kids; exact F|exact Q]]]]]).
Qed.
Lemma open_group_quiet path h : quiet h -> h_mode h <> Closed -> group_there (h_root h) path -> open_group path h = (h, Ok path).
Proof.
  intros Q M (kids & F). unfold open_group, bind. rewrite call_ok_quiet by exact Q. unfold get_mode, get_root. rewrite F.
  destruct (h_mode h); [congruence| |]; reflexivity.
Qed.
Lemma create_group_inv path h h' q :
  create_group path h = (h', Ok q) -> q = path /\ h_mode h = ReadWrite /\ h_mode h' = ReadWrite /\ add (h_root h) path (Group []) = Some (h_root h') /\ (quiet h -> quiet h').
Proof.
  unfold create_group. intros H. apply bind_inv in H. destruct H as (h1 & u & H1 & H). apply call_ok_inv in H1. destruct H1 as (M & R & Q).
  unfold bind, get_mode, get_root, set_root, ret, throw in H.
  destruct (h_mode h1) eqn:E; try (inversion H; fail). destruct (add (h_root h1) path (Group [])) as [r'|] eqn:F; inversion H; subst.
  rewrite R in F. cbn. repeat split; auto; try congruence. intros Hq. rewrite (Q Hq). exact Hq.
Qed.
Lemma create_group_quiet path h r' : quiet h -> h_mode h = ReadWrite -> add (h_root h) path (Group []) = Some r' ->
  create_group path h = (mkH5 ReadWrite r' [], Ok path).
Proof.
  intros Q M F. unfold create_group, bind. rewrite call_ok_quiet by exact Q. unfold get_mode, get_root, set_root, ret. rewrite M, F, Q, M. reflexivity.
Qed.
Lemma findOrCreate_inv g h h' q :
  findOrCreateGroup g h = (h', Ok q) ->
  q = components g /\ h_mode h' = h_mode h /\ h_mode h <> Closed /\ (quiet h -> quiet h') /\
  ((group_there (h_root h) q /\ h_root h' = h_root h) \/ (h_mode h = ReadWrite /\ add (h_root h) q (Group []) = Some (h_root h'))).
Proof.
  unfold findOrCreateGroup. destruct (String.eqb g "") eqn:E.
  - apply String.eqb_eq in E; subst g. intros H. apply open_group_inv in H. destruct H as (-> & R & M & N & G & Q).
    repeat split; auto. intros Hq. rewrite (Q Hq). exact Hq.
  - unfold bind at 1, get_mode at 1. unfold bind at 1, get_root at 1.
    destruct (h_mode h) eqn:Em; destruct (lexists (h_root h) (components g)) as [[|]|]; intros H;
      first [apply open_group_inv in H; destruct H as (-> & R & M & N & G & Q);
               (split; [reflexivity|split; [congruence|split; [congruence|split; [intros Hq; rewrite (Q Hq); exact Hq|left; split; [exact G|exact R]]]]])
            |apply create_group_inv in H; destruct H as (-> & M & M' & G & Q);
               (split; [reflexivity|split; [congruence|split; [congruence|split; [exact Q|right; split; [congruence|exact G]]]]])].
Qed.

(* -- writing -- *)
Lemma write_matrix_stored full t m h h' :
  write_matrix full t m h = (h', Ok tt) ->
  find (h_root h') (components full) = Some (Data (PMatrix t (em_rows m) (em_cols m) (to_file m))) /\ h_mode h' = h_mode h /\ h_mode h = ReadWrite /\ (quiet h -> quiet h').
Proof.
  unfold write_matrix. destruct (splitFullName full) as [g x] eqn:S. apply split_components in S.
  intros H. apply bind_inv in H. destruct H as (h1 & u & H1 & H). apply call_ok_inv in H1. destruct H1 as (M1 & R1 & Q1).
  apply bind_inv in H. destruct H as (h2 & grp & H2 & H). apply findOrCreate_inv in H2. destruct H2 as (-> & M2 & _ & Q2 & _).
  apply bind_inv in H. destruct H as (h3 & d & H3 & H). apply create_data_inv in H3. destruct H3 as (X & -> & M3 & M3' & Q3 & Ad).
  apply write_data_root in H. destruct H as (w & R4 & M4 & W & Q4). specialize (W eq_refl). subst w.
  rewrite S, X, R4. split; [|split; [congruence|split; [congruence|]]].
  - eapply find_fill_same. eapply find_add_same. exact Ad.
  - intros Q. apply Q4, Q3, Q2. rewrite (Q1 Q). exact Q.
Qed.
Lemma write_text_stored full s h h' :
  write_text full s h = (h', Ok tt) -> find (h_root h') (components full) = Some (Data (PText (c_string s))).
Proof.
  unfold write_text. destruct (splitFullName full) as [g x] eqn:S. apply split_components in S.
  intros H. apply bind_inv in H. destruct H as (h1 & u & H1 & H).
  apply bind_inv in H. destruct H as (h2 & grp & H2 & H). apply findOrCreate_inv in H2. destruct H2 as (-> & M2 & _ & Q2 & _).
  apply bind_inv in H. destruct H as (h3 & d & H3 & H). apply create_data_inv in H3. destruct H3 as (X & -> & M3 & M3' & Q3 & Ad).
  apply write_data_root in H. destruct H as (w & R4 & M4 & W & Q4). specialize (W eq_refl). subst w.
  rewrite S, X, R4. eapply find_fill_same. eapply find_add_same. exact Ad.
Qed.

(* -- reading -- *)
Lemma to_int_sized n : int_sized n -> to_int n = Z.of_nat n.
Proof.
  unfold int_sized, to_int. intros H. cbv zeta. rewrite Z.mod_small by lia. destruct (2147483648 <=? Z.of_nat n)%Z eqn:E; [|reflexivity].
  apply Z.leb_le in E. lia.
Qed.
Lemma scalar_eqb_eq a b : scalar_eqb a b = true <-> a = b.
Proof. destruct a, b; cbn; split; congruence. Qed.

Lemma find_data_group root (p : list string) c v : @find A root (p ++ [c]) = Some (Data v) -> group_there root p.
Proof. rewrite find_app. destruct (find root p) as [[kids|d]|] eqn:E; try discriminate. intros _. exists kids. exact E. Qed.

Lemma findGroup_inv g h h' q : findGroup g h = (h', Ok q) ->
  q = components g /\ h_root h' = h_root h /\ h_mode h' = h_mode h /\ h_mode h <> Closed /\ group_there (h_root h) q /\ (quiet h -> h' = h).
Proof.
  unfold findGroup. destruct (String.eqb g "") eqn:E.
  - apply String.eqb_eq in E; subst g. intros H. apply open_group_inv in H. destruct H as (-> & H). split; [reflexivity|exact H].
  - intros H. apply open_group_inv in H. destruct H as (-> & H). split; [reflexivity|exact H].
Qed.
Lemma findGroup_quiet g h : quiet h -> h_mode h <> Closed -> group_there (h_root h) (components g) -> findGroup g h = (h, Ok (components g)).
Proof.
  intros Q M G. unfold findGroup. destruct (String.eqb g "") eqn:E.
  - apply String.eqb_eq in E; subst g. apply open_group_quiet; assumption.
  - apply open_group_quiet; assumption.
Qed.

(* a read that returns, returns what is stored *)
Lemma read_inv full ty h h' m' :
  read_matrix full ty h = (h', Ok m') ->
  exists rows cols data,
    find (h_root h) (components full) = Some (Data (PMatrix (et_scalar ty) rows cols data)) /\ et_scalar ty <> SLong /\
    em_row_major m' = et_row_major ty /\
    (0 <= to_int rows)%Z /\ (0 <= to_int cols)%Z /\ fixed_ok (et_rows ty) (to_int rows) = true /\ fixed_ok (et_cols ty) (to_int cols) = true /\
    (Z.of_nat (List.length data) <= to_int rows * to_int cols)%Z /\
    m' = from_file (et_row_major ty) (Z.to_nat (to_int rows)) (Z.to_nat (to_int cols)) data.
Proof.
  unfold read_matrix. destruct (splitFullName full) as [g x] eqn:S. apply split_components in S.
  intros H. apply bind_inv in H. destruct H as (h1 & grp & H1 & H). apply findGroup_inv in H1. destruct H1 as (-> & R1 & _).
  apply bind_inv in H. destruct H as (h2 & u & H2 & H). apply call_ok_inv in H2. destruct H2 as (_ & R2 & _).
  unfold bind at 1, get_root in H. rewrite R2, R1 in H.
  destruct (says x) eqn:X; [|inversion H]. rewrite <- S in H.
  destruct (find (h_root h) (components full)) as [[kids|[t rows cols data|fs rs|s]]|]; try (inversion H; fail).
  destruct (match getNativeType t with Some t' => scalar_eqb t' (et_scalar ty) | None => false end) eqn:T; [|inversion H].
  assert (Ht : t = et_scalar ty /\ t <> SLong).
  { destruct t; cbn [getNativeType] in T; try discriminate; apply scalar_eqb_eq in T; split; congruence. }
  destruct Ht as [-> Hl].
  cbv zeta in H.
  destruct ((to_int rows <? 0)%Z || (to_int cols <? 0)%Z) eqn:N; [inversion H|]. apply orb_false_iff in N. destruct N as [N1 N2].
  apply Z.ltb_ge in N1. apply Z.ltb_ge in N2.
  destruct (fixed_ok (et_rows ty) (to_int rows)) eqn:F1; [|inversion H]. destruct (fixed_ok (et_cols ty) (to_int cols)) eqn:F2; [|inversion H].
  cbn [negb] in H. destruct (Z.of_nat (List.length data) <=? to_int rows * to_int cols)%Z eqn:L; [|inversion H].
  cbn [negb] in H. apply bind_inv in H. destruct H as (h3 & u3 & _ & H). inversion H; subst. apply Z.leb_le in L.
  exists rows, cols, data. repeat split; auto.
Qed.
(* an ordinary read works *)
Lemma read_quiet full ty h rows cols data :
  quiet h -> h_mode h <> Closed -> says (snd (splitFullName full)) = true ->
  find (h_root h) (components full) = Some (Data (PMatrix (et_scalar ty) rows cols data)) -> List.length data = rows * cols ->
  et_scalar ty <> SLong -> int_sized rows -> int_sized cols ->
  (et_rows ty = None \/ et_rows ty = Some rows) -> (et_cols ty = None \/ et_cols ty = Some cols) ->
  read_matrix full ty h = (h, Ok (from_file (et_row_major ty) rows cols data)).
Proof.
  intros Q M X F L Hl Hr Hc Fr Fc. unfold read_matrix. destruct (splitFullName full) as [g x] eqn:S. apply split_components in S. cbn in X.
  rewrite X in S. unfold bind at 1. rewrite findGroup_quiet; auto; [|rewrite S in F; exact (find_data_group _ _ _ _ F)].
  unfold bind at 1. rewrite call_ok_quiet by exact Q. unfold bind at 1, get_root. rewrite X, <- S, F.
  assert (T : match getNativeType (et_scalar ty) with Some t' => scalar_eqb t' (et_scalar ty) | None => false end = true).
  { destruct (et_scalar ty); try reflexivity. congruence. }
  rewrite T. cbv zeta. rewrite !to_int_sized by assumption.
  assert (E1 : ((Z.of_nat rows <? 0)%Z || (Z.of_nat cols <? 0)%Z) = false) by (apply orb_false_iff; split; apply Z.ltb_ge; lia).
  rewrite E1.
  assert (E2 : fixed_ok (et_rows ty) (Z.of_nat rows) = true) by (destruct Fr as [-> | ->]; cbn; auto; apply Z.eqb_refl).
  assert (E3 : fixed_ok (et_cols ty) (Z.of_nat cols) = true) by (destruct Fc as [-> | ->]; cbn; auto; apply Z.eqb_refl).
  rewrite E2, E3. cbn [negb].
  assert (E4 : (Z.of_nat (List.length data) <=? Z.of_nat rows * Z.of_nat cols)%Z = true) by (apply Z.leb_le; rewrite L; lia).
  rewrite E4. cbn [negb]. unfold bind. rewrite call_ok_quiet by exact Q. unfold ret. rewrite !Nat2Z.id. reflexivity.
Qed.

(* the name of a data set is never empty *)
Lemma written_says full t m h h' : write_matrix full t m h = (h', Ok tt) -> says (snd (splitFullName full)) = true.
Proof.
  unfold write_matrix. destruct (splitFullName full) as [g x]. intros H.
  apply bind_inv in H. destruct H as (h1 & u & H1 & H). apply bind_inv in H. destruct H as (h2 & grp & H2 & H).
  apply bind_inv in H. destruct H as (h3 & d & H3 & H). apply create_data_inv in H3. destruct H3 as (X & _). exact X.
Qed.

Theorem read_back full t m h h1 ops ty :
  well_formed m -> int_sized (em_rows m) -> int_sized (em_cols m) -> t <> SLong ->
  write_matrix full t m h = (h1, Ok tt) -> fits ty t (em_rows m) (em_cols m) ->
  let h2 := run ops h1 in
  (forall h3 m', read_matrix full ty h2 = (h3, Ok m') -> same_table m m' /\ em_row_major m' = et_row_major ty) /\
  (quiet h2 -> h_mode h2 <> Closed -> exists m', read_matrix full ty h2 = (h2, Ok m')).
Proof.
  intros W Hr Hc Hl Hw (Ft & Fr & Fc) h2.
  pose proof (written_says _ _ _ _ _ Hw) as X.
  destruct (write_matrix_stored _ _ _ _ _ Hw) as (F & _). apply (run_keeps ops) in F. fold h2 in F. split.
  - intros h3 m' H. apply read_inv in H. destruct H as (rows & cols & data & F' & _ & RM & _ & _ & _ & _ & _ & ->).
    rewrite F in F'. inversion F' as [[E1 E2 E3 E4]]. subst rows cols data. split; [|reflexivity].
    rewrite !to_int_sized by assumption. rewrite !Nat2Z.id. apply round. exact W.
  - intros Q M. eexists. apply read_quiet with (rows := em_rows m) (cols := em_cols m) (data := to_file m); auto.
    + rewrite F. rewrite Ft. reflexivity.
    + apply to_file_length; exact W.
    + congruence.
Qed.

Lemma open_group_defined p h h' : open_group p h <> (h', UB).
Proof.
  unfold open_group, bind, get_mode, get_root, ret, throw.
  destruct (call_ok_cases h) as (cs & Ec & Co). destruct (call_ok h) as [hc oc]. cbn in Ec, Co. subst hc.
  destruct Co as [-> | ->]; cbn [h_mode h_root]; [|intros K; inversion K].
  destruct (h_mode h); destruct (find (h_root h) p) as [[]|]; intros K; inversion K.
Qed.
Lemma findGroup_defined g h h' : findGroup g h <> (h', UB).
Proof. unfold findGroup. destruct (String.eqb g ""); apply open_group_defined. Qed.
(* a read is undefined only for sizes beyond an int *)
Lemma read_undefined full ty h h' rows cols data t :
  find (h_root h) (components full) = Some (Data (PMatrix t rows cols data)) -> List.length data = rows * cols ->
  read_matrix full ty h = (h', UB) -> ~ int_sized rows \/ ~ int_sized cols.
Proof.
  intros F L H. destruct (Z_lt_dec (Z.of_nat rows) 2147483648) as [Hr|Hr]; [|left; exact Hr].
  destruct (Z_lt_dec (Z.of_nat cols) 2147483648) as [Hc|Hc]; [|right; exact Hc]. exfalso.
  revert H. unfold read_matrix. destruct (splitFullName full) as [g x] eqn:S. apply split_components in S.
  unfold bind at 1. destruct (findGroup g h) as [h1 [grp| |]] eqn:E1; try discriminate.
  2: { exfalso. exact (findGroup_defined _ _ _ E1). }
  apply findGroup_inv in E1. destruct E1 as (-> & R1 & _).
  unfold bind at 1. destruct (call_ok_cases h1) as (cs & Ec & Co). destruct (call_ok h1) as [hc oc]. cbn in Ec, Co. subst hc.
  destruct Co as [-> | ->]; [|discriminate]. unfold bind at 1, get_root. cbn [h_root]. rewrite R1.
  destruct (says x) eqn:X; [|discriminate]. rewrite <- S, F.
  destruct (match getNativeType t with Some t' => scalar_eqb t' (et_scalar ty) | None => false end); [|discriminate].
  cbv zeta. rewrite !to_int_sized by assumption.
  destruct (_ || _); [discriminate|]. destruct (fixed_ok _ _); [|discriminate]. destruct (fixed_ok _ _); [|discriminate]. cbn [negb].
  assert (E4 : (Z.of_nat (List.length data) <=? Z.of_nat rows * Z.of_nat cols)%Z = true) by (apply Z.leb_le; rewrite L; lia).
  rewrite E4. cbn [negb]. unfold bind. set (hh := mkH5 _ _ _). destruct (call_ok_cases hh) as (cs2 & Ec & Co). destruct (call_ok hh) as [hc oc]. cbn in Ec, Co.
  destruct Co as [-> | ->]; discriminate.
Qed.

(* -- when a write works -- *)
Definition group_ready (root : node A) (path : list string) : Prop :=
  group_there root path \/ (path <> [] /\ group_there root (removelast path) /\ find root path = None).
Lemma lexists_false root (path : list string) :
  @lexists A root path = Some false <-> (path <> [] /\ group_there root (removelast path) /\ find root path = None).
Proof.
  destruct path as [|c r] using rev_ind.
  - cbn. split; [discriminate|intros (? & _); congruence].
  - clear IHr. rewrite removelast_last. unfold lexists.
    assert (E : forall B (a b : B), (match r ++ [c] with [] => a | _ => b end) = b) by (intros; destruct r; reflexivity).
    rewrite E. rewrite removelast_last, last_last. unfold group_there. rewrite find_app. cbn [find].
    destruct (find root r) as [[kids|p]|]; split.
    + intros H. split; [destruct r; discriminate|]. split; [eauto|]. destruct (assoc c kids); [discriminate|reflexivity].
    + intros (_ & _ & H). destruct (assoc c kids); [discriminate|reflexivity].
    + discriminate.
    + intros (_ & (? & ?) & _); discriminate.
    + discriminate.
    + intros (_ & (? & ?) & _); discriminate.
Qed.
Lemma findOrCreate_quiet g h :
  quiet h -> h_mode h = ReadWrite -> group_ready (h_root h) (components g) ->
  exists r', findOrCreateGroup g h = (mkH5 ReadWrite r' [], Ok (components g)) /\ group_there r' (components g) /\
    (forall q, find (h_root h) q = None -> q = components g \/ find r' q = None).
Proof.
  intros Q M G. unfold findOrCreateGroup.
  destruct (String.eqb g "") eqn:E.
  - apply String.eqb_eq in E; subst g. exists (h_root h).
    destruct G as [G|(N & _)]; [|exfalso; apply N; reflexivity]. change (components "") with (@nil string) in *.
    rewrite open_group_quiet; auto; [|congruence]. split; [|auto]. destruct h as [m r c]. cbn in *. unfold quiet in Q; cbn in Q. subst. reflexivity.
  - unfold bind, get_mode, get_root. rewrite M.
    destruct G as [G|G].
    + exists (h_root h). assert (L : lexists (h_root h) (components g) <> Some false).
      { intros L. apply lexists_false in L. destruct L as (_ & _ & L). destruct G as (k & G). congruence. }
      assert (O : open_group (components g) h = (h, Ok (components g))) by (apply open_group_quiet; auto; congruence).
      destruct (lexists (h_root h) (components g)) as [[|]|]; try congruence; rewrite O;
        (split; [|auto]; destruct h as [m r c]; cbn in *; unfold quiet in Q; cbn in Q; subst; reflexivity).
    + apply lexists_false in G as L. rewrite L. destruct G as (N & G & F).
      destruct (components g) as [|c r] using rev_ind; [congruence|]. clear IHr. rewrite removelast_last in G.
      destruct (proj2 (add_exactly (h_root h) r c (Group [])) (conj G F)) as (r' & Ad). exists r'.
      rewrite create_group_quiet with (r' := r'); auto. split; [reflexivity|]. split.
      * exists []. eapply find_add_same; exact Ad.
      * intros q Hq. destruct (list_eq_dec String.string_dec q (r ++ [c])) as [->|Hne]; [left; reflexivity|right].
        destruct (find r' q) as [y|] eqn:Fy; [|reflexivity]. exfalso.
        clear L F. revert Ad Hq Hne Fy. clear. revert r' q. generalize (h_root h). 
        induction r as [|d r IH]; intros n n' q; cbn.
        -- destruct n as [kids|]; [|discriminate]. destruct (assoc c kids) eqn:Ec; [discriminate|]. injection 1 as <-.
           destruct q as [|e q]; cbn; [discriminate|]. rewrite assoc_app. destruct (assoc e kids); [intros -> _; discriminate|].
           intros _ Hne. cbn. destruct (String.eqb e c) eqn:Ee; [|discriminate]. apply String.eqb_eq in Ee; subst e.
           destruct q; [congruence|cbn; discriminate].
        -- destruct n as [kids|]; [|discriminate]. destruct (assoc d kids) as [k|] eqn:Ed.
           ++ destruct (r ++ [c]) as [|x xs] eqn:Ex; [destruct r; discriminate|]. rewrite <- Ex in IH.
              destruct (add k (x :: xs) (Group [])) as [k'|] eqn:Ak; [|discriminate]. rewrite <- Ex in Ak. injection 1 as <-.
              destruct q as [|e q]; cbn; [discriminate|]. rewrite assoc_put. destruct (String.eqb e d) eqn:Ee.
              ** apply String.eqb_eq in Ee; subst e. rewrite Ed. intros Hq Hne Fy. rewrite <- Ex in Hne. eapply IH; eauto. congruence.
              ** destruct (assoc e kids); [intros -> _; discriminate|discriminate].
           ++ destruct (r ++ [c]) as [|x xs] eqn:Ex; [destruct r; discriminate|discriminate].
Qed.
Theorem write_works_exactly full t m h :
  quiet h -> h_mode h = ReadWrite ->
  ((exists h', write_matrix full t m h = (h', Ok tt)) <->
   (says (snd (splitFullName full)) = true /\ group_ready (h_root h) (components (fst (splitFullName full))) /\ nothing_there h full)).
Proof.
  intros Q M. split.
  - intros (h' & H). pose proof (written_says _ _ _ _ _ H) as X. split; [exact X|].
    revert H. unfold nothing_there, write_matrix. destruct (splitFullName full) as [g x] eqn:S. apply split_components in S. cbn [fst snd] in X |- *. rewrite S, X.
    intros H. apply bind_inv in H. destruct H as (h1 & u & H1 & H). apply call_ok_inv in H1. destruct H1 as (_ & _ & Q1). rewrite (Q1 Q) in H.
    apply bind_inv in H. destruct H as (h2 & grp & H2 & H). apply findOrCreate_inv in H2. destruct H2 as (-> & M2 & _ & Q2 & G).
    apply bind_inv in H. destruct H as (h3 & d & H3 & H). apply create_data_inv in H3. destruct H3 as (_ & -> & _ & _ & _ & Ad).
    apply find_add_none in Ad as Fn.
    destruct G as [(G & R)|(_ & Ag)].
    + rewrite R in Fn. split; [left; exact G|exact Fn].
    + apply find_add_none in Ag as Fg. split.
      * right. destruct (components g) as [|c r] using rev_ind; [exfalso; cbn in Ag; destruct (h_root h); discriminate|]. split; [destruct r; discriminate|].
        split; [|exact Fg]. rewrite removelast_last. exact (proj1 (proj1 (add_exactly _ _ _ _) (ex_intro _ _ Ag))).
      * rewrite find_app, Fg. reflexivity.
  - intros (X & G & N). unfold nothing_there, write_matrix in *. destruct (splitFullName full) as [g x] eqn:S. apply split_components in S. cbn [fst snd] in X, G. rewrite X in S. rewrite S in N.
    unfold bind at 1. rewrite call_ok_quiet by exact Q.
    destruct (findOrCreate_quiet g h Q M G) as (r' & E & G' & K). unfold bind at 1. rewrite E.
    unfold bind at 1. unfold create_data. unfold bind at 1. rewrite call_ok_quiet by reflexivity.
    unfold bind at 1, get_mode at 1, bind at 1, get_root at 1. cbn [h_mode h_root]. rewrite X.
    assert (N' : find r' (components g ++ [x]) = None).
    { destruct (K _ N) as [Eq|?]; auto. exfalso. apply (f_equal (@List.length string)) in Eq. rewrite app_length in Eq. cbn in Eq. lia. }
    destruct (proj2 (add_exactly r' (components g) x (Data (blank t (em_rows m) (em_cols m)))) (conj G' N')) as (r2 & Ad).
    rewrite Ad. unfold bind at 1, set_root at 1, ret at 1. cbn [h_mode h_calls].
    rewrite write_data_quiet by reflexivity. eauto.
Qed.

(* a name that is taken is refused, whatever happens, and the file's data sets stay *)
Theorem taken full t m h h' o x :
  find (h_root h) (components full) = Some x -> write_matrix full t m h = (h', o) -> o <> Ok tt.
Proof.
  intros F H ->. revert H. unfold write_matrix. destruct (splitFullName full) as [g y] eqn:S. apply split_components in S.
  intros H. apply bind_inv in H. destruct H as (h1 & u & H1 & H). apply call_ok_inv in H1. destruct H1 as (_ & R1 & _).
  apply bind_inv in H. destruct H as (h2 & grp & H2 & H). apply findOrCreate_inv in H2. destruct H2 as (-> & _ & _ & _ & G).
  apply bind_inv in H. destruct H as (h3 & d & H3 & H). apply create_data_inv in H3. destruct H3 as (X & _ & _ & _ & _ & Ad).
  rewrite X in S. apply find_add_none in Ad. rewrite S in F. rewrite R1 in G.
  destruct G as [(_ & R)|(_ & Ag)].
  - rewrite R in Ad. congruence.
  - destruct (find_add_keep _ _ _ _ _ _ Ag F) as (z & Hz & _). congruence.
Qed.
End T.
