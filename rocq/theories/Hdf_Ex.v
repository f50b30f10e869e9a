From Coq Require Import String Ascii List Bool Arith ZArith Lia.
Import ListNotations.
From Verif Require Import Outcome Hdf_Model Hdf_Spec Hdf_Proofs Hdf_Thms.
Local Open Scope string_scope. Local Open Scope list_scope.

Section E.
Context {A : Type}.
Implicit Types (h : h5 A).

Lemma column_entry (l : list (elem A)) k : entry (column_vector l) k 0 = nth_error l k.
Proof.
  unfold entry, column_vector. cbn [em_rows em_cols em_row_major em_data]. change (Nat.ltb 0 1) with true. rewrite andb_true_r. cbn [Nat.mul Nat.add].
  destruct (Nat.ltb k (List.length l)) eqn:E; [reflexivity|]. apply Nat.ltb_ge in E. symmetry. apply nth_error_None. exact E.
Qed.
Lemma column_wf (l : list (elem A)) : well_formed (column_vector l).
Proof. unfold well_formed, column_vector. cbn. lia. Qed.
Lemma column_reads full t (l : list (elem A)) h h1 ops :
  int_sized (List.length l) -> t <> SLong -> write_matrix full t (column_vector l) h = (h1, Ok tt) ->
  quiet (run ops h1) -> h_mode (run ops h1) <> Closed -> reads_list (run ops h1) full t l.
Proof.
  intros S T W Q M.
  destruct (read_back full t (column_vector l) h h1 ops (mkType t false None (Some 1)) (column_wf l) S ltac:(unfold int_sized; cbn; lia) T W) as (H1 & H2).
  { repeat split; cbn; auto. }
  destruct (H2 Q M) as (m' & R). exists (run ops h1), m'. split; [exact R|]. destruct (H1 _ _ R) as ((E1 & E2 & E3) & _).
  cbn in E1, E2. split; [exact E2|]. split; [exact E1|]. intros k. rewrite E3. apply column_entry.
Qed.

(* the sparse writer and its five parts *)
Lemma sparse_parts full t s h h' : write_sparse full t s h = (h', Ok tt) ->
  exists h1 h2 h3 h4,
    write_scalar (full ++ "_nrows") SLong (EInt (Z.of_nat (sp_rows s))) h = (h1, Ok tt) /\
    write_scalar (full ++ "_ncols") SLong (EInt (Z.of_nat (pred (List.length (sp_outer s))))) h1 = (h2, Ok tt) /\
    write_matrix (full ++ "_col_ptr") SInt (column_vector (ints (sp_outer s))) h2 = (h3, Ok tt) /\
    write_matrix (full ++ "_row_ind") SInt (column_vector (ints (firstn (sp_nonzeros s) (sp_inner s)))) h3 = (h4, Ok tt) /\
    write_matrix (full ++ "_val") t (column_vector (firstn (sp_nonzeros s) (sp_vals s))) h4 = (h', Ok tt).
Proof.
  unfold write_sparse. intros H.
  apply bind_inv in H. destruct H as (h1 & [] & H1 & H). apply bind_inv in H. destruct H as (h2 & [] & H2 & H).
  apply bind_inv in H. destruct H as (h3 & [] & H3 & H). apply bind_inv in H. destruct H as (h4 & [] & H4 & H).
  exists h1, h2, h3, h4. auto.
Qed.
Lemma sparse_read_back full t (s : sparse A) h h1 ops :
  compressed s -> t <> SLong -> int_sized (List.length (sp_outer s)) -> int_sized (List.length (sp_inner s)) ->
  write_sparse full t s h = (h1, Ok tt) -> quiet (run ops h1) -> h_mode (run ops h1) <> Closed ->
  reads_list (run ops h1) (full ++ "_col_ptr") SInt (ints (sp_outer s)) /\
  reads_list (run ops h1) (full ++ "_row_ind") SInt (ints (sp_inner s)) /\
  reads_list (run ops h1) (full ++ "_val") t (sp_vals s).
Proof.
  intros (C & Z0 & Li & Lv) T So Si W Q M. apply sparse_parts in W. destruct W as (a & b & c & d & Wa & Wb & Wc & Wd & We).
  assert (N : sp_nonzeros s = last (sp_outer s) 0) by (unfold sp_nonzeros; rewrite C, Z0; lia).
  rewrite N, <- Li, firstn_all in Wd. rewrite N, <- Lv, firstn_all in We.
  set (o1 := @OMatrix A (full ++ "_val") t (column_vector (sp_vals s))).
  set (o2 := @OMatrix A (full ++ "_row_ind") SInt (column_vector (ints (sp_inner s)))).
  assert (E1 : h1 = run [o1] d) by (cbn; rewrite We; reflexivity).
  assert (E2 : h1 = run [o2; o1] c) by (cbn; rewrite Wd; cbn; rewrite We; reflexivity).
  assert (R : forall os h, run ops (run os h) = run (os ++ ops) h) by (intros; unfold run; rewrite fold_left_app; reflexivity).
  split; [|split].
  - rewrite E2, R. rewrite E2, R in Q, M. eapply column_reads; eauto; [|discriminate]. unfold ints. rewrite map_length. exact So.
  - rewrite E1, R. rewrite E1, R in Q, M. eapply column_reads; eauto; [|discriminate]. unfold ints. rewrite map_length. exact Si.
  - eapply column_reads; eauto. rewrite Lv, <- Li. exact Si.
Qed.

Lemma long_unreadable full m h h1 ops ty h2 m' :
  write_matrix full SLong m h = (h1, Ok tt) -> read_matrix full ty (run ops h1) <> (h2, Ok m').
Proof.
  intros W R. destruct (write_matrix_stored _ _ _ _ _ W) as (F & _). apply (run_keeps ops) in F.
  apply read_inv in R. destruct R as (r & c & d & F' & N & _). rewrite F in F'. congruence.
Qed.

(* a file that is not open, or open for reading only *)
Lemma closed_throws full t m h h' o : h_mode h = Closed -> write_matrix full t m h = (h', o) -> o <> Ok tt.
Proof. intros C H ->. destruct (write_matrix_stored _ _ _ _ _ H) as (_ & _ & M & _). congruence. Qed.
Lemma readonly_throws full t m h h' o : h_mode h = ReadOnly -> write_matrix full t m h = (h', o) -> o <> Ok tt.
Proof. intros C H ->. destruct (write_matrix_stored _ _ _ _ _ H) as (_ & _ & M & _). congruence. Qed.
Lemma closed_reads_throw full ty h h' m : h_mode h = Closed -> read_matrix full ty h <> (h', Ok m).
Proof.
  intros C. unfold read_matrix. destruct (splitFullName full) as [g x]. intros H. apply bind_inv in H. destruct H as (h1 & grp & H1 & _).
  apply findGroup_inv in H1. destruct H1 as (_ & _ & _ & N & _). congruence.
Qed.

(* a fresh file *)
Definition fresh : h5 A := mkH5 ReadWrite (Group []) [].
Lemma components_fresh (p : list string) : p <> [] -> @find A (Group []) p = None.
Proof. destruct p; [congruence|reflexivity]. Qed.

Lemma nested_throws t m h' : write_matrix "a/b/x" t m fresh <> (h', Ok tt).
Proof.
  intros H. assert (W := proj1 (write_works_exactly "a/b/x" t m fresh eq_refl eq_refl) (ex_intro _ h' H)).
  destruct W as (_ & [[k G]|(_ & [k G] & _)] & _); cbv in G; discriminate.
Qed.
Lemma flat_works t m : exists h', write_matrix "a/x" t m fresh = (h', Ok tt).
Proof.
  apply write_works_exactly; try reflexivity. split; [reflexivity|]. split; [|reflexivity].
  right. split; [discriminate|]. split; [exists []; reflexivity|reflexivity].
Qed.

(* a matrix with 2^32 + 1 rows *)
Definition tall : emat A := mkMat true (Z.to_nat 4294967297) 1 (repeat zero_elem (Z.to_nat 4294967297)).
Lemma tall_rows : em_rows tall = Z.to_nat 4294967297.
Proof. unfold tall. cbn [em_rows]. reflexivity. Qed.
Lemma tall_cols : em_cols tall = 1.
Proof. unfold tall. cbn [em_cols]. reflexivity. Qed.
Lemma tall_wf : well_formed tall.
Proof. unfold well_formed, tall. cbn [em_data em_rows em_cols]. rewrite repeat_length. lia. Qed.
Lemma tall_undefined t h1 : t <> SLong ->
  write_matrix "x" t tall fresh = (h1, Ok tt) -> read_matrix "x" (mkType t true None (Some 1)) h1 = (h1, UB).
Proof.
  intros T W. destruct (write_matrix_stored _ _ _ _ _ W) as (F & M & _ & Q). specialize (Q eq_refl).
  assert (M' : h_mode h1 <> Closed) by (rewrite M; discriminate).
  unfold read_matrix. change (splitFullName "x") with ("", "x").
  unfold bind at 1. rewrite findGroup_quiet; auto.
  2: { change (components "") with (@nil string). destruct (h_root h1) as [k|d] eqn:E.
       - exists k. reflexivity.
       - change (components "x") with ["x"] in F. discriminate. }
  unfold bind at 1. rewrite call_ok_quiet by exact Q. unfold bind at 1, get_root.
  change (says "x") with true. cbv iota. change (components "" ++ ["x"]) with (components "x"). rewrite F.
  assert (N : match getNativeType t with Some t' => scalar_eqb t' (et_scalar (mkType t true None (Some 1))) | None => false end = true) by (destruct t; try reflexivity; congruence).
  rewrite N. cbv zeta. 
  rewrite tall_rows, tall_cols.
  assert (E1 : to_int (Z.to_nat 4294967297) = 1%Z) by (unfold to_int; rewrite Z2Nat.id by lia; reflexivity).
  assert (L : (Z.of_nat (List.length (to_file tall)) <=? 1)%Z = false).
  { rewrite to_file_length by apply tall_wf. rewrite tall_rows, tall_cols, Nat.mul_1_r, Z2Nat.id by lia. reflexivity. }
  rewrite E1. change (to_int 1) with 1%Z. generalize dependent (to_file tall). intros d _ L.
  change (1 * 1)%Z with 1%Z. rewrite L. reflexivity.
Qed.
Lemma tall_written t : exists h1, write_matrix "x" t tall fresh = (h1, Ok tt).
Proof. apply write_works_exactly; try reflexivity. split; [reflexivity|]. split; [left; exists []; reflexivity|reflexivity]. Qed.
End E.
