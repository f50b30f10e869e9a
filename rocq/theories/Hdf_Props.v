(* C65: what is written to an HDF5 file is what is read from it. *)
From Coq Require Import String Ascii List Bool Arith ZArith Lia.
Import ListNotations.
From Verif Require Import Outcome Hdf_Model Hdf_Spec Hdf_Proofs Hdf_Thms Hdf_Ex.
Local Open Scope string_scope. Local Open Scope list_scope.

(* C65: a matrix whose write returned is read back entry for entry, with any Eigen type that fits it, after any further use
   of the file (whatever was written, refused, interrupted by library failures, or reopened in between): the read either
   throws or returns that table; with the file open and the library working, it returns. *)
Theorem C65_read_back {A} (full : string) (t : scalar_type) (m : emat A) (h h1 : h5 A) (ops : list (op A)) (ty : etype) :
  well_formed m -> int_sized (em_rows m) -> int_sized (em_cols m) -> t <> SLong ->
  write_matrix full t m h = (h1, Ok tt) -> fits ty t (em_rows m) (em_cols m) ->
  let h2 := run ops h1 in
  (forall h3 m', read_matrix full ty h2 = (h3, Ok m') -> same_table m m' /\ em_row_major m' = et_row_major ty) /\
  (h_calls h2 = [] -> h_mode h2 <> Closed -> exists m', read_matrix full ty h2 = (h2, Ok m')).
Proof. exact (read_back full t m h h1 ops ty). Qed.
Print Assumptions C65_read_back.

(* single numbers *)
Theorem C65_scalar_read_back {A} (full : string) (t : scalar_type) (x : elem A) (h h1 : h5 A) (ops : list (op A)) :
  t <> SLong -> write_scalar full t x h = (h1, Ok tt) ->
  let h2 := run ops h1 in
  (forall h3 y, read_scalar full t h2 = (h3, Ok y) -> y = x) /\
  (h_calls h2 = [] -> h_mode h2 <> Closed -> read_scalar full t h2 = (h2, Ok x)).
Proof.
  intros T W h2. unfold write_scalar in W.
  destruct (read_back full t (mkMat false 1 1 [x]) h h1 ops (mkType t false (Some 1) (Some 1)) eq_refl) as (H1 & H2); auto;
    try (unfold int_sized; cbn; lia); [repeat split; cbn; auto|]. fold h2 in H1, H2.
  assert (K : forall m', same_table (mkMat false 1 1 [x]) m' /\ em_row_major m' = false -> nth 0 (em_data m') zero_elem = x).
  { intros m' ((E1 & E2 & E3) & E4). cbn in E1, E2. specialize (E3 0 0). unfold entry in E3. rewrite E1, E2, E4 in E3. cbn in E3.
    destruct (em_data m'); cbn in *; congruence. }
  split.
  - intros h3 y H. unfold read_scalar in H. apply bind_inv in H. destruct H as (h4 & m' & R & H). inversion H; subst.
    apply K. exact (H1 _ _ R).
  - intros Q M. destruct (H2 Q M) as (m' & R). unfold read_scalar, bind. rewrite R. unfold ret. rewrite (K m'); [reflexivity|]. exact (H1 _ _ R).
Qed.
Print Assumptions C65_scalar_read_back.

(* text is stored up to its first zero byte *)
Theorem C65_text {A} (full s : string) (h h1 : h5 A) (ops : list (op A)) :
  write_text full s h = (h1, Ok tt) -> stored (run ops h1) full = Some (PText (c_string s)).
Proof. intros W. apply write_text_stored in W. apply (run_keeps ops) in W. unfold stored. rewrite W. reflexivity. Qed.
Print Assumptions C65_text.

(* compressed sparse matrices: their three arrays can be read back *)
Theorem C65_sparse_read_back {A} (full : string) (t : scalar_type) (s : sparse A) (h h1 : h5 A) (ops : list (op A)) :
  compressed s -> t <> SLong -> int_sized (List.length (sp_outer s)) -> int_sized (List.length (sp_inner s)) ->
  write_sparse full t s h = (h1, Ok tt) -> h_calls (run ops h1) = [] -> h_mode (run ops h1) <> Closed ->
  reads_list (run ops h1) (full ++ "_col_ptr") SInt (ints (sp_outer s)) /\
  reads_list (run ops h1) (full ++ "_row_ind") SInt (ints (sp_inner s)) /\
  reads_list (run ops h1) (full ++ "_val") t (sp_vals s).
Proof. exact (sparse_read_back full t s h h1 ops). Qed.
Print Assumptions C65_sparse_read_back.

(* nothing that happens to a file open for writing or reading, library failures included, changes or removes a data set
   that is already there *)
Theorem C65_kept {A} (ops : list (op A)) (h : h5 A) (full : string) (p : payload A) :
  stored h full = Some p -> stored (run ops h) full = Some p.
Proof.
  unfold stored. destruct (find (h_root h) (components full)) as [[k|d]|] eqn:F; try discriminate. intros [= ->].
  rewrite (run_keeps ops _ _ _ F). reflexivity.
Qed.
Print Assumptions C65_kept.

(* a name that is taken, by a data set or a group, is refused *)
Theorem C65_no_overwrite {A} (full : string) (t : scalar_type) (m : emat A) (h h' : h5 A) (o : outcome unit) :
  ~ nothing_there h full -> write_matrix full t m h = (h', o) ->
  o <> Ok tt /\ forall other p, stored h other = Some p -> stored h' other = Some p.
Proof.
  intros N W. split.
  - unfold nothing_there in N. destruct (find (h_root h) (components full)) as [x|] eqn:F; [|congruence]. exact (taken _ _ _ _ _ _ _ F W).
  - intros other p S. pose proof (C65_kept [OMatrix full t m] h other p S) as K. cbn in K. rewrite W in K. exact K.
Qed.
Print Assumptions C65_no_overwrite.

(* exactly which names can be written, with the library working: a proper last component, nothing there yet, and a group
   that exists or whose parent exists *)
Theorem C65_writable_exactly {A} (full : string) (t : scalar_type) (m : emat A) (h : h5 A) :
  h_calls h = [] -> h_mode h = ReadWrite ->
  ((exists h', write_matrix full t m h = (h', Ok tt)) <->
   (let group := components (fst (splitFullName full)) in
    says (snd (splitFullName full)) = true /\ nothing_there h full /\
    (group_there (h_root h) group \/
     (group <> [] /\ group_there (h_root h) (removelast group) /\ find (h_root h) group = None)))).
Proof.
  intros Q M. rewrite (write_works_exactly full t m h Q M). unfold group_ready. cbv zeta. tauto.
Qed.
Print Assumptions C65_writable_exactly.

(* a read that returns found a data set of exactly the scalar type asked for, and of sizes that agree *)
Theorem C65_reads_what_is_there {A} (full : string) (ty : etype) (h h' : h5 A) (m' : emat A) :
  read_matrix full ty h = (h', Ok m') ->
  exists rows cols data, stored h full = Some (PMatrix (et_scalar ty) rows cols data) /\
    (int_sized rows -> int_sized cols ->
     em_rows m' = rows /\ em_cols m' = cols /\ fits ty (et_scalar ty) rows cols /\
     (List.length data = rows * cols ->
      forall i j, i < rows -> j < cols -> entry m' i j = nth_error data (i * cols + j))).
Proof.
  intros H. apply read_inv in H. destruct H as (rows & cols & data & F & _ & _ & _ & _ & F1 & F2 & _ & ->).
  exists rows, cols, data. unfold stored. rewrite F. split; [reflexivity|]. intros Hr Hc. rewrite !to_int_sized in * by assumption. rewrite !Nat2Z.id.
  cbn. repeat split.
  - destruct (et_rows ty) as [r|]; [|auto]. cbn in F1. apply Z.eqb_eq in F1. right. f_equal. lia.
  - destruct (et_cols ty) as [c|]; [|auto]. cbn in F2. apply Z.eqb_eq in F2. right. f_equal. lia.
  - intros L i j Hi Hj. apply from_file_entry; assumption.
Qed.
Print Assumptions C65_reads_what_is_there.

(* opening for writing empties the file; opening for reading does not; a file that could not be opened, or was opened for
   reading, accepts no data, and a file that is not open gives none *)
Theorem C65_open {A} (disk : node A) (calls : list (call A)) (rw : bool) :
  (forall h, open_file rw disk calls = (h, Ok tt) ->
     (rw = true -> h_mode h = ReadWrite /\ forall full, stored h full = None) /\
     (rw = false -> h_mode h = ReadOnly /\ h_root h = disk)) /\
  (forall h, open_file rw disk calls = (h, Exit) -> h_mode h = Closed) /\
  (forall (h h' : h5 A) full t m o, h_mode h <> ReadWrite -> write_matrix full t m h = (h', o) -> o <> Ok tt) /\
  (forall (h h' : h5 A) full ty m, h_mode h = Closed -> read_matrix full ty h <> (h', Ok m)).
Proof.
  repeat split.
  - subst rw. unfold open_file in H. destruct calls as [|[|j] cs]; inversion H; reflexivity.
  - intros full. subst rw. unfold stored. assert (E : h_root h = Group []) by (unfold open_file in H; destruct calls as [|[|j] cs]; inversion H; reflexivity).
    rewrite E. destruct (components full); reflexivity.
  - subst rw. unfold open_file in H. destruct calls as [|[|j] cs]; inversion H; reflexivity.
  - subst rw. unfold open_file in H. destruct calls as [|[|j] cs]; inversion H; reflexivity.
  - intros h H. unfold open_file in H. destruct calls as [|[|j] cs]; destruct rw; inversion H; reflexivity.
  - intros h h' full t m o N W. destruct (h_mode h) eqn:E; [eapply closed_throws; eauto|eapply readonly_throws; eauto|congruence].
  - intros. apply closed_reads_throw. assumption.
Qed.
Print Assumptions C65_open.

(* reading a data set is undefined only when a size does not fit an int *)
Theorem C65_defined {A} (full : string) (ty : etype) (h h' : h5 A) t rows cols data :
  stored h full = Some (PMatrix t rows cols data) -> List.length data = rows * cols ->
  int_sized rows -> int_sized cols -> read_matrix full ty h <> (h', UB).
Proof.
  unfold stored. destruct (find (h_root h) (components full)) as [[k|d]|] eqn:F; try discriminate. intros [= ->] L Hr Hc H.
  destruct (read_undefined _ _ _ _ _ _ _ _ F L H); contradiction.
Qed.
Print Assumptions C65_defined.

(* Not so: that every type that can be written can be read. A matrix of long, and so the sizes of every sparse matrix, is
   never read back, by any type. *)
Theorem C65_long_refuted {A} :
  (exists h1 : h5 A, write_scalar "n" SLong (EInt 7) fresh = (h1, Ok tt)) /\
  (forall full m (h h1 : h5 A) ops ty h2 m', write_matrix full SLong m h = (h1, Ok tt) -> read_matrix full ty (run ops h1) <> (h2, Ok m')).
Proof.
  split; [|intros; eapply long_unreadable; eassumption].
  unfold write_scalar. apply write_works_exactly; try reflexivity. split; [reflexivity|]. split; [left; exists []; reflexivity|reflexivity].
Qed.
Print Assumptions C65_long_refuted.

(* Not so: that the groups of a name are made as needed. Only the last one is. *)
Theorem C65_nested_refuted {A} (t : scalar_type) (m : emat A) :
  (exists h', write_matrix "a/x" t m fresh = (h', Ok tt)) /\ (forall h', write_matrix "a/b/x" t m fresh <> (h', Ok tt)).
Proof. split; [apply flat_works|apply nested_throws]. Qed.
Print Assumptions C65_nested_refuted.

(* Not so: that a sparse matrix in uncompressed mode is saved. Two matrices with different entries leave the same file. *)
Definition gap (v : Z) : sparse Z := mkSparse 2 [0; 2; 4] (Some [1; 1]) [0; 0; 1; 0] [EInt 5; EInt 0; EInt v; EInt 0].
Theorem C65_uncompressed_refuted :
  sp_column (gap 6) 1 <> sp_column (gap 7) 1 /\
  (forall h, write_sparse "M" SDouble (gap 6) h = write_sparse "M" SDouble (gap 7) h) /\
  exists h1, write_sparse "M" SDouble (gap 6) fresh = (h1, Ok tt).
Proof.
  split; [cbv; congruence|]. split; [intros h; reflexivity|].
  eexists. vm_compute. reflexivity.
Qed.
Print Assumptions C65_uncompressed_refuted.

(* Not so: that text is saved whole. *)
Theorem C65_text_refuted {A} :
  let s := String "a" (String zero "b") in
  exists h1 : h5 A, write_text "t" s fresh = (h1, Ok tt) /\ stored h1 "t" = Some (PText "a").
Proof. cbv zeta. eexists. split; vm_compute; reflexivity. Qed.
Print Assumptions C65_text_refuted.

(* Not so: that reading a file one has written is always defined. A matrix with 2^32 + 1 rows is read into room for one. *)
Theorem C65_huge_refuted {A} (t : scalar_type) : t <> SLong ->
  exists (m : emat A) h1, well_formed m /\ write_matrix "x" t m fresh = (h1, Ok tt) /\
    read_matrix "x" (mkType t true None (Some 1)) h1 = (h1, UB).
Proof.
  intros T. destruct (@tall_written A t) as (h1 & W). exists tall, h1. split; [apply tall_wf|]. split; [exact W|]. apply tall_undefined; assumption.
Qed.
Print Assumptions C65_huge_refuted.

(* a 2 x 3 column major matrix in a group, then a refused write, a failing library call, and a reopening: it is read back as a
   row major 2 x Dynamic matrix *)
Definition ex_m : emat Z := mkMat false 2 3 [ENum 1; ENum 4; ENum 2; ENum 5; ENum 3; ENum 6]%Z.
Definition ex_h1 := fst (write_matrix "state/q" SDouble ex_m fresh).
Definition ex_ops : list (op Z) :=
  [OMatrix "state/q" SDouble (mkMat true 1 1 [ENum 9%Z]); OText "git_hash" "abc"; OScalar "state/dt" SDouble (ENum 8%Z); OReopen].
Example ex_written : write_matrix "state/q" SDouble ex_m fresh = (ex_h1, Ok tt) /\ well_formed ex_m.
Proof. split; vm_compute; reflexivity. Qed.
Example ex_read : read_matrix "/state/q" (mkType SDouble true (Some 2) None) (run ex_ops ex_h1) =
  (run ex_ops ex_h1, Ok (mkMat true 2 3 [ENum 1; ENum 2; ENum 3; ENum 4; ENum 5; ENum 6]%Z)).
Proof. vm_compute. reflexivity. Qed.
Example ex_quiet : h_calls (run ex_ops ex_h1) = [] /\ h_mode (run ex_ops ex_h1) = ReadOnly.
Proof. vm_compute. auto. Qed.
(* an H5Dwrite that fails leaves a data set with other contents behind, and the name taken *)
Definition ex_fail : h5 Z := mkH5 ReadWrite (Group []) [CWorks; CWorks; CWorks; CFails (PText "?")].
Example ex_failed : exists h1, write_matrix "q" SDouble ex_m ex_fail = (h1, Exit) /\ h_calls h1 = [] /\
  forall h2, write_matrix "q" SDouble ex_m h1 <> (h2, Ok tt).
Proof.
  eexists. split; [vm_compute; reflexivity|]. split; [reflexivity|]. intros h2 H. vm_compute in H. discriminate.
Qed.
Definition ex_sparse : sparse Z := mkSparse 2 [0; 1; 3] None [1; 0; 1] [ENum 5; ENum 6; ENum 7]%Z.
Example ex_sparse_ok : compressed ex_sparse /\ exists h1, write_sparse "M" SDouble ex_sparse fresh = (h1, Ok tt) /\ h_calls h1 = [] /\ h_mode h1 = ReadWrite.
Proof. split; [repeat split|]. eexists. split; [vm_compute; reflexivity|split; reflexivity]. Qed.
