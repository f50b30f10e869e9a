(* What a user of the HDF5 wrapper relies on, in terms of matrices as tables of entries, and of histories of calls. *)
From Coq Require Import String List Bool Arith ZArith.
From Verif Require Import Outcome Hdf_Model.
Import ListNotations.

Section Spec.
Context {A : Type}.
(* the entry in row i and column j of an Eigen matrix of either storage order *)
Definition entry (m : emat A) (i j : nat) : option (elem A) :=
  if (i <? em_rows m) && (j <? em_cols m)
  then nth_error (em_data m) (if em_row_major m then i * em_cols m + j else j * em_rows m + i)
  else None.
Definition well_formed (m : emat A) : Prop := List.length (em_data m) = em_rows m * em_cols m.
Definition same_table (m m' : emat A) : Prop :=
  em_rows m' = em_rows m /\ em_cols m' = em_cols m /\ forall i j, entry m' i j = entry m i j.
(* an Eigen type that can hold a given table: right scalar, and compile time sizes, if any, that agree *)
Definition fits (ty : etype) (t : scalar_type) (rows cols : nat) : Prop :=
  et_scalar ty = t /\ (et_rows ty = None \/ et_rows ty = Some rows) /\ (et_cols ty = None \/ et_cols ty = Some cols).
(* sizes an int can hold *)
Definition int_sized (n : nat) : Prop := (Z.of_nat n < 2147483648)%Z.

(* the data set a file holds under a name *)
Definition stored (h : h5 A) (full : string) : option (payload A) :=
  match find (h_root h) (components full) with Some (Data p) => Some p | _ => None end.
Definition nothing_there (h : h5 A) (full : string) : Prop := find (h_root h) (components full) = None.
Definition group_there (root : node A) (path : list string) : Prop := exists kids, find root path = Some (Group kids).

(* everything else a program may do with the file meanwhile *)
Inductive op :=
| OMatrix (full : string) (t : scalar_type) (m : emat A)
| OScalar (full : string) (t : scalar_type) (x : elem A)
| OText (full : string) (s : string)
| OSparse (full : string) (t : scalar_type) (s : sparse A)
| ORead (full : string) (ty : etype)
| OGroup (group : string)
| OFind (group : string)
| OReopen.
Definition step (o : op) (h : h5 A) : h5 A :=
  match o with
  | OMatrix full t m => fst (write_matrix full t m h)
  | OScalar full t x => fst (write_scalar full t x h)
  | OText full s => fst (write_text full s h)
  | OSparse full t s => fst (write_sparse full t s h)
  | ORead full ty => fst (read_matrix full ty h)
  | OGroup g => fst (findOrCreateGroup g h)
  | OFind g => fst (findGroup g h)
  | OReopen => fst (open_file false (h_root h) (h_calls h))
  end.
Definition run (ops : list op) (h : h5 A) : h5 A := fold_left (fun h o => step o h) ops h.
End Spec.
Arguments op : clear implicits.

Section SparseSpec.
Context {A : Type}.
(* the stored entries of column c of a sparse matrix, compressed or not *)
Definition sp_column (s : sparse A) (c : nat) : list (nat * elem A) :=
  let start := nth c (sp_outer s) 0 in
  let cnt := match sp_counts s with None => nth (S c) (sp_outer s) 0 - start | Some l => nth c l 0 end in
  combine (firstn cnt (skipn start (sp_inner s))) (firstn cnt (skipn start (sp_vals s))).
Definition compressed (s : sparse A) : Prop :=
  sp_counts s = None /\ nth 0 (sp_outer s) 0 = 0 /\
  List.length (sp_inner s) = last (sp_outer s) 0 /\ List.length (sp_vals s) = last (sp_outer s) 0.
(* a reader of the three arrays finds the list l in the file under a name *)
Definition reads_list (h : h5 A) (full : string) (t : scalar_type) (l : list (elem A)) : Prop :=
  exists h' m, read_matrix full (mkType t false None (Some 1)) h = (h', Ok m) /\
    em_cols m = 1 /\ em_rows m = List.length l /\ forall k, entry m k 0 = nth_error l k.
End SparseSpec.
