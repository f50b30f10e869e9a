(* The HDF5 file wrapper, /repo/scisim/HDF5File.h and HDF5File.cpp.
   A file is a tree of named groups and data sets. The HDF5 library itself is modelled by what its documentation says of
   the calls used: H5Lexists, H5Gopen2, H5Gcreate2, H5Dcreate2, H5Dopen2, H5Dwrite, H5Dread; each of these and
   H5Screate_simple may also fail for reasons of its own (full disk, ...), which is decided by a schedule in the state.
   An error thrown as a std::string is the outcome Exit of the action; the state it leaves behind is kept.
   Floating point numbers are of an arbitrary type A: the wrapper only copies them. *)
From Coq Require Import List String Ascii Bool Arith ZArith.
From Verif Require Import Outcome.
Import List ListNotations.
Local Open Scope string_scope. Local Open Scope list_scope.

(* isSupportedEigenType, HDF5File.h:71-108 *)
Inductive scalar_type := SDouble | SFloat | SInt | SUnsigned | SLong.
Definition scalar_eqb (a b : scalar_type) : bool :=
  match a, b with
  | SDouble, SDouble | SFloat, SFloat | SInt, SInt | SUnsigned, SUnsigned | SLong, SLong => true
  | _, _ => false
  end.

Section Hdf.
Context {A : Type}.

(* one stored number *)
Inductive elem := ENum (a : A) | EInt (z : Z).
(* what a data set holds: a rank 2 array in row major order, a rank 1 array of structs (each the values of its members
   in order), or one string *)
Inductive member := MNum (a : A) | MArray (l : list A) | MText (s : string).
Inductive payload :=
| PMatrix (t : scalar_type) (rows cols : nat) (data : list elem)
| PRecords (fields : list string) (recs : list (list member))
| PText (s : string).
Inductive node := Group (kids : list (string * node)) | Data (p : payload).

(* one call of the library: it works, or it fails; a failing H5Dwrite leaves unspecified contents behind *)
Inductive call := CWorks | CFails (left : payload).
(* m_hdf_file_id, HDF5File.h:512: no file, a file opened READ_ONLY, a file opened READ_WRITE *)
Inductive mode := Closed | ReadOnly | ReadWrite.
Record h5 := mkH5 { h_mode : mode; h_root : node; h_calls : list call }.

Definition act (B : Type) := h5 -> h5 * outcome B.
Definition ret {B} (b : B) : act B := fun h => (h, Ok b).
Definition throw {B} : act B := fun h => (h, Exit).
Definition undefined {B} : act B := fun h => (h, UB).
Definition bind {B C} (m : act B) (f : B -> act C) : act C :=
  fun h => match m h with (h', Ok b) => f b h' | (h', Exit) => (h', Exit) | (h', UB) => (h', UB) end.

(* the next library call *)
Definition next_call : act call :=
  fun h => match h_calls h with
           | [] => (h, Ok CWorks)
           | c :: cs => (mkH5 (h_mode h) (h_root h) cs, Ok c)
           end.
Definition call_ok : act unit :=
  bind next_call (fun c => match c with CWorks => ret tt | CFails _ => throw end).
Definition get_root : act node := fun h => (h, Ok (h_root h)).
Definition get_mode : act mode := fun h => (h, Ok (h_mode h)).
Definition set_root (r : node) : act unit := fun h => (mkH5 (h_mode h) r (h_calls h), Ok tt).

(* -- the tree -- *)
Fixpoint assoc (c : string) (kids : list (string * node)) : option node :=
  match kids with
  | [] => None
  | (d, n) :: t => if String.eqb c d then Some n else assoc c t
  end.
Fixpoint find (n : node) (path : list string) : option node :=
  match path with
  | [] => Some n
  | c :: r => match n with
              | Group kids => match assoc c kids with Some k => find k r | None => None end
              | Data _ => None
              end
  end.
Fixpoint put (c : string) (k : node) (kids : list (string * node)) : list (string * node) :=
  match kids with
  | [] => []
  | (d, n) :: t => if String.eqb c d then (d, k) :: t else (d, n) :: put c k t
  end.
(* link a new node; None when the place is taken or its parent is not a group *)
Fixpoint add (n : node) (path : list string) (leaf : node) : option node :=
  match path, n with
  | c :: r, Group kids =>
      match assoc c kids, r with
      | None, [] => Some (Group (kids ++ [(c, leaf)]))
      | Some k, _ :: _ => match add k r leaf with Some k' => Some (Group (put c k' kids)) | None => None end
      | _, _ => None
      end
  | _, _ => None
  end.
(* overwrite the contents of an existing data set *)
Fixpoint fill (n : node) (path : list string) (p : payload) : node :=
  match path, n with
  | [], Data _ => Data p
  | c :: r, Group kids => match assoc c kids with Some k => Group (put c (fill k r p) kids) | None => n end
  | _, _ => n
  end.

(* -- names -- *)
(* the components of an HDF5 path: pieces between slashes, where empty pieces and "." say nothing. (Simplification: the
   library refuses to create "a/." when a is missing, here that creates a.) *)
Fixpoint pieces (s : string) : list string :=
  match s with
  | EmptyString => [EmptyString]
  | String c r => if Ascii.eqb c "/" then EmptyString :: pieces r
                  else match pieces r with [] => [] | p :: ps => String c p :: ps end
  end.
Definition says (p : string) : bool := negb (String.eqb p "" || String.eqb p ".").
Definition components (s : string) : list string := filter says (pieces s).
(* splitFullName, HDF5File.h:496-510 *)
Fixpoint split_last (s : string) : option (string * string) :=
  match s with
  | EmptyString => None
  | String c r => match split_last r with
                  | Some (g, n) => Some (String c g, n)
                  | None => if Ascii.eqb c "/" then Some (EmptyString, r) else None
                  end
  end.
Definition splitFullName (full : string) : string * string :=
  match split_last full with None => (EmptyString, full) | Some p => p end.

(* -- groups -- *)
(* H5Lexists: negative (None) when the way there is not made of groups *)
Definition lexists (root : node) (path : list string) : option bool :=
  match path with
  | [] => Some true
  | _ => match find root (removelast path) with
         | Some (Group kids) => Some (match assoc (last path EmptyString) kids with Some _ => true | None => false end)
         | _ => None
         end
  end.
(* H5Gopen2( m_hdf_file_id, name ): the group is identified by its path *)
Definition open_group (path : list string) : act (list string) :=
  bind call_ok (fun _ => bind get_mode (fun m => bind get_root (fun root =>
    match m, find root path with
    | Closed, _ => throw
    | _, Some (Group _) => ret path
    | _, _ => throw
    end))).
(* H5Gcreate2 *)
Definition create_group (path : list string) : act (list string) :=
  bind call_ok (fun _ => bind get_mode (fun m => bind get_root (fun root =>
    match m, add root path (Group []) with
    | ReadWrite, Some root' => bind (set_root root') (fun _ => ret path)
    | _, _ => throw
    end))).
(* findOrCreateGroup, HDF5File.cpp:119-139 *)
Definition findOrCreateGroup (group : string) : act (list string) :=
  if String.eqb group "" then open_group []
  else bind get_mode (fun m => bind get_root (fun root =>
    match m, lexists root (components group) with
    | Closed, _ => open_group (components group)
    | _, Some false => create_group (components group)
    | _, _ => open_group (components group)
    end)).
(* findGroup, HDF5File.cpp:141-157 *)
Definition findGroup (group : string) : act (list string) :=
  if String.eqb group "" then open_group [] else open_group (components group).

(* -- data sets -- *)
(* H5Dcreate2( grp_id, name, ... ): the new data set holds fill values until it is written *)
Definition create_data (grp : list string) (name : string) (p0 : payload) : act (list string) :=
  bind call_ok (fun _ => bind get_mode (fun m => bind get_root (fun root =>
    if says name then
      match m, add root (grp ++ [name]) (Data p0) with
      | ReadWrite, Some root' => bind (set_root root') (fun _ => ret (grp ++ [name]))
      | _, _ => throw
      end
    else throw))).
(* H5Dwrite to the whole data set, or (p computed from what is there) to a part of it *)
Definition write_data (dset : list string) (p : payload) : act unit :=
  bind next_call (fun c => bind get_root (fun root =>
    match c with
    | CWorks => set_root (fill root dset p)
    | CFails junk => bind (set_root (fill root dset junk)) (fun _ => throw)
    end)).

(* -- Eigen matrices -- *)
(* the storage of an Eigen matrix: row major types keep ( i, j ) at i * cols + j, the others at j * rows + i *)
Record emat := mkMat { em_row_major : bool; em_rows : nat; em_cols : nat; em_data : list elem }.
Definition zero_elem : elem := EInt 0.
(* Matrix<Scalar,Dynamic,Dynamic,RowMajor> = other, and the assignment the other way round *)
Definition row_major_copy (rows cols : nat) (d : list elem) : list elem :=
  flat_map (fun i => map (fun j => nth (j * rows + i) d zero_elem) (seq 0 cols)) (seq 0 rows).
Definition col_major_copy (rows cols : nat) (d : list elem) : list elem :=
  flat_map (fun j => map (fun i => nth (i * cols + j) d zero_elem) (seq 0 rows)) (seq 0 cols).

Definition blank (t : scalar_type) (rows cols : nat) : payload := PMatrix t rows cols (repeat zero_elem (rows * cols)).
(* write( full_name, DenseBase ), HDF5File.h:194-237; lines 148-192 do the same for maps of row major data *)
Definition write_matrix (full : string) (t : scalar_type) (m : emat) : act unit :=
  let (group, name) := splitFullName full in
  bind call_ok (fun _ => (* H5Screate_simple *)
  bind (findOrCreateGroup group) (fun grp =>
  bind (create_data grp name (blank t (em_rows m) (em_cols m))) (fun dset =>
  write_data dset (PMatrix t (em_rows m) (em_cols m)
    (if em_row_major m then em_data m else row_major_copy (em_rows m) (em_cols m) (em_data m)))))).
(* write( full_name, Scalar ), HDF5File.h:139-146: a 1 x 1 matrix *)
Definition write_scalar (full : string) (t : scalar_type) (x : elem) : act unit :=
  write_matrix full t (mkMat false 1 1 [x]).
(* write( full_name, std::string ), HDF5File.cpp:70-117: string_variable.c_str() ends at the first zero byte *)
Fixpoint c_string (s : string) : string :=
  match s with
  | EmptyString => EmptyString
  | String c r => if Ascii.eqb c zero then EmptyString else String c (c_string r)
  end.
Definition write_text (full : string) (s : string) : act unit :=
  let (group, name) := splitFullName full in
  bind call_ok (fun _ => (* H5Screate_simple *)
  bind (findOrCreateGroup group) (fun grp =>
  bind (create_data grp name (PText "")) (fun dset =>
  write_data dset (PText (c_string s))))).

(* the Eigen type asked for: scalar, storage order, sizes fixed at compile time *)
Record etype := mkType { et_scalar : scalar_type; et_row_major : bool; et_rows : option nat; et_cols : option nat }.
(* getNativeType, HDF5File.h:410-436: None is the value -1 *)
Definition getNativeType (t : scalar_type) : option scalar_type :=
  match t with SDouble => Some SDouble | SFloat => Some SFloat | SInt => Some SInt | SUnsigned => Some SUnsigned | SLong => None end.
(* int( dims[i] ), HDF5File.h:464: an unsigned 64 bit integer cut to 32 bits *)
Definition to_int (n : nat) : Z :=
  let w := (Z.of_nat n mod 4294967296)%Z in if (2147483648 <=? w)%Z then (w - 4294967296)%Z else w.
Definition fixed_ok (fixed : option nat) (d : Z) : bool := match fixed with None => true | Some n => (Z.of_nat n =? d)%Z end.
(* read, HDF5File.h:267-333; reading more numbers than the destination has room for is undefined *)
Definition read_matrix (full : string) (ty : etype) : act emat :=
  let (group, name) := splitFullName full in
  bind (findGroup group) (fun grp =>
  bind call_ok (fun _ => (* H5Dopen2 *)
  bind get_root (fun root =>
  match (if says name then find root (grp ++ [name]) else None) with
  | Some (Data (PMatrix t rows cols data)) =>
      if match getNativeType t with Some t' => scalar_eqb t' (et_scalar ty) | None => false end then
        let r := to_int rows in let c := to_int cols in
        if (r <? 0)%Z || (c <? 0)%Z then throw
        else if negb (fixed_ok (et_rows ty) r) then throw
        else if negb (fixed_ok (et_cols ty) c) then throw
        else if negb ((Z.of_nat (List.length data) <=? r * c)%Z) then undefined
        else bind call_ok (fun _ => (* H5Dread *)
               let r := Z.to_nat r in let c := Z.to_nat c in
               ret (mkMat (et_row_major ty) r c (if et_row_major ty then data else col_major_copy r c data)))
      else throw
  | _ => throw
  end))).
(* read<Scalar>, HDF5File.h:260-265 *)
Definition read_scalar (full : string) (t : scalar_type) : act elem :=
  bind (read_matrix full (mkType t false (Some 1) (Some 1))) (fun m => ret (nth 0 (em_data m) zero_elem)).

(* a column major sparse matrix: outerIndexPtr, innerNonZeroPtr (null, None, when compressed), innerIndexPtr, valuePtr *)
Record sparse := mkSparse { sp_rows : nat; sp_outer : list nat; sp_counts : option (list nat); sp_inner : list nat; sp_vals : list elem }.
(* Eigen's nonZeros() *)
Definition sp_nonzeros (s : sparse) : nat :=
  match sp_counts s with None => last (sp_outer s) 0 - nth 0 (sp_outer s) 0 | Some l => list_sum l end.
(* write( full_name, SparseMatrixBase ), HDF5File.h:239-258, and extractDataCCS, HDF5File.h:401-408, which takes the first
   nonZeros() elements of the inner and value arrays *)
Definition column_vector (l : list elem) : emat := mkMat false (List.length l) 1 l.
Definition ints (l : list nat) : list elem := map (fun k => EInt (Z.of_nat k)) l.
Definition write_sparse (full : string) (t : scalar_type) (s : sparse) : act unit :=
  bind (write_scalar (full ++ "_nrows") SLong (EInt (Z.of_nat (sp_rows s)))) (fun _ =>
  bind (write_scalar (full ++ "_ncols") SLong (EInt (Z.of_nat (pred (List.length (sp_outer s)))))) (fun _ =>
  bind (write_matrix (full ++ "_col_ptr") SInt (column_vector (ints (sp_outer s)))) (fun _ =>
  bind (write_matrix (full ++ "_row_ind") SInt (column_vector (ints (firstn (sp_nonzeros s) (sp_inner s))))) (fun _ =>
  write_matrix (full ++ "_val") t (column_vector (firstn (sp_nonzeros s) (sp_vals s))))))).

(* open, HDF5File.cpp:46-63, of a file with contents [disk]: READ_WRITE truncates it (H5F_ACC_TRUNC) *)
Definition open_file (rw : bool) (disk : node) (calls : list call) : h5 * outcome unit :=
  match calls with
  | CFails _ :: cs => (mkH5 Closed disk cs, Exit)
  | _ => if rw then (mkH5 ReadWrite (Group []) (tl calls), Ok tt) else (mkH5 ReadOnly disk (tl calls), Ok tt)
  end.
End Hdf.
Arguments elem : clear implicits. Arguments member : clear implicits. Arguments payload : clear implicits.
Arguments node : clear implicits. Arguments call : clear implicits. Arguments h5 : clear implicits.
Arguments act : clear implicits. Arguments emat : clear implicits. Arguments sparse : clear implicits.
