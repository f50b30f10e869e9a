(* Compressed sparse column matrices and the functions of /repo/scisim/Math/MathUtilities.cpp:38-140 on them.
   Values are reals, indices natural numbers. Eigen itself is modelled by what its documentation says of the calls used:
   InnerIterator( A, c ) runs through the stored entries of column c, insert( r, c ) puts an entry in its sorted place,
   makeCompressed() packs the columns. *)
From Coq Require Import List Reals Arith Bool.
From Verif Require Import Outcome Ccd_Model.
Import ListNotations.
Local Open Scope nat_scope.

(* innerIndexPtr, outerIndexPtr, valuePtr, as in Codec_Model.sparse *)
Record csc := mkCsc { m_rows : nat; m_outer : list nat; m_inner : list nat; m_vals : list R }.
Definition m_cols (a : csc) : nat := pred (length (m_outer a)).
(* for( SparseMatrixsc::InnerIterator it( a, c ); it; ++it ): the pairs ( it.row(), it.value() ) *)
Definition slice {A : Type} (l : list A) (s e : nat) : list A := firstn (e - s) (skipn s l).
Definition column (a : csc) (c : nat) : list (nat * R) :=
  let s := nth c (m_outer a) 0 in let e := nth (S c) (m_outer a) 0 in
  combine (slice (m_inner a) s e) (slice (m_vals a) s e).

(* A1.insert( row, col ) = value on a column with room: entries of larger rows are moved up *)
Fixpoint insert_entry (r : nat) (v : R) (l : list (nat * R)) : list (nat * R) :=
  match l with
  | [] => [(r, v)]
  | (r', v') :: t => if Nat.ltb r r' then (r, v) :: (r', v') :: t else (r', v') :: insert_entry r v t
  end.
(* makeCompressed() *)
Fixpoint offsets (start : nat) (cs : list (list (nat * R))) : list nat :=
  match cs with
  | [] => [start]
  | c :: t => start :: offsets (start + length c) t
  end.
Definition compress (rows : nat) (cs : list (list (nat * R))) : csc :=
  mkCsc rows (offsets 0 cs) (map fst (concat cs)) (map snd (concat cs)).

(* extractColumns, MathUtilities.cpp:101-140; an index outside the matrix is read out of bounds *)
Fixpoint extract_cols (a : csc) (cols : list nat) : outcome (list (list (nat * R))) :=
  match cols with
  | [] => Ok []
  | c :: t =>
      if Nat.ltb c (m_cols a) then
        let! rest := extract_cols a t in
        Ok (fold_left (fun acc e => insert_entry (fst e) (snd e) acc) (column a c) [] :: rest)
      else UB
  end.
Definition extractColumns (a : csc) (cols : list nat) : outcome csc :=
  let! cs := extract_cols a cols in Ok (compress (m_rows a) cs).

(* isSquare, MathUtilities.cpp:38-41 *)
Definition isSquare (a : csc) : bool := Nat.eqb (m_rows a) (m_cols a).
(* isIdentity, MathUtilities.cpp:43-70 *)
Definition isIdentity (a : csc) (tol : R) : bool :=
  isSquare a &&
  forallb (fun c => forallb (fun e => if Nat.eqb (fst e) c then negb (Rltb tol (Rabs (snd e - 1)%R)) else negb (Rltb tol (Rabs (snd e)))) (column a c))
    (seq 0 (m_cols a)).
(* a.coeff( r, c ) *)
Definition lookup (l : list (nat * R)) (r : nat) : R := match find (fun e => Nat.eqb (fst e) r) l with Some e => snd e | None => 0%R end.
Definition coeff (a : csc) (r c : nat) : R := lookup (column a c) r.
(* isSymmetric, MathUtilities.cpp:72-86. The difference of a and its transpose has an entry wherever either has one. *)
Definition isSymmetric (a : csc) (tol : R) : bool :=
  forallb (fun c => forallb (fun e => negb (Rltb tol (Rabs (coeff a (fst e) c - coeff a c (fst e))%R)) && negb (Rltb tol (Rabs (coeff a c (fst e) - coeff a (fst e) c)%R))) (column a c))
    (seq 0 (m_cols a)).
