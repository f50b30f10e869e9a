(* The dense matrix a compressed sparse matrix stands for. *)
From Coq Require Import List Reals Arith.
From Verif Require Import Sparse_Model.
Import ListNotations.
Local Open Scope nat_scope.

(* the value v is stored for row r and column c: it sits somewhere between the offsets of the column *)
Definition stored (a : csc) (r c : nat) (v : R) : Prop :=
  exists k, nth c (m_outer a) 0 <= k < nth (S c) (m_outer a) 0 /\ nth_error (m_inner a) k = Some r /\ nth_error (m_vals a) k = Some v.
(* the entry ( r, c ): what is stored there, or 0 *)
Definition entry_is (a : csc) (r c : nat) (v : R) : Prop := stored a r c v \/ (v = 0%R /\ forall w, ~ stored a r c w).
(* well formed: offsets from 0 up to the number of entries, rows in range and increasing within a column *)
Definition valid_csc (a : csc) : Prop :=
  length (m_outer a) <> 0 /\ nth 0 (m_outer a) 0 = 0 /\ nth (m_cols a) (m_outer a) 0 = length (m_inner a) /\ length (m_vals a) = length (m_inner a)
  /\ (forall c, c < m_cols a -> nth c (m_outer a) 0 <= nth (S c) (m_outer a) 0)
  /\ (forall k r, nth_error (m_inner a) k = Some r -> r < m_rows a)
  /\ (forall c k r1 r2, c < m_cols a -> nth c (m_outer a) 0 <= k -> S k < nth (S c) (m_outer a) 0 ->
        nth_error (m_inner a) k = Some r1 -> nth_error (m_inner a) (S k) = Some r2 -> r1 < r2).
