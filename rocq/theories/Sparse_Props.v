(* C42: columns of a sparse matrix, and the tests for symmetry and identity. *)
From Coq Require Import List Reals Arith Lra Lia.
From Verif Require Import Outcome Ccd_Model Geom_Circle Sparse_Model Sparse_Spec Sparse_Proofs.
Import ListNotations.
Local Open Scope nat_scope.

(* Every entry of a well formed matrix has one value. *)
Theorem C42_entries_unique : forall a r c, valid_csc a -> c < m_cols a -> exists v, entry_is a r c v /\ forall w, entry_is a r c w -> w = v.
Proof.
  intros a r c V H. exists (coeff a r c). split; [apply coeff_entry; assumption|]. intros w E. apply (entry_unique a r c w _ V H E (coeff_entry a r c V H)).
Qed.
Print Assumptions C42_entries_unique.
(* Extracting columns gives a well formed matrix whose k-th column is the k-th requested one, entry for entry and with the same
   stored entries; columns may be requested in any order and more than once. *)
Theorem C42_extract_columns : forall a cols, valid_csc a -> (forall c, In c cols -> c < m_cols a) ->
  exists b, extractColumns a cols = Ok b /\ valid_csc b /\ m_rows b = m_rows a /\ m_cols b = length cols
    /\ (forall k c r v, nth_error cols k = Some c -> (stored b r k v <-> stored a r c v))
    /\ (forall k c r v, nth_error cols k = Some c -> (entry_is b r k v <-> entry_is a r c v)).
Proof. exact extractColumns_ok. Qed.
Print Assumptions C42_extract_columns.
(* A column that is not there is read out of bounds. *)
Theorem C42_extract_out_of_range : forall a cols c, In c cols -> m_cols a <= c -> extractColumns a cols = UB.
Proof. exact extract_out_of_range. Qed.
Print Assumptions C42_extract_out_of_range.
(* The symmetry test is exact, up to its tolerance. *)
Theorem C42_symmetric : forall a tol, valid_csc a -> m_rows a = m_cols a -> (0 <= tol)%R ->
  (isSymmetric a tol = true <-> forall r c v w, r < m_cols a -> c < m_cols a -> entry_is a r c v -> entry_is a c r w -> (Rabs (v - w) <= tol)%R).
Proof. exact isSymmetric_ok. Qed.
Print Assumptions C42_symmetric.
(* So is the identity test when the diagonal is stored... *)
Theorem C42_identity : forall a tol, valid_csc a -> (0 <= tol)%R -> (forall c, c < m_cols a -> exists v, stored a c c v) ->
  (isIdentity a tol = true <-> m_rows a = m_cols a /\ forall r c v, c < m_cols a -> entry_is a r c v -> (Rabs (v - (if Nat.eqb r c then 1 else 0)) <= tol)%R).
Proof. exact isIdentity_full. Qed.
Print Assumptions C42_identity.

(* ---------- examples and a finding ---------- *)
(* the matrix with columns ( 5, 0, 6 ), ( 0, 0, 0 ), ( 0, 7, 0 ) *)
Definition ex_csc : csc := mkCsc 3 [0; 2; 2; 3] [0; 2; 1] [5; 6; 7]%R.
Example ex_valid : valid_csc ex_csc.
Proof.
  unfold valid_csc, ex_csc, m_cols; cbn [m_outer m_inner m_vals m_rows length pred nth]. repeat split; try lia.
  - intros [|[|[|c]]] H; cbn; lia.
  - intros [|[|[|k]]] r H; inversion H; try lia. destruct k; discriminate.
  - intros [|[|[|c]]] k r1 r2 Hc K1 K2 I1 I2; cbn [nth] in K1, K2; try lia. assert (k = 0) by lia. subst k. inversion I1; inversion I2; lia.
Qed.
Example ex_extract : extractColumns ex_csc [2; 0; 2] = Ok (mkCsc 3 [0; 1; 3; 4] [1; 0; 2; 1] [7; 5; 6; 7]%R).
Proof. reflexivity. Qed.
Example ex_extract_ub : extractColumns ex_csc [3] = UB.
Proof. reflexivity. Qed.
(* ... but a matrix of zeros passes for an identity matrix: entries that are not stored are not looked at. *)
Definition zero_csc : csc := mkCsc 2 [0; 0; 0] [] [].
Example zero_csc_valid : valid_csc zero_csc.
Proof.
  unfold valid_csc, zero_csc, m_cols; cbn [m_outer m_inner m_vals m_rows length pred nth]. repeat split; try lia.
  - intros [|[|c]] H; cbn; lia.
  - intros [|k] r H; discriminate.
  - intros c [|k] r1 r2 Hc K1 K2 I1 I2; discriminate.
Qed.
Theorem C42_identity_refuted : exists a, valid_csc a /\ isIdentity a 0 = true /\ m_cols a = 2 /\ forall r c, c < 2 -> entry_is a r c 0%R.
Proof.
  exists zero_csc. split; [exact zero_csc_valid|]. split; [reflexivity|]. split; [reflexivity|]. intros r c H. right. split; [reflexivity|].
  intros w (k & _ & I & _). destruct k; discriminate.
Qed.
Print Assumptions C42_identity_refuted.
