(* Model of the generalised reflection operators.
   Sources: /repo/scisim/ConstrainedMaps/ImpactMaps/GROperator.cpp, GRROperator.cpp, ImpactOperatorUtilities.cpp.
   N is the list of its columns, vectors over contacts are lists, Minv is the linear map f |-> Minv * f. *)
From Coq Require Import List Reals Arith Bool.
From Verif Require Import Outcome Lin_Model.
Import ListNotations.
Open Scope R_scope.

(* N^T * v *)
Definition Nt (N : list col) (v : dvec) : list R := map (fun g => col_dot g v) N.
(* N * alpha *)
Definition Nmul (N : list col) (alpha : list R) : dvec := impulse (combine N alpha).
Definition lmap2 (f : R -> R -> R) (a b : list R) : list R := map (fun p => f (fst p) (snd p)) (combine a b).
Definition ladd := lmap2 Rplus.
Definition lmul := lmap2 Rmult.
Definition lscale (s : R) (a : list R) : list R := map (Rmult s) a.

(* computeLCPQPLinearTerm, ImpactOperatorUtilities.cpp:50-65:
   N^T v0F + nrel + CoR .* ( N^T v0 + nrel ) *)
Definition lcp_linear_term (N : list col) (nrel CoR : list R) (v0 v0F : dvec) : list R :=
  ladd (ladd (Nt N v0F) nrel) (lmul CoR (ladd (Nt N v0) nrel)).

(* an impact operator: N, v0, v0F, nrel, CoR and the initial alpha to the new alpha. Q = N^T Minv N is a function of N. *)
Definition impact_op := list col -> dvec -> dvec -> list R -> list R -> list R -> outcome (list R).

(* ( CoR.array() != CoR(0) ).any(); CoR(0) of an empty vector is undefined *)
Definition single_cor (CoR : list R) : outcome R :=
  match CoR with
  | [] => UB
  | c :: l => if forallb (fun x => if Req_EM_T x c then true else false) l then Ok c else Exit
  end.

(* alpha( idx ) += x, for every pair *)
Fixpoint add_at (i : nat) (x : R) (alpha : list R) : list R :=
  match alpha, i with
  | [], _ => []
  | a :: l, O => (a + x) :: l
  | a :: l, S k => a :: add_at k x l
  end.
Definition scatter (idx : list nat) (loc : list R) (alpha : list R) : list R :=
  fold_left (fun al p => add_at (fst p) (snd p) al) (combine idx loc) alpha.

(* the violated contacts, GROperator.cpp:60-82 *)
Definition violated (tol : R) (vrel : list R) : list nat :=
  filter (fun i => if Rlt_dec (nth i vrel 0) (- tol) then true else false) (seq 0 (length vrel)).

Section GR.
Variable Minv : dvec -> dvec.
Variable tol : R.
Variable op : impact_op.
Variable N : list col.
Variable nrel CoR : list R.
Variable v0F : dvec.

(* the while loop, GROperator.cpp:51-127 *)
Fixpoint gr_loop (fuel : nat) (alpha : list R) (v1 : dvec) : option (outcome (list R)) :=
  match fuel with
  | O => None
  | S k =>
      let idx := violated tol (ladd (Nt N v1) nrel) in
      match idx with
      | [] => Some (Ok alpha)
      | _ =>
          let N_local := map (fun i => nth i N []) idx in
          let nrel_local := map (fun i => nth i nrel 0) idx in
          let CoR_local := map (fun i => nth i CoR 0) idx in
          match op N_local v1 v1 nrel_local CoR_local (repeat 0 (length idx)) with
          | Ok alpha_local =>
              let alpha1 := scatter idx alpha_local alpha in
              gr_loop k alpha1 (vplus v0F (Minv (Nmul N alpha1)))
          | Exit => Some Exit
          | UB => Some UB
          end
      end
  end.

(* GROperator::flow 33-131; ncons = alpha.size() = the number of columns *)
Definition gr_flow (fuel : nat) : option (outcome (list R)) :=
  match single_cor CoR with
  | Ok _ => gr_loop fuel (repeat 0 (length N)) v0F
  | Exit => Some Exit
  | UB => Some UB
  end.
End GR.

(* GRROperator::flow 31-69: the inelastic and elastic operators are arbitrary *)
Definition grr_flow (inelastic elastic : impact_op) (N : list col) (v0 v0F : dvec) (nrel CoR alpha : list R) : outcome (list R) :=
  let! c := single_cor CoR in
  if Req_EM_T c 0 then inelastic N v0 v0F nrel CoR alpha
  else if Req_EM_T c 1 then elastic N v0 v0F nrel CoR alpha
  else
    let! a0 := inelastic N v0 v0F nrel (repeat 0 (length CoR)) (repeat 0 (length alpha)) in
    let alpha1 := lscale (1 - c) a0 in
    let! a1 := elastic N v0 v0F nrel (repeat 1 (length CoR)) (repeat 0 (length alpha)) in
    Ok (ladd alpha1 (lscale c a1)).
