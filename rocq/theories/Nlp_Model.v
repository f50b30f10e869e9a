(* The optimisation problems that the impact and friction operators hand to Ipopt and to QL, and what the operators do with the
   answers. /repo/scisim/ConstrainedMaps/IpoptUtilities.cpp, ImpactMaps/LCPOperatorIpopt.cpp, ImpactMaps/LCPOperatorQL.cpp,
   FrictionMaps/SmoothMDPOperatorIpopt.cpp, FrictionMaps/BoundConstrainedMDPOperatorQL.cpp, FrictionMaps/LinearMDPOperatorQL.cpp.
   Values are reals; Ipopt and QL are arguments; sparse products are taken entry by entry. *)
From Coq Require Import List Reals Arith Bool String ZArith.
From Verif Require Import Outcome Ccd_Model Lin_Model Quad_Model Sparse_Model Apgd_Model Resid_Model.
Import ListNotations.
Open Scope R_scope.

(* ---------- IpoptUtilities ---------- *)
(* linearSolverSupported, IpoptUtilities.cpp:10-17 *)
Definition linearSolverSupported (s : string) : bool :=
  if (negb (String.eqb s "ma27") && negb (String.eqb s "ma57") && negb (String.eqb s "mumps") && negb (String.eqb s "ma86") && negb (String.eqb s "ma97"))%bool
  then false else true.
(* containsDuplicates, IpoptUtilities.cpp:19-32: each name against the later ones *)
Fixpoint containsDuplicates (l : list string) : bool :=
  match l with
  | [] => false
  | s :: t => if existsb (String.eqb s) t then true else containsDuplicates t
  end.
(* nzLowerTriangular, IpoptUtilities.cpp:110-126 *)
Definition nzLowerTriangular (a : csc) : nat :=
  fold_left (fun num c => fold_left (fun num e => if Nat.ltb (fst e) c then num else S num) (column a c) num) (seq 0 (m_cols a)) 0%nat.
(* sparsityPatternLowerTriangular, IpoptUtilities.cpp:128-149: the pairs ( rows[k], cols[k] ) *)
Definition sparsityPatternLowerTriangular (a : csc) : list (nat * nat) :=
  flat_map (fun c => flat_map (fun e => if Nat.ltb (fst e) c then [] else [(fst e, c)]) (column a c)) (seq 0 (m_cols a)).
(* valuesLowerTriangular, IpoptUtilities.cpp:169-188 *)
Definition valuesLowerTriangular (a : csc) : list R :=
  flat_map (fun c => flat_map (fun e => if Nat.ltb (fst e) c then [] else [snd e]) (column a c)) (seq 0 (m_cols a)).

(* ---------- what Ipopt asks for ---------- *)
(* Ipopt::TNLP: one field per piece of information its callbacks deliver. Matrices come as a pattern of ( row, column ) pairs
   and the values in the same order. *)
Record tnlp := mkNlp {
  t_n : nat; t_m : nat; t_nnz_jac : nat; t_nnz_hess : nat;           (* get_nlp_info *)
  t_xl : dvec; t_xu : dvec; t_gl : dvec; t_gu : dvec;                (* get_bounds_info *)
  t_x0 : dvec;                                                       (* get_starting_point *)
  t_f : dvec -> R; t_grad : dvec -> dvec;                            (* eval_f, eval_grad_f *)
  t_g : dvec -> dvec;                                                (* eval_g *)
  t_jac_pattern : list (nat * nat); t_jac_values : dvec -> list R;   (* eval_jac_g *)
  t_hess_pattern : list (nat * nat);                                 (* eval_h *)
  t_hess_values : dvec -> R -> dvec -> outcome (list R) }.

(* Q * x for a sparse Q *)
Definition smv (Q : csc) (x : dvec) : dvec := mv (m_cols Q) (coeff Q) x.
(* 2e19, which Ipopt takes for infinity *)
Definition ip_inf : R := 2 * 10 ^ 19.

(* QPNLP, LCPOperatorIpopt.cpp:230-388 *)
Definition qpnlp (Q : csc) (A alpha : dvec) : tnlp :=
  let n := m_cols Q in
  {| t_n := n; t_m := 0; t_nnz_jac := 0; t_nnz_hess := nzLowerTriangular Q;
     t_xl := fun _ => 0; t_xu := fun _ => ip_inf; t_gl := fun _ => 0; t_gu := fun _ => 0;
     t_x0 := alpha;
     t_f := fun x => 1 / 2 * dotn n x (smv Q x) + dotn n A x;
     t_grad := fun x i => smv Q x i + A i;
     t_g := fun _ _ => 0;
     t_jac_pattern := []; t_jac_values := fun _ => [];
     t_hess_pattern := sparsityPatternLowerTriangular Q;
     t_hess_values := fun _ s _ => Ok (map (fun v => v * s) (valuesLowerTriangular Q)) |}.

(* m_diagonal_indices after eval_h was asked for the pattern, SmoothMDPOperatorIpopt.cpp:424-432; resize fills with zeros *)
Fixpoint set_nth {A : Type} (l : list A) (k : nat) (x : A) : list A :=
  match l, k with
  | [], _ => []
  | _ :: t, O => x :: t
  | y :: t, S j => y :: set_nth t j x
  end.
Fixpoint diagonal_loop (i : nat) (pattern : list (nat * nat)) (d : list nat) : list nat :=
  match pattern with
  | [] => d
  | p :: t => diagonal_loop (S i) t (if Nat.eqb (fst p) (snd p) then set_nth d (fst p) i else d)
  end.
Definition diagonal_indices (n : nat) (pattern : list (nat * nat)) : list nat := diagonal_loop 0 pattern (repeat 0%nat n).
(* values[ k ] += x *)
Definition add_nth (l : list R) (k : nat) (x : R) : outcome (list R) :=
  match nth_error l k with Some y => Ok (set_nth l k (y + x)) | None => UB end.
(* SmoothMDPOperatorIpopt.cpp:453-458 *)
Fixpoint add_diagonals (m : nat) (diag : list nat) (lam : dvec) (values : list R) : outcome (list R) :=
  match m with
  | O => Ok values
  | S i => let! v := add_diagonals i diag lam values in
           let! v := add_nth v (nth (2 * i + 0) diag 0%nat) (2 * lam i) in
           add_nth v (nth (2 * i + 1) diag 0%nat) (2 * lam i)
  end.

(* SmoothMDPNLP, SmoothMDPOperatorIpopt.cpp:251-462 *)
Definition smoothnlp (Q : csc) (A C beta : dvec) : tnlp :=
  let n := m_cols Q in let m := Nat.div n 2 in
  {| t_n := n; t_m := m; t_nnz_jac := n; t_nnz_hess := nzLowerTriangular Q;
     t_xl := fun _ => - ip_inf; t_xu := fun _ => ip_inf; t_gl := fun _ => - ip_inf; t_gu := C;
     t_x0 := beta;
     t_f := fun x => 1 / 2 * dotn n x (smv Q x) + dotn n A x;
     t_grad := fun x i => smv Q x i + A i;
     t_g := fun x i => x (2 * i + 0)%nat * x (2 * i + 0)%nat + x (2 * i + 1)%nat * x (2 * i + 1)%nat;
     t_jac_pattern := map (fun k => (Nat.div k 2, k)) (seq 0 n);
     t_jac_values := fun x => map (fun k => 2 * x k) (seq 0 n);
     t_hess_pattern := sparsityPatternLowerTriangular Q;
     t_hess_values := fun _ s lam =>
       add_diagonals m (diagonal_indices n (sparsityPatternLowerTriangular Q)) lam (map (fun v => v * s) (valuesLowerTriangular Q)) |}.

(* ---------- running Ipopt ---------- *)
(* Ipopt::SolverReturn; the other codes count as failures. SUCCESS is the first, i.e. the one a value-initialised status has. *)
Inductive solver_return := SUCCESS | STOP_AT_ACCEPTABLE_POINT | USER_REQUESTED_STOP | INTERNAL_ERROR | OTHER_FAILURE (k : nat).
(* OptimizeTNLP with a given linear solver: the status and point given to finalize_solution, or None if it was not called *)
Definition ipopt_run := string -> tnlp -> option (solver_return * dvec).

(* LCPOperatorIpopt::LCPOperatorIpopt, LCPOperatorIpopt.cpp:25-50, and
   SmoothMDPOperatorIpopt::SmoothMDPOperatorIpopt, SmoothMDPOperatorIpopt.cpp:24-49 *)
Definition ipopt_operator (solvers : list string) : outcome (list string) :=
  match solvers with
  | [] => Exit
  | _ => if containsDuplicates solvers then Exit
         else if forallb linearSolverSupported solvers then Ok solvers else Exit
  end.

(* the loops over m_linear_solver_order, LCPOperatorIpopt.cpp:111-140, 163-192 and SmoothMDPOperatorIpopt.cpp:130-157, 193-221.
   [st] and [x] are the status and the impulses from the previous round. *)
Section Loop.
  Variables (run : ipopt_run) (problem : dvec -> tnlp) (accept : solver_return -> bool) (exits : bool) (last : string) (x0 : dvec).
  Fixpoint solver_loop (solvers : list string) (st : solver_return) (x : dvec) : outcome (solver_return * dvec) :=
    match solvers with
    | [] => Ok (st, x)
    | s :: t =>
        let '(st, x) := match run s (problem x0) with Some (st1, x1) => (st1, x1) | None => (st, x0) end in
        if accept st then Ok (st, x)
        else if String.eqb s last then if exits then Exit else solver_loop t st x
        else solver_loop t st x
    end.
End Loop.
(* solve_status != SUCCESS && solve_status != STOP_AT_ACCEPTABLE_POINT *)
Definition accept_flow (st : solver_return) : bool := match st with SUCCESS | STOP_AT_ACCEPTABLE_POINT => true | _ => false end.
(* the same and != USER_REQUESTED_STOP *)
Definition accept_qp (st : solver_return) : bool := match st with SUCCESS | STOP_AT_ACCEPTABLE_POINT | USER_REQUESTED_STOP => true | _ => false end.

(* LCPOperatorIpopt::flow, LCPOperatorIpopt.cpp:91-141; the status starts as INTERNAL_ERROR, line 221 *)
Definition lcp_ipopt (run : ipopt_run) (solvers : list string) (nd : nat) (N : mat) (Q : csc) (nrel CoR v0 v0F alpha : dvec) : outcome dvec :=
  let A := lcp_b nd N nrel CoR v0 v0F in
  let! r := solver_loop run (qpnlp Q A) accept_flow true (List.last solvers EmptyString) alpha solvers INTERNAL_ERROR alpha in Ok (snd r).

(* lambda( i ) = vrel.segment<2>( 2 * i ).norm(), SmoothMDPOperatorIpopt.cpp:161-168, 224-230 *)
Definition rescaled_lambda (Q : csc) (A beta : dvec) : dvec := fun i => vnorm (seg2 (fun k => smv Q beta k + A k) (2 * i)).
(* SmoothMDPOperatorIpopt::flow, SmoothMDPOperatorIpopt.cpp:111-171; the status is value-initialised, line 242 *)
Definition smooth_ipopt (run : ipopt_run) (solvers : list string) (nd : nat) (D : mat) (Q : csc) (gdotD mu alpha v0 beta : dvec) : outcome (dvec * dvec) :=
  let A := fun j => mv nd (transpose D) v0 j + gdotD j in
  let C := fun i => mu i * mu i * alpha i * alpha i in
  let! r := solver_loop run (smoothnlp Q A C) accept_flow true (List.last solvers EmptyString) beta solvers SUCCESS beta in
  Ok (snd r, rescaled_lambda Q A (snd r)).
(* SmoothMDPOperatorIpopt::solveQP, SmoothMDPOperatorIpopt.cpp:173-233; Q is D^T Minv D. The achieved tolerance is that of the
   last point Ipopt delivered, infinite if there was none. *)
Definition smooth_solveQP (run : ipopt_run) (solvers : list string) (Q : csc) (b c beta : dvec) : outcome (dvec * dvec) :=
  let! r := solver_loop run (smoothnlp Q b (fun i => c i * c i)) accept_qp false (List.last solvers EmptyString) beta solvers SUCCESS beta in
  Ok (snd r, rescaled_lambda Q b (snd r)).

(* ---------- QL ---------- *)
(* the arguments of ql_ that state the problem: minimise 1/2 x' C x + c' x with A x + b >= 0 (m rows) and xl <= x <= xu, where
   None is an infinite bound *)
Record qlp := mkQl { ql_n : nat; ql_m : nat; ql_C : mat; ql_c : dvec; ql_A : mat; ql_b : dvec; ql_xl : nat -> option R; ql_xu : nat -> option R }.
(* ql_: IFAIL, the point and the multipliers, of the m rows, then the n lower and then the n upper bounds *)
Definition ql_run := qlp -> dvec -> Z * dvec * dvec.

Definition int_ok (z : Z) : outcome Z := if ((- 2147483648 <=? z) && (z <=? 2147483647))%Z%bool then Ok z else UB.
(* lwar = 3 * ( nmax * nmax ) / 2 + 10 * nmax + 2, LCPOperatorQL.cpp:68, BoundConstrainedMDPOperatorQL.cpp:61, in int *)
Definition work_bound (n : Z) : outcome Z :=
  let! a := int_ok (n * n) in let! a := int_ok (3 * a) in let! b := int_ok (10 * n) in
  let! s := int_ok (Z.quot a 2 + b) in int_ok (s + 2).
(* lwar = 3 * nmax * nmax / 2 + 10 * nmax + mmax + m + 2, LinearMDPOperatorQL.cpp:70 *)
Definition work_linear (n m : Z) : outcome Z :=
  let! a := int_ok (3 * n) in let! a := int_ok (a * n) in let! b := int_ok (10 * n) in
  let! s := int_ok (Z.quot a 2 + b) in let! s := int_ok (s + m) in let! s := int_ok (s + m) in int_ok (s + 2).
(* QLReturnStatusToString, /repo/scisim/Math/QL/QLUtilities.cpp:11-41: ends the program on a status it does not know *)
Definition ql_status_known (st : Z) : bool :=
  (if 0 =? st then true else if 1 =? st then true else if 2 =? st then true else if 3 =? st then true else if 5 =? st then true else 100 <? st)%Z.
(* if( 0 != status ) { std::cerr << ... } *)
Definition ql_warn (st : Z) : outcome unit := if (st =? 0)%Z then Ok tt else if ql_status_known st then Ok tt else Exit.

(* LCPOperatorQL::flow and solveQP, LCPOperatorQL.cpp:30-124 *)
Definition lcp_ql (run : ql_run) (nd : nat) (N : mat) (Q : csc) (nrel CoR v0 v0F alpha : dvec) : outcome dvec :=
  let n := m_cols Q in
  let! _ := work_bound (Z.of_nat n) in
  let '(st, x, u) := run {| ql_n := n; ql_m := 0; ql_C := coeff Q; ql_c := lcp_b nd N nrel CoR v0 v0F; ql_A := fun _ _ => 0; ql_b := fun _ => 0;
                            ql_xl := fun _ => Some 0; ql_xu := fun _ => None |} alpha in
  let! _ := ql_warn st in Ok x.

(* BoundConstrainedMDPOperatorQL::flow and solveQP, BoundConstrainedMDPOperatorQL.cpp:31-127 *)
Definition bound_ql (run : ql_run) (nd : nat) (D : mat) (Q : csc) (gdotD mu alpha v0 beta : dvec) : outcome (dvec * dvec) :=
  let n := m_cols Q in
  let c := fun j => mv nd (transpose D) v0 j + gdotD j in
  let xl := fun i => - mu i * alpha i in
  let xu := fun i => - xl i in
  let! _ := work_bound (Z.of_nat n) in
  let '(st, x, u) := run {| ql_n := n; ql_m := 0; ql_C := coeff Q; ql_c := c; ql_A := fun _ _ => 0; ql_b := fun _ => 0;
                            ql_xl := fun i => Some (xl i); ql_xu := fun i => Some (xu i) |} beta in
  let lambda := fun i => Rmax (u i) (u (n + i)%nat) in
  let! _ := ql_warn st in Ok (x, lambda).

(* formLinearFrictionDiskConstraint, /repo/scisim/ConstrainedMaps/FrictionMaps/FrictionOperatorUtilities.cpp:62-80;
   E has samples * cols rows *)
Definition disk_constraint (samples cols : nat) : csc :=
  compress (samples * cols) (map (fun col => map (fun s => ((samples * col + s)%nat, 1)) (seq 0 samples)) (seq 0 cols)).

(* LinearMDPOperatorQL::flow and solveQP, LinearMDPOperatorQL.cpp:35-182; nc = alpha.size() *)
Definition linear_ql (run : ql_run) (samples nc nd : nat) (D : mat) (Q : csc) (gdotD mu alpha v0 beta : dvec) : outcome (dvec * dvec) :=
  let n := m_cols Q in
  let c := fun j => mv nd (transpose D) v0 j + gdotD j in
  let E := disk_constraint samples nc in
  let! _ := work_linear (Z.of_nat n) (Z.of_nat nc) in
  let '(st, x, u) := run {| ql_n := n; ql_m := nc; ql_C := coeff Q; ql_c := c;
                            ql_A := fun i j => - coeff E j i; ql_b := fun i => mu i * alpha i;
                            ql_xl := fun _ => Some 0; ql_xu := fun _ => None |} beta in
  let! _ := ql_warn st in Ok (x, u).
