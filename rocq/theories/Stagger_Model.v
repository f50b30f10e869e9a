(* Coupled impact and friction: staggered projections and the one-pass solver.
   Models /repo/scisim/ConstrainedMaps/StaggeredProjections.cpp:102-318 and GRRFriction.cpp:29-91. Doubles are reals.
   The impact and friction operators are arbitrary functions of the number of the call and of what the solver passes them,
   so they may have a memory; the residual of a vector of contact impulses (SobogusFrictionProblem::computeError) is an
   arbitrary function. The generalized normal and friction directions N and D are given matrices: see Jac_*, Frame_*. *)
From Coq Require Import Reals Arith Bool.
From Verif Require Import Ccd_Model Lin_Model Quad_Model.
Open Scope R_scope.

(* computePerContactForce, StaggeredProjections.cpp:102-134; dim rows, ns friction samples per contact *)
Definition contact_force (dim ns : nat) (bases : mat) (alpha beta : dvec) : dvec :=
  fun k => let c := (k / dim)%nat in let r := (k mod dim)%nat in
    alpha c * bases r ((ns + 1) * c)%nat
    + rsum ns (fun s => beta (ns * c + s)%nat * bases r ((ns + 1) * c + (s + 1))%nat).

Section Staggered.
Variables (nd nc nb : nat) (N D Minv : mat) (v0 : dvec) (tol : R).
Variables warm_alpha warm_beta : bool.
(* m_impact_operator->flow: call number, velocity with friction applied, initial guess *)
Variable impact : nat -> dvec -> dvec -> dvec.
(* m_friction_operator->flow: call number, velocity with impacts applied, impact impulses, initial guess *)
Variable friction : nat -> dvec -> dvec -> dvec -> dvec.
(* computeSobogusError, StaggeredProjections.cpp:136-141 *)
Variable residual : dvec -> R.
Variables (dim ns : nat) (bases : mat).

Definition sp_error_of (alpha beta : dvec) : R := residual (contact_force dim ns bases alpha beta).
Definition zero_dvec : dvec := fun _ => 0.
(* the impact solve, lines 216-228 and 293-305 *)
Definition sp_impact (call : nat) (f alpha : dvec) : dvec :=
  impact call (fun k => v0 k + mv nd Minv f k) (if warm_alpha then alpha else zero_dvec).
(* the friction solve, lines 230-250 *)
Definition sp_friction (call : nat) (alpha beta : dvec) : dvec :=
  friction call (fun k => v0 k + mv nd Minv (mv nc N alpha) k) alpha (if warm_beta then beta else zero_dvec).

(* alpha, beta and f between iterations *)
Record sp_state := mkSp { s_alpha : dvec; s_beta : dvec; s_f : dvec }.
(* one pass of the loop up to line 250 *)
Definition sp_pass (itr : nat) (s : sp_state) : sp_state :=
  let alpha := sp_impact itr (s_f s) (s_alpha s) in
  let beta := sp_friction itr alpha (s_beta s) in
  mkSp alpha beta (mv nb D beta).

(* the loop, lines 213-274; best holds error (None: infinity), best_alpha and best_beta; the result is the state, the best
   and solve_succeeded *)
Fixpoint sp_loop (left itr : nat) (s : sp_state) (err : option R) (best : dvec * dvec) : sp_state * (dvec * dvec) * bool :=
  match left with
  | O => (s, best, false)
  | S l =>
      let s1 := sp_pass itr s in
      let e := sp_error_of (s_alpha s1) (s_beta s1) in
      let is_better := match err with None => true | Some b => Rltb e b end in
      let err1 := if is_better then Some e else err in
      let best1 := if is_better then (s_alpha s1, s_beta s1) else best in
      if Rltb tol e then sp_loop l (S itr) s1 err1 best1 else (s1, best1, true)
  end.

Record sp_result := mkRes { r_f : dvec; r_alpha : dvec; r_beta : dvec; r_v : dvec; r_ok : bool; r_error : R }.
(* solve, lines 203-318; the last impact solve is call number max_iters *)
Definition sp_solve (max_iters : nat) (f0 alpha0 beta0 : dvec) : sp_result :=
  let '(s, best, ok) := sp_loop max_iters 0 (mkSp alpha0 beta0 f0) None (alpha0, beta0) in
  let s1 := if ok then s else mkSp (fst best) (snd best) (mv nb D (snd best)) in
  let alpha := sp_impact max_iters (s_f s1) (s_alpha s1) in
  let e := sp_error_of alpha (s_beta s1) in
  mkRes (s_f s1) alpha (s_beta s1) (fun k => v0 k + mv nd Minv (fun l => mv nc N alpha l + s_f s1 l) k)
    (negb (Rltb tol e)) e.
End Staggered.

(* GRRFriction::solve, GRRFriction.cpp:65-90: one impact solve and one friction solve; success and error 0 are reported
   without a check. f is left as it was. *)
Definition grr_friction_solve (nd nc nb : nat) (N D Minv : mat) (v0 : dvec) (impact : nat -> dvec -> dvec -> dvec)
  (friction : nat -> dvec -> dvec -> dvec -> dvec) (f0 : dvec) : sp_result :=
  let alpha := impact 0%nat v0 zero_dvec in
  let beta := friction 0%nat (fun k => v0 k + mv nd Minv (mv nc N alpha) k) alpha zero_dvec in
  mkRes f0 alpha beta (fun k => v0 k + mv nd Minv (fun l => mv nc N alpha l + mv nb D beta l) k) true 0.
