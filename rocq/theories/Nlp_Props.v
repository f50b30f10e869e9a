(* C70: the problems handed to Ipopt and QL, and what is made of their answers. *)
From Coq Require Import List Reals Arith Lra Lia Bool String ZArith.
From Verif Require Import Outcome Ccd_Model Lin_Model Quad_Model Quad_Proofs Sparse_Model Sparse_Spec Resid_Model Resid_Spec Resid_Proofs
  Apgd_Model Apgd_Spec Apgd_Ex Nlp_Model Nlp_Spec Nlp_Proofs Nlp_Thms Nlp_Ex.
Import ListNotations.
Open Scope R_scope.

(* the problem of impacts: a quadratic over non-negative impulses, with correct derivatives *)
Theorem C70_impact_problem : forall Q A alpha, valid_csc Q -> m_rows Q = m_cols Q -> symmetric (m_cols Q) (coeff Q) ->
  let p := qpnlp Q A alpha in
  states_derivatives p /\ (forall x, t_f p x = quadratic (m_cols Q) (coeff Q) A x) /\ t_n p = m_cols Q /\ t_m p = 0%nat /\ t_x0 p = alpha
  /\ (forall j, t_xl p j = 0) /\ forall j, no_upper (t_xu p j).
Proof. exact impact_problem. Qed.
(* the problem of friction: a quadratic over impulses in discs, with correct derivatives, if every entry on the diagonal is stored *)
Theorem C70_friction_problem : forall Q A C beta, valid_csc Q -> m_rows Q = m_cols Q -> symmetric (m_cols Q) (coeff Q) -> Nat.even (m_cols Q) = true ->
  (forall i, (i < m_cols Q)%nat -> exists v, stored Q i i v) ->
  let p := smoothnlp Q A C beta in
  states_derivatives p /\ (forall x, t_f p x = quadratic (m_cols Q) (coeff Q) A x) /\ t_n p = m_cols Q /\ (2 * t_m p = m_cols Q)%nat /\ t_x0 p = beta
  /\ (forall j, no_lower (t_xl p j) /\ no_upper (t_xu p j))
  /\ forall i, no_lower (t_gl p i) /\ t_gu p i = C i /\ forall x, t_g p x i = x (2 * i)%nat * x (2 * i)%nat + x (2 * i + 1)%nat * x (2 * i + 1)%nat.
Proof. exact friction_problem. Qed.
(* Impacts with Ipopt: if the first-order conditions hold to a tolerance whenever success is reported, then impulses push,
   contacts separate at least as fast as the coefficient of restitution demands, and where they separate faster there is no
   impulse, all to that tolerance. *)
Theorem C70_impact : forall tol run solvers l nd n N Minv Q nrel CoR v0 v0F alpha0 alpha, 0 <= tol -> honest tol run -> ipopt_operator solvers = Ok l -> is_DMD nd n N Minv Q ->
  lcp_ipopt run l nd N Q nrel CoR v0 v0F alpha0 = Ok alpha -> forall i, (i < n)%nat ->
  let w := slip nd N nrel (after nd n N Minv v0F alpha) i + CoR i * slip nd N nrel v0 i in
  - tol <= alpha i /\ - tol <= w /\ Rabs (alpha i * w) <= tol * (1 + Rabs (alpha i)).
Proof. exact lcp_ipopt_impact. Qed.
(* Friction with Ipopt: the impulse of each contact is in its disc and cannot be improved there; the multiplier returned is the
   sliding speed. *)
Theorem C70_disc : forall run solvers l nd nc D Minv Q drel mu alpha v0 beta0 beta lambda,
  honest 0 run -> always_reports run -> ipopt_operator solvers = Ok l -> is_DMD nd (2 * nc) D Minv Q ->
  (forall i, (i < nc)%nat -> 0 <= mu i /\ 0 <= alpha i /\ mu i * alpha i * (mu i * alpha i) < 10 ^ 19) ->
  smooth_ipopt run l nd D Q drel mu alpha v0 beta0 = Ok (beta, lambda) -> forall i, (i < nc)%nat ->
  let s := slip nd D drel (after nd (2 * nc) D Minv v0 beta) in
  best_in_disc (mu i * alpha i) (beta (2 * i)%nat, beta (2 * i + 1)%nat) (s (2 * i)%nat, s (2 * i + 1)%nat)
  /\ lambda i = vnorm (s (2 * i)%nat, s (2 * i + 1)%nat).
Proof. exact smooth_friction. Qed.
(* no other impulses within the discs leave less kinetic energy, counting the work done on moving fixed objects *)
Theorem C70_dissipation : forall run solvers l nd nc D M Minv Q drel mu alpha v0 beta0 beta lambda,
  honest 0 run -> always_reports run -> ipopt_operator solvers = Ok l -> is_DMD nd (2 * nc) D Minv Q -> symmetric nd M -> inverse_of nd M Minv -> positive_semidefinite nd M ->
  (forall i, (i < nc)%nat -> 0 <= mu i /\ 0 <= alpha i /\ mu i * alpha i * (mu i * alpha i) < 10 ^ 19) ->
  smooth_ipopt run l nd D Q drel mu alpha v0 beta0 = Ok (beta, lambda) ->
  forall beta', (forall i, (i < nc)%nat -> in_friction_disc (mu i * alpha i) (beta' (2 * i)%nat, beta' (2 * i + 1)%nat)) ->
  kinetic_energy nd M (after nd (2 * nc) D Minv v0 beta) + rsum (2 * nc) (fun j => drel j * beta j)
  <= kinetic_energy nd M (after nd (2 * nc) D Minv v0 beta') + rsum (2 * nc) (fun j => drel j * beta' j).
Proof. exact smooth_least_energy. Qed.
(* impacts with QL: complementarity, unless QL reported an error *)
Theorem C70_impact_ql : forall run nd n N Minv Q nrel CoR v0 v0F alpha0 alpha, ql_honest run -> is_DMD nd n N Minv Q ->
  lcp_ql run nd N Q nrel CoR v0 v0F alpha0 = Ok alpha ->
  (forall i, (i < n)%nat -> complementary (alpha i) (slip nd N nrel (after nd n N Minv v0F alpha) i + CoR i * slip nd N nrel v0 i))
  \/ exists st u, (st <> 0)%Z
     /\ run {| ql_n := m_cols Q; ql_m := 0; ql_C := coeff Q; ql_c := lcp_b nd N nrel CoR v0 v0F; ql_A := fun _ _ => 0; ql_b := fun _ => 0; ql_xl := fun _ => Some 0; ql_xu := fun _ => None |} alpha0 = (st, alpha, u).
Proof. exact lcp_ql_impact. Qed.
(* friction along one direction with QL *)
Theorem C70_interval_ql : forall run nd n D Minv Q drel mu alpha v0 beta0 beta lambda, ql_honest run -> is_DMD nd n D Minv Q ->
  bound_ql run nd D Q drel mu alpha v0 beta0 = Ok (beta, lambda) ->
  (forall j, (j < n)%nat -> let s := slip nd D drel (after nd n D Minv v0 beta) j in
     best_in_interval (mu j * alpha j) (beta j) s /\ Rabs s <= lambda j /\ (0 < mu j * alpha j -> lambda j = Rabs s))
  \/ exists st u, (st <> 0)%Z
     /\ run {| ql_n := m_cols Q; ql_m := 0; ql_C := coeff Q; ql_c := fun j => mv nd (transpose D) v0 j + drel j; ql_A := fun _ _ => 0; ql_b := fun _ => 0; ql_xl := fun i => Some (- mu i * alpha i); ql_xu := fun i => Some (- (- mu i * alpha i)) |} beta0 = (st, beta, u).
Proof. exact bound_friction. Qed.
(* friction along sampled directions with QL: the conditions of the linearised friction cone *)
Theorem C70_sampled_ql : forall run samples nc nd D Minv Q drel mu alpha v0 beta0 beta lambda, ql_honest run -> is_DMD nd (samples * nc) D Minv Q ->
  linear_ql run samples nc nd D Q drel mu alpha v0 beta0 = Ok (beta, lambda) ->
  (forall i, (i < nc)%nat -> complementary (lambda i) (mu i * alpha i - rsum samples (fun s => beta (samples * i + s)%nat))
     /\ forall s, (s < samples)%nat -> let j := (samples * i + s)%nat in complementary (beta j) (slip nd D drel (after nd (samples * nc) D Minv v0 beta) j + lambda i))
  \/ exists st u, (st <> 0)%Z
     /\ run {| ql_n := m_cols Q; ql_m := nc; ql_C := coeff Q; ql_c := fun j => mv nd (transpose D) v0 j + drel j; ql_A := fun i j => - coeff (disk_constraint samples nc) j i; ql_b := fun i => mu i * alpha i; ql_xl := fun i => Some 0; ql_xu := fun i => None |} beta0 = (st, beta, u).
Proof. exact linear_friction. Qed.
(* the answer is that of the first linear solver that succeeds, and the program ends if none does *)
Theorem C70_fallback : forall run solvers l nd N Q nrel CoR v0 v0F alpha0, ipopt_operator solvers = Ok l ->
  let p := qpnlp Q (lcp_b nd N nrel CoR v0 v0F) alpha0 in
  (exists pre s post x, l = pre ++ s :: post /\ Forall (fails_on run p) pre /\ succeeds_on run p s x /\ lcp_ipopt run l nd N Q nrel CoR v0 v0F alpha0 = Ok x)
  \/ (Forall (fails_on run p) l /\ lcp_ipopt run l nd N Q nrel CoR v0 v0F alpha0 = Exit).
Proof. exact lcp_fallback. Qed.
(* the same for friction, if every run reports how it ended *)
Theorem C70_fallback_friction : forall run solvers l nd D Q drel mu alpha v0 beta0, always_reports run -> ipopt_operator solvers = Ok l ->
  let p := smoothnlp Q (fun j => mv nd (transpose D) v0 j + drel j) (fun i => mu i * mu i * alpha i * alpha i) beta0 in
  (exists pre s post x lambda, l = pre ++ s :: post /\ Forall (fails_on run p) pre /\ succeeds_on run p s x /\ smooth_ipopt run l nd D Q drel mu alpha v0 beta0 = Ok (x, lambda))
  \/ (Forall (fails_on run p) l /\ smooth_ipopt run l nd D Q drel mu alpha v0 beta0 = Exit).
Proof.
  intros run solvers l nd D Q drel mu alpha v0 beta0 Ha Ho p. apply operator_inv in Ho. destruct Ho as (-> & Ne & Nd). unfold smooth_ipopt.
  destruct (loop_flow run (smoothnlp Q (fun j => mv nd (transpose D) v0 j + drel j) (fun i => mu i * mu i * alpha i * alpha i)) beta0 solvers SUCCESS beta0 Ne Nd (or_intror Ha)) as [(pre & s & post & st1 & x1 & H1 & H2 & H3 & L)|[H L]]; rewrite L.
  - left. exists pre, s, post, x1. eexists. split; [exact H1|]. split; [exact H2|]. split; [exact H3|reflexivity].
  - right. split; [exact H|reflexivity].
Qed.
(* exactly the non-empty lists of different known linear solvers are accepted *)
Theorem C70_solver_names : forall l,
  let good := l <> [] /\ NoDup l /\ forall s, In s l -> In s ["ma27"; "ma57"; "mumps"; "ma86"; "ma97"]%string in
  good /\ ipopt_operator l = Ok l \/ ~ good /\ ipopt_operator l = Exit.
Proof. exact operator_ok. Qed.
(* the size of the working space of QL is computed without overflow for up to 26754 unknowns *)
Theorem C70_working_space : forall n, (0 <= n <= 26754)%Z ->
  work_bound n = Ok (Z.quot (3 * (n * n)) 2 + 10 * n + 2)%Z
  /\ forall m, (0 <= m <= n)%Z -> work_linear n m = Ok (Z.quot (3 * n * n) 2 + 10 * n + m + m + 2)%Z.
Proof. intros n H. split; [apply work_fits, H|]. intros m Hm. apply work_linear_fits; assumption. Qed.

(* Finding: and overflows beyond *)
Theorem C70_working_space_refuted : forall n, (26755 <= n <= 100000)%Z -> work_bound n = UB.
Proof. exact work_overflows. Qed.
(* Finding: what QL returns with an error is used like a solution, for the errors that are known; for others the program ends. *)
Theorem C70_ql_errors_refuted : forall run nd N Q nrel CoR v0 v0F alpha0, (Z.of_nat (m_cols Q) <= 26754)%Z ->
  let p := {| ql_n := m_cols Q; ql_m := 0; ql_C := coeff Q; ql_c := lcp_b nd N nrel CoR v0 v0F; ql_A := fun _ _ => 0; ql_b := fun _ => 0; ql_xl := fun _ => Some 0; ql_xu := fun _ => None |} in
  let st := fst (fst (run p alpha0)) in
  lcp_ql run nd N Q nrel CoR v0 v0F alpha0 = if ((st =? 0) || (st =? 1) || (st =? 2) || (st =? 3) || (st =? 5) || (100 <? st))%Z%bool then Ok (snd (fst (run p alpha0))) else Exit.
Proof. exact ql_failure_passed. Qed.
(* Finding: if Ipopt stops before it has anything to report, the friction operator returns the guess it was given as a success;
   the impact operator ends the program. *)
Theorem C70_not_run_refuted : forall solvers l nd D Q drel mu alpha v0 beta0 N nrel CoR v0F, ipopt_operator solvers = Ok l ->
  (exists lambda, smooth_ipopt (fun _ _ => None) l nd D Q drel mu alpha v0 beta0 = Ok (beta0, lambda))
  /\ lcp_ipopt (fun _ _ => None) l nd N Q nrel CoR v0 v0F beta0 = Exit.
Proof.
  intros solvers l nd D Q drel mu alpha v0 beta0 N nrel CoR v0F Ho. split.
  - apply operator_inv in Ho. destruct Ho as (-> & Ne & _). destruct solvers as [|s t]; [congruence|]. eexists. reflexivity.
  - destruct (lcp_fallback (fun _ _ => None) solvers l nd N Q nrel CoR v0 v0F beta0 Ho) as [(pre & s & post & x & _ & _ & [S|S] & _)|[_ E]]; [discriminate|discriminate|exact E].
Qed.
(* Finding: solveQP announces that it exits when every linear solver failed, and returns what the last one left *)
Theorem C70_solveQP_refuted : forall solvers Q b c beta x, solvers <> [] ->
  let run : ipopt_run := fun _ _ => Some (OTHER_FAILURE 0, x) in
  (forall p s, fails_on run p s) /\ exists lambda, smooth_solveQP run solvers Q b c beta = Ok (x, lambda).
Proof.
  intros solvers Q b c beta x Ne run. split; [intros p s y; unfold run; split; discriminate|]. unfold smooth_solveQP. exists (rescaled_lambda Q b x).
  assert (L : forall last l st y, l <> [] \/ y = x -> exists st1, solver_loop run (smoothnlp Q b (fun i => c i * c i)) accept_qp false last beta l st y = Ok (st1, x)).
  { intros last. induction l as [|s t IH]; intros st y H; [destruct H as [H|H]; [congruence|subst y; exists st; reflexivity]|]. cbn [solver_loop]. unfold run at 1. cbn [accept_qp]. destruct (String.eqb s last); apply IH; right; reflexivity. }
  destruct (L (List.last solvers EmptyString) solvers SUCCESS beta (or_introl Ne)) as [st1 E]. rewrite E. reflexivity.
Qed.
(* Finding: where a zero on the diagonal is not stored the second derivatives are wrong *)
Theorem C70_missing_diagonal_refuted : valid_csc gap2 /\ m_rows gap2 = m_cols gap2 /\ symmetric (m_cols gap2) (coeff gap2) /\ forall A C beta, ~ states_derivatives (smoothnlp gap2 A C beta).
Proof. exact gap_wrong. Qed.
(* Finding: for a sliding contact with no normal impulse the answer is no friction, but it has no multipliers, since the bound is
   squared: an exact solver fails and the program ends. *)
Theorem C70_no_multipliers_refuted : forall run solvers l beta0, honest 0 run -> always_reports run -> ipopt_operator solvers = Ok l ->
  best_in_disc 0 (0, 0) (slip 2 eye zero_ (after 2 2 eye eye slide_v zero_) 0%nat, slip 2 eye zero_ (after 2 2 eye eye slide_v zero_) 1%nat)
  /\ smooth_ipopt run l 2 eye unit2 zero_ (fun _ => / 2) zero_ slide_v beta0 = Exit.
Proof. exact no_multipliers. Qed.
(* Finding: a bound of 10^10 on the friction impulse is not enforced, since its square is taken for infinity. *)
Theorem C70_large_bound_refuted : let run := guess fast_beta zero_ zero_ zero_ zero_ in
  honest 0 run /\ always_reports run /\ (exists lambda, smooth_ipopt run ["mumps"%string] 2 eye unit2 zero_ (fun _ => 1) (fun _ => 10 ^ 10) fast_v zero_ = Ok (fast_beta, lambda))
  /\ ~ in_friction_disc (1 * 10 ^ 10) (fast_beta 0%nat, fast_beta 1%nat).
Proof. exact bound_dropped. Qed.

(* cases: honest solvers that solve a ball stopped by the floor and a sliding body slowed by friction *)
Example C70_case_impact : honest 0 stop_run /\ ipopt_operator ["mumps"%string] = Ok ["mumps"%string] /\ is_DMD 1 1 eye eye unit1
  /\ lcp_ipopt stop_run ["mumps"%string] 1 eye unit1 zero_ zero_ (fun _ => -1) (fun _ => -1) zero_ = Ok (fun _ => 1).
Proof. split; [apply guess_honest|]. split; [reflexivity|]. split; [exact unit1_dmd|exact stopped]. Qed.
Example C70_case_disc : honest 0 slow_run /\ always_reports slow_run /\ ipopt_operator ["ma27"; "mumps"]%string = Ok ["ma27"; "mumps"]%string /\ is_DMD 2 (2 * 1) eye eye unit2
  /\ smooth_ipopt slow_run ["ma27"; "mumps"]%string 2 eye unit2 zero_ (fun _ => / 2) (fun _ => 1) slide_v zero_
     = Ok (slow_beta, rescaled_lambda unit2 (fun j => mv 2 (transpose eye) slide_v j + zero_ j) slow_beta).
Proof. split; [apply guess_honest|]. split; [apply guess_honest|]. split; [reflexivity|]. split; [exact unit2_dmd|exact slowed]. Qed.
Example C70_case_problem : valid_csc unit2 /\ m_rows unit2 = m_cols unit2 /\ symmetric (m_cols unit2) (coeff unit2) /\ Nat.even (m_cols unit2) = true /\ forall i, (i < m_cols unit2)%nat -> exists v, stored unit2 i i v.
Proof. exact unit2_valid. Qed.
Example C70_case_interval : ql_honest (ql_guess slow_beta bound_u) /\ is_DMD 1 1 eye eye unit1
  /\ bound_ql (ql_guess slow_beta bound_u) 1 eye unit1 zero_ (fun _ => / 2) (fun _ => 1) slide_v zero_ = Ok (slow_beta, fun i => Rmax (bound_u i) (bound_u (1 + i)%nat)).
Proof. split; [apply ql_guess_honest|]. split; [exact unit1_dmd|exact bound_slowed]. Qed.
Example C70_case_sampled : ql_honest (ql_guess pm_beta pm_u) /\ is_DMD 1 (2 * 1) pm_D eye pm_Q
  /\ linear_ql (ql_guess pm_beta pm_u) 2 1 1 pm_D pm_Q zero_ (fun _ => / 2) (fun _ => 1) slide_v zero_ = Ok (pm_beta, pm_u).
Proof. split; [apply ql_guess_honest|]. split; [exact pm_dmd|exact pm_slowed]. Qed.

Print Assumptions C70_impact_problem.
Print Assumptions C70_friction_problem.
Print Assumptions C70_impact.
Print Assumptions C70_disc.
Print Assumptions C70_dissipation.
Print Assumptions C70_impact_ql.
Print Assumptions C70_interval_ql.
Print Assumptions C70_sampled_ql.
Print Assumptions C70_fallback.
Print Assumptions C70_fallback_friction.
Print Assumptions C70_solver_names.
Print Assumptions C70_working_space.
Print Assumptions C70_working_space_refuted.
Print Assumptions C70_ql_errors_refuted.
Print Assumptions C70_not_run_refuted.
Print Assumptions C70_solveQP_refuted.
Print Assumptions C70_missing_diagonal_refuted.
Print Assumptions C70_no_multipliers_refuted.
Print Assumptions C70_large_bound_refuted.
