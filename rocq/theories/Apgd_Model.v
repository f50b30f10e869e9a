(* The accelerated projected gradient descent solver, over the reals.
   Models /repo/scisim/Math/QPSolvers/ProjectionSolvers.h:30-131 and ProjectionSolvers.cpp,
   /repo/scisim/Math/QPSolvers/SparseMatrixVectorOperators.cpp:11-43 (the Eigen operators; the MKL ones compute the same
   products), and the LCP impact operator /repo/scisim/ConstrainedMaps/ImpactMaps/LCPOperatorAPGD.cpp.
   Doubles are reals. Where a double would become infinite or NaN, which is where the code's own assertions on Lk and x0
   fail, the model stops with NotFinite. *)
From Coq Require Import Reals Arith Bool.
From Verif Require Import Ccd_Model Lin_Model Quad_Model Resid_Model.
Open Scope R_scope.

(* computeNewTheta, computeNewBeta, ProjectionSolvers.cpp:3-12 *)
Definition new_theta (theta0 : R) : R := / 2 * (- theta0 * theta0 + theta0 * sqrt (theta0 * theta0 + 4)).
Definition new_beta (theta0 theta1 : R) : R := theta0 * (1 - theta0) / (theta0 * theta0 + theta1).

(* ObjectiveEigenColumnMajor, GradientEigenColumnMajor, MultiplyEigenColumnMajor, SparseMatrixVectorOperators.cpp:11-43 *)
Definition qp_objective (n : nat) (A : mat) (b x : dvec) : R := dotn n x (fun i => / 2 * mv n (transpose A) x i + b i).
Definition qp_gradient (n : nat) (A : mat) (b x : dvec) : dvec := fun i => mv n (transpose A) x i + b i.

(* ProjectionSolveStatus, ProjectionSolvers.h:10-14 *)
Inductive status := Success | MaxItersExceeded.
(* What the call leaves behind: the best residual and iterate (None: infinity and an empty vector), the status and the
   number of iterations. Backtracking: the inner loop was still running after the allowed number of passes. *)
Inductive apgd_result := Finished (best : option (R * dvec)) (s : status) (iterations : nat) | NotFinite | Backtracking.

Section Apgd.
Variable project : dvec -> dvec.
Variable term : dvec -> dvec -> R.
Variable tol : R.
Variable n : nat.
Variable A : mat.
Variable b : dvec.

(* x0, y0, theta0 and Lk at the head of the loop; None: 0 / 0 *)
Record iter := mkIter { ix : dvec; iy : dvec; itheta : R; iL : option R }.

(* ProjectionSolvers.h:45-61 *)
Definition first_iter (x : dvec) : iter :=
  let x0 := project x in
  let d := fun i => x0 i - 1 in
  mkIter x0 x0 1
    (if Rltb 0 (dotn n d d) then Some (sqrt (dotn n (mv n (transpose A) d) (mv n (transpose A) d)) / sqrt (dotn n d d)) else None).

(* x1 = y0 - tk * g; project( x1 ), ProjectionSolvers.h:89-90, 104-106 *)
Definition trial (g y0 : dvec) (L : R) : dvec := project (fun i => y0 i - / L * g i).
(* while( true ), ProjectionSolvers.h:91-107 *)
Fixpoint backtrack (fuel : nat) (g y0 : dvec) (L : R) : option (R * dvec) :=
  let x1 := trial g y0 L in
  let d := fun i => x1 i - y0 i in
  if Rltb (dotn n g d + / 2 * L * dotn n d d) (qp_objective n A b x1 - qp_objective n A b y0)
  then match fuel with O => None | S k => backtrack k g y0 (2 * L) end
  else Some (L, x1).

(* the rest of the loop body, ProjectionSolvers.h:86-125 *)
Inductive stepped := Next (s : iter) | StepNotFinite | StepBacktracking.
Definition apgd_step (fuel : nat) (s : iter) : stepped :=
  match iL s with
  | None => StepNotFinite
  | Some L =>
      if Rltb 0 L then
        let g := qp_gradient n A b (iy s) in
        match backtrack fuel g (iy s) L with
        | None => StepBacktracking
        | Some (L1, x1) =>
            let theta1 := new_theta (itheta s) in
            let beta1 := new_beta (itheta s) theta1 in
            let dx := fun i => x1 i - ix s i in
            if Rltb 0 (dotn n g dx)
            then Next (mkIter x1 x1 1 (Some (9 / 10 * L1)))
            else Next (mkIter x1 (fun i => x1 i + beta1 * dx i) theta1 (Some (9 / 10 * L1)))
        end
      else StepNotFinite
  end.

(* ProjectionSolvers.h:69-84: the better of the best point so far and x0 *)
Definition better (best : option (R * dvec)) (x : dvec) : R * dvec :=
  let r := term x (qp_gradient n A b x) in
  match best with
  | Some (rb, xb) => if Rltb r rb then (r, x) else (rb, xb)
  | None => (r, x)
  end.

(* for( iteration = 0; iteration < max_iters; ++iteration ), ProjectionSolvers.h:67-130; left = max_iters - iteration *)
Fixpoint apgd_loop (fuel left iteration : nat) (s : iter) (best : option (R * dvec)) : apgd_result :=
  match left with
  | O => Finished best MaxItersExceeded iteration
  | S l =>
      let best1 := better best (ix s) in
      if Rltb tol (fst best1) then
        match apgd_step fuel s with
        | Next s1 => apgd_loop fuel l (S iteration) s1 (Some best1)
        | StepNotFinite => NotFinite
        | StepBacktracking => Backtracking
        end
      else Finished (Some best1) Success iteration
  end.

(* APGD, ProjectionSolvers.h:30-131; fuel bounds the passes of each inner loop *)
Definition apgd (fuel max_iters : nat) (x0 : dvec) : apgd_result := apgd_loop fuel max_iters 0 (first_iter x0) None.
End Apgd.
Arguments mkIter ix iy itheta iL : rename.

(* NonNegativeProjection, NonNegativeProjection.cpp:3-12 *)
Definition nonneg_project (x : dvec) : dvec := fun i => if Rltb (x i) 0 then 0 else x i.

(* computeLCPQPLinearTerm, /repo/scisim/ConstrainedMaps/ImpactMaps/ImpactOperatorUtilities.cpp:50-55;
   N has nd rows, one per degree of freedom, and a column per contact *)
Definition lcp_b (nd : nat) (N : mat) (nrel CoR v0 v0F : dvec) : dvec :=
  fun i => mv nd (transpose N) v0F i + nrel i + CoR i * (mv nd (transpose N) v0 i + nrel i).
(* LCPOperatorAPGD::flow, LCPOperatorAPGD.cpp:26-44 *)
Definition lcp_apgd (fuel : nat) (tol : R) (max_iters nd n : nat) (N Q : mat) (nrel CoR v0 v0F alpha : dvec) : apgd_result :=
  apgd nonneg_project (min_map n) tol n Q (lcp_b nd N nrel CoR v0 v0F) fuel max_iters alpha.

(* ImpactMap.cpp:109-134: Q, and the velocity after the impact *)
Definition impact_Q (nd : nat) (N Minv : mat) : mat := mm nd (transpose N) (mm nd Minv N).
Definition impact_velocity (nd n : nat) (N Minv : mat) (v0 alpha : dvec) : dvec := fun k => v0 k + mv nd Minv (mv n N alpha) k.
