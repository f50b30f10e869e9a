(* C39, C54: the accelerated projected gradient solver, and impacts resolved as a linear complementarity problem. *)
From Coq Require Import Reals Arith Lra Lia.
From Verif Require Import Ccd_Model Lin_Model Rot_Alg Quad_Model Resid_Model Resid_Spec Apgd_Model Apgd_Spec Apgd_Proofs Apgd_Thms Apgd_Ex.
Open Scope R_scope.

(* The point returned is feasible (it is a projection), is one of the points visited, has the residual that is reported,
   which is the least among the points visited and no more than that of the initial guess; success is reported exactly when
   it is within the tolerance, and failure only after all the iterations. *)
Theorem C39_best_iterate : forall project term tol n A b fuel max_iters x0 bst st it,
  (0 < max_iters)%nat -> apgd project term tol n A b fuel max_iters x0 = Finished bst st it ->
  exists r x, bst = Some (r, x) /\ r = term x (qp_gradient n A b x)
    /\ (exists w, x = project w)
    /\ (st = Success <-> r <= tol) /\ (st = Success -> (it < max_iters)%nat) /\ (st = MaxItersExceeded -> it = max_iters)
    /\ r <= term (project x0) (qp_gradient n A b (project x0))
    /\ (exists k, (k < max_iters)%nat /\ (k <= it)%nat /\ iterate project n A b fuel k (first_iter project n A x0) = Some x)
    /\ (forall k, (k < max_iters)%nat -> (k <= it)%nat ->
          exists xk, iterate project n A b fuel k (first_iter project n A x0) = Some xk /\ r <= term xk (qp_gradient n A b xk)).
Proof. exact apgd_returns_best. Qed.
(* allowing more iterations never gives a worse answer, and does not change a successful one *)
Theorem C39_larger_limit : forall project term tol n A b fuel m1 m2 x0 r1 x1 s1 i1 bst s2 i2, (m1 <= m2)%nat ->
  apgd project term tol n A b fuel m1 x0 = Finished (Some (r1, x1)) s1 i1 ->
  apgd project term tol n A b fuel m2 x0 = Finished bst s2 i2 ->
  (exists r2 x2, bst = Some (r2, x2) /\ r2 <= r1) /\ (s1 = Success -> bst = Some (r1, x1) /\ s2 = Success /\ i2 = i1).
Proof. exact apgd_larger_limit. Qed.
(* For a symmetric matrix, unless the first Lipschitz estimate is zero, the solver ends, whatever the tolerance: the
   backtracking loop cannot run for ever. *)
Theorem C39_ends : forall project term tol n A b max_iters x0, symmetric n A ->
  (exists i, (i < n)%nat /\ mv n A (fun j => project x0 j - 1) i <> 0) ->
  exists fuel bst st it, forall extra, apgd project term tol n A b (fuel + extra) max_iters x0 = Finished bst st it.
Proof. exact apgd_ends. Qed.
(* the momentum weights stay between 0 and 1 *)
Theorem C39_momentum : forall t, 0 < t <= 1 ->
  0 < new_theta t < t /\ new_theta t * new_theta t = (1 - new_theta t) * (t * t) /\ 0 <= new_beta t (new_theta t) < 1.
Proof. exact theta_facts. Qed.
(* the projection used for impacts is the nearest vector without negative entries *)
Theorem C39_projection : forall n w, (forall i, 0 <= nonneg_project w i)
  /\ (forall i, 0 <= w i -> nonneg_project w i = w i)
  /\ (forall z, (forall i, (i < n)%nat -> 0 <= z i) ->
        rsum n (fun i => (w i - nonneg_project w i) * (w i - nonneg_project w i)) <= rsum n (fun i => (w i - z i) * (w i - z i))).
Proof. intros n w. split; [apply nonneg_project_nn|]. split; [apply nonneg_project_id|]. intros z Hz. exact (nonneg_project_closest n w z Hz). Qed.

(* Finding: with an iteration limit of zero the initial guess is replaced by an empty vector. *)
Theorem C39_no_iterations_refuted : forall project term tol n A b fuel x0,
  apgd project term tol n A b fuel 0 x0 = Finished None MaxItersExceeded 0.
Proof. exact apgd_no_iterations. Qed.
(* Finding: a ball between two parallel walls. The problem has a solution, but from a cold start the Lipschitz estimate is
   zero and the first step divides by it. *)
Theorem C39_parallel_walls_refuted : forall fuel max_iters tol, (0 < max_iters)%nat -> 0 <= tol < 1 ->
  (forall i, (i < 2)%nat -> complementary (match i with O => 1 | _ => 0 end)
     (normal_velocity 1 walls_N zero_v (impact_velocity 1 2 walls_N one_Minv one_v0 (fun i => match i with O => 1 | _ => 0 end)) i))
  /\ lcp_apgd fuel tol max_iters 1 2 walls_N (impact_Q 1 walls_N one_Minv) zero_v zero_v one_v0 one_v0 zero_v = NotFinite.
Proof. exact walls_not_finite. Qed.

(* ---------- C54 ---------- *)
(* After a successful solve no contact pulls, every contact leaves at least as fast as restitution demands, and a contact
   that pushes leaves no faster, each up to the tolerance. Restitution is measured on v0, the impulses act on v0F (the
   velocity after the unconstrained step; the impact maps pass the same velocity twice). *)
Theorem C54_impact : forall fuel tol max_iters nd n N Minv nrel CoR v0 v0F alpha0 r alpha it,
  symmetric nd Minv -> 0 <= tol -> (0 < max_iters)%nat ->
  lcp_apgd fuel tol max_iters nd n N (impact_Q nd N Minv) nrel CoR v0 v0F alpha0 = Finished (Some (r, alpha)) Success it ->
  forall i, (i < n)%nat ->
  let before := normal_velocity nd N nrel v0 i in
  let after := normal_velocity nd N nrel (impact_velocity nd n N Minv v0F alpha) i in
  0 <= alpha i /\ - CoR i * before - tol <= after /\ (alpha i <= tol \/ after <= - CoR i * before + tol).
Proof.
  intros fuel tol mx nd n N Minv nrel CoR v0 v0F alpha0 r alpha it Sy Ht Hm E i Hi before after.
  destruct (lcp_apgd_impact _ _ _ _ _ _ _ _ _ _ _ _ _ _ _ Sy Ht Hm E i Hi) as (K1 & K2 & K3). fold before after in K2, K3.
  split; [exact K1|]. split; [lra|]. destruct K3 as [K3|K3]; [left; exact K3|right; lra].
Qed.
(* even when the solver gives up no contact pulls *)
Theorem C54_pushes : forall fuel tol max_iters nd n N Q nrel CoR v0 v0F alpha0 r alpha st it, (0 < max_iters)%nat ->
  lcp_apgd fuel tol max_iters nd n N Q nrel CoR v0 v0F alpha0 = Finished (Some (r, alpha)) st it -> forall i, 0 <= alpha i.
Proof. exact lcp_apgd_pushes. Qed.
(* With one coefficient of restitution and fixed obstacles at rest, impulses within the tolerance of complementarity do not
   add kinetic energy, except in proportion to the tolerance. *)
Theorem C54_energy : forall nd n N M Minv c v0 alpha tol,
  symmetric nd M -> symmetric nd Minv -> inverse_of nd M Minv -> positive_semidefinite nd Minv -> 0 <= c <= 1 -> 0 <= tol ->
  (forall i, (i < n)%nat -> nearly_complementary tol (alpha i)
     (normal_velocity nd N (fun _ => 0) (impact_velocity nd n N Minv v0 alpha) i + c * normal_velocity nd N (fun _ => 0) v0 i)) ->
  kinetic_energy nd M (impact_velocity nd n N Minv v0 alpha) <=
  kinetic_energy nd M v0 + tol * rsum n (fun i => alpha i
     + Rabs (normal_velocity nd N (fun _ => 0) (impact_velocity nd n N Minv v0 alpha) i + c * normal_velocity nd N (fun _ => 0) v0 i)).
Proof. exact impact_energy. Qed.
(* impulses within the tolerance of complementarity nearly minimise the quadratic among all non-negative ones *)
Theorem C54_minimum : forall n A b tol x z, symmetric n A -> positive_semidefinite n A -> 0 <= tol ->
  (forall i, (i < n)%nat -> nearly_complementary tol (x i) (rsum n (fun j => A i j * x j) + b i)) ->
  (forall i, (i < n)%nat -> 0 <= z i) ->
  quadratic n A b x <= quadratic n A b z + tol * rsum n (fun i => x i + z i + Rabs (rsum n (fun j => A i j * x j) + b i)).
Proof. exact near_minimum. Qed.
(* Finding: with a different coefficient per contact, as a script can set them, an exact solution can add energy. *)
Theorem C54_mixed_restitution_refuted :
  (forall i, (i < 2)%nat -> complementary (wedge_alpha i)
     (normal_velocity 2 wedge_N zero_v (impact_velocity 2 2 wedge_N eye wedge_v0 wedge_alpha) i
      + wedge_cor i * normal_velocity 2 wedge_N zero_v wedge_v0 i))
  /\ kinetic_energy 2 eye wedge_v0 + 1 <= kinetic_energy 2 eye (impact_velocity 2 2 wedge_N eye wedge_v0 wedge_alpha).
Proof. exact wedge_gains_energy. Qed.

(* cases: a solve that succeeds after one step, and masses that meet the hypotheses of the energy theorem *)
Example C39_case_run : exists r x, lcp_apgd 0 0 5 1 1 one_N (impact_Q 1 one_N one_Minv) zero_v zero_v one_v0 one_v0 zero_v
  = Finished (Some (r, x)) Success 1 /\ x 0%nat = 1.
Proof. exact one_ball. Qed.
Example C54_case_masses : forall nd, symmetric nd eye /\ inverse_of nd eye eye /\ positive_semidefinite nd eye.
Proof. exact eye_ok. Qed.
Example C39_case_ends : exists i, (i < 1)%nat /\ mv 1 (impact_Q 1 one_N one_Minv) (fun j => nonneg_project zero_v j - 1) i <> 0.
Proof.
  exists 0%nat. split; [lia|]. unfold mv. cbn [rsum]. rewrite one_Q. rewrite nonneg_project_id by (unfold zero_v; lra). unfold zero_v. lra.
Qed.

Print Assumptions C39_best_iterate.
Print Assumptions C39_larger_limit.
Print Assumptions C39_ends.
Print Assumptions C39_momentum.
Print Assumptions C39_projection.
Print Assumptions C39_no_iterations_refuted.
Print Assumptions C39_parallel_walls_refuted.
Print Assumptions C54_impact.
Print Assumptions C54_pushes.
Print Assumptions C54_energy.
Print Assumptions C54_minimum.
Print Assumptions C54_mixed_restitution_refuted.
