(* C41: coupled impact and friction. *)
From Coq Require Import Reals Arith Bool Lra Lia.
From Verif Require Import Ccd_Model Lin_Model Lin_Proofs Geom_Circle Quad_Model Quad_Proofs Apgd_Spec Apgd_Ex Resid_Spec Stagger_Model Stagger_Spec Stagger_Proofs.
Open Scope R_scope.

(* For any operators and any residual: the velocity returned is the initial one plus the effect of the impulses returned, the
   error returned is the residual of the impulses returned, and success means that it is within the tolerance. *)
Theorem C41_honest : forall nd nc nb N D Minv v0 tol wa wb impact friction residual dim ns bases max_iters f0 alpha0 beta0,
  let r := sp_solve nd nc nb N D Minv v0 tol wa wb impact friction residual dim ns bases max_iters f0 alpha0 beta0 in
  (forall k, r_v r k = velocity_after nd nc nb N D Minv v0 (r_alpha r) (r_beta r) k)
  /\ (forall k, (k < nd)%nat -> r_f r k = rsum nb (fun j => D k j * r_beta r j))
  /\ r_error r = residual (contact_force dim ns bases (r_alpha r) (r_beta r))
  /\ (r_ok r = true <-> r_error r <= tol).
Proof.
  intros. destruct (solve_answer nd nc nb N D Minv v0 tol wa wb impact friction residual dim ns bases max_iters f0 alpha0 beta0) as (A & B & C & E & _).
  fold r in A, B, C, E. split; [exact B|]. split; [exact A|]. split; [exact C|exact E].
Qed.
(* The friction impulses are those of the first pass within the tolerance or, if there is none, of the pass with the least
   residual. *)
Theorem C41_best_pass : forall nd nc nb N D Minv v0 tol wa wb impact friction residual dim ns bases max_iters f0 alpha0 beta0,
  let r := sp_solve nd nc nb N D Minv v0 tol wa wb impact friction residual dim ns bases max_iters f0 alpha0 beta0 in
  let pass k := sp_trace nd nc nb N D Minv v0 wa wb impact friction (S k) (mkSp alpha0 beta0 f0) in
  let error k := residual (contact_force dim ns bases (s_alpha (pass k)) (s_beta (pass k))) in
  max_iters <> 0%nat ->
  exists k, (k < max_iters)%nat /\ r_beta r = s_beta (pass k) /\ (error k <= tol \/ forall j, (j < max_iters)%nat -> error k <= error j).
Proof.
  intros nd nc nb N D Minv v0 tol wa wb impact friction residual dim ns bases mx f0 alpha0 beta0 r pass error Nz.
  destruct (solve_answer nd nc nb N D Minv v0 tol wa wb impact friction residual dim ns bases mx f0 alpha0 beta0) as (_ & _ & _ & _ & _ & T).
  destruct (T Nz) as (k & K1 & K2 & K3). fold r in K2, K3. exists k. split; [exact K1|]. split; [exact K2|]. unfold sp_error_of in K3. rewrite K2 in K3. exact K3.
Qed.
(* If the impact operator keeps its promise then so does the coupled solver, also when it reports failure: in the velocity
   returned no contact approaches faster than restitution allows, up to the tolerance of the operator. *)
Theorem C41_non_penetrating : forall nd nc nb N D Minv v0 tol wa wb impact friction residual dim ns bases max_iters f0 alpha0 beta0 nrel CoR tolN,
  let r := sp_solve nd nc nb N D Minv v0 tol wa wb impact friction residual dim ns bases max_iters f0 alpha0 beta0 in
  (forall call vF guess, resolves_impact nd nc N Minv nrel CoR v0 tolN vF (impact call vF guess)) ->
  forall i, (i < nc)%nat ->
    nearly_complementary tolN (r_alpha r i) (normal_velocity nd N nrel (r_v r) i + CoR i * normal_velocity nd N nrel v0 i).
Proof. intros. apply solve_non_penetrating; assumption. Qed.
(* what the friction operator promises holds for the impulses returned and the impact impulses of one of the passes *)
Theorem C41_friction_of_a_pass : forall nd nc nb N D Minv v0 tol wa wb impact friction residual dim ns bases max_iters f0 alpha0 beta0 (promise : dvec -> dvec -> Prop),
  let r := sp_solve nd nc nb N D Minv v0 tol wa wb impact friction residual dim ns bases max_iters f0 alpha0 beta0 in
  max_iters <> 0%nat -> (forall call v alpha guess, promise alpha (friction call v alpha guess)) ->
  exists call vF guess, promise (impact call vF guess) (r_beta r).
Proof. intros. apply solve_friction_bound; assumption. Qed.
(* the forces handed to the residual are the impulses along the contact frame: no component is lost or exchanged *)
Theorem C41_contact_force : forall dim bases alpha beta c, (0 < dim)%nat -> orthonormal_block dim bases c ->
  rsum dim (fun r => bases r (dim * c)%nat * contact_force dim (dim - 1) bases alpha beta (dim * c + r)%nat) = alpha c
  /\ forall s, (s < dim - 1)%nat ->
     rsum dim (fun r => bases r (dim * c + S s)%nat * contact_force dim (dim - 1) bases alpha beta (dim * c + r)%nat) = beta ((dim - 1) * c + s)%nat.
Proof. exact contact_force_recovers. Qed.
(* the one-pass solver: velocity and impulses agree *)
Theorem C41_grr_velocity : forall nd nc nb N D Minv v0 impact friction f0 k,
  let r := grr_friction_solve nd nc nb N D Minv v0 impact friction f0 in
  r_v r k = velocity_after nd nc nb N D Minv v0 (r_alpha r) (r_beta r) k.
Proof. reflexivity. Qed.
(* Finding: the one-pass solver reports success with error 0 whatever its operators return, here one that lets the bodies
   approach each other as before. *)
Theorem C41_grr_success_refuted : exists impact friction,
  let r := grr_friction_solve 1 1 1 one_N one_N one_Minv one_v0 impact friction zero_v in
  r_ok r = true /\ r_error r = 0 /\ normal_velocity 1 one_N zero_v (r_v r) 0 = -1.
Proof.
  exists (fun _ _ _ => zero_v), (fun _ _ _ _ => zero_v). split; [reflexivity|]. split; [reflexivity|].
  unfold normal_velocity, grr_friction_solve, mv, one_N, one_Minv, one_v0, zero_v. cbn [r_v rsum]. ring.
Qed.

(* Finding: the last impact solve may lower the impact impulses, and nothing lowers the friction impulses with them. A disc
   of unit mass and inertia that slides on a plane, one pass with exact operators and coefficient of friction 1: the friction
   impulse returned is twice the impact impulse returned. *)
Definition slide_N : mat := fun k _ => match k with O => 0 | _ => 1 end.
Definition slide_D : mat := fun k _ => match k with O => 1 | S O => 0 | _ => 1 end.
Definition slide_v0 : dvec := fun k => match k with O => -10 | S O => -2 | _ => 0 end.
Definition slide_impact (call : nat) (vF guess : dvec) : dvec := fun _ => Rmax 0 (- (vF 1%nat + vF 2%nat) / 2).
Definition slide_friction (call : nat) (v alpha guess : dvec) : dvec :=
  fun _ => Rmax (- alpha 0%nat) (Rmin (alpha 0%nat) (- (v 0%nat + v 2%nat) / 2)).
Lemma slide_impact_exact : forall call vF guess, resolves_impact 3 1 slide_N eye zero_v zero_v slide_v0 0 vF (slide_impact call vF guess).
Proof.
  intros call vF guess i Hi. assert (i = 0%nat) by lia. subst i. unfold nearly_complementary, normal_velocity, eye, zero_v. cbn [rsum Nat.eqb]. unfold slide_N, slide_impact.
  split; [apply Rmax_l|]. set (a := Rmax 0 (- (vF 1%nat + vF 2%nat) / 2)). pose proof (Rmax_l 0 (- (vF 1%nat + vF 2%nat) / 2)). pose proof (Rmax_r 0 (- (vF 1%nat + vF 2%nat) / 2)). fold a in H, H0.
  split; [lra|]. destruct (Rle_dec (- (vF 1%nat + vF 2%nat) / 2) 0) as [K|K].
  - left. unfold a. rewrite Rmax_left by exact K. lra.
  - right. assert (a = - (vF 1%nat + vF 2%nat) / 2) by (unfold a; apply Rmax_right; lra). lra.
Qed.
Lemma slide_friction_exact : forall call v alpha guess, 0 <= alpha 0%nat ->
  best_in_interval (alpha 0%nat) (slide_friction call v alpha guess 0%nat)
    (rsum 3 (fun k => slide_D k 0%nat * (v k + rsum 3 (fun l => eye k l * (slide_D l 0%nat * slide_friction call v alpha guess 0%nat))))).
Proof.
  intros call v alpha guess Ha. set (b := slide_friction call v alpha guess 0%nat).
  assert (G : rsum 3 (fun k => slide_D k 0%nat * (v k + rsum 3 (fun l => eye k l * (slide_D l 0%nat * b)))) = v 0%nat + v 2%nat + 2 * b).
  { unfold eye. cbn [rsum Nat.eqb]. unfold slide_D. ring. }
  rewrite G. unfold b, slide_friction. clear G b. set (t := - (v 0%nat + v 2%nat) / 2). replace (v 0%nat + v 2%nat) with (- (2 * t)) by (unfold t; field). clearbody t.
  generalize dependent (alpha 0%nat). intros a Ha. unfold best_in_interval. unfold Rmax, Rmin. destruct (Rle_dec a t) as [K|K].
  - destruct (Rle_dec (- a) a) as [K2|K2]; [|lra]. split; [rewrite Rabs_pos_eq; lra|]. intros z Hz. apply abs_inv in Hz. replace ((- (2 * t) + 2 * a) * (z - a)) with (2 * ((t - a) * (a - z))) by ring.
    assert (0 <= (t - a) * (a - z)) by (apply Rmult_le_pos; lra). lra.
  - destruct (Rle_dec (- a) t) as [K2|K2].
    + split; [apply Rabs_le; lra|]. intros z _. replace (- (2 * t) + 2 * t) with 0 by ring. lra.
    + split; [rewrite Rabs_left1; lra|]. intros z Hz. apply abs_inv in Hz. assert (0 <= 2 * ((- a - t) * (z + a))) by (apply Rmult_le_pos; [lra|]; apply Rmult_le_pos; lra). lra.
Qed.
Theorem C41_friction_cone_refuted :
  let r := sp_solve 3 1 1 slide_N slide_D eye slide_v0 0 false false slide_impact slide_friction (fun _ => 1) 2 1 eye 1 zero_v zero_v zero_v in
  r_alpha r 0%nat = / 2 /\ r_beta r 0%nat = 1.
Proof.
  unfold sp_solve. cbn [sp_loop]. cbv zeta. unfold sp_error_of. destruct (Rltb_spec 0 1) as [_|K]; [|lra]. cbn [r_alpha r_beta fst snd s_f s_beta s_alpha].
  unfold sp_pass. cbv zeta. cbn [s_f s_alpha s_beta].
  set (a1 := sp_impact 3 eye slide_v0 false slide_impact 0 zero_v zero_v).
  assert (A1 : forall i, a1 i = 1).
  { intros i. unfold a1, sp_impact, slide_impact, mv, eye, zero_v. cbn [rsum Nat.eqb]. unfold slide_v0. rewrite Rmax_right by lra. lra. }
  clearbody a1. set (b1 := sp_friction 3 1 slide_N eye slide_v0 false slide_friction 0 a1 zero_v).
  assert (B1 : forall i, b1 i = 1).
  { intros i. unfold b1, sp_friction, slide_friction, mv, eye. cbn [rsum Nat.eqb]. rewrite !A1. unfold slide_v0, slide_N. rewrite Rmin_left by lra. rewrite Rmax_right by lra. reflexivity. }
  clearbody b1. split; [|apply B1]. unfold sp_impact, slide_impact, mv, eye. cbn [rsum Nat.eqb]. rewrite !B1. unfold slide_v0, slide_D. rewrite Rmax_right by lra. lra.
Qed.

(* the disc also shows that the hypothesis on the impact operator can be met, with a moving contact *)
Example C41_case_impact : (forall call vF guess, resolves_impact 3 1 slide_N eye zero_v zero_v slide_v0 0 vF (slide_impact call vF guess))
  /\ normal_velocity 3 slide_N zero_v slide_v0 0 = -2.
Proof. split; [exact slide_impact_exact|]. unfold normal_velocity, slide_N, slide_v0, zero_v. cbn [rsum]. ring. Qed.
Example C41_case_frame : orthonormal_block 2 (fun r k => eye r (k mod 2)) 3.
Proof. intros i j Hi Hj. destruct i as [|[|]], j as [|[|]]; try lia; cbn; lra. Qed.

Print Assumptions C41_honest.
Print Assumptions C41_best_pass.
Print Assumptions C41_non_penetrating.
Print Assumptions C41_friction_of_a_pass.
Print Assumptions C41_contact_force.
Print Assumptions C41_grr_velocity.
Print Assumptions C41_grr_success_refuted.
Print Assumptions C41_friction_cone_refuted.
