(* C20: generalised reflection resolves all contacts. *)
From Coq Require Import List Reals Arith Lia Lra.
From Verif Require Import Outcome Lin_Model ContactBall_Model ContactRb3_Model Impact_Spec Impact_Inst
  Reflect_Model Reflect_Spec Reflect_Proofs Reflect_Thms Reflect_Ex.
Import ListNotations.
Open Scope R_scope.

(* Whatever the inner operator and however many passes it takes: when generalised reflection returns alpha, there is one
   impulse per contact and the velocity v0 + Minv N alpha separates every contact up to the tolerance. If the inner operator
   returns non-negative impulses, so does the reflection. If the inner operator solves its complementarity problems and the
   coefficients of restitution are in [0,1], the kinetic energy relative to any velocity w that separates every contact
   (for instance 0 when nothing is driven) does not increase. *)
Theorem C20_gr : forall n M Minv tol op N nrel CoR v0 fuel alpha,
  mass_pair n M Minv -> cols_in n N -> length nrel = length N -> length CoR = length N ->
  gr_flow Minv tol op N nrel CoR v0 fuel = Some (Ok alpha) ->
  length alpha = length N
  /\ satisfies N nrel tol (vplus v0 (Minv (Nmul N alpha)))
  /\ (pushing_op op -> Forall (fun a => 0 <= a) alpha)
  /\ (exact_op Minv op -> 0 <= tol -> Forall (fun c => 0 <= c <= 1) CoR -> forall w, satisfies N nrel 0 w ->
        kinetic_rel n M w (vplus v0 (Minv (Nmul N alpha))) <= kinetic_rel n M w v0).
Proof. exact gr_sound. Qed.
Print Assumptions C20_gr.

(* It does return: with a positive tolerance, an inner operator that solves every sub-problem, and a velocity that separates
   all contacts; for coefficient 1 that velocity has to separate them strictly. *)
Theorem C20_gr_returns : forall n M Minv tol op N nrel CoR v0 c w,
  mass_pair n M Minv -> cols_in n N -> length nrel = length N -> length CoR = length N -> N <> [] ->
  Forall (fun x => x = c) CoR -> 0 <= c <= 1 -> 0 < tol -> exact_op Minv op -> answers op N nrel CoR ->
  satisfies N nrel 0 w -> (c < 1 \/ Forall (fun x => 0 < x) (ladd (Nt N w) nrel)) ->
  exists fuel alpha, gr_flow Minv tol op N nrel CoR v0 fuel = Some (Ok alpha).
Proof. exact gr_returns. Qed.
Print Assumptions C20_gr_returns.

(* The blend of an inelastic solve and an elastic reflection *)
Theorem C20_grr : forall n M Minv tol inner1 inner2 fuel N v0 v0F nrel CoR alpha0 alpha,
  mass_pair n M Minv -> cols_in n N -> length nrel = length N -> length CoR = length N -> length alpha0 = length N ->
  0 <= tol -> Forall (fun c => 0 <= c <= 1) CoR -> exact_op Minv inner1 -> exact_op Minv inner2 ->
  grr_flow inner1 (gr_op Minv tol inner2 fuel) N v0 v0F nrel CoR alpha0 = Ok alpha ->
  length alpha = length N /\ Forall (fun a => 0 <= a) alpha
  /\ satisfies N nrel tol (vplus v0F (Minv (Nmul N alpha)))
  /\ (forall w, satisfies N nrel 0 w -> kinetic_rel n M w (vplus v0F (Minv (Nmul N alpha))) <= kinetic_rel n M w v0F).
Proof. exact grr_sound. Qed.
Print Assumptions C20_grr.

(* the blend takes 1 - CoR of the inelastic and CoR of the elastic impulses, also at CoR = 0 and CoR = 1 *)
Theorem C20_grr_blend : forall inner1 inner2 N v0 v0F nrel c k alpha0 a b,
  inner1 N v0 v0F nrel (repeat 0 (S k)) (repeat 0 (length alpha0)) = Ok a ->
  inner2 N v0 v0F nrel (repeat 1 (S k)) (repeat 0 (length alpha0)) = Ok b ->
  c <> 0 -> c <> 1 ->
  grr_flow inner1 inner2 N v0 v0F nrel (repeat c (S k)) alpha0 = Ok (ladd (lscale (1 - c) a) (lscale c b)).
Proof. exact grr_blend. Qed.
Print Assumptions C20_grr_blend.

(* two different coefficients of restitution end the program *)
Theorem C20_one_coefficient : forall Minv tol op N nrel CoR v0 fuel x y, In x CoR -> In y CoR -> x <> y ->
  gr_flow Minv tol op N nrel CoR v0 fuel = Some Exit
  /\ forall inner1 inner2 v0F a, grr_flow inner1 inner2 N v0 v0F nrel CoR a = Exit.
Proof. exact one_coefficient. Qed.
Print Assumptions C20_one_coefficient.

(* One exact complementarity solve with one coefficient of restitution c: relative velocities after are at least -c times those before,
   exactly -c times wherever there is an impulse, and the energy does not increase. *)
Theorem C20_lcp_step : forall n M Minv op N nrel CoR c v a0 a,
  mass_pair n M Minv -> cols_in n N -> length nrel = length N -> length CoR = length N -> length a0 = length N ->
  Forall (fun x => x = c) CoR -> 0 <= c <= 1 -> exact_op Minv op -> op N v v nrel CoR a0 = Ok a ->
  let v' := vplus v (Minv (Nmul N a)) in
  (forall i, (i < length N)%nat ->
     - c * (col_dot (nth i N []) v + nth i nrel 0) <= col_dot (nth i N []) v' + nth i nrel 0
     /\ (0 < nth i a 0 -> col_dot (nth i N []) v' + nth i nrel 0 = - c * (col_dot (nth i N []) v + nth i nrel 0)))
  /\ (forall w, satisfies N nrel 0 w -> kinetic_rel n M w v' <= kinetic_rel n M w v)
  /\ (c = 1 -> Forall (fun x => x = 0) nrel -> kinetic_rel n M (fun _ => 0) v' = kinetic_rel n M (fun _ => 0) v).
Proof. exact lcp_one. Qed.
Print Assumptions C20_lcp_step.

(* the mass matrices of the three programs are mass pairs *)
Theorem C20_ball_mass : forall n m, ball_masses n m -> mass_pair (2 * n) (diag_mass m) (diag_minv m).
Proof. exact ball_pair_mass. Qed.
Print Assumptions C20_ball_mass.
Theorem C20_rb2_mass : forall n m, (forall k, (k < 3 * n)%nat -> 0 < m k) -> mass_pair (3 * n) (diag_mass m) (diag_minv m).
Proof. exact rb2_pair_mass. Qed.
Print Assumptions C20_rb2_mass.
Theorem C20_rb3_mass : forall nb m I Iinv, body_masses nb m -> inertia_ok nb I ->
  (forall i x, (i < nb)%nat -> mul3 (I i) (mul3 (Iinv i) x) = x) -> mass_pair (6 * nb) (rb3_mass nb m I) (rb3_minv nb m Iinv).
Proof. exact rb3_pair. Qed.
Print Assumptions C20_rb3_mass.

(* A ball of mass 2 in a corner, moving into both walls at speeds 1 and 3, meets every hypothesis, for every coefficient in [0,1]. *)
Example C20_ex_returns : forall c, 0 <= c <= 1 ->
  exists fuel alpha, gr_flow (diag_minv ex_m) (1 / 1000) (own_op (diag_minv ex_m)) ex_N [0; 0] [c; c] ex_v fuel = Some (Ok alpha).
Proof.
  intros c Hc. apply (C20_gr_returns 2 (diag_mass ex_m) (diag_minv ex_m)) with (c := c) (w := ex_w).
  - exact ex_pair.
  - exact ex_cols.
  - reflexivity.
  - reflexivity.
  - discriminate.
  - repeat constructor.
  - exact Hc.
  - lra.
  - apply own_op_exact.
  - apply ex_answers.
  - apply ex_w_ok.
  - right. apply ex_w_ok.
Qed.
(* and the returned velocity really changed: it was violating both contacts before *)
Example C20_ex_violated : ~ satisfies ex_N [0; 0] (1 / 1000) ex_v.
Proof. intros H. unfold satisfies, ex_v in H. cbn in H. inversion H; subst. lra. Qed.
Example C20_ex_result : forall c, 0 <= c <= 1 -> exists alpha,
  satisfies ex_N [0; 0] (1 / 1000) (vplus ex_v (diag_minv ex_m (Nmul ex_N alpha)))
  /\ kinetic_rel 2 (diag_mass ex_m) (fun _ => 0) (vplus ex_v (diag_minv ex_m (Nmul ex_N alpha))) <= kinetic_rel 2 (diag_mass ex_m) (fun _ => 0) ex_v.
Proof.
  intros c Hc. destruct (C20_ex_returns c Hc) as (fuel & alpha & E). exists alpha.
  destruct (C20_gr 2 (diag_mass ex_m) (diag_minv ex_m) _ _ ex_N [0; 0] [c; c] ex_v fuel alpha ex_pair ex_cols eq_refl eq_refl E) as (_ & H1 & _ & H2).
  split; [exact H1|]. apply H2.
  - exact (own_op_exact (diag_minv ex_m)).
  - lra.
  - constructor; [lra|constructor; [lra|constructor]].
  - unfold satisfies. cbn. repeat constructor; lra.
Qed.
