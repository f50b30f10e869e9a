(* C40: the stopping tests of the solvers. *)
From Coq Require Import Reals Arith Lra Lia.
From Verif Require Import Ccd_Model Lin_Model Rot_Alg Geom_Circle Resid_Model Resid_Spec Resid_Proofs.
Open Scope R_scope.

(* the min-map residual vanishes exactly at the solutions of the complementarity problem, for any number of contacts *)
Theorem C40_min_map : forall n x y, min_map n x y = 0 <-> forall i, (i < n)%nat -> 0 <= x i /\ 0 <= y i /\ x i * y i = 0.
Proof. exact min_map_zero. Qed.
(* below a tolerance it bounds each violation *)
Theorem C40_min_map_tolerance : forall n x y tol, 0 <= tol ->
  (min_map n x y <= tol <-> forall i, (i < n)%nat -> - tol <= x i /\ - tol <= y i /\ (x i <= tol \/ y i <= tol)).
Proof. exact min_map_within. Qed.
Theorem C40_fischer_burmeister : forall n x y,
  fischer_burmeister n x y = 0 <-> forall i, (i < n)%nat -> 0 <= x i /\ 0 <= y i /\ x i * y i = 0.
Proof. exact fischer_burmeister_zero. Qed.
(* either residual bounds the other *)
Theorem C40_equivalent : forall n x y,
  min_map n x y <= 2 * fischer_burmeister n x y /\ fischer_burmeister n x y <= 4 * min_map n x y.
Proof. exact residuals_equivalent. Qed.

(* Friction with a bound per sample: zero at every optimum, and otherwise only at the upper bound. *)
Theorem C40_bound_constrained : forall n c beta vrel, (forall i, (i < n)%nat -> 0 <= c i) ->
  (fb_bound n c beta vrel = 0 <->
   forall i, (i < n)%nat -> best_in_interval (c i) (beta i) (vrel i) \/ (0 < c i /\ beta i = c i)).
Proof. exact fb_bound_zero. Qed.
(* Finding: at the upper bound the test passes whatever the relative velocity is. *)
Theorem C40_bound_constrained_refuted : exists c beta vrel, 0 < c 0%nat /\ fb_bound 1 c beta vrel = 0 /\ ~ best_in_interval (c 0%nat) (beta 0%nat) (vrel 0%nat).
Proof.
  exists (fun _ => 1), (fun _ => 1), (fun _ => 1). split; [lra|]. split.
  - apply C40_bound_constrained; [intros; lra|]. intros i _. right. split; [lra|reflexivity].
  - intros [_ V]. specialize (V (-1) ltac:(rewrite Rabs_left; lra)). lra.
Qed.
(* Friction with a disc per contact: zero at every optimum, and otherwise only when the relative velocity points straight
   along the friction impulse, i.e. when friction pushes the contact along at full strength. *)
Theorem C40_disc : forall n c beta vrel, (forall i, (i < n)%nat -> 0 <= c i) ->
  (fb_disc n c beta vrel = 0 <-> forall i, (i < n)%nat ->
     best_in_disc (c i) (beta i) (vrel i)
     \/ (0 < c i /\ vnorm (beta i) = c i /\ exists k, 0 < k /\ vrel i = vscale k (beta i))).
Proof. exact fb_disc_zero. Qed.
(* Finding: friction that accelerates the sliding passes the test. *)
Theorem C40_disc_refuted : exists c beta vrel, 0 < c 0%nat /\ fb_disc 1 c beta vrel = 0 /\ ~ best_in_disc (c 0%nat) (beta 0%nat) (vrel 0%nat).
Proof.
  exists (fun _ => 1), (fun _ => (1, 0)), (fun _ => (1, 0)). split; [lra|]. split.
  - apply C40_disc; [intros; lra|]. intros i _. right. split; [lra|]. split.
    + unfold vnorm, vdot. cbn [fst snd]. replace (1 * 1 + 0 * 0) with 1 by ring. apply sqrt_1.
    + exists 1. split; [lra|]. unfold vscale. cbn [fst snd]. f_equal; ring.
  - intros [_ V]. specialize (V (-1, 0)). assert (D : in_friction_disc 1 (-1, 0)) by (split; unfold vdot; cbn [fst snd]; lra).
    specialize (V D). unfold vdot, vsub in V. cbn [fst snd] in V. lra.
Qed.

(* cases *)
Example C40_case_solution : min_map 3 (fun i => match i with O => 2 | _ => 0 end) (fun i => match i with O => 0 | S O => 5 | _ => 0 end) = 0.
Proof. apply C40_min_map. intros i Hi. destruct i as [|[|[|]]]; [| | |lia]; repeat split; lra. Qed.
Example C40_case_violation : ~ fischer_burmeister 2 (fun i => match i with O => 2 | _ => 1 end) (fun _ => 1) = 0.
Proof. intros H. apply (proj1 (C40_fischer_burmeister _ _ _)) with (i := 0%nat) in H; [|lia]. destruct H as (_ & _ & H). lra. Qed.
Example C40_case_sliding : best_in_disc 1 (1, 0) (-2, 0) /\ ~ best_in_disc 1 (1, 0) (0, 1).
Proof.
  split.
  - split; [split; unfold vdot; cbn [fst snd]; lra|]. intros [a b] [_ H]. unfold vdot, vsub in *. cbn [fst snd] in *.
    pose proof (sq_nn (a - 1)). pose proof (sq_nn b). lra.
  - intros [_ V]. specialize (V (0, -1)). assert (D : in_friction_disc 1 (0, -1)) by (split; unfold vdot; cbn [fst snd]; lra).
    specialize (V D). unfold vdot, vsub in V. cbn [fst snd] in V. lra.
Qed.

Print Assumptions C40_min_map.
Print Assumptions C40_min_map_tolerance.
Print Assumptions C40_fischer_burmeister.
Print Assumptions C40_equivalent.
Print Assumptions C40_bound_constrained.
Print Assumptions C40_bound_constrained_refuted.
Print Assumptions C40_disc.
Print Assumptions C40_disc_refuted.
