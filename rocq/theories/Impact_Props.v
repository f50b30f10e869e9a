(* C17: single impacts and Gauss-Seidel resolution of simultaneous impacts. *)
From Coq Require Import List Reals Arith Bool Lia Lra Psatz.
From Verif Require Import Outcome Ccd_Model Lin_Model ContactBall_Model ContactRb3_Model Lin_Proofs Contact_Spec
  Impact_Model Impact_Spec Impact_Thms.
Import ListNotations.
Open Scope R_scope.

(* one impact of two balls: the normal relative velocity is reversed and scaled by the restitution coefficient, the tangential
   one is untouched, the other balls are untouched, momentum is kept, energy is lost unless the impact is elastic, and the
   reported impulse accounts for the change *)
Theorem C17_ball_impact : forall n m c CoR v, ball_masses n m -> ball_pair n c -> 0 <= CoR <= 1 -> b_evalNdotV c v < 0 ->
  exists v' a, b_resolveImpact CoR m (b_evalNdotV c v) c v = Ok (v', a)
  /\ 0 < a
  /\ b_evalNdotV c v' = - CoR * b_evalNdotV c v
  /\ (forall t, vdot t (b_normal c) = 0 -> vdot t (b_relvel c v') = vdot t (b_relvel c v))
  /\ (forall k, (k < 2 * n)%nat -> v' k = vplus v (diag_minv m (impulse [(b_gradg c, a)])) k)
  /\ (forall k, (2 * n <= k)%nat -> v' k = v k)
  /\ b_momentum n m v' = b_momentum n m v
  /\ (no_kick c -> b_kinetic n m v' <= b_kinetic n m v /\ (CoR = 1 <-> b_kinetic n m v' = b_kinetic n m v)).
Proof. exact ball_impact_one. Qed.
Print Assumptions C17_ball_impact.

(* the same for two spheres, and for a sphere and a possibly moving plane, in 3D *)
Theorem C17_sphere_impact : forall nb m I Iinv q c CoR v, body_masses nb m -> sphere_contact nb c -> 0 <= CoR <= 1 ->
  rb3_ndotv_or_0 nb q c v < 0 ->
  exists v' a, rb3_resolveImpact CoR m (rb3_ndotv_or_0 nb q c v) c v = Ok (v', a)
  /\ 0 < a
  /\ rb3_ndotv_or_0 nb q c v' = - CoR * rb3_ndotv_or_0 nb q c v
  /\ (forall g, rb3_gradg nb q c = Ok g -> forall k, v' k = vplus v (rb3_minv nb m Iinv (impulse [(g, a)])) k)
  /\ (rb3_kinvel q c = Ok zero3 ->
        rb3_kinetic nb m I v' <= rb3_kinetic nb m I v /\ (CoR = 1 <-> rb3_kinetic nb m I v' = rb3_kinetic nb m I v)).
Proof. exact sphere_impact_one. Qed.
Print Assumptions C17_sphere_impact.

(* whenever Gauss-Seidel returns (cold start), the velocity that ImpactMap goes on with has no contact approaching faster than
   the tolerance, the impulses only push, momentum is kept and no energy is gained *)
Theorem C17_ball_gauss_seidel : forall n m fuel tol cons v0 v2 alpha,
  ball_masses n m -> 0 <= tol -> Forall (fun c => ball_pair n (fst c) /\ 0 <= snd c <= 1) cons ->
  ball_impact fuel m tol cons (repeat 0 (length cons)) v0 = Some (Ok (v2, alpha)) ->
  Forall (fun c => - tol <= b_evalNdotV (fst c) v2) cons
  /\ Forall (fun a => 0 <= a) alpha /\ length alpha = length cons
  /\ b_momentum n m v2 = b_momentum n m v0
  /\ (Forall (fun c => no_kick (fst c)) cons -> b_kinetic n m v2 <= b_kinetic n m v0).
Proof. exact ball_impact_result. Qed.
Print Assumptions C17_ball_gauss_seidel.

Theorem C17_sphere_gauss_seidel : forall nb m I Iinv q fuel tol cons v0 v2 alpha,
  body_masses nb m -> 0 <= tol -> Forall (fun c => sphere_contact nb (fst c) /\ 0 <= snd c <= 1) cons ->
  rb3_impact fuel nb m Iinv q tol cons (repeat 0 (length cons)) v0 = Some (Ok (v2, alpha)) ->
  Forall (fun c => - tol <= rb3_ndotv_or_0 nb q (fst c) v2) cons
  /\ Forall (fun a => 0 <= a) alpha /\ length alpha = length cons
  /\ (Forall (fun c => rb3_kinvel q (fst c) = Ok zero3) cons -> rb3_kinetic nb m I v2 <= rb3_kinetic nb m I v0).
Proof. exact rb3_impact_result. Qed.
Print Assumptions C17_sphere_gauss_seidel.

(* it returns: for a positive tolerance, if some velocity w satisfies every contact, and satisfies those with restitution
   coefficient 1 strictly *)
Theorem C17_ball_terminates : forall n m tol cons alpha v0 w,
  ball_masses n m -> 0 < tol -> length alpha = length cons ->
  Forall (fun c => ball_pair n (fst c) /\ 0 <= snd c <= 1 /\ 0 <= b_evalNdotV (fst c) w
                   /\ (snd c < 1 \/ 0 < b_evalNdotV (fst c) w)) cons ->
  exists fuel v2 alpha2, ball_impact fuel m tol cons alpha v0 = Some (Ok (v2, alpha2)).
Proof. exact ball_impact_terminates. Qed.
Print Assumptions C17_ball_terminates.

Theorem C17_sphere_terminates : forall nb m Iinv q tol cons alpha v0 w,
  body_masses nb m -> 0 < tol -> length alpha = length cons ->
  Forall (fun c => sphere_contact nb (fst c) /\ 0 <= snd c <= 1 /\ 0 <= rb3_ndotv_or_0 nb q (fst c) w
                   /\ (snd c < 1 \/ 0 < rb3_ndotv_or_0 nb q (fst c) w)) cons ->
  exists fuel v2 alpha2, rb3_impact fuel nb m Iinv q tol cons alpha v0 = Some (Ok (v2, alpha2)).
Proof. exact rb3_impact_terminates. Qed.
Print Assumptions C17_sphere_terminates.

(* in particular for balls without kicks and restitution coefficients below 1 *)
Theorem C17_ball_terminates_inelastic : forall n m tol cons alpha v0,
  ball_masses n m -> 0 < tol -> length alpha = length cons ->
  Forall (fun c => ball_pair n (fst c) /\ no_kick (fst c) /\ 0 <= snd c < 1) cons ->
  exists fuel v2 alpha2, ball_impact fuel m tol cons alpha v0 = Some (Ok (v2, alpha2)).
Proof.
  intros n m tol cons alpha v0 HM Ht Hl HF. apply (ball_impact_terminates n m tol cons alpha v0 zero HM Ht Hl).
  eapply Forall_impl; [|exact HF]. intros c (H1 & H2 & H3). rewrite (pair_no_kick_zero n (fst c) H1 H2).
  split; [exact H1|]. split; [lra|]. split; [lra|]. left. lra.
Qed.
Print Assumptions C17_ball_terminates_inelastic.

(* ---------- where the claim fails ---------- *)
Definition ones : dvec := fun _ => 1.
Definition link (i : nat) : ball_contact := BallBall i (i + 1) (-1, 0) (1 / 2) (1 / 2) false.

Lemma link_ndotv : forall i v, b_evalNdotV (link i) v = v (2 * (i + 1))%nat - v (2 * i)%nat.
Proof. intros. cbn [link b_evalNdotV]. unfold vdot, vsub, seg2. cbn [fst snd]. rewrite !Nat.add_0_r. ring. Qed.
Lemma link_resolve : forall i v nd, exists v' a, b_resolveImpact 0 ones nd (link i) v = Ok (v', a) /\ a = - nd / 2
  /\ forall k, v' k = (if Nat.eqb k (2 * i) then v k + nd / 2 else if Nat.eqb k (2 * (i + 1)) then v k - nd / 2 else v k).
Proof.
  intros i v nd. cbn [link b_resolveImpact]. cbv zeta. eexists. eexists. split; [reflexivity|]. split; [unfold ones; field|].
  intros k. unfold add_seg2, vneg, vscale, ones. cbn [fst snd]. rewrite !Nat.add_0_r.
  destruct (Nat.eqb_spec k (2 * (i + 1))), (Nat.eqb_spec k (2 * (i + 1) + 1)), (Nat.eqb_spec k (2 * i)), (Nat.eqb_spec k (2 * i + 1)); try lia;
    try reflexivity; try field; lra.
Qed.

(* with tolerance 0 three balls in a row, the first moving towards the others at rest, are resolved for ever *)
Theorem C17_zero_tolerance_refuted : exists m cons alpha v0,
  ball_masses 3 m /\ Forall (fun c => ball_pair 3 (fst c) /\ no_kick (fst c) /\ snd c = 0) cons /\ length alpha = length cons
  /\ forall fuel, ball_impact fuel m 0 cons alpha v0 = None.
Proof.
  exists ones, [(link 0, 0); (link 1, 0)], [0; 0], (fun k => if Nat.eqb k 0 then 1 else 0).
  split; [intros i _; unfold ones; split; lra|]. split; [|split; [reflexivity|]].
  { repeat constructor; cbn; try lia; unfold vdot; cbn; lra. }
  assert (K : forall fuel al v, length al = 2%nat -> v 4%nat = v 2%nat -> v 2%nat < v 0%nat ->
    gs_loop b_evalNdotV (fun CoR nd c u => b_resolveImpact CoR ones nd c u) 0 fuel [(link 0, 0); (link 1, 0)] al v = None).
  { induction fuel as [|k IH]; intros [|a0 [|a1 [|]]] v Hl H1 H2; try discriminate Hl; [reflexivity|].
    cbn [gs_loop gs_sweep]. rewrite !link_ndotv. cbn [Nat.mul Nat.add].
    destruct (Rlt_dec (v 2%nat - v 0%nat) (- 0)) as [_|Hn]; [|lra].
    destruct (link_resolve 0 v (v 2%nat - v 0%nat)) as (u & a & E & _ & Hu). rewrite E. cbn [obind].
    rewrite !link_ndotv. cbn [Nat.mul Nat.add].
    pose proof (Hu 0%nat) as U0. pose proof (Hu 2%nat) as U2. pose proof (Hu 4%nat) as U4. cbn in U0, U2, U4.
    destruct (Rlt_dec (u 4%nat - u 2%nat) (- 0)) as [_|Hn]; [|lra].
    destruct (link_resolve 1 u (u 4%nat - u 2%nat)) as (w & b & E2 & _ & Hw). rewrite E2. cbn [obind].
    pose proof (Hw 0%nat) as W0. pose proof (Hw 2%nat) as W2. pose proof (Hw 4%nat) as W4. cbn in W0, W2, W4.
    apply IH; [reflexivity|lra|lra]. }
  intros fuel. unfold ball_impact. rewrite K; [reflexivity|reflexivity|reflexivity|]. cbn. lra.
Qed.
Print Assumptions C17_zero_tolerance_refuted.

(* warm starting from a cached impulse: two balls approaching each other leave with more energy than they had *)
Theorem C17_warm_start_refuted : exists m tol cons alpha v0 fuel v2 alpha2,
  ball_masses 2 m /\ 0 < tol /\ Forall (fun c => ball_pair 2 (fst c) /\ no_kick (fst c) /\ snd c = 0) cons
  /\ Forall (fun a => 0 <= a) alpha /\ length alpha = length cons
  /\ ball_impact fuel m tol cons alpha v0 = Some (Ok (v2, alpha2)) /\ b_kinetic 2 m v0 < b_kinetic 2 m v2.
Proof.
  set (v0 := fun k => if Nat.eqb k 0 then 1 else 0).
  exists ones, 1, [(link 0, 0)], [10], (fun k => 4 * v0 k). 
  destruct (link_resolve 0 (fun k => 4 * v0 k) (-4)) as (u & a & E & Ha & Hu).
  assert (HL : gs_loop b_evalNdotV (fun CoR nd c x => b_resolveImpact CoR ones nd c x) 1 2 [(link 0, 0)] [10] (fun k => 4 * v0 k) = Some (Ok (u, [10 + a]))).
  { cbn [gs_loop gs_sweep]. rewrite link_ndotv. cbn [Nat.mul Nat.add].
    replace (4 * v0 2%nat - 4 * v0 0%nat) with (-4) by (unfold v0; cbn; ring).
    destruct (Rlt_dec (-4) (- (1))) as [_|Hn]; [|lra]. rewrite E. cbn [obind gs_loop gs_sweep]. rewrite link_ndotv. cbn [Nat.mul Nat.add].
    pose proof (Hu 0%nat) as U0. pose proof (Hu 2%nat) as U2. unfold v0 in U0, U2. cbn in U0, U2.
    destruct (Rlt_dec (u 2%nat - u 0%nat) (- (1))) as [Hn|_]; [lra|]. reflexivity. }
  exists 2%nat. eexists. eexists.
  split; [intros i _; unfold ones; split; lra|]. split; [lra|].
  split; [repeat constructor; cbn; try lia; unfold vdot; cbn; lra|].
  split; [repeat constructor; lra|]. split; [reflexivity|].
  unfold ball_impact. rewrite HL. split; [reflexivity|].
  subst a. unfold b_kinetic, vplus, diag_minv, impulse, v0, ones, link. 
  cbn [map combine fst snd b_gradg fold_right rsum Nat.mul Nat.add]. unfold ins2, vneg, entry. cbn [app fold_right fst snd Nat.mul Nat.add Nat.eqb]. lra.
Qed.
Print Assumptions C17_warm_start_refuted.

(* a ball hitting a plane or a drum ends the program: those contacts have no impact rule *)
Theorem C17_ball_obstacle_refuted : forall fuel m tol CoR c a v,
  (match c with BallPlane _ _ _ | BallDrum _ _ _ => True | _ => False end) -> b_evalNdotV c v < - tol ->
  ball_impact (S fuel) m tol [(c, CoR)] [a] v = Some Exit.
Proof.
  intros fuel m tol CoR c a v Hc Hv. unfold ball_impact. cbn [gs_loop gs_sweep].
  destruct (Rlt_dec (b_evalNdotV c v) (- tol)) as [_|Hn]; [|contradiction]. destruct c; try contradiction; reflexivity.
Qed.
Print Assumptions C17_ball_obstacle_refuted.

(* ---------- non-vacuity ---------- *)
Example C17_example : ball_masses 3 ones /\ ball_pair 3 (link 0) /\ ball_pair 3 (link 1)
  /\ b_evalNdotV (link 0) (fun k => if Nat.eqb k 0 then 1 else 0) = -1.
Proof.
  split; [intros i _; unfold ones; split; lra|].
  split; [cbn; repeat split; try lia; unfold vdot; cbn; lra|]. split; [cbn; repeat split; try lia; unfold vdot; cbn; lra|].
  rewrite link_ndotv. cbn. lra.
Qed.
(* the links are the contacts the narrow phase makes for balls of radius 1/2 in a row *)
Example C17_example_made : forall i, link i = mk_ball_ball i (i + 1) (INR i, 0) (INR i + 1, 0) (1 / 2) (1 / 2) false.
Proof.
  intros i. unfold link, mk_ball_ball. f_equal. unfold vnormalized, vsub. cbn [fst snd].
  assert (E : vdot (INR i - (INR i + 1), 0 - 0) (INR i - (INR i + 1), 0 - 0) = 1) by (unfold vdot; cbn [fst snd]; ring).
  rewrite E. destruct (Rlt_dec 0 1); [|lra]. rewrite sqrt_1. unfold vscale. cbn [fst snd]. f_equal; field.
Qed.
Example C17_sphere_example : sphere_contact 2 (SphereSphere 0 1 (V3 1 0 0) zero3 1 1)
  /\ sphere_contact 2 (PlaneSphere 1 1 (Rb3Plane zero3 (V3 0 1 0) zero3 zero3)) /\ body_masses 2 ones
  /\ rb3_kinvel ones (PlaneSphere 1 1 (Rb3Plane zero3 (V3 0 1 0) zero3 zero3)) = Ok zero3.
Proof.
  split; [|split; [|split]].
  - cbn. repeat split; try lia. unfold dot3. cbn. lra.
  - cbn. split; [lia|]. unfold dot3. cbn. lra.
  - intros i _. unfold ones. repeat split; lra.
  - unfold rb3_kinvel, plane_point_velocity3, dot3, add3, cross3, sub3, scale3, seg3, zero3. cbn. f_equal. apply v3_eq; cbn; lra.
Qed.
