From Coq Require Import Reals Arith Bool Lra Lia.
From Verif Require Import Ccd_Model Lin_Model Lin_Proofs Rot_Alg Geom_Circle Quad_Model Quad_Proofs Resid_Model Resid_Spec Resid_Proofs Apgd_Model Apgd_Spec Apgd_Proofs Apgd_Thms.
Open Scope R_scope.

(* one ball of mass 1 on one degree of freedom, running into one wall with speed 1 *)
Definition one_N : mat := fun _ _ => 1.
Definition one_Minv : mat := fun _ _ => 1.
Definition zero_v : dvec := fun _ => 0.
Definition one_v0 : dvec := fun _ => -1.
Ltac decR := match goal with |- context [Rltb ?a ?b] => destruct (Rltb_spec a b); try (exfalso; lra) end.

Lemma one_Q : forall i j, impact_Q 1 one_N one_Minv i j = 1.
Proof. intros i j. unfold impact_Q, mm, transpose, one_N, one_Minv. cbn [rsum]. ring. Qed.
Lemma one_b : forall i, lcp_b 1 one_N zero_v zero_v one_v0 one_v0 i = -1.
Proof. intros i. unfold lcp_b, mv, transpose, one_N, zero_v, one_v0. cbn [rsum]. ring. Qed.
Lemma one_grad : forall x i, qp_gradient 1 (impact_Q 1 one_N one_Minv) (lcp_b 1 one_N zero_v zero_v one_v0 one_v0) x i = x 0%nat - 1.
Proof. intros x i. unfold qp_gradient. rewrite one_b. unfold mv, transpose. cbn [rsum]. rewrite one_Q. ring. Qed.
Lemma one_obj : forall x, qp_objective 1 (impact_Q 1 one_N one_Minv) (lcp_b 1 one_N zero_v zero_v one_v0 one_v0) x = / 2 * (x 0%nat * x 0%nat) - x 0%nat.
Proof. intros x. unfold qp_objective, dotn. cbn [rsum]. rewrite one_b. unfold mv, transpose. cbn [rsum]. rewrite one_Q. lra. Qed.
Lemma one_res : forall x, min_map 1 x (qp_gradient 1 (impact_Q 1 one_N one_Minv) (lcp_b 1 one_N zero_v zero_v one_v0 one_v0) x) = Rmax 0 (Rabs (Rmin (x 0%nat) (x 0%nat - 1))).
Proof. intros x. unfold min_map. cbn [max_over]. rewrite one_grad. reflexivity. Qed.
Example one_ball : exists r x, lcp_apgd 0 0 5 1 1 one_N (impact_Q 1 one_N one_Minv) zero_v zero_v one_v0 one_v0 zero_v = Finished (Some (r, x)) Success 1 /\ x 0%nat = 1.
Proof.
  unfold lcp_apgd, apgd. cbn [apgd_loop]. cbv zeta. unfold better at 1. cbn [fst]. rewrite one_res.
  assert (P0 : forall i, nonneg_project zero_v i = 0) by (intros i; unfold nonneg_project, zero_v; decR; reflexivity).
  assert (X0 : ix (first_iter nonneg_project 1 (impact_Q 1 one_N one_Minv) zero_v) 0%nat = 0) by (unfold first_iter; cbv zeta; cbn [ix]; apply P0).
  rewrite X0. assert (R0 : Rmax 0 (Rabs (Rmin 0 (0 - 1))) = 1). { rewrite Rmin_right by lra. rewrite Rabs_left by lra. rewrite Rmax_right by lra. ring. }
  rewrite R0. destruct (Rltb_spec 0 1) as [_|K]; [|exfalso; lra].
  assert (S1 : exists x1 y1 L, x1 0%nat = 1 /\ apgd_step nonneg_project 1 (impact_Q 1 one_N one_Minv) (lcp_b 1 one_N zero_v zero_v one_v0 one_v0) 0
      (first_iter nonneg_project 1 (impact_Q 1 one_N one_Minv) zero_v) = Next (mkIter x1 y1 (new_theta 1) L)).
  { unfold apgd_step. unfold first_iter. cbv zeta. cbn [iL ix iy itheta].
    assert (D1 : dotn 1 (fun i => nonneg_project zero_v i - 1) (fun i => nonneg_project zero_v i - 1) = 1) by (unfold dotn; cbn [rsum]; rewrite P0; ring).
    assert (D2 : dotn 1 (mv 1 (transpose (impact_Q 1 one_N one_Minv)) (fun i => nonneg_project zero_v i - 1)) (mv 1 (transpose (impact_Q 1 one_N one_Minv)) (fun i => nonneg_project zero_v i - 1)) = 1)
      by (unfold dotn, mv, transpose; cbn [rsum]; rewrite one_Q, P0; ring).
    rewrite D1, D2, sqrt_1. decR. replace (1 / 1) with 1 by field. decR.
    cbn [backtrack]. cbv zeta. set (x1 := trial nonneg_project _ _ 1).
    assert (X1 : x1 0%nat = 1). { unfold x1, trial, nonneg_project at 1. rewrite one_grad, P0, Rinv_1. decR. lra. }
    rewrite !one_obj. unfold dotn. cbn [rsum]. rewrite one_grad, P0, X1. decR. cbv beta. decR.
    eexists x1, _, _. split; [exact X1|reflexivity]. }
  destruct S1 as (x1 & y1 & L & X1 & ->). set (bst := better _ _ _ _ None _).
  assert (Eb : fst bst = 1).
  { unfold bst, better. cbn [fst]. rewrite one_res. unfold first_iter. cbv zeta. cbn [ix]. rewrite P0. rewrite Rmin_right by lra. rewrite Rabs_left by lra. rewrite Rmax_right by lra. ring. }
  destruct bst as [rb xb]. cbn [fst] in Eb. subst rb. cbn [ix]. unfold better. rewrite one_res, X1.
  replace (Rmax 0 (Rabs (Rmin 1 (1 - 1)))) with 0. 2:{ rewrite Rmin_right by lra. replace (1 - 1) with 0 by ring. rewrite Rabs_R0. rewrite Rmax_left by lra. reflexivity. }
  destruct (Rltb_spec 0 1) as [_|K]; [|exfalso; lra]. cbn [fst]. destruct (Rltb_spec 0 0) as [K|_]; [exfalso; lra|]. eexists. exists x1. split; [reflexivity|exact X1].
Qed.

(* the same ball squeezed between two parallel walls *)
Definition walls_N : mat := fun _ j => match j with O => 1 | _ => -1 end.
Lemma walls_Q : forall i j, impact_Q 1 walls_N one_Minv i j = walls_N 0%nat i * walls_N 0%nat j.
Proof. intros i j. unfold impact_Q, mm, transpose, one_Minv. cbn [rsum]. unfold walls_N. destruct i, j; ring. Qed.
Theorem walls_not_finite : forall fuel max_iters tol, (0 < max_iters)%nat -> 0 <= tol < 1 ->
  (forall i, (i < 2)%nat -> complementary (match i with O => 1 | _ => 0 end)
     (normal_velocity 1 walls_N zero_v (impact_velocity 1 2 walls_N one_Minv one_v0 (fun i => match i with O => 1 | _ => 0 end)) i))
  /\ lcp_apgd fuel tol max_iters 1 2 walls_N (impact_Q 1 walls_N one_Minv) zero_v zero_v one_v0 one_v0 zero_v = NotFinite.
Proof.
  intros fuel mx tol Hm Ht. split.
  - intros i Hi. unfold complementary, normal_velocity, impact_velocity, mv, one_Minv, zero_v, one_v0. cbn [rsum]. unfold walls_N. destruct i as [|[|]]; [| |lia]; repeat split; lra.
  - destruct mx as [|mx]; [lia|]. unfold lcp_apgd, apgd. cbn [apgd_loop]. cbv zeta.
    assert (P0 : forall i, nonneg_project zero_v i = 0) by (intros i; unfold nonneg_project, zero_v; decR; reflexivity).
    set (b := lcp_b _ _ _ _ _ _). assert (B0 : b 0%nat = -1) by (unfold b, lcp_b, mv, transpose, walls_N, zero_v, one_v0; cbn [rsum]; ring).
    assert (B1 : b 1%nat = 1) by (unfold b, lcp_b, mv, transpose, walls_N, zero_v, one_v0; cbn [rsum]; ring). clearbody b.
    assert (R1 : 1 <= min_map 2 (ix (first_iter nonneg_project 2 (impact_Q 1 walls_N one_Minv) zero_v))
       (qp_gradient 2 (impact_Q 1 walls_N one_Minv) b (ix (first_iter nonneg_project 2 (impact_Q 1 walls_N one_Minv) zero_v)))).
    { unfold min_map. cbn [max_over]. apply Rle_trans with (2 := Rmax_l _ _). apply Rle_trans with (2 := Rmax_r _ _). unfold first_iter. cbv zeta. cbn [ix].
      unfold qp_gradient, mv. cbn [rsum]. rewrite !P0, B0. replace (0 + transpose (impact_Q 1 walls_N one_Minv) 0%nat 0%nat * 0 + transpose (impact_Q 1 walls_N one_Minv) 0%nat 1%nat * 0 + -1) with (-1) by ring.
      rewrite Rmin_right by lra. rewrite Rabs_left by lra. lra. }
    unfold better. cbn [fst]. decR. unfold apgd_step. unfold first_iter at 1. cbv zeta. cbn [iL].
    assert (D1 : dotn 2 (fun i => nonneg_project zero_v i - 1) (fun i => nonneg_project zero_v i - 1) = 2) by (unfold dotn; cbn [rsum]; rewrite !P0; ring).
    assert (D2 : dotn 2 (mv 2 (transpose (impact_Q 1 walls_N one_Minv)) (fun i => nonneg_project zero_v i - 1)) (mv 2 (transpose (impact_Q 1 walls_N one_Minv)) (fun i => nonneg_project zero_v i - 1)) = 0)
      by (unfold dotn, mv, transpose; cbn [rsum]; rewrite !walls_Q, !P0; unfold walls_N; ring).
    rewrite D1, D2, sqrt_0. decR. unfold Rdiv. rewrite Rmult_0_l. decR. reflexivity.
Qed.

(* a ball in a wedge, touching both sides, one perfectly elastic and one perfectly inelastic *)
Definition wedge_N : mat := fun k i => match i, k with O, O => 1 | O, _ => 0 | _, O => -3/5 | _, _ => 4/5 end.
Definition eye : mat := fun i j => if Nat.eqb i j then 1 else 0.
Definition wedge_v0 : dvec := fun k => match k with O => -11/5 | _ => 17/20 end.
Definition wedge_cor : dvec := fun i => match i with O => 1 | _ => 0 end.
Definition wedge_alpha : dvec := fun i => match i with O => 5 | _ => 1 end.
Theorem wedge_gains_energy :
  (forall i, (i < 2)%nat -> complementary (wedge_alpha i)
     (normal_velocity 2 wedge_N zero_v (impact_velocity 2 2 wedge_N eye wedge_v0 wedge_alpha) i + wedge_cor i * normal_velocity 2 wedge_N zero_v wedge_v0 i))
  /\ kinetic_energy 2 eye wedge_v0 + 1 <= kinetic_energy 2 eye (impact_velocity 2 2 wedge_N eye wedge_v0 wedge_alpha).
Proof.
  split.
  - intros i Hi. unfold complementary, normal_velocity, impact_velocity, mv, eye, zero_v. cbn [rsum Nat.eqb]. unfold wedge_N, wedge_v0, wedge_cor, wedge_alpha.
    destruct i as [|[|]]; [| |lia]; repeat split; lra.
  - unfold kinetic_energy, impact_velocity, mv, eye. cbn [rsum Nat.eqb]. unfold wedge_N, wedge_v0, wedge_alpha. lra.
Qed.
(* the wedge masses meet the hypotheses of the energy theorem *)
Lemma eye_sum : forall nd w i, (i < nd)%nat -> rsum nd (fun j => eye i j * w j) = w i.
Proof.
  intros nd w i Hi. rewrite (rsum_one nd _ i Hi). unfold eye. rewrite Nat.eqb_refl. ring.
  intros j Hj N. unfold eye. destruct (Nat.eqb_spec i j); [congruence|ring].
Qed.
Lemma eye_ok : forall nd, symmetric nd eye /\ inverse_of nd eye eye /\ positive_semidefinite nd eye.
Proof.
  intros nd. split; [|split].
  - intros i j _ _. unfold eye. rewrite Nat.eqb_sym. reflexivity.
  - intros w i Hi. rewrite (rsum_same nd _ (fun j => eye i j * w j)); [apply eye_sum; exact Hi|]. intros j Hj. f_equal. apply eye_sum. exact Hj.
  - intros z. apply rsum_nonneg. intros i Hi. rewrite eye_sum by exact Hi. apply sq_nn.
Qed.
