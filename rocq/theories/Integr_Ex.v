(* A concrete world: two overlapping balls under gravity and a quadratic penalty, and three rigid bodies, one fixed. *)
From Coq Require Import List Reals Arith Bool Lia Lra.
From Verif Require Import Ccd_Model Lin_Model Lin_Proofs ContactBall_Model ContactRb2_Model Integr_Model Integr_Spec Integr_Proofs Integr_Thms Integr_Grad.
Import ListNotations.
Open Scope R_scope.

Definition two_balls (fs : list ball_force) : balls :=
  Balls 2 (fun k => if (k <? 2)%nat then 2 else 3) (fun _ => 1) (fun i => Nat.eqb i 0) fs.
(* centres (0,0) and (1,0) *)
Definition two_q : dvec := fun k => if Nat.eqb k 2 then 1 else 0.
Definition two_v : dvec := fun k => if Nat.eqb k 1 then 5 else 0.

Definition three_bodies : bodies :=
  Bodies 3 (fun k => if Nat.eqb (Nat.modulo k 3) 2 then 7 else 2) (fun i => Nat.eqb i 1) [(0, -10); (1, 0)].

Lemma two_masses : forall fs, masses_ok 2 (bl_n (two_balls fs)) (bl_M (two_balls fs)).
Proof.
  intros fs i Hi. cbn [two_balls bl_n bl_M] in *. destruct i as [|[|i]]; [| |lia]; cbn; split; lra.
Qed.
Lemma three_masses : masses_ok 3 (rb_n three_bodies) (rb_M three_bodies).
Proof. intros i Hi. cbn [three_bodies rb_n rb_M] in *. destruct i as [|[|[|i]]]; [| | |lia]; cbn; split; lra. Qed.
Lemma two_stiff : forall g, stiff (two_balls [Gravity g; Penalty 4 2]).
Proof. intros g k p [H|[H|[]]]; [discriminate|]. injection H as <- <-. lra. Qed.
Lemma two_radii : forall fs, radii_ok (two_balls fs).
Proof. intros fs i _. cbn. lra. Qed.

(* the penalty pushes ball 1 along +x with ½·4·2·1 = 4 *)
Lemma two_force : forall v, exists F, ball_compute_force (two_balls [Gravity (0, -10); Penalty 4 2]) two_q v = Some F
  /\ F 2%nat = 4 /\ F 0%nat = -4 /\ F 1%nat = -20 /\ F 3%nat = -30.
Proof.
  intros v. eexists. split.
  - unfold ball_compute_force. cbn [two_balls bl_n bl_M bl_r bl_forces collect force_updates map seq pairs_lt flat_map app Nat.sub].
    unfold penalty_pair at 1. cbn [fst snd].
    assert (vsub (seg2 two_q (2 * 1)) (seg2 two_q (2 * 0)) = (1, 0)) as -> by (unfold vsub, seg2, two_q; cbn; f_equal; lra).
    assert (vdot (1, 0) (1, 0) = 1) as -> by (unfold vdot; cbn; lra). rewrite sqrt_1.
    destruct (Rlt_dec _ _) as [H|H]; [exfalso; lra|]. destruct (Req_EM_T 1 0) as [H1|H1]; [exfalso; lra|].
    rewrite tpow_cpow by lra. cbn [app]. reflexivity.
  - replace (- (1 - (1 + 1))) with 1 by lra. rewrite tpow_pos by lra.
    assert (Rpower 1 (2 - 1) = 1) as -> by (unfold Rpower; rewrite ln_1, Rmult_0_r; apply exp_0).
    rewrite apply_zero. cbn [upd_sum fold_right app]. unfold Integr_Proofs.comp, vneg, vscale. cbn.
    repeat split; field.
Qed.

Lemma two_step : exists s, ball_verlet (two_balls [Penalty 4 2]) (/ 10) (two_q, two_v) = Some s.
Proof.
  assert (stiff (two_balls [Penalty 4 2])) as Hs by (intros k p [H|[]]; injection H as <- <-; lra).
  unfold ball_verlet. cbn [fst snd].
  destruct (ball_force_defined (two_balls [Penalty 4 2]) two_q two_v Hs) as [F E].
  { intros i j Hij. cbn [two_balls bl_n] in Hij. replace i with 0%nat by lia. replace j with 1%nat by lia.
    unfold body, two_q. cbn. intros H. injection H. lra. }
  rewrite E. cbv zeta.
  destruct (ball_force_net _ _ _ _ E) as [Hn _]. pose proof (Hn (1, 0)) as N. cbn [two_balls bl_n bl_forces map gravity_of vsum fold_right] in N.
  unfold vdot, vadd, vzero in N. cbn [rsum fst snd] in N. unfold body in N. cbn [fst snd Nat.mul Nat.add] in N.
  pose proof (Hn (0, 1)) as N2. cbn [two_balls bl_n bl_forces map gravity_of vsum fold_right] in N2.
  unfold vdot, vadd, vzero in N2. cbn [rsum fst snd] in N2. unfold body in N2. cbn [fst snd Nat.mul Nat.add] in N2.
  match goal with |- context [ball_compute_force _ ?x ?y] => destruct (ball_force_defined (two_balls [Penalty 4 2]) x y Hs) as [G EG] end.
  { intros i j Hij. cbn [two_balls bl_n] in Hij. replace i with 0%nat by lia. replace j with 1%nat by lia.
    unfold body, axpy, diag_minv, two_q, two_v. cbn [two_balls bl_M]. cbn. intros H. injection H as H1 H2.
    (* the y velocities differ and the pair force cancels *)
    assert (F 1%nat + F 3%nat = 0) as Z by lra.
    assert (F 1%nat = 0) as Z1.
    { destruct (penalty_pair 4 2 (fun _ => 1) two_q (0%nat, 1%nat)) as [us|] eqn:Ep.
      - pose proof E as E'. unfold ball_compute_force in E'.
        cbn [two_balls bl_n bl_M bl_r bl_forces collect force_updates map seq pairs_lt flat_map app Nat.sub] in E'.
        rewrite Ep in E'. injection E' as <-. rewrite apply_zero, !upd_sum_app. change (upd_sum [] 1%nat) with 0.
        destruct (pair_force_value 4 2 (fun _ => 1) two_q (0%nat, 1%nat) us) as [_ ->]; [lra|lra|exact Ep|].
        assert (vdot (between two_q (0%nat, 1%nat)) (toward 1 (0%nat, 1%nat)) = 0) as ->
          by (unfold between, toward, between, vdot, vsub, seg2, unit_at, two_q; cbn; ring).
        unfold Rdiv. ring.
      - exfalso. unfold ball_compute_force in E.
        cbn [two_balls bl_n bl_M bl_r bl_forces collect force_updates map seq pairs_lt flat_map app Nat.sub] in E.
        rewrite Ep in E. discriminate. }
    assert (F 3%nat = 0) as Z3 by lra. rewrite Z1, Z3 in H2. lra. }
  rewrite EG. eexists. reflexivity.
Qed.

Lemma fixed_ball_falls : exists w dt s s', masses_ok 2 (bl_n w) (bl_M w) /\ (0 < bl_n w)%nat /\ bl_fixed w 0%nat = true
  /\ ball_euler w dt s = Some s' /\ body 2 (fst s') 0 <> straight (body 2 (fst s) 0) (body 2 (snd s) 0) dt.
Proof.
  exists (two_balls [Gravity (0, -10)]), 1, ((fun _ => 0), (fun _ => 0)).
  eexists. split; [apply two_masses|]. split; [cbn; lia|]. split; [reflexivity|]. split; [apply (ball_euler_gravity1 _ [(0, -10)]); reflexivity|].
  cbn [fst snd]. rewrite !axpy_body, ball_gravity_acc_value by (try apply two_masses; cbn; lia).
  unfold vsum, straight, vadd, vscale, vzero, body. cbn. intros H. injection H. lra.
Qed.
