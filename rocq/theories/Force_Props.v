(* C67: The exported contact forces say who met whom, where, and with which force, and they account for the motion. *)
From Coq Require Import String Ascii List Reals Arith Bool ZArith Lia Lra.
Import ListNotations.
From Verif Require Import Outcome Ccd_Model Lin_Model Lin_Proofs ContactBall_Model ContactRb2_Model ContactRb3_Model Contact_Spec Contact_Proofs Contact3_Proofs Sob_Model Sob_Spec Sob_Thms Sob_Sims Sob_Final.
From Verif Require Import Hdf_Model Hdf_Spec Force_Model Force_Spec Force_Proofs Force_Thms Force_Mom Force_Main Force_Where.
From Verif Require Out_Model Out_Spec Sob_Props.
Local Open Scope list_scope. Local Open Scope R_scope.
Local Notation save := Out_Model.save.
Local Notation has_header := Out_Spec.has_header.

(* ---------- what is in the file ---------- *)
Definition fit {C} (d : nat) (parties : C -> nat * partner) (acts : list (acting C)) : Prop :=
  forall a, In a acts -> small (parties (ac_c a)) /\ length (nth 0 (ac_E a) []) = d.
Theorem C67_written_ball : forall dt time it hash q acts bases alpha beta disk calls h,
  holds 2 acts bases alpha beta -> fit 2 ball_parties acts ->
  save dt time it hash (export_forces ball_asked q (map ac_c acts) bases alpha beta) disk calls = (h, Ok tt) ->
  has_header h dt time it hash /\ exists rs, read_forces h 2 = Some rs /\
    Forall2 (reports 2 ball_parties (fun c => Ok (of2 (b_contact_point q (fst c))))) acts rs.
Proof.
  intros dt time it hash q acts bases alpha beta disk calls h Ho Fi S. apply (export_reports ball_asked dt time it hash ball_parties q acts bases alpha beta disk calls h); auto.
  - cbn. lia.
  - intros a I. apply (Fi a I).
  - intros a I. apply ball_answers. apply (Fi a I).
Qed.
Print Assumptions C67_written_ball.
Theorem C67_written_2d : forall dt time it hash q acts bases alpha beta disk calls h,
  holds 2 acts bases alpha beta -> fit 2 rb2_parties acts ->
  save dt time it hash (export_forces rb2_asked q (map ac_c acts) bases alpha beta) disk calls = (h, Ok tt) ->
  has_header h dt time it hash /\ exists rs, read_forces h 2 = Some rs /\
    Forall2 (reports 2 rb2_parties (fun c => Ok (of2 (rb2_contact_point q (fst c))))) acts rs.
Proof.
  intros dt time it hash q acts bases alpha beta disk calls h Ho Fi S. apply (export_reports rb2_asked dt time it hash rb2_parties q acts bases alpha beta disk calls h); auto.
  - cbn. lia.
  - intros a I. apply (Fi a I).
  - intros a I. apply rb2_answers. apply (Fi a I).
Qed.
Print Assumptions C67_written_2d.
Theorem C67_written_3d : forall dt time it hash q acts bases alpha beta disk calls h,
  holds 3 acts bases alpha beta -> fit 3 rb3_parties acts ->
  save dt time it hash (export_forces rb3_asked q (map ac_c acts) bases alpha beta) disk calls = (h, Ok tt) ->
  has_header h dt time it hash /\ exists rs, read_forces h 3 = Some rs /\
    Forall2 (reports 3 rb3_parties (fun c => let! p := rb3_contact_point q (fst c) in Ok (of3 p))) acts rs.
Proof.
  intros dt time it hash q acts bases alpha beta disk calls h Ho Fi S. apply (export_reports rb3_asked dt time it hash rb3_parties q acts bases alpha beta disk calls h); auto.
  - cbn. lia.
  - intros a I. apply (Fi a I).
  - intros a I. apply rb3_answers. apply (Fi a I).
Qed.
Print Assumptions C67_written_3d.
(* the points of these reports are where the contacts are *)
Theorem C67_where : forall q,
  (forall a r, reports 2 ball_parties (fun c => Ok (of2 (b_contact_point q (fst c)))) a r -> ball_where q (fst (ac_c a)) (to2 (rp_point r)))
  /\ (forall a r, rb2_made_at q (fst (ac_c a)) -> reports 2 rb2_parties (fun c => Ok (of2 (rb2_contact_point q (fst c)))) a r ->
        rb2_where q (fst (ac_c a)) (to2 (rp_point r)))
  /\ (forall a r, rb3_made_at q (fst (ac_c a)) -> reports 3 rb3_parties (fun c => let! p := rb3_contact_point q (fst c) in Ok (of3 p)) a r ->
        rb3_where q (fst (ac_c a)) (to3 (rp_point r))).
Proof.
  intros q. split; [|split].
  - intros a r (_ & P & _). assert (E : rp_point r = of2 (b_contact_point q (fst (ac_c a)))) by congruence. rewrite E, to2_of2. apply ball_is_where.
  - intros a r M P. rewrite (rb2_point q a r P). apply rb2_is_where, M.
  - intros a r M P. apply rb3_is_where; [exact M|]. apply (rb3_point q a r P).
Qed.
Print Assumptions C67_where.
(* simulations with impacts only collect the forces first and write them later *)
Theorem C67_impacts_ball : forall dt time it hash q acts bases alpha sol disk calls h,
  holds_normals 2 acts bases alpha -> fit 2 ball_parties acts -> setSolution ball_asked q (map ac_c acts) bases alpha = Ok sol ->
  save dt time it hash (writeSolution ball_asked sol) disk calls = (h, Ok tt) ->
  has_header h dt time it hash /\ exists rs, read_forces h 2 = Some rs /\
    Forall2 (reports 2 ball_parties (fun c => Ok (of2 (b_contact_point q (fst c))))) acts rs.
Proof.
  intros dt time it hash q acts bases alpha sol disk calls h Ho Fi E S. apply (impact_reports ball_asked dt time it hash ball_parties q acts bases alpha sol disk calls h); auto.
  - cbn. lia.
  - intros a I. apply (Fi a I).
  - intros a I. apply ball_answers. apply (Fi a I).
Qed.
Print Assumptions C67_impacts_ball.
Theorem C67_impacts_2d : forall dt time it hash q acts bases alpha sol disk calls h,
  holds_normals 2 acts bases alpha -> fit 2 rb2_parties acts -> setSolution rb2_asked q (map ac_c acts) bases alpha = Ok sol ->
  save dt time it hash (writeSolution rb2_asked sol) disk calls = (h, Ok tt) ->
  has_header h dt time it hash /\ exists rs, read_forces h 2 = Some rs /\
    Forall2 (reports 2 rb2_parties (fun c => Ok (of2 (rb2_contact_point q (fst c))))) acts rs.
Proof.
  intros dt time it hash q acts bases alpha sol disk calls h Ho Fi E S. apply (impact_reports rb2_asked dt time it hash rb2_parties q acts bases alpha sol disk calls h); auto.
  - cbn. lia.
  - intros a I. apply (Fi a I).
  - intros a I. apply rb2_answers. apply (Fi a I).
Qed.
Print Assumptions C67_impacts_2d.
Theorem C67_impacts_3d : forall dt time it hash q acts bases alpha sol disk calls h,
  holds_normals 3 acts bases alpha -> fit 3 rb3_parties acts -> setSolution rb3_asked q (map ac_c acts) bases alpha = Ok sol ->
  save dt time it hash (writeSolution rb3_asked sol) disk calls = (h, Ok tt) ->
  has_header h dt time it hash /\ exists rs, read_forces h 3 = Some rs /\
    Forall2 (reports 3 rb3_parties (fun c => let! p := rb3_contact_point q (fst c) in Ok (of3 p))) acts rs.
Proof.
  intros dt time it hash q acts bases alpha sol disk calls h Ho Fi E S. apply (impact_reports rb3_asked dt time it hash rb3_parties q acts bases alpha sol disk calls h); auto.
  - cbn. lia.
  - intros a I. apply (Fi a I).
  - intros a I. apply rb3_answers. apply (Fi a I).
Qed.
Print Assumptions C67_impacts_3d.

(* a file is written whenever the library does its work *)
Theorem C67_returns : forall dt time it hash q disk bases alpha beta,
  (forall cs, (forall c, In c cs -> small (ball_parties c)) -> exists h, save dt time it hash (export_forces ball_asked q cs bases alpha beta) disk [] = (h, Ok tt)) /\
  (forall cs, (forall c, In c cs -> small (rb2_parties c)) -> exists h, save dt time it hash (export_forces rb2_asked q cs bases alpha beta) disk [] = (h, Ok tt)) /\
  (forall cs, (forall c, In c cs -> small (rb3_parties c) /\ match fst c with SphereBody _ _ _ _ _ | CylBody _ _ _ => False | _ => True end) ->
     exists h, save dt time it hash (export_forces rb3_asked q cs bases alpha beta) disk [] = (h, Ok tt)).
Proof.
  intros dt time it hash q disk bases alpha beta. split; [|split]; intros cs H.
  - destruct (columns_work ball_asked q cs) as (is & ps & Ei & Ep); [intros c I; apply ball_fine, H, I|]. eapply export_works; eassumption.
  - destruct (columns_work rb2_asked q cs) as (is & ps & Ei & Ep); [intros c I; apply rb2_fine, H, I|]. eapply export_works; eassumption.
  - destruct (columns_work rb3_asked q cs) as (is & ps & Ei & Ep).
    { intros c I. destruct (H c I) as (S & N). apply rb3_fine; [exact S|]. destruct (fst c); cbn; try contradiction; eauto. }
    eapply export_works; eassumption.
Qed.
Print Assumptions C67_returns.

(* the force along the normal is the normal impulse, and along each tangent the friction impulse *)
Theorem C67_components : forall C d parties point (a : acting C) r,
  unit_frame d (ac_E a) -> length (ac_imp a) = d -> reports d parties point a r ->
  forall k, (k < d)%nat -> ldot (nth k (ac_E a) []) (rp_force r) = at_ (ac_imp a) k.
Proof. exact @components. Qed.
Print Assumptions C67_components.

(* ---------- the forces account for the motion ---------- *)
(* Friction solver and export together: what the forces in the file add up to on a body is its change of momentum. *)
Theorem C67_accounts_ball : forall inv gs tol ng M q0 v0 its r acts bases alpha beta dt time it hash disk calls h rs b e,
  mass2_ok ng M -> blocks_inverted ball_sim inv ng M -> returns 2 gs -> frictionless_ok gs -> ball_ready ng its ->
  sob_solve ball_sim inv gs tol ng M q0 v0 its = Ok r -> solved its (sb_imps r) acts ->
  holds 2 acts bases alpha beta -> fit 2 ball_parties acts ->
  save dt time it hash (export_forces ball_asked q0 (map ac_c acts) bases alpha beta) disk calls = (h, Ok tt) -> read_forces h 2 = Some rs ->
  (b < ng)%nat -> (e < 2)%nat ->
  M (2 * b)%nat * (sb_v r (2 * b + e)%nat - v0 (2 * b + e)%nat) = force_on b e rs.
Proof.
  intros inv gs tol ng M q0 v0 its r acts bases alpha beta dt time it hash disk calls h rs b e Mo Bi Re Fr Rd E So Ho Fi S X Hb He.
  destruct (C67_written_ball _ _ _ _ _ _ _ _ _ _ _ _ Ho Fi S) as (_ & rs' & X' & F). assert (rs' = rs) by congruence. subst rs'. eapply ball_accounts; eauto.
Qed.
Print Assumptions C67_accounts_ball.
Theorem C67_accounts_2d : forall inv gs tol ng M q0 v0 its r acts bases alpha beta dt time it hash disk calls h rs b,
  mass_rb2_ok ng M -> blocks_inverted rb2_sim inv ng M -> returns 2 gs -> frictionless_ok gs -> rb2_ready ng its ->
  (forall it, In it its -> rb2_made_at q0 (it_c it) /\ to2 (nth 0 (it_E it) []) = rb2_normal (it_c it) /\ not_scripted2 b (it_c it)) ->
  sob_solve rb2_sim inv gs tol ng M q0 v0 its = Ok r -> solved its (sb_imps r) acts ->
  holds 2 acts bases alpha beta -> fit 2 rb2_parties acts ->
  save dt time it hash (export_forces rb2_asked q0 (map ac_c acts) bases alpha beta) disk calls = (h, Ok tt) -> read_forces h 2 = Some rs ->
  (b < ng)%nat ->
  (forall e, (e < 2)%nat -> M (3 * b)%nat * (sb_v r (3 * b + e)%nat - v0 (3 * b + e)%nat) = force_on b e rs) /\
  ((forall it, In it its -> not_through_portal2 b (it_c it)) ->
     M (3 * b + 2)%nat * (sb_v r (3 * b + 2)%nat - v0 (3 * b + 2)%nat) = torque_on2 b (seg2 q0 (3 * b)) rs).
Proof.
  intros inv gs tol ng M q0 v0 its r acts bases alpha beta dt time it hash disk calls h rs b Mo Bi Re Fr Rd Mk E So Ho Fi S X Hb.
  destruct (C67_written_2d _ _ _ _ _ _ _ _ _ _ _ _ Ho Fi S) as (_ & rs' & X' & F). assert (rs' = rs) by congruence. subst rs'. eapply rb2_accounts; eauto.
Qed.
Print Assumptions C67_accounts_2d.
Theorem C67_accounts_3d : forall inv gs tol ng M Iinv q0 v0 its r acts bases alpha beta dt time it hash disk calls h rs b,
  mass_rb3_ok ng M (inertia_of ng M) Iinv -> blocks_inverted rb3_sim inv ng M -> returns 3 gs -> rb3_ready ng its ->
  (forall it, In it its -> rb3_made_at q0 (it_c it) /\ to3 (nth 0 (it_E it) []) = rb3_normal q0 (it_c it) /\ not_scripted3 b (it_c it)) ->
  sob_solve rb3_sim inv gs tol ng M q0 v0 its = Ok r -> solved its (sb_imps r) acts ->
  holds 3 acts bases alpha beta -> fit 3 rb3_parties acts ->
  save dt time it hash (export_forces rb3_asked q0 (map ac_c acts) bases alpha beta) disk calls = (h, Ok tt) -> read_forces h 3 = Some rs ->
  (b < ng)%nat ->
  (forall e, (e < 3)%nat -> M (3 * b)%nat * (sb_v r (3 * b + e)%nat - v0 (3 * b + e)%nat) = force_on b e rs) /\
  ((forall it, In it its -> not_through_portal3 b (it_c it)) ->
     mul3 (inertia_of ng M b) (sub3 (seg3 (sb_v r) (3 * (ng + b))) (seg3 v0 (3 * (ng + b)))) = torque_on3 b (seg3 q0 (3 * b)) rs).
Proof.
  intros inv gs tol ng M Iinv q0 v0 its r acts bases alpha beta dt time it hash disk calls h rs b Mo Bi Re Rd Mk E So Ho Fi S X Hb.
  destruct (C67_written_3d _ _ _ _ _ _ _ _ _ _ _ _ Ho Fi S) as (_ & rs' & X' & F). assert (rs' = rs) by congruence. subst rs'. eapply rb3_accounts; eauto.
Qed.
Print Assumptions C67_accounts_3d.
(* the same for impacts, where the velocities change along the gradients of the gaps *)
Theorem C67_impacts_account_ball : forall ng M v0 v1 acts point rs b e,
  mass2_ok ng M -> moved (2 * ng) (diag_minv M) (fun a => [b_gradg (fst (ac_c a))]) acts v0 v1 ->
  (forall a, In a acts -> length (ac_imp a) = 1%nat /\ to2 (nth 0 (ac_E a) []) = fst (b_basis (fst (ac_c a)))) ->
  Forall2 (reports 2 ball_parties point) acts rs -> (b < ng)%nat -> (e < 2)%nat ->
  M (2 * b)%nat * (v1 (2 * b + e)%nat - v0 (2 * b + e)%nat) = force_on b e rs.
Proof. exact ball_impacts. Qed.
Print Assumptions C67_impacts_account_ball.
Theorem C67_impacts_account_2d : forall ng M q0 v0 v1 acts rs b,
  mass_rb2_ok ng M -> moved (3 * ng) (diag_minv M) (fun a => only_ok (rb2_gradg (fst (ac_c a)))) acts v0 v1 ->
  (forall a, In a acts -> length (ac_imp a) = 1%nat /\ to2 (nth 0 (ac_E a) []) = rb2_normal (fst (ac_c a)) /\ rb2_made_at q0 (fst (ac_c a)) /\
     not_scripted2 b (fst (ac_c a)) /\ exists g, rb2_gradg (fst (ac_c a)) = Ok g) ->
  Forall2 (reports 2 rb2_parties (a_point rb2_asked q0)) acts rs -> (b < ng)%nat ->
  (forall e, (e < 2)%nat -> M (3 * b)%nat * (v1 (3 * b + e)%nat - v0 (3 * b + e)%nat) = force_on b e rs) /\
  ((forall a, In a acts -> not_through_portal2 b (fst (ac_c a))) -> M (3 * b + 2)%nat * (v1 (3 * b + 2)%nat - v0 (3 * b + 2)%nat) = torque_on2 b (seg2 q0 (3 * b)) rs).
Proof. exact rb2_impacts. Qed.
Print Assumptions C67_impacts_account_2d.
Theorem C67_impacts_account_3d : forall ng M I Iinv q0 v0 v1 acts rs b,
  mass_rb3_ok ng M I Iinv -> moved (6 * ng) (rb3_minv ng M Iinv) (fun a => only_ok (rb3_gradg ng q0 (fst (ac_c a)))) acts v0 v1 ->
  (forall a, In a acts -> length (ac_imp a) = 1%nat /\ to3 (nth 0 (ac_E a) []) = rb3_normal q0 (fst (ac_c a)) /\ rb3_made_at q0 (fst (ac_c a)) /\
     in_range ng (rb3_bodies (fst (ac_c a))) /\ not_scripted3 b (fst (ac_c a)) /\ exists g, rb3_gradg ng q0 (fst (ac_c a)) = Ok g) ->
  Forall2 (reports 3 rb3_parties (a_point rb3_asked q0)) acts rs -> (b < ng)%nat ->
  (forall e, (e < 3)%nat -> M (3 * b)%nat * (v1 (3 * b + e)%nat - v0 (3 * b + e)%nat) = force_on b e rs) /\
  ((forall a, In a acts -> not_through_portal3 b (fst (ac_c a))) ->
     mul3 (I b) (sub3 (seg3 v1 (3 * (ng + b))) (seg3 v0 (3 * (ng + b)))) = torque_on3 b (seg3 q0 (3 * b)) rs).
Proof. exact rb3_impacts. Qed.
Print Assumptions C67_impacts_account_3d.

(* ---------- what does not hold ---------- *)
(* a plane and a drum, or a plane and a cylinder, with the same number cannot be told apart *)
Theorem C67_which_obstacle_refuted :
  (forall i k r p n r', collision_indices ball_asked (BallPlane i r p, k) = collision_indices ball_asked (BallDrum i n r', k)) /\
  (forall i k r p r' cy, collision_indices rb3_asked (PlaneSphere i r p, k) = collision_indices rb3_asked (CylSphere i r' cy, k)).
Proof. split; intros; reflexivity. Qed.
Print Assumptions C67_which_obstacle_refuted.
(* a single contact of a body with a cylinder, or of a sphere with a body, stops the export *)
Theorem C67_stops_refuted : forall q cs bases alpha beta h c, In c cs -> (match fst c with SphereBody _ _ _ _ _ | CylBody _ _ _ => True | _ => False end) ->
  forall h', export_forces rb3_asked q cs bases alpha beta h <> (h', Ok tt).
Proof. exact export_stops. Qed.
Print Assumptions C67_stops_refuted.
(* a scripted body is named as a party, though the force never acts on it *)
Definition ex_scripted : acting (rb3_contact * N) := Acting (KinSphere 0 1 (V3 0 0 1) 1, 0%N) [[0; 0; 1]; [1; 0; 0]; [0; 1; 0]] [2; 0; 0].
Theorem C67_scripted_refuted : exists r, reports 3 rb3_parties (a_point rb3_asked (fun _ => 0)) ex_scripted r /\ force_on 1 2 [r] = -2 /\
  forall k, (3 <= k < 6 \/ 9 <= k < 12)%nat -> impulse (combine (rb3_framed 2 (fun _ => 0) ex_scripted) (ac_imp ex_scripted)) k = 0.
Proof.
  exists (Report 0 (Body 1) [0 - 1 * 0; 0 - 1 * 0; 0 - 1 * 1] [0; 0; 1] [0; 0; 2]). split; [|split].
  - unfold reports. split; [reflexivity|]. split; [reflexivity|]. split; [reflexivity|]. split; [reflexivity|].
    intros [|[|[|e]]] He; [| | |lia]; unfold at_; cbn; lra.
  - unfold force_on, signed, total_R, at_. cbn. lra.
  - intros k Hk. assert (C : (k = 3 \/ k = 4 \/ k = 5 \/ k = 9 \/ k = 10 \/ k = 11)%nat) by lia.
    destruct C as [->|[->|[->|[->|[->| ->]]]]]; unfold impulse; cbn; lra.
Qed.
Print Assumptions C67_scripted_refuted.
(* through a portal the second body is touched somewhere else, so that the point in the file gives a wrong torque on it *)
Definition ex_portal : acting (rb2_contact * N) := Acting (TeleCircleCircle 0 1 (-1, 0) (1, 0) (-1, 0), 0%N) [[-1; 0]; [0; -1]] [0; 1].
Definition ex_portal_q (k : nat) : R := match k with 3%nat => 10 | _ => 0 end.
Theorem C67_portal_torque_refuted : exists r, rb2_made_at ex_portal_q (fst (ac_c ex_portal)) /\ reports 2 rb2_parties (a_point rb2_asked ex_portal_q) ex_portal r /\
  impulse (combine (rb2_framed ex_portal_q ex_portal) (ac_imp ex_portal)) 5 = -1 /\ torque_on2 1 (seg2 ex_portal_q 3) [r] = -9.
Proof.
  exists (Report 0 (Body 1) [0 + 1; 0 + 0] [-1; 0] [0; -1]). split; [|split; [|split]].
  - assert (E : TeleCircleCircle 0 1 (-1, 0) (1, 0) (-1, 0) = mk_tele_circle_circle 0 1 (0, 0) (2, 0) 1 1).
    { unfold mk_tele_circle_circle. assert (N : vnormalized (vsub (0, 0) (2, 0)) = (-1, 0)).
      { unfold vnormalized, vdot, vsub, vscale. cbn [fst snd]. destruct (Rlt_dec _ _) as [H|H]; [|exfalso; apply H; lra].
        replace ((0 - 2) * (0 - 2) + (0 - 0) * (0 - 0)) with (2 * 2) by lra. rewrite sqrt_square by lra. f_equal; lra. }
      rewrite N. unfold vscale, vsub. cbn [fst snd]. f_equal; f_equal; lra. }
    cbn [ex_portal ac_c fst]. rewrite E. constructor.
  - unfold reports. split; [reflexivity|]. split; [reflexivity|]. split; [reflexivity|]. split; [reflexivity|].
    intros [|[|e]] He; [| |lia]; unfold at_; cbn; lra.
  - unfold impulse. cbn. unfold vcross. cbn. lra.
  - unfold torque_on2, signed, total_R, to2, at_, vcross, vsub, seg2. cbn. lra.
Qed.
Print Assumptions C67_portal_torque_refuted.
(* friction sampled along more directions than d - 1, in the plane along t and - t: the export reads the impulses of other contacts *)
Theorem C67_sampled_friction_refuted : exists (bases : nat -> nat -> R) (alpha beta : dvec),
  (forall con, bases 0%nat (2 * con)%nat = 0 /\ bases 1%nat (2 * con)%nat = 1 /\ bases 0%nat (2 * con + 1)%nat = 1 /\ bases 1%nat (2 * con + 1)%nat = 0) /\
  (* contact 1 has friction impulses beta 2 along t and beta 3 along - t *)
  contact_force ball_asked bases alpha beta 1 0 <> beta 2%nat - beta 3%nat.
Proof.
  exists (fun e c => if Nat.eqb ((e + c) mod 2) 1 then 1 else 0), (fun _ => 0), (fun k => match k with 2%nat => 1 | _ => 0 end).
  split.
  - intros con. assert (A : ((0 + 2 * con) mod 2 = 0)%nat) by (rewrite Nat.add_0_l, Nat.mul_comm; apply Nat.mod_mul; lia).
    assert (B : ((1 + 2 * con) mod 2 = 1)%nat) by (rewrite (Nat.mul_comm 2), Nat.mod_add by lia; reflexivity).
    replace (0 + (2 * con + 1))%nat with (1 + 2 * con)%nat by lia. replace (1 + (2 * con + 1))%nat with (0 + (2 * (con + 1)))%nat by lia.
    assert (D : ((0 + 2 * (con + 1)) mod 2 = 0)%nat) by (rewrite Nat.add_0_l, Nat.mul_comm; apply Nat.mod_mul; lia).
    rewrite A, B, D. cbn. auto.
  - unfold contact_force. cbn. lra.
Qed.
Print Assumptions C67_sampled_friction_refuted.

(* ---------- the hypotheses are met ---------- *)
Definition ex_acts : list (acting (ball_contact * N)) :=
  [Acting (BallBall 1 3 (0, 1) 1 1 false, 0%N) [[0; 1]; [-1; 0]] [3; 0];
   Acting (BallPlane 3 1 (BallPlaneGeo (0, 0) (0, 1) (0, 0)), 4%N) [[0; 1]; [-1; 0]] [5; 0]].
Definition ex_bases (e c : nat) : R := nth e (nth c [[0; 1]; [-1; 0]; [0; 1]; [-1; 0]] []) 0.
Example C67_case : exists h rs, save 1 2 3 "hash" (export_forces ball_asked (fun _ => 0) (map ac_c ex_acts) ex_bases (fun k => nth k [3; 5] 0) (fun _ => 0)) (Hdf_Model.Group []) [] = (h, Ok tt) /\
  read_forces h 2 = Some rs /\ map rp_first rs = [1; 3]%nat /\ map rp_second rs = [Body 3; Obstacle 4] /\ force_on 3 1 rs = 2.
Proof.
  assert (Fi : fit 2 ball_parties ex_acts) by (intros a [<-|[<-|[]]]; (split; [split; cbn; lia|reflexivity])).
  assert (Ho : holds 2 ex_acts ex_bases (fun k => nth k [3; 5] 0) (fun _ => 0)).
  { intros [|[|i]] a E; cbn in E; try (destruct i; discriminate); injection E as <-.
    - split; [intros [|[|k]] [|[|e]] Hk He; try lia; reflexivity|]. split; [reflexivity|]. intros [|s] Hs; [reflexivity|lia].
    - split; [intros [|[|k]] [|[|e]] Hk He; try lia; reflexivity|]. split; [reflexivity|]. intros [|s] Hs; [reflexivity|lia]. }
  destruct (C67_returns 1 2 3 "hash" (fun _ => 0) (Hdf_Model.Group []) ex_bases (fun k => nth k [3; 5] 0) (fun _ => 0)) as (W & _).
  destruct (W (map ac_c ex_acts)) as (h & S). { intros c [<-|[<-|[]]]; split; cbn; lia. }
  destruct (C67_written_ball _ _ _ _ _ _ _ _ _ _ _ _ Ho Fi S) as (_ & rs & X & F). exists h, rs. split; [exact S|]. split; [exact X|].
  inversion F as [|a r1 l l' R1 F' E1 E2]; subst. inversion F' as [|a2 r2 l2 l2' R2 F'' E3 E4]; subst. inversion F''; subst.
  destruct R1 as (P1 & _ & _ & _ & G1). destruct R2 as (P2 & _ & _ & _ & G2).
  destruct r1 as [f1 s1 p1 n1 w1], r2 as [f2 s2 p2 n2 w2]. cbn [rp_first rp_second rp_force] in *.
  assert (Q1 : (1%nat, Body 3) = (f1, s1)) by exact P1. assert (Q2 : (3%nat, Obstacle 4) = (f2, s2)) by exact P2. injection Q1 as <- <-. injection Q2 as <- <-.
  split; [reflexivity|]. split; [reflexivity|].
  unfold force_on, signed, total_R. cbn [map fold_right rp_first rp_second rp_force Nat.eqb names].
  rewrite (G1 1%nat), (G2 1%nat) by lia. unfold at_. cbn. lra.
Qed.
(* the solver called with these contacts reports these impulses, so that the accounts apply *)
Example C67_solved_case : exists r, sob_solve ball_sim Sob_Props.ex_inv (Sob_Props.ex_gs 2) 1 4 (fun _ => 2) (fun _ => 0) (fun _ => 7) Sob_Props.ex_its = Ok r /\
  solved Sob_Props.ex_its (sb_imps r) ex_acts /\ mass2_ok 4 (fun _ => 2) /\ blocks_inverted ball_sim Sob_Props.ex_inv 4 (fun _ => 2) /\ ball_ready 4 Sob_Props.ex_its.
Proof.
  assert (HM : mass2_ok 4 (fun _ => 2)) by (intros i _; split; lra).
  assert (HI : blocks_inverted ball_sim Sob_Props.ex_inv 4 (fun _ => 2)).
  { intros b _ x o Ho. cbn [ball_sim k_s k_mass] in *. unfold Sob_Props.ex_inv, ball_block. destruct o as [|[|o]]; [| |lia]; cbn [rsum Nat.eqb]; field. }
  assert (F : unit_frame 2 [[0; 1]; [-1; 0]]).
  { split; [reflexivity|]. split; [intros x [<- | [<- | []]]; reflexivity|]. intros [|[|i]] [|[|j]] Hi Hj; try lia; unfold ldot; cbn; lra. }
  assert (HR : ball_ready 4 Sob_Props.ex_its).
  { intros it [<- | [<- | []]]; (split; [split; cbn; lia|]); (split; [exact F|split; [reflexivity|exact Logic.I]]). }
  destruct (Sob_Props.C57_ball Sob_Props.ex_inv (Sob_Props.ex_gs 2) 1 4 (fun _ => 2) (fun _ => 0) (fun _ => 7) Sob_Props.ex_its HM HI (proj1 (Sob_Props.ex_gs_ok 2 ltac:(lia))) HR) as [r [E S]].
  exists r. split; [exact E|]. split; [|auto]. unfold solves in S. cbn [Sob_Props.ex_gs] in S. destruct S as [_ [SI _]].
  split; [reflexivity|]. split; [reflexivity|]. rewrite SI. cbn. unfold Reqb. destruct (Req_EM_T 0 0); [|lra]. destruct (Req_EM_T (/ 2) 0); [lra|]. reflexivity.
Qed.
(* the point of the second contact is the foot of ball 3 *)
Example C67_where_case : ball_where (fun _ => 7) (BallPlane 3 1 (BallPlaneGeo (0, 0) (0, 1) (0, 0))) (7, 6) /\ ~ ball_where (fun _ => 7) (BallPlane 3 1 (BallPlaneGeo (0, 0) (0, 1) (0, 0))) (7, 8).
Proof.
  split.
  - pose proof (ball_is_where (fun _ => 7) (BallPlane 3 1 (BallPlaneGeo (0, 0) (0, 1) (0, 0)))) as H. cbn [b_contact_point bp_n] in H.
    assert (E : (7, 6) = vsub (seg2 (fun _ => 7) (2 * 3)) (vscale 1 (0, 1))) by (unfold vsub, vscale, seg2; cbn [fst snd]; f_equal; lra). rewrite E. exact H.
  - cbn [ball_where bp_n]. intros H. destruct H as [_ H]; [unfold vdot; cbn [fst snd]; lra|lra|]. specialize (H (7, 6)).
    unfold Geom_Spec.in_disc, vdot, vsub, seg2 in H. cbn [fst snd] in H. lra.
Qed.
