(* C57: The friction solver acts on the system the user sees: its renumbering of the bodies in contact is invisible. *)
From Coq Require Import List Reals Arith Bool Lia Lra.
From Verif Require Import Outcome Ccd_Model Lin_Model Lin_Proofs ContactBall_Model ContactRb2_Model ContactRb3_Model Contact_Spec
  Sob_Model Sob_Spec Sob_Proofs Sob_Thms Sob_Sims Sob_Final.
Import ListNotations.
Open Scope R_scope.

(* For any list of contacts that name bodies of the system and carry orthonormal frames, any masses, positions and velocities and
   any inner solver, the call succeeds and the result is that of the friction problem posed on all bodies. *)
Theorem C57_ball : forall inv gs tol ng M q0 v0 its,
  mass2_ok ng M -> blocks_inverted ball_sim inv ng M -> returns 2 gs -> ball_ready ng its ->
  exists r, sob_solve ball_sim inv gs tol ng M q0 v0 its = Ok r /\
    solves true (2 * ng) (diag_minv M) ball_cols (ball_bias v0) gs tol v0 its r.
Proof. exact ball_final. Qed.
Print Assumptions C57_ball.

Theorem C57_rigid_2d : forall inv gs tol ng M q0 v0 its,
  mass_rb2_ok ng M -> blocks_inverted rb2_sim inv ng M -> returns 2 gs -> rb2_ready ng its ->
  exists r, sob_solve rb2_sim inv gs tol ng M q0 v0 its = Ok r /\
    solves true (3 * ng) (diag_minv M) (rb2_cols q0) (rb2_bias q0 v0) gs tol v0 its r.
Proof. exact rb2_final. Qed.
Print Assumptions C57_rigid_2d.

Theorem C57_rigid_3d : forall inv gs tol ng M Iinv q0 v0 its,
  mass_rb3_ok ng M (inertia_of ng M) Iinv -> blocks_inverted rb3_sim inv ng M -> returns 3 gs -> rb3_ready ng its ->
  exists r, sob_solve rb3_sim inv gs tol ng M q0 v0 its = Ok r /\
    solves false (6 * ng) (rb3_minv ng M Iinv) (rb3_cols ng q0) (rb3_bias ng q0 v0) gs tol v0 its r.
Proof. exact rb3_final. Qed.
Print Assumptions C57_rigid_3d.

(* a body that no contact names keeps its velocity and gets no friction force *)
Theorem C57_ball_others : forall inv gs tol ng M q0 v0 its r b,
  mass2_ok ng M -> blocks_inverted ball_sim inv ng M -> returns 2 gs -> ball_ready ng its ->
  sob_solve ball_sim inv gs tol ng M q0 v0 its = Ok r ->
  (b < ng)%nat -> (forall it, In it its -> untouched (b_bodies (it_c it)) b) ->
  seg2 (sb_v r) (2 * b) = seg2 v0 (2 * b) /\ seg2 (sb_f r) (2 * b) = (0, 0).
Proof. exact ball_others. Qed.
Print Assumptions C57_ball_others.

Theorem C57_rigid_2d_others : forall inv gs tol ng M q0 v0 its r b o,
  mass_rb2_ok ng M -> blocks_inverted rb2_sim inv ng M -> returns 2 gs -> rb2_ready ng its ->
  sob_solve rb2_sim inv gs tol ng M q0 v0 its = Ok r ->
  (b < ng)%nat -> (forall it, In it its -> untouched (rb2_bodies (it_c it)) b) -> (o < 3)%nat ->
  sb_v r (3 * b + o)%nat = v0 (3 * b + o)%nat /\ sb_f r (3 * b + o)%nat = 0.
Proof. exact rb2_others. Qed.
Print Assumptions C57_rigid_2d_others.

Theorem C57_rigid_3d_others : forall inv gs tol ng M Iinv q0 v0 its r b,
  mass_rb3_ok ng M (inertia_of ng M) Iinv -> blocks_inverted rb3_sim inv ng M -> returns 3 gs -> rb3_ready ng its ->
  sob_solve rb3_sim inv gs tol ng M q0 v0 its = Ok r ->
  (b < ng)%nat -> (forall it, In it its -> untouched (rb3_bodies (it_c it)) b) ->
  seg3 (sb_v r) (3 * b) = seg3 v0 (3 * b) /\ seg3 (sb_v r) (3 * (ng + b)) = seg3 v0 (3 * (ng + b)) /\
  seg3 (sb_f r) (3 * b) = zero3 /\ seg3 (sb_f r) (3 * (ng + b)) = zero3.
Proof. exact rb3_others. Qed.
Print Assumptions C57_rigid_3d_others.

(* where the inner solver gives frictionless contacts no tangential impulse, the reported impulses explain the reported velocity *)
Theorem C57_reported_impulses_act : forall C planar n Minv (cols : item C -> list col) bias_of gs tol v0 its r d,
  solves planar n Minv cols bias_of gs tol v0 its r -> returns d gs -> frictionless_ok gs ->
  forall k, (k < n)%nat -> sb_v r k = v0 k + Minv (impulse (combine (flat_map cols its) (concat (sb_imps r)))) k.
Proof. exact @solves_reported. Qed.
Print Assumptions C57_reported_impulses_act.

(* a contact of the sphere-body kind anywhere in the list ends the program *)
Theorem C57_sphere_body_refuted : forall inv gs tol ng M q0 v0 l1 it l2,
  rb3_ready ng l1 -> ~ not_sphere_body (it_c it) -> sob_solve rb3_sim inv gs tol ng M q0 v0 (l1 ++ it :: l2) = Exit.
Proof. exact sphere_body_exits. Qed.
Print Assumptions C57_sphere_body_refuted.

(* ---------- the hypotheses are met ---------- *)
Definition ex_inv (A : nat -> nat -> R) (o p : nat) : R := if Nat.eqb o p then 1 / A o o else 0.
(* keeps the normal impulses it is given, no friction *)
Definition ex_gs (d : nat) (W b : list (list R)) (mu : list R) (st : list (list R)) : list (list R) * R :=
  (map (fun s => at_ s 0 :: repeat 0 (d - 1)) st, 0).
Lemma ex_gs_ok : forall d, (0 < d)%nat -> returns d (ex_gs d) /\ frictionless_ok (ex_gs d).
Proof.
  intros d Hd. split.
  - intros W b mu st. cbn [ex_gs fst]. rewrite map_length. split; [reflexivity|]. intros x I. apply in_map_iff in I. destruct I as [y [<- _]].
    cbn [length]. rewrite repeat_length. lia.
  - intros W b mu st m r I Z t It. cbn [ex_gs fst] in I. apply in_combine_r in I. apply in_map_iff in I. destruct I as [y [<- _]].
    cbn [tl] in It. now apply repeat_spec in It.
Qed.

(* four balls; the second and the fourth touch and the fourth lies on a plane *)
Definition ex_its : list (item ball_contact) :=
  [Item (BallBall 1 3 (0, 1) 1 1 false) [[0; 1]; [-1; 0]] 0 0 None [3; 0];
   Item (BallPlane 3 1 (BallPlaneGeo (0, 0) (0, 1) (0, 0))) [[0; 1]; [-1; 0]] 1 (/ 2) None [5; 0]].
Example C57_ball_case : exists r, sob_solve ball_sim ex_inv (ex_gs 2) 1 4 (fun _ => 2) (fun _ => 0) (fun _ => 7) ex_its = Ok r
  /\ seg2 (sb_v r) 0 = (7, 7) /\ seg2 (sb_v r) 2 = (7, 17 / 2) /\ seg2 (sb_v r) 4 = (7, 7) /\ seg2 (sb_v r) 6 = (7, 8)
  /\ sb_contacts r = map it_c ex_its.
Proof.
  assert (HM : mass2_ok 4 (fun _ => 2)) by (intros i _; split; lra).
  assert (HI : blocks_inverted ball_sim ex_inv 4 (fun _ => 2)).
  { intros b _ x o Ho. cbn [ball_sim k_s k_mass] in *. unfold ex_inv, ball_block. destruct o as [|[|o]]; [| |lia]; cbn [rsum Nat.eqb]; field. }
  assert (F : unit_frame 2 [[0; 1]; [-1; 0]]).
  { split; [reflexivity|]. split; [intros x [<- | [<- | []]]; reflexivity|]. intros [|[|i]] [|[|j]] Hi Hj; try lia; unfold ldot; cbn; lra. }
  assert (HR : ball_ready 4 ex_its).
  { intros it [<- | [<- | []]]; (split; [split; cbn; lia|]); (split; [exact F|split; [reflexivity|exact Logic.I]]). }
  destruct (C57_ball ex_inv (ex_gs 2) 1 4 (fun _ => 2) (fun _ => 0) (fun _ => 7) ex_its HM HI (proj1 (ex_gs_ok 2 ltac:(lia))) HR) as [r [E S]].
  exists r. split; [exact E|]. pose proof (C57_reported_impulses_act _ _ _ _ _ _ _ _ _ _ _ 2 S (proj1 (ex_gs_ok 2 ltac:(lia))) (proj2 (ex_gs_ok 2 ltac:(lia)))) as V.
  unfold solves in S. cbn [ex_gs] in S. destruct S as [SC [SI _]]. rewrite SI in V.
  unfold seg2. rewrite !V by lia. cbn -[Rplus Rmult Rdiv Ropp]. unfold diag_minv, impulse, entry, Reqb. cbn -[Rplus Rmult Rdiv Ropp].
  repeat (destruct (Req_EM_T _ _); try lra). cbn -[Rplus Rmult Rdiv Ropp].
  split; [|split; [|split; [|split]]]; try (f_equal; lra). exact SC.
Qed.
Example C57_ball_others_case : forall it, In it ex_its -> untouched (b_bodies (it_c it)) 2.
Proof. intros it [<- | [<- | []]]; split; cbn; congruence. Qed.

(* three bodies; the second lies on a plane and touches the third *)
Definition ex_its3 : list (item rb3_contact) :=
  [Item (PlaneBody3 1 (V3 0 0 1) (V3 1 0 0) 0) [[0; 0; 1]; [1; 0; 0]; [0; 1; 0]] 0 (/ 2) None [4; 0; 0];
   Item (BodyBody3 1 2 (V3 0 0 1) (V3 0 0 1) (V3 0 0 (-1))) [[0; 0; 1]; [1; 0; 0]; [0; 1; 0]] 0 1 (Some [1; 0; 0]) [1; 2; 3]].
Definition ex_M3 (k : nat) : R := if Nat.ltb k 9 then 2 else match ((k - 9) mod 9)%nat with 0%nat | 4%nat | 8%nat => 1 | _ => 0 end.
Example C57_rigid_3d_case : exists r, sob_solve rb3_sim ex_inv (ex_gs 3) 1 3 ex_M3 (fun _ => 0) (fun _ => 7) ex_its3 = Ok r
  /\ seg3 (sb_v r) 0 = V3 7 7 7 /\ sb_contacts r = map it_c ex_its3.
Proof.
  assert (HM : mass_rb3_ok 3 ex_M3 (inertia_of 3 ex_M3) (fun _ => M3 (V3 1 0 0) (V3 0 1 0) (V3 0 0 1))).
  { intros i Hi. assert (L : forall k, (k < 9)%nat -> ex_M3 k = 2) by (intros k Hk; unfold ex_M3; now rewrite (proj2 (Nat.ltb_lt k 9) Hk)).
    rewrite !L by lia. split; [lra|]. split; [reflexivity|]. split; [reflexivity|]. intros [x y z].
    destruct i as [|[|[|i]]]; [| | |lia]; unfold inertia_of, ex_M3, mul3, dot3; cbn -[Rplus Rmult Rdiv Ropp]; f_equal; ring. }
  assert (HI : blocks_inverted rb3_sim ex_inv 3 ex_M3).
  { intros b Hb x o Ho. cbn [rb3_sim k_s k_mass] in *. change 6%nat with 6%nat in Hb. unfold ex_inv, rb3_block, ex_M3.
    destruct b as [|[|[|b]]]; [| | |lia]; destruct o as [|[|[|[|[|[|o]]]]]]; try lia; cbn -[Rplus Rmult Rdiv Ropp]; field. }
  assert (F : unit_frame 3 [[0; 0; 1]; [1; 0; 0]; [0; 1; 0]]).
  { split; [reflexivity|]. split; [intros x [<- | [<- | [<- | []]]]; reflexivity|].
    intros [|[|[|i]]] [|[|[|j]]] Hi Hj; try lia; unfold ldot; cbn -[Rplus Rmult]; lra. }
  assert (HR : rb3_ready 3 ex_its3).
  { intros it [<- | [<- | []]]; (split; [exact Logic.I|]); (split; [split; cbn; lia|]); (split; [exact F|split; [reflexivity|]]); [exact Logic.I|reflexivity]. }
  destruct (C57_rigid_3d ex_inv (ex_gs 3) 1 3 ex_M3 _ (fun _ => 0) (fun _ => 7) ex_its3 HM HI (proj1 (ex_gs_ok 3 ltac:(lia))) HR) as [r [E S]].
  exists r. split; [exact E|]. split.
  - apply (C57_rigid_3d_others ex_inv (ex_gs 3) 1 3 ex_M3 _ (fun _ => 0) (fun _ => 7) ex_its3 r 0 HM HI (proj1 (ex_gs_ok 3 ltac:(lia))) HR E ltac:(lia)).
    intros it [<- | [<- | []]]; split; cbn; congruence.
  - unfold solves in S. cbn [ex_gs] in S. apply S.
Qed.
