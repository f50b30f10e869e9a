(* C28 bodies, C29 geometry, C43 balls: adding and deleting. *)
From Coq Require Import ZArith List Reals Arith Bool Lia Lra.
From Verif Require Import Outcome Ccd_Model Lin_Model State_Model State_Spec State_Proofs.
Import ListNotations.
Open Scope R_scope.

(* deletion keeps exactly the bodies not named, in order, with everything that belongs to them *)
Theorem C28_remove : forall s bs gs ix, represents s bs gs -> Forall located bs -> (forall i, In i ix -> (i < length bs)%nat) ->
  exists s', remove_bodies s ix = Ok s' /\ represents s' (without ix bs) gs /\ s_gidx s' = without ix (s_gidx s).
Proof. exact remove_bodies_ok. Qed.

(* only the set of named bodies matters: naming one twice, or in another order, makes no difference *)
Theorem C28_naming_twice : forall s bs gs ix ix', represents s bs gs -> Forall located bs -> (forall i, In i ix -> (i < length bs)%nat) ->
  (forall i, In i ix <-> In i ix') -> remove_bodies s ix = remove_bodies s ix'.
Proof. exact remove_same_set. Qed.

Theorem C28_add : forall s bs gs x v theta omega rho geo fixed g, represents s bs gs -> nth_error gs geo = Some g ->
  exists s', add_body s x v theta omega rho geo fixed = Ok s'
  /\ represents s' (bs ++ [new_body x v theta omega rho g fixed]) gs.
Proof. exact add_body_ok. Qed.

(* any sequence of script calls: as long as no shape in use is deleted, the state follows the list of bodies,
   rejected calls end the program, and nothing else can happen; arrays agree in length and masses stay inverse *)
Theorem C28_history : forall cs s bs gs, represents s bs gs -> good bs gs -> spares_shapes s cs ->
  match spec_run (bs, gs) cs with
  | None => state_run s cs = Exit
  | Some (bs', gs') => exists s', state_run s cs = Ok s' /\ represents s' bs' gs' /\ good bs' gs'
  end.
Proof. exact state_run_total. Qed.

(* even without that proviso a sequence that completes has followed the list of bodies *)
Theorem C28_completed_history : forall cs s bs gs s', represents s bs gs -> good bs gs -> state_run s cs = Ok s' ->
  exists bs' gs', spec_run (bs, gs) cs = Some (bs', gs') /\ represents s' bs' gs' /\ good bs' gs'.
Proof. exact state_run_ok. Qed.

(* called directly with an index past the end, the deletion writes outside the arrays *)
Theorem C28_direct_call_unchecked : forall s bs gs ix, represents s bs gs -> (exists i, In i ix /\ (length bs <= i)%nat) -> remove_bodies s ix = UB.
Proof. exact remove_bodies_beyond. Qed.

(* a body whose x coordinate is not a number is deleted along with any other body, though nobody named it *)
Theorem C28_nan_body_refuted : exists s b0 b1 g s', represents s [b0; b1] [g] /\ massive b0 /\ massive b1 /\ located b1
  /\ remove_bodies s [1%nat] = Ok s' /\ without [1%nat] [b0; b1] = [b0] /\ represents s' [] [g].
Proof.
  set (g := Circle 1). set (b1 := new_body (0, 0) (0, 0) 0 0 1 g false).
  set (b0 := Rbody (None, Some 0, Some 0) (Some 0, Some 0, Some 0) (b_mass b1) (b_imass b1) false g).
  set (s := RbState [b_pos b0; b_pos b1] [b_vel b0; b_vel b1] [b_mass b0; b_mass b1] [b_imass b0; b_imass b1] [false; false] [0; 0]%nat [g]).
  assert (proper g) as Hp by (cbn; lra). destruct (new_body_good (0, 0) (0, 0) 0 0 1 g false ltac:(lra) Hp) as [L1 M1].
  assert (represents s [b0; b1] [g]) as HR.
  { unfold represents, s. cbn [s_q s_v s_M s_Minv s_fixed s_gidx s_geo map]. repeat split; try reflexivity.
    constructor; [reflexivity|]. constructor; [reflexivity|constructor]. }
  destruct (remove_bodies_gen s [b0; b1] [g] [1%nat] HR ltac:(discriminate)) as (s' & E & HR' & _).
  { intros i [<-|[]]. cbn. lia. }
  exists s, b0, b1, g, s'. split; [exact HR|]. split; [exact M1|]. split; [exact M1|]. split; [exact L1|]. split; [exact E|]. split; [reflexivity|exact HR'].
Qed.

Theorem C29_unused_geometry : forall s bs gs ix, represents s bs gs -> (forall i, In i ix -> (i < length gs)%nat) ->
  (forall i, In i (s_gidx s) -> ~ In i ix) ->
  exists s', remove_geometry s ix = Ok s' /\ represents s' bs (without ix gs).
Proof. exact remove_geometry_ok. Qed.

(* deleting a shape some body still uses reads an index that was never written *)
Theorem C29_geometry_in_use_refuted : forall s bs gs ix, represents s bs gs -> (forall i, In i ix -> (i < length gs)%nat) ->
  (exists i, In i (s_gidx s) /\ In i ix) -> remove_geometry s ix = UB.
Proof. exact remove_geometry_used. Qed.

Theorem C43_push : forall s bs q v r m fixed, holds_balls s bs ->
  exists s', push_ball s q v r m fixed = Ok s' /\ holds_balls s' (bs ++ [Ball q v r m fixed]).
Proof. exact push_ball_ok. Qed.

Theorem C43_history : forall l s bs, holds_balls s bs -> Forall acceptable l ->
  exists s', insert_balls s l = Ok s' /\ holds_balls s' (bs ++ map as_ball l).
Proof. exact insert_balls_ok. Qed.

Theorem C43_bad_ball_exits : forall s a, ~ acceptable a -> insert_ball s a = Exit.
Proof. exact insert_ball_rejects. Qed.

(* the two diagonals a state holds multiply to the identity *)
Theorem C43_masses_inverse : forall s bs i m im, holds_balls s bs -> (forall b, In b bs -> 0 < k_m b) ->
  nth_error (t_M s) i = Some m -> nth_error (t_Minv s) i = Some im -> m * im = 1.
Proof.
  intros s bs i m im (_ & _ & _ & _ & -> & ->) Hpos. revert i. induction bs as [|b bs IH]; intros i; [destruct i; discriminate|].
  cbn [flat_map app]. pose proof (Hpos b (or_introl eq_refl)) as Hb.
  destruct i as [|[|i]]; cbn [nth_error].
  - intros E1 E2. injection E1 as <-. injection E2 as <-. apply Rinv_r. lra.
  - intros E1 E2. injection E1 as <-. injection E2 as <-. apply Rinv_r. lra.
  - apply IH. intros c Hc. apply Hpos. right. exact Hc.
Qed.
Print Assumptions C28_history.
Print Assumptions C28_nan_body_refuted.
Print Assumptions C29_unused_geometry.
Print Assumptions C43_history.
Print Assumptions C43_masses_inverse.

(* a history that adds two shapes and three bodies, deletes the middle body and then the unused shape *)
Definition no_bodies : rb2state := RbState [] [] [] [] [] [] [].
Definition a_history : list state_call :=
  [AddCircle 1; AddCircle 2; AddBody (0, 0) (1, 0) 0 0 1 1 0; AddBody (5, 0) (0, 0) 0 0 1 1 1; AddBody (9, 0) (0, 2) 0 3 2 1 0;
   DeleteBodies [1; 1]%nat; DeleteGeometry [0]%nat].
Definition after : list rbody * list shape :=
  ([new_body (0, 0) (1, 0) 0 0 1 (Circle 2) false; new_body (9, 0) (0, 2) 0 3 2 (Circle 2) false], [Circle 2]).
Lemma spec_run_cons : forall st st' c r, spec_step st c = Some st' -> spec_run st (c :: r) = spec_run st' r.
Proof. intros st st' c r H. cbn [spec_run]. rewrite H. reflexivity. Qed.
Lemma state_run_cons : forall s s' c r, state_step s c = Ok s' -> state_run s (c :: r) = state_run s' r.
Proof. intros s s' c r H. unfold state_run. cbn [ofold]. rewrite H. reflexivity. Qed.
Lemma a_history_spec : spec_run ([], []) a_history = Some after.
Proof.
  unfold a_history.
  do 5 (erewrite spec_run_cons; [|cbn [spec_step]; destruct (Rlt_dec 0 _); [reflexivity|exfalso; lra]]).
  reflexivity.
Qed.
Definition the_adds : list state_call := firstn 5 a_history.
Lemma the_adds_run : exists s', state_run no_bodies the_adds = Ok s' /\ s_gidx s' = [1; 1; 1]%nat.
Proof.
  unfold the_adds, a_history. cbn [firstn].
  do 5 (erewrite state_run_cons; [|cbn [state_step]; destruct (Rle_dec _ 0); [exfalso; lra|reflexivity]]).
  eexists. split; reflexivity.
Qed.
Lemma the_adds_spec : spec_run ([], []) the_adds =
  Some ([new_body (0, 0) (1, 0) 0 0 1 (Circle 2) false; new_body (5, 0) (0, 0) 0 0 1 (Circle 2) true; new_body (9, 0) (0, 2) 0 3 2 (Circle 2) false],
        [Circle 1; Circle 2]).
Proof.
  unfold the_adds, a_history. cbn [firstn].
  do 5 (erewrite spec_run_cons; [|cbn [spec_step]; destruct (Rlt_dec 0 _); [reflexivity|exfalso; lra]]).
  reflexivity.
Qed.
Lemma a_history_runs : exists s', state_run no_bodies a_history = Ok s'.
Proof.
  destruct the_adds_run as (s5 & E5 & G5).
  assert (represents no_bodies [] []) as HR by (repeat split; try reflexivity; constructor).
  assert (good [] []) as HG by (repeat split; constructor).
  destruct (C28_completed_history _ _ _ _ _ HR HG E5) as (bs & gs & E & HR5 & HG5). rewrite the_adds_spec in E. injection E as <- <-.
  pose proof HR5 as (Q5 & _ & _ & _ & _ & Geo5 & _).
  destruct (C28_remove _ _ _ [1; 1]%nat HR5) as (s6 & E6 & HR6 & G6).
  { destruct HG5 as (H & _). exact H. }
  { intros i [<-|[<-|[]]]; cbn; lia. }
  rewrite G5 in G6. cbn in G6.
  destruct (C29_unused_geometry _ _ _ [0]%nat HR6) as (s7 & E7 & _).
  { intros i [<-|[]]; cbn; lia. }
  { rewrite G6. intros i Hi [<-|[]]. cbn in Hi. intuition discriminate. }
  exists s7. change a_history with (the_adds ++ [DeleteBodies [1; 1]%nat; DeleteGeometry [0]%nat]). unfold state_run in *.
  rewrite ofold_app, E5. cbn [obind]. fold (state_run s5 [DeleteBodies [1; 1]%nat; DeleteGeometry [0]%nat]).
  erewrite (state_run_cons s5 s6); [|cbn [state_step]; rewrite Q5; cbn [map length existsb Nat.leb orb]; exact E6].
  erewrite (state_run_cons s6 s7); [reflexivity|].
  cbn [state_step]. destruct HR6 as (_ & _ & _ & _ & _ & Geo6 & _). rewrite Geo6. cbn [length existsb Nat.leb orb]. exact E7.
Qed.
Example C28_case : represents no_bodies [] [] /\ good [] [] /\ spec_run ([], []) a_history = Some after
  /\ (exists s', state_run no_bodies a_history = Ok s' /\ represents s' (fst after) (snd after) /\ good (fst after) (snd after)).
Proof.
  assert (represents no_bodies [] []) as HR by (repeat split; try reflexivity; constructor).
  assert (good [] []) as HG by (repeat split; constructor).
  split; [exact HR|]. split; [exact HG|]. split; [exact a_history_spec|].
  destruct a_history_runs as (s' & E). exists s'. split; [exact E|].
  destruct (C28_completed_history _ _ _ _ _ HR HG E) as (bs' & gs' & E2 & HR' & HG'). rewrite a_history_spec in E2. injection E2 as <- <-. split; assumption.
Qed.

Example C43_case : exists s', insert_balls (BState [] [] [] [] [] []) [BallArgs (0, 0) (1, 0) 1 2 0; BallArgs (5, 0) (0, 0) 1 3 1] = Ok s'
  /\ t_M s' = [2; 2; 3; 3] /\ t_fixed s' = [false; true] /\ ~ acceptable (BallArgs (0, 0) (0, 0) 0 1 0).
Proof.
  destruct (C43_history [BallArgs (0, 0) (1, 0) 1 2 0; BallArgs (5, 0) (0, 0) 1 3 1] (BState [] [] [] [] [] []) []) as (s' & E & H).
  - repeat split; reflexivity.
  - constructor; [|constructor; [|constructor]]; unfold acceptable; cbn [a_r a_m a_fixed]; (split; [lra|split; [lra|auto]]).
  - exists s'. split; [exact E|]. destruct H as (_ & _ & _ & F & M & _). split; [exact M|]. split; [exact F|]. unfold acceptable. cbn [a_r]. intros [H _]. lra.
Qed.
