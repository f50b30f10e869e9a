(* Proofs about what a scene file says on the response to contacts. *)
From Coq Require Import ZArith QArith Bool Ascii String List Lia.
From Verif Require Import Outcome Str_Model Str_Spec Rational_Model RatParse_Model Scene_Text Scene_Model Scene_Spec Scene_Proofs Scene_Thms
  Scene2_Model Scene2_Spec Scene2_Proofs Scene3_Model Scene3_Spec Scene3_Proofs SceneSay_Spec.
Import ListNotations.
Open Scope string_scope.
Open Scope list_scope.

Lemma int_attr_text n a k : int_attr n a = Ok (Some k) -> int_text n a k.
Proof. unfold int_attr, attr. intros H. pstep H. apply of_option_inv in Ha, H. exists a0. auto. Qed.
Lemma unsigned_attr_text n a k : unsigned_attr n a = Ok (Some k) -> unsigned_text n a k.
Proof. unfold unsigned_attr, attr. intros H. pstep H. apply of_option_inv in Ha, H. exists a0. auto. Qed.
Lemma bool_attr_text n a k : bool_attr n a = Ok (Some k) -> bool_text n a k.
Proof. unfold bool_attr, attr. intros H. pstep H. apply of_option_inv in Ha, H. exists a0. auto. Qed.
Lemma load_words_text n a w : load_words n a = Ok (Some w) -> words_text n a w.
Proof.
  unfold load_words, attr. intros H. pstep H. apply of_option_inv in Ha. exists a0. split; [exact Ha|].
  destruct (read_words a0); [discriminate|]. apply accept_inv in H. exact H.
Qed.

Ltac texts := repeat match goal with
  | K : scalar_attr _ _ _ = _ |- _ => apply scalar_attr_text in K
  | K : int_attr _ _ = _ |- _ => apply int_attr_text in K
  | K : unsigned_attr _ _ = _ |- _ => apply unsigned_attr_text in K
  | K : bool_attr _ _ = _ |- _ => apply bool_attr_text in K
  | K : load_words _ _ = _ |- _ => apply load_words_text in K
  | K : (_ && _)%bool = true |- _ => apply andb_prop in K as [? ?]
  | K : seqb _ _ = true |- _ => apply seqb_true in K
  | K : attr _ _ = _ |- _ => unfold attr in K; apply of_option_inv in K
  end.

Lemma load_lcp_text fp bd ap n s : load_lcp fp bd ap n = Ok (Some s) -> lcp_text fp s n.
Proof.
  unfold load_lcp. intros H. pstep H. branches H; subst; texts; subst; cbn [lcp_text]; repeat split; assumption.
Qed.
Lemma load_v_tol_text fp n v : load_v_tol fp n = Ok (Some v) -> scalar_text fp n "v_tol" v.
Proof. unfold load_v_tol. intros H. pgo H. subst. texts. assumption. Qed.
Lemma load_inner_text fp bd ap n s : load_inner fp bd ap n = Ok (Some s) -> child n "solver" (lcp_text fp s).
Proof. unfold load_inner. destruct (first_node n "solver") eqn:E; intros H; pgo H. eexists. split; [exact E|]. eapply load_lcp_text, H. Qed.
Lemma load_impact_text fp bd ap : forall o n, load_impact fp bd ap n = Ok (Some o) -> impact_text fp o n.
Proof.
  induction o as [v|v|s|v s|e IHe i IHi]; intros n H; rewrite load_impact_eq in H; pstep H; branches H;
    try discriminate H; cbn [impact_text]; texts; subst.
  - injection H as ->. split; [assumption|]. apply load_v_tol_text; assumption.
  - injection H as ->. split; [assumption|]. apply load_v_tol_text; assumption.
  - injection H as ->. split; [assumption|]. eapply load_inner_text; eassumption.
  - injection H as -> ->. split; [assumption|]. split; [eapply load_v_tol_text|eapply load_inner_text]; eassumption.
  - injection H as -> ->. split; [assumption|]. unfold child_impact in *.
    destruct (first_node n "elastic_operator") eqn:E1; [|discriminate].
    destruct (first_node n "inelastic_operator") eqn:E2; [|discriminate]. split; eexists; (split; [eassumption|]); auto.
Qed.
Lemma load_mu_text fp n x : load_mu fp n = Ok (Some x) -> scalar_text fp n "mu" x.
Proof. unfold load_mu. intros H. pgo H. subst. texts. assumption. Qed.
Lemma load_cor_text fp n x : load_cor fp n = Ok (Some x) -> scalar_text fp n "CoR" x.
Proof. unfold load_cor. intros H. pgo H. subst. texts. assumption. Qed.
Lemma load_tol_text fp n x : load_tol fp n = Ok (Some x) -> scalar_text fp n "tol" x.
Proof. unfold load_tol. intros H. pgo H. subst. texts. assumption. Qed.
Lemma load_max_iters_text n k : load_max_iters n = Ok (Some k) -> int_text n "max_iters" k.
Proof. unfold load_max_iters. intros H. pgo H. subst. texts. assumption. Qed.
Lemma load_eval_every_text n k e : load_eval_every n k = Ok (Some e) -> int_text n "eval_every" e.
Proof. unfold load_eval_every. intros H. pgo H. subst. texts. assumption. Qed.
Lemma load_stabilization_text fp n cor b : load_stabilization fp n cor = Ok (Some b) ->
  bool_text n "stabilization" (fst b) /\ scalar_text fp n "penetration_threshold" (snd b).
Proof. unfold load_stabilization. intros H. pgo H. subst. texts. auto. Qed.
Lemma load_caching_text n c : load_caching n = Ok (Some c) -> cache_text n c.
Proof.
  unfold load_caching, cache_text. intros H. pstep H. texts. rewrite Ha.
  destruct (seqb a "none") eqn:B1; [texts; apply accept_inv in H; subst; reflexivity|].
  destruct (seqb a "normal") eqn:B2; [texts; apply accept_inv in H; subst; reflexivity|].
  destruct (seqb a "normal_and_friction") eqn:B3; [texts; apply accept_inv in H; subst; reflexivity|discriminate].
Qed.

Definition said fp caches name n (x : friction_solver * friction_map * Q * Q) : Prop :=
  let '(s, m, mu, cor) := x in solver_text fp caches name n s m mu cor.
Ltac texts' := repeat match goal with
  | K : load_mu _ _ = _ |- _ => apply load_mu_text in K
  | K : load_cor _ _ = _ |- _ => apply load_cor_text in K
  | K : load_tol _ _ = _ |- _ => apply load_tol_text in K
  | K : load_max_iters _ = _ |- _ => apply load_max_iters_text in K
  | K : load_eval_every _ _ = _ |- _ => apply load_eval_every_text in K
  | K : load_caching _ = _ |- _ => apply load_caching_text in K
  | K : load_stabilization _ _ _ = _ |- _ => apply load_stabilization_text in K as [? ?]
  end; texts.

Lemma load_staggered_text fp ca bd ap mdp n x : (forall c f, mdp c = Ok (Some f) -> friction_op_text fp f c) ->
  load_staggered fp (load_lcp fp bd ap) mdp n = Ok (Some x) -> said fp ca "staggered_projections_friction_solver" n x.
Proof.
  intros HM H. unfold load_staggered in H. repeat pstep H.
  match goal with K : mdp _ = _ |- _ => apply HM in K end. match goal with K : load_lcp _ _ _ _ = _ |- _ => apply load_lcp_text in K end.
  repeat match goal with K : of_option (first_node _ _) = _ |- _ => apply of_option_inv in K end. texts'.
  destruct (seqb a7 "geometric") eqn:B1; [|destruct (seqb a7 "stabilized") eqn:B2; [|discriminate]];
    apply accept_inv in H; subst x; texts; subst; unfold said, solver_text, child; cbn [map_tol map_iterations]; repeat split; eauto.
Qed.
Lemma load_mdp_ball_text fp bd c f : load_mdp_ball fp bd c = Ok (Some f) -> friction_op_text fp f c.
Proof. unfold load_mdp_ball. intros H. pstep H. branches H. subst. texts'. subst. split; assumption. Qed.
Lemma load_smooth_text fp bd c f : load_smooth fp bd c = Ok (Some f) -> friction_op_text fp f c.
Proof. unfold load_smooth. intros H. pstep H. branches H. subst. texts'. subst. repeat split; assumption. Qed.
Lemma load_sobogus_ball_text fp n x : load_sobogus_ball fp n = Ok (Some x) -> said fp true "sobogus_friction_solver" n x.
Proof.
  unfold load_sobogus_ball. intros H. repeat pstep H. texts'.
  destruct (seqb a5 "geometric") eqn:B1; [|destruct (seqb a5 "symplectic_euler") eqn:B2; [|destruct (seqb a5 "stabilized") eqn:B3; [|discriminate]]].
  - apply accept_inv in H; subst x; texts; subst; unfold said, solver_text; cbn [map_tol map_iterations]; repeat split; assumption.
  - pstep H. texts'. apply accept_inv in H; subst x; subst; unfold said, solver_text; cbn [map_tol map_iterations]; repeat split; assumption.
  - destruct a4; try discriminate. apply accept_inv in H; subst x; texts; subst; unfold said, solver_text; cbn [map_tol map_iterations]; repeat split; assumption.
Qed.
Lemma load_sobogus_rb2_text fp n x : load_sobogus_rb2 fp n = Ok (Some x) -> said fp true "sobogus_friction_solver" n x.
Proof.
  unfold load_sobogus_rb2. intros H. repeat pstep H. texts'.
  destruct (seqb a5 "geometric") eqn:B1; [|destruct (seqb a5 "stabilized") eqn:B3; [|discriminate]];
    apply accept_inv in H; subst x; texts; subst; unfold said, solver_text; cbn [map_tol map_iterations]; repeat split; assumption.
Qed.
Lemma load_sobogus3_text fp n x : load_sobogus3 fp n = Ok (Some x) -> said fp false "sobogus_friction_solver" n x.
Proof.
  unfold load_sobogus3. intros H. repeat pstep H. texts'.
  destruct (seqb a4 "geometric") eqn:B1; [|destruct (seqb a4 "symplectic_euler") eqn:B2; [|destruct (seqb a4 "stabilized") eqn:B3; [|discriminate]]].
  - apply accept_inv in H; subst x; texts; subst; unfold said, solver_text; cbn [map_tol map_iterations]; repeat split; assumption.
  - repeat pstep H. texts'. apply accept_inv in H; subst x; subst; unfold said, solver_text; cbn [map_tol map_iterations]; repeat split; assumption.
  - apply accept_inv in H; subst x; texts; subst; unfold said, solver_text; cbn [map_tol map_iterations]; repeat split; assumption.
Qed.
Lemma load_grr_text fp bd n x : load_grr fp bd n = Ok (Some x) -> said fp false "grr_friction_solver" n x.
Proof.
  unfold load_grr. intros H. repeat pstep H.
  match goal with K : load_smooth _ _ _ = _ |- _ => apply load_smooth_text in K end. match goal with K : load_impact _ _ _ _ = _ |- _ => apply load_impact_text in K end.
  repeat match goal with K : of_option (first_node _ _) = _ |- _ => apply of_option_inv in K end. texts'.
  destruct (seqb a5 "geometric") eqn:B1; [|destruct (seqb a5 "stabilized") eqn:B2; [|discriminate]];
    apply accept_inv in H; subst x; texts; subst; unfold said, solver_text, child; cbn [map_tol map_iterations]; repeat split; eauto.
Qed.

Lemma load_solvers_text fp ca root solvers :
  Forall (fun p => forall n x, snd p n = Ok (Some x) -> said fp ca (fst p) n x) solvers -> NoDup (map fst solvers) ->
  forall busy r0 r, load_solvers root busy solvers r0 = Ok (Some r) ->
  (r = r0 /\ forall a, In a (map fst solvers) -> first_node root a = None) \/
  (busy = false /\ exists s m mu cor a, r = Friction s m mu cor /\ In a (map fst solvers) /\
     (forall b, In b (map fst solvers) -> b <> a -> first_node root b = None) /\
     child root a (fun n => solver_text fp ca a n s m mu cor)).
Proof.
  induction 1 as [|[a f] solvers Hf _ IH]; intros ND busy r0 r; cbn [load_solvers map fst]; intros H.
  - apply accept_inv in H. left. split; [congruence|]. intros a [].
  - cbn [map fst] in ND. inversion ND as [|? ? N1 N2]; subst. destruct (first_node root a) as [n|] eqn:E.
    + destruct busy; [discriminate|]. right. split; [reflexivity|]. pstep H. destruct a0 as [[[s m] mu] cor].
      apply IH in H as [[-> K]|[X _]]; [|discriminate|assumption]. exists s, m, mu, cor, a. split; [reflexivity|]. split; [left; reflexivity|].
      split; [|exists n; split; [exact E|apply (Hf n _ Ha)]]. intros b [<-|Hb] D; [contradiction|auto].
    + apply IH in H as [[-> K]|(-> & s & m & mu & cor & b & -> & Hb & K & C)]; [| |assumption].
      * left. split; [reflexivity|]. intros b [<-|Hb]; auto.
      * right. split; [reflexivity|]. exists s, m, mu, cor, b. split; [reflexivity|]. split; [right; exact Hb|]. split; [|exact C].
        intros b' [<-|Hb'] D; auto.
Qed.
Lemma load_response_text fp ca impact solvers root r :
  (forall n op cor c, impact n = Ok (Some (op, cor, c)) -> scalar_text fp n "CoR" cor /\ impact_text fp op n /\
     match c with Some b => bool_text n "cache_impulses" b | None => True end) ->
  Forall (fun p => forall n x, snd p n = Ok (Some x) -> said fp ca (fst p) n x) solvers -> NoDup (map fst solvers) ->
  load_response impact solvers root = Ok (Some r) -> response_text fp ca (map fst solvers) root r.
Proof.
  intros HI HS HN. unfold load_response. destruct (first_node root "impact_operator") as [n|] eqn:E; intros H.
  - pstep H. destruct a as [[op cor] c]. apply HI in Ha. eapply load_solvers_text in H as [[-> K]|[X _]]; [|discriminate|exact HS|exact HN].
    split; [exact K|]. exists n. split; [exact E|exact Ha].
  - eapply load_solvers_text in H as [[-> K]|(_ & s & m & mu & cor & a & -> & H)]; [split; assumption| |exact HS|exact HN].
    split; [exact E|]. exists a. exact H.
Qed.
Lemma load_impact_cor_text fp bd ap n op cor c : load_impact_cor fp bd ap n = Ok (Some (op, cor, c)) ->
  scalar_text fp n "CoR" cor /\ impact_text fp op n /\ match c with Some b => bool_text n "cache_impulses" b | None => True end.
Proof. unfold load_impact_cor. intros H. pgo H. injection H as -> -> <-. texts. repeat split; try assumption. eapply load_impact_text; eassumption. Qed.
Lemma load_impact3_text fp bd n op cor c : load_impact3 fp bd n = Ok (Some (op, cor, c)) ->
  scalar_text fp n "CoR" cor /\ impact_text fp op n /\ match c with Some b => bool_text n "cache_impulses" b | None => True end.
Proof. unfold load_impact3. intros H. pgo H. injection H as -> -> <-. texts. repeat split; try assumption. eapply load_impact_text; eassumption. Qed.
Lemma nodup_planar : NoDup planar_solvers.
Proof. repeat constructor; cbn; intuition discriminate. Qed.
Lemma nodup_spatial : NoDup spatial_solvers.
Proof. repeat constructor; cbn; intuition discriminate. Qed.

Lemma ball_response_text fp bd root r : load_response (load_impact_cor fp bd true) (ball_solvers fp bd) root = Ok (Some r) ->
  response_text fp true planar_solvers root r.
Proof.
  apply (load_response_text fp true _ (ball_solvers fp bd)); [intros; eapply load_impact_cor_text; eassumption| |exact nodup_planar].
  unfold ball_solvers. constructor; [|constructor; [|constructor]]; cbn [fst snd]; intros n x.
  - apply load_staggered_text. apply load_mdp_ball_text.
  - apply load_sobogus_ball_text.
Qed.
Lemma rb2_response_text fp bd root r : load_response (load_impact_cor fp bd false) (rb2_solvers fp bd) root = Ok (Some r) ->
  response_text fp true planar_solvers root r.
Proof.
  apply (load_response_text fp true _ (rb2_solvers fp bd)); [intros; eapply load_impact_cor_text; eassumption| |exact nodup_planar].
  unfold rb2_solvers. constructor; [|constructor; [|constructor]]; cbn [fst snd]; intros n x.
  - apply load_staggered_text. discriminate.
  - apply load_sobogus_rb2_text.
Qed.
Lemma rb3_response_text fp bd root r : load_response (load_impact3 fp bd) (rb3_solvers fp bd) root = Ok (Some r) ->
  response_text fp false spatial_solvers root r.
Proof.
  apply (load_response_text fp false _ (rb3_solvers fp bd)); [intros; eapply load_impact3_text; eassumption| |exact nodup_spatial].
  unfold rb3_solvers. constructor; [|constructor; [|constructor; [|constructor]]]; cbn [fst snd]; intros n x.
  - apply load_staggered_text. apply load_smooth_text.
  - apply load_sobogus3_text.
  - apply load_grr_text.
Qed.

(* portals *)
Lemma load_portals_motion {P} fp bok root (planes rest : list P) portals :
  load_portals fp bok root planes = Ok (Some (rest, portals)) ->
  exists still moving, portals = still ++ moving /\ List.length still = List.length (elements root "planar_portal") /\
    Forall (fun p => snd p = (0%Q, 0%Q)) still /\
    Forall2 (fun nd p => scalar_text fp nd "v" (fst (snd p)) /\ scalar_text fp nd "bounds" (snd (snd p))) (elements root "lees_edwards_portal") moving.
Proof.
  intros H. apply load_portals_inv in H as (l1 & l2 & E1 & E2 & [_ _ K _] & S & _). apply Forall2_app_inv_l in K as (still & moving & K1 & K2 & ->).
  exists still, moving. split; [reflexivity|]. apply load_links_forall2 in E1, E2. split; [|split].
  - apply Forall2_len in E1, K1. congruence.
  - clear -K1 S. induction K1 as [|l p ls ps (_ & _ & X) _ IH]; inversion S; subst; [constructor|]. constructor; [congruence|auto].
  - clear -K2 E2. revert moving K2. induction E2 as [|n l ns ls (_ & _ & X) _ IH]; intros mv K; inversion K as [|? p ? ps (_ & _ & Y) K']; subst; constructor; [|auto].
    unfold load_lees_edwards in X. pgo X. texts. rewrite <- Y, <- X. auto.
Qed.
