(* Whole runs: the step functions of Flow_Model.v inside the simulation loop of Cli_Model.v. *)
From Coq Require Import List Reals NArith Bool Lia.
From Verif Require Import Outcome Codec_Model SnapBall_Model Config_Model Cli_Model Cli_Proofs Flow_Model Flow_Spec Flow_Proofs.
Import ListNotations.
Open Scope N_scope.

Section Run.
  Context {W Q V C B A X Mem : Type}.
  Notation F := (list scalar).
  Definition sim : Type := (W * live W C Mem)%type.
  Variable e : engine W Q V C B A F X.
  Variable sc : script W C Mem.
  Variable planar : bool.

  (* ball2d_cli.cpp:357, 386-434: next_iter = g_iteration + 1 and the three calls of flow *)
  Definition next_iter (y : sys sim) : N := (y_iter y + 1) mod 2 ^ 32.
  Definition run_method (m : method) (f : F) (y : sys sim) : outcome (sim * F) :=
    let! (w, f, lv) := sim_flow e sc planar m (next_iter y) (fst (y_sim y)) f (snd (y_sim y)) in Ok ((w, lv), f).
  Definition run_free (y : sys sim) : outcome sim := let! (s, f) := run_method MFree [] y in Ok s.
  Definition run_impact (y : sys sim) : outcome sim := let! (s, f) := run_method MImpact [] y in Ok s.
  (* the impulses m_f live in the map *)
  Definition run_friction (y : sys sim) : outcome (sim * ifmap) :=
    match y_ifmap y with
    | IfNull => Exit
    | IfGeometric f t n c => let! (s, f) := run_method MGeometric f y in Ok (s, IfGeometric f t n c)
    | IfStabilized f t n a b => let! (s, f) := run_method MStabilized f y in Ok (s, IfStabilized f t n a b)
    | IfSymplectic f t n s0 p c => let! (s, f) := run_method MSymplectic f y in Ok (s, IfSymplectic f t n s0 p c)
    end.

  Variable with_imap hdf5 : bool.
  Variable enc : sys sim -> outcome bytes.
  Variable time_reached : N -> N -> N -> scalar -> bool.
  Notation export := (Cli_Model.export hdf5 enc).
  Notation dispatch := (Cli_Model.dispatch with_imap run_free run_impact run_friction).
  Notation step := (Cli_Model.step with_imap hdf5 enc run_free run_impact run_friction).
  Notation loop := (Cli_Model.loop with_imap hdf5 enc run_free run_impact run_friction time_reached).
  Notation exec := (Cli_Model.exec with_imap hdf5 enc run_free run_impact run_friction time_reached).

  Definition with_contacts (y : sys sim) : bool := (negb (is_null_op (y_impop y)) || negb (is_null_fs (y_fsolver y)))%bool.
  Definition with_friction (y : sys sim) : bool := negb (is_null_fs (y_fsolver y)).

  Lemma run_method_calls : forall m f y s f', run_method m f y = Ok (s, f') ->
    exists l, l_log (snd s) = l_log (snd (y_sim y)) ++ l /\ step_calls sc (has_contacts m) (has_friction m) (e_mu e) (e_CoR e) (next_iter y) (fst (y_sim y)) (fst s) l.
  Proof.
    intros m f y s f' H. unfold run_method in H. step_let H. destruct x as [[w1 f1] lv1]. apply ok_eq in H. inversion H; subst. cbn [fst snd]. apply sim_flow_calls in E. exact E.
  Qed.
  Lemma dispatch_calls : forall y s m, dispatch y = Ok (s, m) -> y_umap y <> UNull ->
    exists l, l_log (snd s) = l_log (snd (y_sim y)) ++ l /\ step_calls sc (with_contacts y) (with_friction y) (e_mu e) (e_CoR e) (next_iter y) (fst (y_sim y)) (fst s) l.
  Proof.
    intros y s m H U. unfold Cli_Model.dispatch in H. unfold with_contacts, with_friction.
    assert (Nu : is_null_umap (y_umap y) = false) by (destruct (y_umap y); [congruence|reflexivity..]). rewrite Nu in H. cbn [andb negb] in H.
    destruct (is_null_op (y_impop y)), (is_null_fs (y_fsolver y)), (is_null_ifmap (y_ifmap y)), (negb with_imap || is_null_imap (y_imap y))%bool, (negb with_imap || negb (is_null_imap (y_imap y)))%bool;
      cbn [andb negb orb] in H |- *; try discriminate H.
    all: try (unfold omap in H; destruct (run_free y) as [s1| |] eqn:E; try discriminate H; apply ok_eq in H; inversion H; subst; unfold run_free in E; step_let E; destruct x as [s2 f2]; apply ok_eq in E; subst; exact (run_method_calls _ _ _ _ _ E0)).
    all: try (unfold omap in H; destruct (run_impact y) as [s1| |] eqn:E; try discriminate H; apply ok_eq in H; inversion H; subst; unfold run_impact in E; step_let E; destruct x as [s2 f2]; apply ok_eq in E; subst; exact (run_method_calls _ _ _ _ _ E0)).
    all: unfold run_friction in H; destruct (y_ifmap y); try discriminate H; step_let H; destruct x as [s2 f2]; apply ok_eq in H; inversion H; subst; exact (run_method_calls _ _ _ _ _ E).
  Qed.

  (* the log of a simulation in a run that started at iteration n0 with the state w0 and the log l0 *)
  Variable c0 f0 : bool.
  Variable n0 : N.
  Variable w0 : W.
  Variable l0 : list (call W C).
  Definition ok_sim (n : N) (s : sim) : Prop := exists l, l_log (snd s) = l0 ++ l /\ history sc c0 f0 (e_mu e) (e_CoR e) n0 w0 n (fst s) l.
  Definition ok_event (ev : event sim) : Prop :=
    match ev with
    | EConfig _ n s => ok_sim n s
    | EForces _ n s => ok_sim n s
    | EEndOfSim s => exists n, ok_sim n s
    | ESnap _ _ => True
    end.
  Definition ok_sys (y : sys sim) : Prop := ok_sim (y_iter y) (y_sim y) /\ y_umap y <> UNull /\ with_contacts y = c0 /\ with_friction y = f0.
  Lemma export_ok : forall y ev r, ok_sys y -> export y = (ev, r) -> Forall ok_event ev /\ (forall y', r = Ok y' -> ok_sys y').
  Proof.
    intros y ev r O H. unfold Cli_Model.export in H. destruct (y_steps y =? 0); [inversion H; subst; split; [constructor|discriminate]|].
    assert (Of : forall f, ok_sys (set_frame y f)) by (intro f; exact O).
    destruct (y_iter y mod y_steps y =? 0); [|inversion H; subst; split; [constructor|intros y' Hy; apply ok_eq in Hy; subst; exact O]].
    set (e1 := if (hdf5 && _)%bool then _ else _) in H. assert (E1 : Forall ok_event e1).
    { unfold e1. destruct (hdf5 && _)%bool; constructor; [exact (proj1 O)|constructor]. }
    destruct (y_ser y).
    - destruct (enc y) as [b| |]; inversion H; subst; (split; [try (apply Forall_app; split; [exact E1|constructor; [exact I|constructor]]); exact E1|]).
      + intros y' Hy. apply ok_eq in Hy. subst. apply Of.
      + discriminate.
      + discriminate.
    - inversion H; subst. split; [exact E1|]. intros y' Hy. apply ok_eq in Hy. subst. apply Of.
  Qed.
  Lemma step_ok : forall y ev r, ok_sys y -> step y = (ev, r) -> Forall ok_event ev /\ (forall y', r = Ok y' -> ok_sys y').
  Proof.
    intros y ev r O H. unfold Cli_Model.step in H. destruct (hdf5 && y_forces y && (y_steps y =? 0))%bool; [inversion H; subst; split; [constructor|discriminate]|].
    set (e1 := if (_ && _ && _)%bool then _ else _) in H. assert (E1 : Forall ok_event e1).
    { unfold e1. destruct (_ && _ && _)%bool; constructor; [exact (proj1 O)|constructor]. }
    destruct (dispatch (set_frame y 0)) as [[s m]| |] eqn:D; [|inversion H; subst; split; [exact E1|discriminate]..].
    destruct (export (set_step y s m ((y_iter y + 1) mod 2 ^ 32))) as [e2 r2] eqn:Ex. inversion H; subst.
    destruct O as ((l & L & Hi) & U & Hc & Hf). apply dispatch_calls in D; [|exact U]. destruct D as (l2 & L2 & S2).
    assert (O2 : ok_sys (set_step y s m ((y_iter y + 1) mod 2 ^ 32))).
    { split; [|split; [exact U|split; [exact Hc|exact Hf]]]. exists (l ++ l2). split; [cbn [y_sim set_step]; rewrite L2; cbn [y_sim set_frame]; rewrite L, <- app_assoc; reflexivity|].
      cbn [y_iter y_sim set_step]. apply (h_step _ _ _ _ _ _ _ (y_iter y) (fst (y_sim y)) l (fst s) l2 Hi). rewrite <- Hc, <- Hf. exact S2. }
    destruct (export_ok _ _ _ O2 Ex) as [F2 R2]. split; [apply Forall_app; split; assumption|exact R2].
  Qed.
  Lemma loop_ok : forall fuel y ev st, ok_sys y -> loop fuel y = (ev, st) -> Forall ok_event ev.
  Proof.
    induction fuel as [|k IH]; intros y ev st O H; cbn [Cli_Model.loop] in H; [inversion H; constructor|]. destruct (finished time_reached y).
    - destruct (hdf5 && y_forces y)%bool.
      + destruct (step y) as [e1 [y1| |]] eqn:S; inversion H; subst; destruct (step_ok _ _ _ O S) as [F1 R1]; [|exact F1..].
        apply Forall_app. split; [exact F1|]. constructor; [|constructor]. exists (y_iter y1). exact (proj1 (R1 y1 eq_refl)).
      + inversion H; subst. constructor; [|constructor]. exists (y_iter y). exact (proj1 O).
    - destruct (step y) as [e1 [y1| |]] eqn:S; [|inversion H; subst; destruct (step_ok _ _ _ O S) as [F1 R1]; exact F1..].
      destruct (loop k y1) as [e2 s2] eqn:L. inversion H; subst. destruct (step_ok _ _ _ O S) as [F1 R1]. apply Forall_app. split; [exact F1|]. eapply IH; [exact (R1 y1 eq_refl)|exact L].
  Qed.
  Lemma exec_ok : forall fuel y ev st, ok_sys y -> exec fuel y = (ev, st) -> Forall ok_event ev.
  Proof.
    intros fuel y ev st O H. unfold Cli_Model.exec in H. destruct (export y) as [e1 [y1| |]] eqn:S; [|inversion H; subst; destruct (export_ok _ _ _ O S) as [F1 R1]; exact F1..].
    destruct (loop fuel y1) as [e2 s2] eqn:L. inversion H; subst. destruct (export_ok _ _ _ O S) as [F1 R1]. apply Forall_app. split; [exact F1|]. eapply loop_ok; [exact (R1 y1 eq_refl)|exact L].
  Qed.
End Run.
