From Coq Require Import ZArith NArith Ascii String Bool Lia ZifyBool ZifyNat ZifyN List.
From Verif Require Import Outcome Codec_Model Codec_Spec Codec_Proofs SnapBall_Model Snap_Proofs Config_Model Config_Spec Config_Proofs
  Str_Model Names_Model Names_Spec Names_Proofs Cli_Model Cli_Spec.
Import ListNotations.
Open Scope N_scope.

Ltac yproj := cbn [y_sim y_iter y_umap y_dt_num y_dt_den y_end y_impop y_cor y_fsolver y_mu y_imap y_ifmap y_spath
    y_smod y_outdir y_forces y_steps y_frame y_prec y_width y_ser y_over set_frame set_step] in *.

Lemma app_mid {A} (a b pre post : list A) x : a ++ b = pre ++ x :: post ->
  (exists post', a = pre ++ x :: post' /\ post = post' ++ b) \/ (exists pre', pre = a ++ pre' /\ b = pre' ++ x :: post).
Proof.
  revert pre. induction a as [|y a IH]; intros pre E; [right; exists pre; auto|].
  destruct pre as [|z pre]; cbn in E; injection E as -> E.
  - left. exists a. auto.
  - destruct (IH _ E) as [(p & -> & ->)|(p & -> & ->)]; [left; exists p|right; exists p]; auto.
Qed.

Section Run.
  Context {S : Type}.
  Variable with_imap hdf5 : bool.
  Variable enc : sys S -> outcome bytes.
  Variable flow_free flow_impact : sys S -> outcome S.
  Variable flow_friction : sys S -> outcome (S * ifmap).
  Variable time_reached : N -> N -> N -> scalar -> bool.
  Notation export := (export hdf5 enc).
  Notation dispatch := (dispatch with_imap flow_free flow_impact flow_friction).
  Notation step := (step with_imap hdf5 enc flow_free flow_impact flow_friction).
  Notation loop := (loop with_imap hdf5 enc flow_free flow_impact flow_friction time_reached).
  Notation exec := (exec with_imap hdf5 enc flow_free flow_impact flow_friction time_reached).
  Notation finished := (finished time_reached).

  Definition next_frame (y : sys S) := set_frame y ((y_frame y + 1) mod 2 ^ 32).

  Notation only_config := (Cli_Spec.only_config hdf5).

  Lemma export_snap y e r pre nm bs post : export y = (e, r) -> e = pre ++ ESnap nm bs :: post ->
    post = [] /\ enc y = Ok bs /\ r = Ok (next_frame y) /\ only_config y pre.
  Proof.
    unfold Cli_Model.export. destruct (y_steps y =? 0); [intros H E; injection H as <- <-; destruct pre; discriminate|].
    destruct (_ =? 0); [|intros H E; injection H as <- <-; destruct pre; discriminate].
    set (cfg := if (hdf5 && _)%bool then _ else _).
    assert (Hc : forall l, cfg ++ l = pre ++ ESnap nm bs :: post -> exists pre', pre = cfg ++ pre' /\ l = pre' ++ ESnap nm bs :: post).
    { intros l E. apply app_mid in E as [(p & E & _)|(p & E1 & E2)]; [|eauto].
      exfalso. unfold cfg in E. destruct (hdf5 && _)%bool; destruct pre as [|? [|? ?]]; try discriminate. }
    destruct (y_ser y).
    - destruct (enc y) as [b| |] eqn:Eb; intros H E; injection H as <- <-.
      + apply Hc in E as (p & -> & E). destruct p as [|? p]; [|destruct p; discriminate].
        injection E as <- <- <-. repeat split; auto. rewrite app_nil_r. unfold only_config, cfg. destruct (hdf5 && _)%bool; auto.
      + rewrite <- (app_nil_r cfg) in E. apply Hc in E as (p & -> & E). destruct p; discriminate.
      + rewrite <- (app_nil_r cfg) in E. apply Hc in E as (p & -> & E). destruct p; discriminate.
    - intros H E; injection H as <- <-. rewrite <- (app_nil_r cfg) in E. apply Hc in E as (p & -> & E). destruct p; discriminate.
  Qed.

  Lemma step_split y e r : step y = (e, r) -> (forall pre nm bs post, e <> pre ++ ESnap nm bs :: post) \/
    exists e0 e1 s m, e = e0 ++ e1 /\ (forall pre nm bs post, e0 <> pre ++ ESnap nm bs :: post) /\
      dispatch (set_frame y 0) = Ok (s, m) /\ export (set_step y s m ((y_iter y + 1) mod 2 ^ 32)) = (e1, r).
  Proof.
    unfold Cli_Model.step. destruct (hdf5 && y_forces y && (y_steps y =? 0))%bool.
    { intros H; injection H as <- <-. left. intros [|? ?]; discriminate. }
    set (e0 := if (_ && _)%bool then _ else _).
    assert (H0 : forall pre nm bs post, e0 <> pre ++ ESnap nm bs :: post).
    { intros pre nm bs post. unfold e0. destruct (_ && _)%bool; destruct pre as [|? [|? ?]]; discriminate. }
    destruct (dispatch (set_frame y 0)) as [[s m]| |].
    - destruct (export _) as [e1 r1] eqn:Ex. intros H; injection H as <- <-. right. exists e0, e1, s, m. auto.
    - intros H; injection H as <- <-. now left.
    - intros H; injection H as <- <-. now left.
  Qed.

  (* ---- C11 ---- *)
  Variable p : parser (sys S).
  Variable good : sys S -> Prop.
  Hypothesis good_decodes : forall y bs, good y -> enc y = Ok bs -> p bs = Ok (y, []).
  Hypothesis good_frame : forall y f, good y -> f < 2 ^ 32 -> good (set_frame y f).
  Hypothesis good_step : forall y s m it, good y -> dispatch (set_frame y 0) = Ok (s, m) -> it < 2 ^ 32 -> good (set_step y s m it).

  Lemma u32_mod n : n mod 2 ^ 32 < 2 ^ 32.
  Proof. apply N.mod_lt. discriminate. Qed.

  Definition resumable n y pre nm bs post st : Prop :=
    loop n y = (pre ++ ESnap nm bs :: post, st) ->
    exists y1, p bs = Ok (y1, []) /\
      ((hdf5 && y_forces y)%bool = false \/ (forall s, post <> [EEndOfSim s]) ->
       exists m cfg pre', exec m y1 = (cfg ++ ESnap nm bs :: post, st) /\ pre = pre' ++ cfg /\ only_config y1 cfg).

  Lemma export_good y e r y' : good y -> export y = (e, r) -> r = Ok y' -> good y' /\ y_forces y' = y_forces y.
  Proof.
    intros Hg. unfold Cli_Model.export. destruct (y_steps y =? 0); [intros H ->; discriminate|].
    destruct (_ =? 0); [|intros H ->; injection H as <- <-; auto].
    destruct (y_ser y); [destruct (enc y)|]; intros H ->; try discriminate;
      injection H as <- <-; (split; [apply good_frame; auto using u32_mod|reflexivity]).
  Qed.

  Lemma step_good y e y' : good y -> step y = (e, Ok y') -> good y' /\ y_forces y' = y_forces y.
  Proof.
    intros Hg. unfold Cli_Model.step. destruct (hdf5 && y_forces y && (y_steps y =? 0))%bool; [discriminate|].
    destruct (dispatch (set_frame y 0)) as [[s m]| |] eqn:Ed; try discriminate.
    destruct (export _) as [e1 r1] eqn:Ex. intros H; injection H as <- ->.
    eapply export_good in Ex as [H1 H2]; [| |reflexivity]; [split; [exact H1|exact H2]|].
    eapply good_step; eauto using u32_mod.
  Qed.

  Lemma snap_here y e r k e' st pre nm bs post :
    good y -> export y = (e, r) ->
    e ++ e' = pre ++ ESnap nm bs :: post -> (forall y', r = Ok y' -> loop k y' = (e', st)) ->
    (exists post', e = pre ++ ESnap nm bs :: post' /\ post = post' ++ e') ->
    p bs = Ok (y, []) /\ exec k y = (pre ++ ESnap nm bs :: post, st) /\ only_config y pre.
  Proof.
    intros Hg Ex E Hl (post' & Ee & ->). destruct (export_snap _ _ _ _ _ _ _ Ex Ee) as (-> & Eb & Er & Hoc).
    split; [now apply good_decodes|]. split; [|assumption]. unfold Cli_Model.exec. rewrite Ex, Er. specialize (Hl _ Er). rewrite Hl, Ee, <- app_assoc. reflexivity.
  Qed.

  Lemma loop_resumable n : forall y pre nm bs post st, good y -> resumable n y pre nm bs post st.
  Proof.
    induction n as [|k IH]; intros y pre nm bs post st Hg H; cbn [Cli_Model.loop] in H.
    { injection H as H _. destruct pre; discriminate. }
    destruct (finished y).
    - destruct (hdf5 && y_forces y)%bool eqn:Hf.
      + destruct (step y) as [e r] eqn:Es.
        assert (Snap : forall l pre post, e ++ l = pre ++ ESnap nm bs :: post ->
          (exists pre', l = pre' ++ ESnap nm bs :: post) \/ (post = l /\ exists y1, p bs = Ok (y1, []))).
        { clear H pre post. intros l pre post E. apply app_mid in E as [(p1 & E & ->)|(p1 & -> & ->)]; [|eauto].
          destruct (step_split _ _ _ Es) as [Hn|(e0 & e1 & s & m & -> & H0 & Ed & Ex)].
          - exfalso. eapply Hn; eauto.
          - apply app_mid in E as [(p2 & E & _)|(p2 & -> & E)]; [exfalso; eapply H0; eauto|].
            destruct (export_snap _ _ _ _ _ _ _ Ex E) as (-> & Eb & Er & Hoc). right. split; [reflexivity|].
            eexists. eapply good_decodes; [|exact Eb]. eapply good_step; eauto using u32_mod. }
        destruct r as [y'| |]; injection H as H <-.
        * destruct (Snap _ _ _ H) as [(p1 & E)|(-> & y1 & Hp)].
          { destruct p1 as [|? [|? ?]]; discriminate. }
          exists y1. split; [exact Hp|]. intros [C|C]; [discriminate|]. exfalso. eapply C; reflexivity.
        * rewrite <- (app_nil_r e) in H. destruct (Snap _ _ _ H) as [(p1 & E)|(-> & y1 & Hp)]; [destruct p1; discriminate|].
          (* the step failed after writing a snapshot: impossible *)
          exfalso. rewrite app_nil_r in H. destruct (step_split _ _ _ Es) as [Hn|(e0 & e1 & s & m & Ee & H0 & Ed & Ex)].
          -- eapply Hn; eauto.
          -- rewrite Ee in H. apply app_mid in H as [(p2 & E & _)|(p2 & -> & E)]; [eapply H0; eauto|].
             destruct (export_snap _ _ _ _ _ _ _ Ex E) as (_ & _ & Er & _). discriminate.
        * rewrite <- (app_nil_r e) in H. destruct (Snap _ _ _ H) as [(p1 & E)|(-> & y1 & Hp)]; [destruct p1; discriminate|].
          exfalso. rewrite app_nil_r in H. destruct (step_split _ _ _ Es) as [Hn|(e0 & e1 & s & m & Ee & H0 & Ed & Ex)].
          -- eapply Hn; eauto.
          -- rewrite Ee in H. apply app_mid in H as [(p2 & E & _)|(p2 & -> & E)]; [eapply H0; eauto|].
             destruct (export_snap _ _ _ _ _ _ _ Ex E) as (_ & _ & Er & _). discriminate.
      + injection H as H _. destruct pre as [|? [|? ?]]; discriminate.
    - destruct (step y) as [e r] eqn:Es.
      assert (Hbad : forall (o : outcome (sys S)), r = o -> (forall y', o <> Ok y') -> e = pre ++ ESnap nm bs :: post -> False).
      { intros o Eo No E. destruct (step_split _ _ _ Es) as [Hn|(e0 & e1 & s & m & Ee & H0 & Ed & Ex)].
        - eapply Hn; eauto.
        - rewrite Ee in E. apply app_mid in E as [(p2 & E & _)|(p2 & -> & E)]; [eapply H0; eauto|].
          destruct (export_snap _ _ _ _ _ _ _ Ex E) as (_ & _ & Er & _). subst. eapply No; eauto. }
      destruct r as [y'| |]; [|injection H as H _; exfalso; eapply Hbad; eauto; discriminate
                              |injection H as H _; exfalso; eapply Hbad; eauto; discriminate].
      destruct (loop k y') as [e' s'] eqn:El. injection H as H ->.
      destruct (step_good _ _ _ Hg Es) as [Hg' Hff].
      apply app_mid in H as [(p1 & E & ->)|(p1 & -> & E)].
      + destruct (step_split _ _ _ Es) as [Hn|(e0 & e1 & s & m & -> & H0 & Ed & Ex)]; [exfalso; eapply Hn; eauto|].
        apply app_mid in E as [(p2 & E & _)|(p2 & -> & E)]; [exfalso; eapply H0; eauto|].
        assert (Hg2 : good (set_step y s m ((y_iter y + 1) mod 2 ^ 32))) by (eapply good_step; eauto using u32_mod).
        destruct (snap_here _ _ _ k e' st p2 nm bs (p1 ++ e') Hg2 Ex) as (Hp & Hx & Ho).
        * rewrite E, <- app_assoc. reflexivity.
        * intros y2 Ey. injection Ey as <-. exact El.
        * eauto.
        * eexists. split; [exact Hp|]. intros _. exists k, p2, e0. auto.
      + rewrite E in El. destruct (IH _ _ _ _ _ _ Hg' El) as (y1 & Hp & Hx). exists y1. split; [exact Hp|].
        rewrite <- Hff. intros C. destruct (Hx C) as (m & cfg & pre' & H1 & -> & Ho). exists m, cfg, (e ++ pre').
        rewrite app_assoc. auto.
  Qed.

  Theorem exec_resumable n y0 pre nm bs post st : good y0 -> exec n y0 = (pre ++ ESnap nm bs :: post, st) ->
    exists y1, p bs = Ok (y1, []) /\
      ((hdf5 && y_forces y0)%bool = false \/ (forall s, post <> [EEndOfSim s]) ->
       exists m cfg pre', exec m y1 = (cfg ++ ESnap nm bs :: post, st) /\ pre = pre' ++ cfg /\ only_config y1 cfg).
  Proof.
    intros Hg H. unfold Cli_Model.exec in H. destruct (export y0) as [e r] eqn:Ex.
    assert (Hbad : (forall y', r <> Ok y') -> e = pre ++ ESnap nm bs :: post -> False).
    { intros No E. destruct (export_snap _ _ _ _ _ _ _ Ex E) as (_ & _ & Er & _). eapply No; eauto. }
    destruct r as [y'| |]; [|injection H as H _; exfalso; eapply Hbad; eauto; discriminate
                            |injection H as H _; exfalso; eapply Hbad; eauto; discriminate].
    destruct (loop n y') as [e' s'] eqn:El. injection H as H ->.
    apply app_mid in H as H'. destruct H' as [(p1 & E & ->)|(p1 & -> & E)].
    - destruct (snap_here _ _ _ n e' st pre nm bs (p1 ++ e') Hg Ex H) as (Hp & Hx & Ho).
      + intros y2 Ey. injection Ey as <-. exact El.
      + eauto.
      + exists y0. split; [exact Hp|]. intros _. exists n, pre, []. auto.
    - destruct (export_good _ _ _ _ Hg Ex eq_refl) as [Hg' Hff].
      rewrite E in El. destruct (loop_resumable _ _ _ _ _ _ _ Hg' El) as (y1 & Hp & Hx). exists y1. split; [exact Hp|].
      rewrite <- Hff. intros C. destruct (Hx C) as (m & cfg & pre' & H1 & -> & Ho). exists m, cfg, (e ++ pre').
      rewrite app_assoc. auto.
  Qed.
End Run.

(* ---- C12: the schedule ---- *)
Lemma div_succ_nat sp j : (0 < sp)%nat ->
  (S j mod sp = 0 -> S j / sp = S (j / sp))%nat /\ (S j mod sp <> 0 -> S j / sp = j / sp)%nat.
Proof.
  intros H. pose proof (Nat.div_mod j sp ltac:(lia)) as E1. pose proof (Nat.mod_upper_bound j sp ltac:(lia)) as B1.
  pose proof (Nat.div_mod (S j) sp ltac:(lia)) as E2. pose proof (Nat.mod_upper_bound (S j) sp ltac:(lia)) as B2.
  set (a := (j / sp)%nat) in *. set (b := (S j / sp)%nat) in *. split; intros Hm.
  - rewrite Hm in E2. assert (sp * a < sp * b)%nat by lia. assert (sp * b <= sp * a + sp)%nat by lia.
    assert (a < b)%nat by (apply (Nat.mul_lt_mono_pos_l sp); lia).
    assert (b <= S a)%nat by (apply (Nat.mul_le_mono_pos_l _ _ sp); nia). lia.
  - assert (sp * b <= sp * a + sp)%nat by lia.
    assert (a <= b)%nat by (apply Nat.div_le_mono; lia).
    nia.
Qed.
(* number of multiples of sp below j *)
Definition ups (sp j : nat) : nat := ((j + sp - 1) / sp)%nat.
Lemma ups_succ sp j : (0 < sp)%nat -> ups sp (S j) = (S (j / sp))%nat.
Proof.
  intros H. unfold ups. replace (S j + sp - 1)%nat with (j + 1 * sp)%nat by lia. rewrite Nat.div_add by lia. lia.
Qed.
Lemma ups_step sp j : (0 < sp)%nat -> (j mod sp = 0 -> ups sp j = j / sp)%nat /\ (j mod sp <> 0 -> ups sp j = S (j / sp))%nat.
Proof.
  intros H. destruct j as [|j].
  - unfold ups. rewrite Nat.mod_0_l, Nat.div_0_l by lia. split; [|lia]. intros _. apply Nat.div_small. lia.
  - rewrite ups_succ by lia. destruct (div_succ_nat sp j H) as [H1 H2]. split; intros E.
    + now rewrite H1. 
    + now rewrite H2.
Qed.

Section Sched.
  Local Open Scope nat_scope.
  Context {S : Type}.
  Variable with_imap hdf5 : bool.
  Variable enc : sys S -> outcome bytes.
  Variable flow_free flow_impact : sys S -> outcome S.
  Variable flow_friction : sys S -> outcome (S * ifmap).
  Variable time_reached : N -> N -> N -> scalar -> bool.
  Notation export := (export hdf5 enc).
  Notation dispatch := (dispatch with_imap flow_free flow_impact flow_friction).
  Notation step := (step with_imap hdf5 enc flow_free flow_impact flow_friction).
  Notation loop := (loop with_imap hdf5 enc flow_free flow_impact flow_friction time_reached).
  Notation exec := (exec with_imap hdf5 enc flow_free flow_impact flow_friction time_reached).
  Notation state_at := (Cli_Spec.state_at with_imap flow_free flow_impact flow_friction).
  Notation frame_outputs := (Cli_Spec.frame_outputs with_imap hdf5 enc flow_free flow_impact flow_friction).
  Notation force_outputs := (Cli_Spec.force_outputs with_imap flow_free flow_impact flow_friction).

  Variable y0 : sys S.
  Let sp := N.to_nat (y_steps y0).
  Let k0 := N.to_nat (y_frame y0).
  Hypothesis Hsp : y_steps y0 <> 0%N.
  Hypothesis Hstart : (y_iter y0 = y_frame y0 * y_steps y0)%N.

  Definition reached (i : nat) : bool := time_reached (y_iter y0 + N.of_nat i)%N (y_dt_num y0) (y_dt_den y0) (y_end y0).

  Record same_setup (y : sys S) : Prop := mkSame {
    ss_steps : y_steps y = y_steps y0; ss_out : y_outdir y = y_outdir y0; ss_ser : y_ser y = y_ser y0;
    ss_forces : y_forces y = y_forces y0; ss_num : y_dt_num y = y_dt_num y0; ss_den : y_dt_den y = y_dt_den y0;
    ss_end : y_end y = y_end y0; ss_width : y_width y = y_width y0; ss_over : y_over y = y_over y0 }.

  Lemma state_at_inv j : forall y, state_at y0 j = Ok y ->
    y_frame y = 0%N /\ y_iter y = (y_iter y0 + N.of_nat j)%N /\ same_setup y.
  Proof.
    induction j as [|j IH]; intros y H; cbn [Cli_Spec.state_at] in H.
    - injection H as <-. yproj. split; [reflexivity|]. split; [lia|]. constructor; reflexivity.
    - apply obind_Ok_inv in H as (y1 & H1 & H). apply obind_Ok_inv in H as ([s m] & H2 & H). injection H as <-.
      destruct (IH _ H1) as (F & I & [? ? ? ? ? ? ? ? ?]). yproj. split; [assumption|]. split; [lia|].
      constructor; yproj; assumption.
  Qed.

  Lemma set_frame_back (y : sys S) f : y_frame y = 0%N -> set_frame (set_frame y f) 0%N = y.
  Proof. destruct y. yproj. intros ->. reflexivity. Qed.

  Lemma sp_pos : (0 < sp)%nat.
  Proof. unfold sp. lia. Qed.

  Lemma iter_mod j : ((y_iter y0 + N.of_nat j) mod y_steps y0 = N.of_nat (j mod sp))%N.
  Proof.
    rewrite Hstart, N.add_comm, N.mod_add by assumption. unfold sp.
    rewrite Nat2N.inj_mod, N2Nat.id. reflexivity.
  Qed.

  (* exporting the state after j steps with the right frame number *)
  Lemma export_at j y e y' : state_at y0 j = Ok y -> (N.of_nat (k0 + j / sp) + 1 < 2 ^ 32)%N ->
    export (set_frame y (N.of_nat (k0 + ups sp j))) = (e, Ok y') ->
    y' = set_frame y (N.of_nat (k0 + Datatypes.S (j / sp))) /\
    ((j mod sp = 0)%nat -> e = frame_outputs y0 k0 sp (k0 + j / sp)) /\ ((j mod sp <> 0)%nat -> e = []).
  Proof.
    intros Hs Hw Ex. destruct (state_at_inv _ _ Hs) as (F & I & Hss).
    unfold Cli_Model.export in Ex. yproj. rewrite (ss_steps _ Hss) in Ex.
    destruct (N.eqb_spec (y_steps y0) 0%N); [contradiction|].
    rewrite I, iter_mod in Ex. destruct (ups_step sp j sp_pos) as [U1 U2].
    destruct (N.eqb_spec (N.of_nat (j mod sp)) 0%N) as [Hm|Hm].
    - assert (Hm' : (j mod sp = 0)%nat) by lia. rewrite (U1 Hm') in Ex.
      assert (Hf : ((N.of_nat (k0 + j / sp) + 1) mod 2 ^ 32 = N.of_nat (k0 + Datatypes.S (j / sp)))%N) by (rewrite N.mod_small; lia).
      rewrite Hf in Ex.
      assert (Hidx : ((k0 + j / sp - k0) * sp = j)%nat).
      { replace (k0 + j / sp - k0)%nat with (j / sp)%nat by lia. pose proof (Nat.div_mod j sp ltac:(pose proof sp_pos; lia)). lia. }
      assert (Hit : (y_iter y0 + N.of_nat j = N.of_nat ((k0 + j / sp) * sp))%N).
      { rewrite Hstart. pose proof (Nat.div_mod j sp ltac:(pose proof sp_pos; lia)) as D.
        rewrite Hm', Nat.add_0_r in D. rewrite Nat.mul_add_distr_r, Nat2N.inj_add.
        replace (j / sp * sp)%nat with j by lia. rewrite Nat2N.inj_mul. unfold k0, sp. rewrite !N2Nat.id. reflexivity. }
      unfold Cli_Spec.frame_outputs. rewrite Hidx, Hs, <- Hit.
      rewrite (ss_out _ Hss), (ss_ser _ Hss) in Ex.
      destruct (y_ser y0).
      + destruct (enc _) as [b| |] eqn:Eb; [|discriminate|discriminate].
        injection Ex as <- <-. split; [destruct y; reflexivity|]. split; [|lia]. intros _. unfold snap_name, conf_name. yproj.
        rewrite (ss_out _ Hss), (ss_width _ Hss), (ss_over _ Hss). destruct (y_over y0); reflexivity.
      + injection Ex as <- <-. split; [destruct y; reflexivity|]. split; [|lia]. intros _. unfold conf_name. yproj.
        rewrite (ss_out _ Hss), (ss_width _ Hss), app_nil_r. reflexivity.
    - injection Ex as <- <-. rewrite U2 by lia. split; [reflexivity|]. split; [lia|]. reflexivity.
  Qed.

  Lemma frame_outputs_filter k : filter is_output (frame_outputs y0 k0 sp k) = frame_outputs y0 k0 sp k /\
    filter is_forces (frame_outputs y0 k0 sp k) = [].
  Proof.
    unfold Cli_Spec.frame_outputs. destruct (state_at _ _) as [y| |]; auto.
    destruct (hdf5 && _)%bool, (y_ser y0); try destruct (enc _); cbn; auto.
  Qed.

  Definition forcing : bool := (hdf5 && y_forces y0)%bool.

  Lemma step_at j y e y' : state_at y0 j = Ok y -> (N.of_nat (k0 + Datatypes.S j / sp) + 1 < 2 ^ 32)%N ->
    (y_iter y0 + N.of_nat j + 1 < 2 ^ 32)%N ->
    step (set_frame y (N.of_nat (k0 + Datatypes.S (j / sp)))) = (e, Ok y') ->
    exists y1, state_at y0 (Datatypes.S j) = Ok y1 /\ y' = set_frame y1 (N.of_nat (k0 + Datatypes.S (Datatypes.S j / sp))) /\
      filter is_output e = (if (Datatypes.S j mod sp =? 0)%nat then frame_outputs y0 k0 sp (k0 + Datatypes.S j / sp) else []) /\
      filter is_forces e = (if (forcing && (j mod sp =? 0)%nat)%bool then force_outputs y0 k0 sp (k0 + j / sp) else []).
  Proof.
    intros Hs Hw Hit Est. destruct (state_at_inv _ _ Hs) as (F & I & Hss).
    unfold Cli_Model.step in Est. rewrite set_frame_back in Est by assumption. yproj.
    rewrite (ss_steps _ Hss), (ss_forces _ Hss), I, iter_mod in Est. fold forcing in Est.
    destruct (N.eqb_spec (y_steps y0) 0%N); [contradiction|]. rewrite andb_false_r in Est.
    destruct (dispatch y) as [[s m]| |] eqn:Ed; [|discriminate|discriminate].
    destruct (export _) as [e1 r1] eqn:Ex. injection Est as <- ->.
    assert (Hn : state_at y0 (Datatypes.S j) = Ok (set_step y s m (y_iter y + 1)%N)).
    { cbn [Cli_Spec.state_at]. rewrite Hs. cbn [obind]. rewrite Ed. reflexivity. }
    eexists. split; [exact Hn|].
    rewrite N.mod_small in Ex by lia.
    replace (set_step (set_frame y (N.of_nat (k0 + Datatypes.S (j / sp)))) s m (y_iter y0 + N.of_nat j + 1)%N)
      with (set_frame (set_step y s m (y_iter y + 1)%N) (N.of_nat (k0 + ups sp (Datatypes.S j)))) in Ex
      by (rewrite ups_succ by apply sp_pos; rewrite I; reflexivity).
    destruct (export_at _ _ _ _ Hn Hw Ex) as (-> & E1 & E2). split; [reflexivity|].
    rewrite !filter_app.
    assert (Ho : filter is_output e1 = (if (Datatypes.S j mod sp =? 0)%nat then frame_outputs y0 k0 sp (k0 + Datatypes.S j / sp) else []) /\ filter is_forces e1 = []).
    { destruct (Nat.eqb_spec (Datatypes.S j mod sp) 0) as [Hm|Hm].
      - rewrite (E1 Hm). apply frame_outputs_filter.
      - rewrite (E2 Hm). auto. }
    destruct Ho as [-> ->]. rewrite app_nil_r.
    assert (Hb : (N.of_nat (j mod sp) =? 0)%N = (j mod sp =? 0)%nat) by lia. rewrite Hb.
    destruct forcing; cbn [andb]; [|split; reflexivity].
    destruct (Nat.eqb_spec (j mod sp) 0) as [Hm|Hm]; [|split; reflexivity].
    split; [reflexivity|]. cbn [filter is_forces].
    unfold Cli_Spec.force_outputs.
    replace ((k0 + j / sp - k0) * sp)%nat with j.
    2:{ replace (k0 + j / sp - k0)%nat with (j / sp)%nat by lia. pose proof (Nat.div_mod j sp ltac:(pose proof sp_pos; lia)). lia. }
    rewrite Hs. f_equal. f_equal.
    - unfold force_name. yproj. rewrite (ss_out _ Hss), (ss_width _ Hss). do 2 f_equal.
      assert (Hle : (j / sp <= Datatypes.S j / sp)%nat) by (apply Nat.div_le_mono; pose proof sp_pos; lia).
      clear - Hw Hle. revert Hw Hle. generalize (j / sp)%nat (Datatypes.S j / sp)%nat k0. intros d d' c Hw Hle.
      rewrite Nat.add_succ_r, Nat2N.inj_succ, <- N.add_1_l.
      rewrite <- (N.mod_small (N.of_nat (c + d)) (2 ^ 32)) at 2 by lia.
      rewrite <- (N.mod_add (N.of_nat (c + d)) 1 (2 ^ 32)) by discriminate. f_equal. lia.
    - rewrite Hstart. pose proof (Nat.div_mod j sp ltac:(pose proof sp_pos; lia)) as D.
      rewrite Hm, Nat.add_0_r in D. rewrite Nat.mul_add_distr_r, Nat2N.inj_add.
      replace (j / sp * sp)%nat with j by lia. rewrite Nat2N.inj_mul. unfold k0, sp. rewrite !N2Nat.id. reflexivity.
  Qed.

  Definition run_end (j n T : nat) (st : status) : Prop :=
    (st = SRunning /\ T = (j + n)%nat /\ forall i, (j <= i < T)%nat -> reached i = false) \/
    (st = SDone /\ exists E, (j <= E < j + n)%nat /\ reached E = true /\ (forall i, (j <= i < E)%nat -> reached i = false) /\
       T = (if forcing then Datatypes.S E else E)).

  Lemma seq_cons_if a b (c : bool) {B} (f : nat -> list B) t : (b = if c then Datatypes.S a else a) -> (b <= t)%nat ->
    (if c then f a else []) ++ flat_map f (seq b (t - b)) = flat_map f (seq a (t - a)).
  Proof.
    destruct c; intros -> Ht; [|reflexivity]. replace (t - a)%nat with (Datatypes.S (t - Datatypes.S a)) by lia. reflexivity.
  Qed.

  Lemma finished_at j y f : state_at y0 j = Ok y -> finished time_reached (set_frame y f) = reached j.
  Proof.
    intros Hs. destruct (state_at_inv _ _ Hs) as (F & I & Hss). unfold finished, reached. yproj.
    now rewrite I, (ss_num _ Hss), (ss_den _ Hss), (ss_end _ Hss).
  Qed.

  Lemma k_bound j : (y_iter y0 + N.of_nat j + 1 < 2 ^ 32)%N -> (N.of_nat (k0 + j / sp) + 1 < 2 ^ 32)%N.
  Proof.
    intros H. eapply N.le_lt_trans; [|exact H]. rewrite Hstart.
    assert (j / sp <= j)%nat by (apply Nat.div_le_upper_bound; pose proof sp_pos; nia).
    assert (y_frame y0 <= y_frame y0 * y_steps y0)%N by nia. unfold k0. lia.
  Qed.

  Lemma loop_schedule n : forall j y evs st, state_at y0 j = Ok y -> (y_iter y0 + N.of_nat (j + n) + 1 < 2 ^ 32)%N ->
    loop n (set_frame y (N.of_nat (k0 + Datatypes.S (j / sp)))) = (evs, st) -> st = SDone \/ st = SRunning ->
    exists T, (j <= T)%nat /\ run_end j n T st /\
      filter is_output evs = flat_map (frame_outputs y0 k0 sp) (seq (k0 + Datatypes.S (j / sp)) (k0 + Datatypes.S (T / sp) - (k0 + Datatypes.S (j / sp)))) /\
      filter is_forces evs = (if forcing then flat_map (force_outputs y0 k0 sp) (seq (k0 + ups sp j) (k0 + ups sp T - (k0 + ups sp j))) else []).
  Proof.
    induction n as [|n IH]; intros j y evs st Hs Hb H Hst; cbn [Cli_Model.loop] in H.
    { injection H as <- <-. exists j. split; [lia|]. split; [left; split; [reflexivity|]; split; [lia|]; intros; lia|].
      rewrite !Nat.sub_diag. cbn. split; [reflexivity|]. now destruct forcing. }
    rewrite (finished_at _ _ _ Hs) in H. cbn [y_forces set_frame] in H. 
    destruct (state_at_inv _ _ Hs) as (F & I & Hss). rewrite (ss_forces _ Hss) in H. fold forcing in H.
    assert (Hk : (N.of_nat (k0 + Datatypes.S j / sp) + 1 < 2 ^ 32)%N) by (apply k_bound; lia).
    assert (Hi : (y_iter y0 + N.of_nat j + 1 < 2 ^ 32)%N) by lia.
    destruct (div_succ_nat sp j sp_pos) as [D1 D2]. destruct (ups_step sp j sp_pos) as [U1 U2].
    assert (DD : Datatypes.S (Datatypes.S j / sp) = if (Datatypes.S j mod sp =? 0)%nat then Datatypes.S (Datatypes.S (j / sp)) else Datatypes.S (j / sp))
      by (destruct (Nat.eqb_spec (Datatypes.S j mod sp) 0); [rewrite D1|rewrite D2]; auto).
    assert (UU : ups sp (Datatypes.S j) = if (j mod sp =? 0)%nat then Datatypes.S (ups sp j) else ups sp j)
      by (rewrite ups_succ by apply sp_pos; destruct (Nat.eqb_spec (j mod sp) 0); [rewrite U1|rewrite U2]; auto).
    assert (Hstep : forall e y', step (set_frame y (N.of_nat (k0 + Datatypes.S (j / sp)))) = (e, Ok y') ->
      exists y1, state_at y0 (Datatypes.S j) = Ok y1 /\ y' = set_frame y1 (N.of_nat (k0 + Datatypes.S (Datatypes.S j / sp))) /\
      forall T, (Datatypes.S j <= T)%nat ->
       (filter is_output e ++ flat_map (frame_outputs y0 k0 sp) (seq (k0 + Datatypes.S (Datatypes.S j / sp)) (k0 + Datatypes.S (T / sp) - (k0 + Datatypes.S (Datatypes.S j / sp))))
        = flat_map (frame_outputs y0 k0 sp) (seq (k0 + Datatypes.S (j / sp)) (k0 + Datatypes.S (T / sp) - (k0 + Datatypes.S (j / sp))))) /\
       (filter is_forces e ++ (if forcing then flat_map (force_outputs y0 k0 sp) (seq (k0 + ups sp (Datatypes.S j)) (k0 + ups sp T - (k0 + ups sp (Datatypes.S j)))) else [])
        = if forcing then flat_map (force_outputs y0 k0 sp) (seq (k0 + ups sp j) (k0 + ups sp T - (k0 + ups sp j))) else [])).
    { intros e y' Es. destruct (step_at _ _ _ _ Hs Hk Hi Es) as (y1 & Hs1 & Ey & Eo & Ef).
      exists y1. split; [exact Hs1|]. split; [exact Ey|]. intros T HT. split.
      - rewrite Eo.
        replace (if (Datatypes.S j mod sp =? 0)%nat then frame_outputs y0 k0 sp (k0 + Datatypes.S j / sp) else [])
          with (if (Datatypes.S j mod sp =? 0)%nat then frame_outputs y0 k0 sp (k0 + Datatypes.S (j / sp)) else [])
          by (destruct (Nat.eqb_spec (Datatypes.S j mod sp) 0); [rewrite D1|]; auto).
        apply seq_cons_if.
        + destruct (_ =? 0)%nat; lia.
        + assert (Datatypes.S j / sp <= T / sp)%nat by (apply Nat.div_le_mono; [pose proof sp_pos; lia|lia]). lia.
      - rewrite Ef. destruct forcing; cbn [andb]; [|reflexivity].
        replace (if (j mod sp =? 0)%nat then force_outputs y0 k0 sp (k0 + j / sp) else [])
          with (if (j mod sp =? 0)%nat then force_outputs y0 k0 sp (k0 + ups sp j) else [])
          by (destruct (Nat.eqb_spec (j mod sp) 0); [rewrite U1|]; auto).
        apply seq_cons_if.
        + rewrite UU. destruct (j mod sp =? 0)%nat. lia. lia.
        + assert (ups sp (Datatypes.S j) <= ups sp T)%nat by (apply Nat.div_le_mono; [pose proof sp_pos; lia|lia]). lia. }
    destruct (reached j) eqn:Hr.
    - destruct forcing eqn:Hf.
      + destruct (step _) as [e [y'| |]] eqn:Es; injection H as <- <-; [|destruct Hst; discriminate|destruct Hst; discriminate].
        destruct (Hstep _ _ eq_refl) as (y1 & Hs1 & Ey & Ho). destruct (Ho (Datatypes.S j) (le_n _)) as [O1 O2].
        rewrite !Nat.sub_diag in O1, O2. cbn [seq flat_map] in O1, O2. rewrite app_nil_r in O1, O2.
        exists (Datatypes.S j). split; [lia|]. split.
        * right. split; [reflexivity|]. exists j. rewrite Hf. repeat split; auto; lia.
        * rewrite !filter_app. cbn [filter is_output is_forces]. rewrite !app_nil_r. split; assumption.
      + injection H as <- <-. exists j. split; [lia|]. split.
        * right. split; [reflexivity|]. exists j. rewrite Hf. repeat split; auto; lia.
        * rewrite !Nat.sub_diag. split; reflexivity.
    - destruct (step _) as [e [y'| |]] eqn:Es.
      2,3: injection H as <- <-; destruct Hst; discriminate.
      destruct (Hstep _ _ eq_refl) as (y1 & Hs1 & Ey & Ho). subst y'.
      destruct (loop n _) as [e' s'] eqn:El. injection H as <- ->.
      destruct (IH _ _ _ _ Hs1 ltac:(rewrite Nat.add_succ_l, <- Nat.add_succ_r; exact Hb) El Hst) as (T & HT & Hend & R1 & R2).
      exists T. split; [lia|]. destruct (Ho T HT) as [O1 O2]. split.
      + destruct Hend as [(-> & ET & Hn)|(-> & E & HE & Hr' & Hn & ET)].
        * left. split; [reflexivity|]. split; [lia|]. intros i Hi'. destruct (Nat.eq_dec i j) as [->|]; [exact Hr|]. apply Hn. lia.
        * right. split; [reflexivity|]. exists E. split; [lia|]. split; [exact Hr'|]. split; [|exact ET].
          intros i Hi'. destruct (Nat.eq_dec i j) as [->|]; [exact Hr|]. apply Hn. lia.
      + rewrite !filter_app, R1, R2. split; assumption.
  Qed.

  Theorem exec_schedule n evs st : (y_iter y0 + N.of_nat n + 1 < 2 ^ 32)%N ->
    exec n y0 = (evs, st) -> st = SDone \/ st = SRunning ->
    exists T, run_end 0 n T st /\
      filter is_output evs = flat_map (frame_outputs y0 k0 sp) (seq k0 (Datatypes.S (T / sp))) /\
      filter is_forces evs = (if forcing then flat_map (force_outputs y0 k0 sp) (seq k0 (ups sp T)) else []).
  Proof.
    intros Hb H Hst. unfold Cli_Model.exec in H.
    assert (Hs : state_at y0 0 = Ok (set_frame y0 0%N)) by reflexivity.
    pose proof sp_pos as Hsp'.
    assert (U0 : ups sp 0 = 0%nat) by (unfold ups; apply Nat.div_small; lia).
    assert (D0 : (0 / sp = 0)%nat) by (apply Nat.div_0_l; lia).
    assert (M0 : (0 mod sp = 0)%nat) by (apply Nat.mod_0_l; lia).
    assert (Hback : set_frame (set_frame y0 0%N) (N.of_nat (k0 + ups sp 0)) = y0).
    { rewrite U0, Nat.add_0_r. unfold k0. rewrite N2Nat.id. destruct y0; reflexivity. }
    destruct (export y0) as [e r] eqn:Ex. rewrite <- Hback in Ex.
    destruct r as [y'| |]; [|injection H as <- <-; destruct Hst; discriminate|injection H as <- <-; destruct Hst; discriminate].
    destruct (export_at _ _ _ _ Hs ltac:(apply k_bound; lia) Ex) as (-> & E1 & _). specialize (E1 M0).
    destruct (loop n _) as [e' s'] eqn:El. injection H as <- ->.
    destruct (loop_schedule n 0 _ _ _ Hs Hb El Hst) as (T & _ & Hend & R1 & R2).
    exists T. split; [exact Hend|]. rewrite !filter_app, R1, R2, E1, D0, U0, Nat.add_0_r.
    destruct (frame_outputs_filter k0) as [-> ->]. cbn [app]. split.
    - cbn [seq flat_map]. f_equal. rewrite Nat.add_1_r, Nat.add_succ_r. do 2 f_equal. cbn [Nat.sub]. rewrite Nat.add_comm. apply Nat.add_sub.
    - destruct forcing; [|reflexivity]. do 2 f_equal. rewrite Nat.add_comm. apply Nat.add_sub.
  Qed.
End Sched.

(* ---- C11 for a tool whose file format obeys resume_law ---- *)
Section Tool.
  Context {S : Type}.
  Variable with_imap hdf5 ql ip : bool.
  Variable ok_sim known_sim unw_sim : S -> Prop.
  Variable umaps : list umap.
  Variable enc : sys S -> outcome bytes.
  Variable p : parser (sys S).
  Hypothesis law : resume_law (ok_sys ok_sim with_imap hdf5) (known_sys ql ip umaps known_sim) (unwritable_sys unw_sim) enc p.
  Variable flow_free flow_impact : sys S -> outcome S.
  Variable flow_friction : sys S -> outcome (S * ifmap).
  Variable time_reached : N -> N -> N -> scalar -> bool.
  Hypothesis flows : flows_writable (writable ok_sim known_sim unw_sim) flow_free flow_impact flow_friction.
  Notation exec := (exec with_imap hdf5 enc flow_free flow_impact flow_friction time_reached).
  Notation resume := (resume with_imap hdf5 enc flow_free flow_impact flow_friction time_reached p).
  Definition good_sys (y : sys S) : Prop :=
    ok_sys ok_sim with_imap hdf5 y /\ known_sys ql ip umaps known_sim y /\ ~ unwritable_sys unw_sim y.

  Lemma good_sys_decodes y bs : good_sys y -> enc y = Ok bs -> p bs = Ok (y, []).
  Proof.
    intros (H1 & H2 & H3) E. destruct (proj1 law y H1 H2 H3) as (b & E' & R & _).
    assert (b = bs) by congruence. subst b. rewrite <- (app_nil_r bs). apply R.
  Qed.
  Lemma good_sys_frame y f : good_sys y -> f < 2 ^ 32 -> good_sys (set_frame y f).
  Proof.
    intros (H1 & H2 & H3) Hf. split; [|split].
    - unfold ok_sys in *. yproj. intuition.
    - exact H2.
    - exact H3.
  Qed.
  Lemma good_sys_step y s m it : good_sys y -> dispatch with_imap flow_free flow_impact flow_friction (set_frame y 0) = Ok (s, m) ->
    it < 2 ^ 32 -> good_sys (set_step y s m it).
  Proof.
    intros (H1 & H2 & H3) Hd Hit.
    assert (Hw : writable ok_sim known_sim unw_sim (y_sim y)).
    { split; [apply H1|]. split; [apply H2|]. intros C. apply H3. left. exact C. }
    assert (Hm : ok_ifmap (y_ifmap y)) by apply H1.
    assert (K : writable ok_sim known_sim unw_sim s /\ ok_ifmap m).
    { unfold Cli_Model.dispatch in Hd. yproj. destruct flows as (F1 & F2 & F3).
      repeat match type of Hd with (if ?c then _ else _) = _ => destruct c end; try discriminate.
      - injection Hd as <- <-. auto.
      - unfold omap in Hd. destruct (flow_free _) as [s'| |] eqn:E; try discriminate. injection Hd as <- <-. split; [|exact Hm]. eapply F1; [|exact E]. exact Hw.
      - unfold omap in Hd. destruct (flow_impact _) as [s'| |] eqn:E; try discriminate. injection Hd as <- <-. split; [|exact Hm]. eapply F2; [|exact E]. exact Hw.
      - eapply F3; [|exact Hd]. exact Hw. }
    destruct K as [(K1 & K2 & K3) K4]. split; [|split].
    - unfold ok_sys in *. yproj. intuition.
    - unfold known_sys in *. yproj. intuition.
    - unfold unwritable_sys in *. yproj. intuition.
  Qed.

  Theorem tool_resumes n y0 pre nm bs post st : good_sys y0 -> exec n y0 = (pre ++ ESnap nm bs :: post, st) ->
    (hdf5 && y_forces y0)%bool = false \/ (forall s, post <> [EEndOfSim s]) -> resumes hdf5 resume pre nm bs post st.
  Proof.
    intros Hg H C.
    destruct (exec_resumable with_imap hdf5 enc flow_free flow_impact flow_friction time_reached p good_sys
                good_sys_decodes good_sys_frame good_sys_step n y0 pre nm bs post st Hg H) as (y1 & Hp & Hx).
    destruct (Hx C) as (m & cfg & pre' & E & Hpre & Hc). exists m, y1, cfg, pre'. split; [|auto].
    unfold Cli_Model.resume. rewrite Hp. exact E.
  Qed.
  Theorem tool_snapshots_load n y0 pre nm bs post st : good_sys y0 -> exec n y0 = (pre ++ ESnap nm bs :: post, st) ->
    exists y1, p bs = Ok (y1, []).
  Proof.
    intros Hg H.
    destruct (exec_resumable with_imap hdf5 enc flow_free flow_impact flow_friction time_reached p good_sys
                good_sys_decodes good_sys_frame good_sys_step n y0 pre nm bs post st Hg H) as (y1 & Hp & _). eauto.
  Qed.
End Tool.

(* ---- C48: crashes ---- *)
Lemma to_bytes_inj a b : to_bytes a = to_bytes b -> a = b.
Proof.
  revert b. induction a as [|x a IH]; intros [|y b] E; cbn in E; try discriminate; [reflexivity|].
  injection E as E1 E2. f_equal; [|auto]. rewrite <- (ascii_N_embedding x), <- (ascii_N_embedding y). congruence.
Qed.
Lemma bstring_eqb_spec a b : bstring_eqb a b = true <-> a = b.
Proof.
  unfold bstring_eqb. destruct (list_eq_dec N.eq_dec a b); split; intros; congruence.
Qed.

Section Crash.
  Context {S : Type}.
  Variable with_imap hdf5 : bool.
  Variable enc : sys S -> outcome bytes.
  Variable flow_free flow_impact : sys S -> outcome S.
  Variable flow_friction : sys S -> outcome (S * ifmap).
  Variable time_reached : N -> N -> N -> scalar -> bool.
  Notation export := (export hdf5 enc).
  Notation step := (step with_imap hdf5 enc flow_free flow_impact flow_friction).
  Notation loop := (loop with_imap hdf5 enc flow_free flow_impact flow_friction time_reached).
  Notation exec := (exec with_imap hdf5 enc flow_free flow_impact flow_friction time_reached).

  Definition other_name (d : str) (w : nat) (nm : bstring) : Prop :=
    forall g, nm <> to_bytes (config_file_name d (lit "serial") (lit "bin") w g).
  Definition later (d : str) (w : nat) (f : N) (e : event S) : Prop :=
    match file_of e with
    | None => True
    | Some nm => other_name d w nm \/ exists g, f <= g /\ nm = to_bytes (config_file_name d (lit "serial") (lit "bin") w g)
    end.
  Lemma later_mono d w f g e : f <= g -> later d w g e -> later d w f e.
  Proof. unfold later. destruct (file_of e); [|auto]. intros H [O|(h & Hh & E)]; [left; exact O|right; exists h; split; [lia|exact E]]. Qed.

  Lemma ends_h5 (a : str) d w : other_name d w (to_bytes (a ++ lit ".h5")).
  Proof.
    intros g E. apply to_bytes_inj in E. unfold config_file_name in E.
    rewrite !app_assoc in E. change (lit "bin") with (lit "bi" ++ lit "n") in E. change (lit ".h5") with (lit ".h" ++ lit "5") in E.
    rewrite !app_assoc in E. apply app_inj_tail in E as [_ E]. discriminate.
  Qed.
  Lemma conf_h5_other d w d' w' f : other_name d w (to_bytes (config_file_name d' (lit "config") (lit "h5") w' f)).
  Proof.
    unfold config_file_name.
    set (x := match d' with [] => [] | _ => d' ++ lit "/" end).
    replace (x ++ lit "config" ++ lit "_" ++ frame_digits w' f ++ lit "." ++ lit "h5")
      with ((x ++ lit "config" ++ lit "_" ++ frame_digits w' f) ++ lit ".h5") by (rewrite <- !app_assoc; reflexivity).
    apply ends_h5.
  Qed.
  Lemma forces_other d w d' w' f : other_name d w (to_bytes (forces_file_name d' w' f)).
  Proof. unfold forces_file_name. rewrite !app_assoc. apply ends_h5. Qed.

  Definition sdir (y : sys S) : str := if hdf5 then of_bytes (y_outdir y) else [].
  Definition swid (y : sys S) : nat := N.to_nat (y_width y).
  Definition same_names (y y' : sys S) : Prop := y_outdir y' = y_outdir y /\ y_width y' = y_width y /\ y_over y' = y_over y.

  (* every snapshot in the list is numbered at least f and is not overwritten later in the list *)
  Definition fresh (e : list (event S)) : Prop :=
    forall pre nm bs post, e = pre ++ ESnap nm bs :: post -> Forall (fun ev => file_of ev <> Some nm) post.

  Lemma export_fresh y e r : y_over y = false -> y_frame y + 1 < 2 ^ 32 -> export y = (e, r) ->
    fresh e /\ Forall (later (sdir y) (swid y) (y_frame y)) e /\
    (forall pre nm bs post, e = pre ++ ESnap nm bs :: post -> nm = to_bytes (config_file_name (sdir y) (lit "serial") (lit "bin") (swid y) (y_frame y)) /\ r = Ok (next_frame y)) /\
    (forall y', r = Ok y' -> same_names y y' /\ (y' = y /\ e = [] \/ y_frame y' = y_frame y + 1)).
  Proof.
    intros Ho Hf Ex. split; [|split; [|split]].
    - intros pre nm bs post E. destruct (export_snap _ _ _ _ _ _ _ _ _ Ex E) as (-> & _). constructor.
    - unfold Cli_Model.export in Ex. destruct (y_steps y =? 0); [injection Ex as <- <-; constructor|].
      destruct (_ =? 0); [|injection Ex as <- <-; constructor].
      assert (Hc : forall b : bool, Forall (later (sdir y) (swid y) (y_frame y))
        (if b then [EConfig (conf_name hdf5 "config" "h5" y) (y_iter y) (y_sim y)] else [])).
      { intros [|]; [|constructor]. constructor; [|constructor]. left. apply conf_h5_other. }
      destruct (y_ser y); [destruct (enc y)|]; injection Ex as <- <-; try apply Hc.
      apply Forall_app. split; [apply Hc|]. constructor; [|constructor]. right. exists (y_frame y). split; [lia|].
      unfold snap_name. rewrite Ho. reflexivity.
    - intros pre nm bs post E. destruct (export_snap _ _ _ _ _ _ _ _ _ Ex E) as (_ & Eb & Er & _). split; [|exact Er].
      unfold Cli_Model.export in Ex. destruct (y_steps y =? 0); [injection Ex as <- <-; destruct pre; discriminate|].
      destruct (_ =? 0); [|injection Ex as <- <-; destruct pre; discriminate].
      destruct (y_ser y); [rewrite Eb in Ex|]; injection Ex as Ee <-.
      + rewrite E in Ee. apply app_mid in Ee as [(q & E1 & _)|(q & E1 & E2)].
        * exfalso. destruct (hdf5 && _)%bool; destruct pre as [|? [|? ?]]; discriminate.
        * destruct q as [|? [|? ?]]; try discriminate. injection E2 as <- _. unfold snap_name. rewrite Ho. reflexivity.
      + exfalso. rewrite E in Ee. destruct (hdf5 && _)%bool; destruct pre as [|? [|? ?]]; discriminate.
    - intros y' ->. unfold Cli_Model.export in Ex. destruct (y_steps y =? 0); [discriminate|].
      destruct (_ =? 0); [|injection Ex as <- <-; split; [repeat split|auto]].
      destruct (y_ser y); [destruct (enc y)|]; try discriminate; injection Ex as <- <-;
        (split; [repeat split|right; yproj; apply N.mod_small; lia]).
  Qed.

  Lemma fresh_app (y : sys S) e e' : fresh e -> fresh e' ->
    (forall pre nm bs post, e = pre ++ ESnap nm bs :: post -> exists d w f, nm = to_bytes (config_file_name d (lit "serial") (lit "bin") w f) /\ f < y_frame y /\ Forall (later d w (y_frame y)) e') ->
    fresh (e ++ e').
  Proof.
    intros F1 F2 H pre nm bs post E. apply app_mid in E as [(q & E & ->)|(q & -> & E)].
    - apply Forall_app. split; [eapply F1; eauto|]. destruct (H _ _ _ _ E) as (d & w & f & -> & Hlt & Hl).
      eapply Forall_impl; [|exact Hl]. intros ev Hev C. unfold later in Hev. rewrite C in Hev.
      destruct Hev as [O|(g & Hg & En)]; [eapply O; reflexivity|]. apply to_bytes_inj, config_name_inj in En. lia.
    - eapply F2; eauto.
  Qed.

  Lemma step_fresh y e r : y_over y = false -> y_frame y + 1 < 2 ^ 32 -> step y = (e, r) ->
    fresh e /\ Forall (later (sdir y) (swid y) (y_frame y)) e /\
    (forall pre nm bs post, e = pre ++ ESnap nm bs :: post ->
       nm = to_bytes (config_file_name (sdir y) (lit "serial") (lit "bin") (swid y) (y_frame y)) /\
       forall y', r = Ok y' -> y_frame y' = y_frame y + 1) /\
    (forall y', r = Ok y' -> same_names y y' /\ (y_frame y' = y_frame y \/ y_frame y' = y_frame y + 1)).
  Proof.
    intros Ho Hf. unfold Cli_Model.step.
    destruct (hdf5 && y_forces y && (y_steps y =? 0))%bool.
    { intros E. injection E as <- <-. split; [intros [|? ?]; discriminate|]. split; [constructor|]. split; [intros [|? ?]; discriminate|discriminate]. }
    set (e0 := if (_ && _)%bool then _ else _).
    assert (H0 : forall pre nm bs post, e0 <> pre ++ ESnap nm bs :: post).
    { intros pre nm bs post. unfold e0. destruct (_ && _)%bool; destruct pre as [|? [|? ?]]; discriminate. }
    assert (L0 : Forall (later (sdir y) (swid y) (y_frame y)) e0).
    { unfold e0. destruct (_ && _)%bool; [|constructor]. constructor; [|constructor]. left. apply forces_other. }
    assert (Bad : forall r', (forall y' : sys S, r' <> Ok y') -> (e0, r') = (e, r) ->
      fresh e /\ Forall (later (sdir y) (swid y) (y_frame y)) e /\
      (forall pre nm bs post, e = pre ++ ESnap nm bs :: post ->
         nm = to_bytes (config_file_name (sdir y) (lit "serial") (lit "bin") (swid y) (y_frame y)) /\
         forall y', r = Ok y' -> y_frame y' = y_frame y + 1) /\
      (forall y', r = Ok y' -> same_names y y' /\ (y_frame y' = y_frame y \/ y_frame y' = y_frame y + 1))).
    { intros r' Hr E. injection E as <- <-. split; [intros pre nm bs post E; destruct (H0 _ _ _ _ E)|]. split; [exact L0|].
      split; [intros pre nm bs post E; destruct (H0 _ _ _ _ E)|]. intros y' E. destruct (Hr _ E). }
    destruct (dispatch _ _ _ _ _) as [[s m]| |]; [|apply Bad; discriminate|apply Bad; discriminate].
    destruct (export _) as [e1 r1] eqn:Ex. intros E. injection E as <- <-.
    destruct (export_fresh (set_step y s m ((y_iter y + 1) mod 2 ^ 32)) _ _ Ho Hf Ex) as (F & L & Nm & R). yproj. split; [|split; [|split]].
    - intros pre nm bs post E. apply app_mid in E as [(q & E & _)|(q & -> & E)]; [destruct (H0 _ _ _ _ E)|]. eapply F; eauto.
    - apply Forall_app. split; [exact L0|exact L].
    - intros pre nm bs post E. apply app_mid in E as [(q & E & _)|(q & -> & E)]; [destruct (H0 _ _ _ _ E)|].
      destruct (Nm _ _ _ _ E) as [-> Er]. split; [reflexivity|]. intros y' E'. rewrite Er in E'. injection E' as <-.
      yproj. apply N.mod_small. lia.
    - intros y' E. destruct (R _ E) as [(A & B & C) [[-> _]|D]].
      + split; [repeat split; assumption|]. left. reflexivity.
      + split; [repeat split; assumption|]. right. exact D.
  Qed.

  Lemma same_names_dir y y' : same_names y y' -> sdir y' = sdir y /\ swid y' = swid y.
  Proof. unfold sdir, swid. intros (-> & -> & _). auto. Qed.

  Lemma loop_fresh n : forall y evs st, y_over y = false -> y_frame y + N.of_nat n + 1 < 2 ^ 32 -> loop n y = (evs, st) ->
    fresh evs /\ Forall (later (sdir y) (swid y) (y_frame y)) evs.
  Proof.
    induction n as [|n IH]; intros y evs st Ho Hf H; cbn [Cli_Model.loop] in H.
    { injection H as <- <-. split; [intros [|? ?]; discriminate|constructor]. }
    destruct (step y) as [e r] eqn:Es. destruct (step_fresh _ _ _ Ho ltac:(lia) Es) as (F & L & Nm & R).
    assert (Tail : forall l, (forall pre nm bs post, l <> pre ++ @ESnap S nm bs :: post) -> Forall (fun ev => file_of ev = None) l ->
      fresh (e ++ l) /\ Forall (later (sdir y) (swid y) (y_frame y)) (e ++ l)).
    { intros l Hl Hn. split.
      - intros pre nm bs post E. apply app_mid in E as [(q & E & ->)|(q & -> & E)]; [|destruct (Hl _ _ _ _ E)].
        apply Forall_app. split; [eapply F; eauto|]. eapply Forall_impl; [|exact Hn]. intros ev Hev. rewrite Hev. discriminate.
      - apply Forall_app. split; [exact L|]. eapply Forall_impl; [|exact Hn]. intros ev Hev. unfold later. now rewrite Hev. }
    assert (Tnil : fresh e /\ Forall (later (sdir y) (swid y) (y_frame y)) e) by (split; assumption).
    destruct (finished _ y).
    - destruct (hdf5 && y_forces y)%bool.
      + destruct r; injection H as <- <-; [|exact Tnil|exact Tnil].
        apply Tail; [intros [|? [|? ?]]; discriminate|]. repeat constructor.
      + injection H as <- <-. split; [intros [|? [|? ?]]; discriminate|]. repeat constructor.
    - destruct r as [y'| |]; [|injection H as <- <-; exact Tnil|injection H as <- <-; exact Tnil].
      destruct (loop n y') as [e' s'] eqn:El. injection H as <- ->.
      destruct (R _ eq_refl) as [Hsn Hfr]. destruct (same_names_dir _ _ Hsn) as [Hd Hw].
      destruct (IH _ _ _ ltac:(destruct Hsn as (_ & _ & ->); exact Ho) ltac:(lia) El) as [F' L'].
      split.
      + apply (fresh_app y'); [exact F|exact F'|]. intros pre nm bs post E. destruct (Nm _ _ _ _ E) as [-> Hn].
        exists (sdir y), (swid y), (y_frame y). split; [reflexivity|]. rewrite (Hn _ eq_refl). split; [lia|].
        rewrite Hd, Hw in L'. rewrite <- (Hn _ eq_refl). exact L'.
      + apply Forall_app. split; [exact L|]. rewrite Hd, Hw in L'. eapply Forall_impl; [|exact L'].
        intros ev. apply later_mono. lia.
  Qed.

  Lemma exec_fresh n y evs st : y_over y = false -> y_frame y + N.of_nat n + 2 < 2 ^ 32 -> exec n y = (evs, st) -> fresh evs.
  Proof.
    intros Ho Hf H. unfold Cli_Model.exec in H. destruct (export y) as [e r] eqn:Ex.
    destruct (export_fresh _ _ _ Ho ltac:(lia) Ex) as (F & L & Nm & R).
    destruct r as [y'| |]; [|injection H as <- <-; exact F|injection H as <- <-; exact F].
    destruct (loop n y') as [e' s'] eqn:El. injection H as <- ->.
    destruct (R _ eq_refl) as [Hsn Hfr]. destruct (same_names_dir _ _ Hsn) as [Hd Hw].
    assert (Hfr' : y_frame y' <= y_frame y + 1) by (destruct Hfr as [[-> _]| ->]; lia).
    destruct (loop_fresh n _ _ _ ltac:(destruct Hsn as (_ & _ & ->); exact Ho) ltac:(lia) El) as [F' L'].
    apply (fresh_app y'); [exact F|exact F'|]. intros pre nm bs post E. destruct (Nm _ _ _ _ E) as [-> Er]. injection Er as ->.
    exists (sdir y), (swid y), (y_frame y). split; [reflexivity|].
    assert (Ef : y_frame (next_frame y) = y_frame y + 1) by (unfold next_frame; yproj; apply N.mod_small; lia).
    split; [lia|]. exact L'.
  Qed.

  (* writing a file *)
  Lemma after_app a b fs : after (a ++ b) fs = after b (after a fs).
  Proof. unfold after. apply fold_left_app. Qed.
  Lemma upd_same fs n c : upd fs n c n = Some c.
  Proof. unfold upd. now rewrite (proj2 (bstring_eqb_spec n n) eq_refl). Qed.
  Lemma upd_other fs n c m : m <> n -> upd fs n c m = fs m.
  Proof. intros H. unfold upd. destruct (bstring_eqb m n) eqn:E; [|reflexivity]. apply bstring_eqb_spec in E. contradiction. Qed.
  Lemma append_file n bs : forall fs c, fs n = Some c -> after (map (IAppend n) bs) fs n = Some (c ++ bs).
  Proof.
    induction bs as [|b bs IH]; intros fs c H; cbn; [now rewrite app_nil_r|].
    unfold after in IH. rewrite H. erewrite IH by apply upd_same. now rewrite <- app_assoc.
  Qed.
  Lemma write_file n bs fs : after (IOpen n :: map (IAppend n) bs) fs n = Some bs.
  Proof. unfold after. cbn [fold_left]. apply (append_file n bs _ []). cbn. apply upd_same. Qed.
  Definition touches (n : bstring) (a : io) : Prop := match a with IOpen m | IAppend m _ => m = n end.
  Lemma untouched n l : Forall (fun a => ~ touches n a) l -> forall fs, after l fs n = fs n.
  Proof.
    unfold after. induction 1 as [|a l Ha Hl IH]; intros fs; cbn; [reflexivity|]. rewrite IH.
    destruct a as [m|m b]; cbn in *.
    - apply upd_other. congruence.
    - destruct (fs m); [|reflexivity]. apply upd_other. congruence.
  Qed.
  Lemma touches_event n e a : In a (actions e) -> touches n a -> @file_of S e = Some n.
  Proof.
    destruct e as [nm it s|nm c|nm it s|s]; cbn; intros H T.
    - destruct H as [<-|[]]. cbn in T. congruence.
    - destruct H as [<-|H]; cbn in *; [congruence|]. apply in_map_iff in H as (b & <- & _). cbn in T. congruence.
    - destruct H as [<-|[]]. cbn in T. congruence.
    - contradiction.
  Qed.
  Lemma in_firstn {A} k (l : list A) x : In x (firstn k l) -> In x l.
  Proof. revert l. induction k as [|k IH]; intros [|y l] H; cbn in *; try contradiction. destruct H as [->|H]; auto. Qed.

  Theorem completed_snapshots_survive n y pre nm bs post st fs k : y_over y = false -> y_frame y + N.of_nat n + 2 < 2 ^ 32 ->
    exec n y = (pre ++ ESnap nm bs :: post, st) ->
    after (flat_map actions (pre ++ [ESnap nm bs]) ++ firstn k (flat_map actions post)) fs nm = Some bs.
  Proof.
    intros Ho Hf H. pose proof (exec_fresh _ _ _ _ Ho Hf H _ _ _ _ eq_refl) as Hfr.
    rewrite flat_map_app, !after_app, untouched.
    - cbn [flat_map actions]. rewrite app_nil_r. apply write_file.
    - apply Forall_forall. intros a Ha T. apply in_firstn in Ha. apply in_flat_map in Ha as (ev & Hin & Ha).
      rewrite Forall_forall in Hfr. apply (Hfr _ Hin). eapply touches_event; eauto.
  Qed.
End Crash.

(* ---- where snapshots come from ---- *)
Section Source.
  Context {S : Type}.
  Variable with_imap hdf5 : bool.
  Variable enc : sys S -> outcome bytes.
  Variable flow_free flow_impact : sys S -> outcome S.
  Variable flow_friction : sys S -> outcome (S * ifmap).
  Variable time_reached : N -> N -> N -> scalar -> bool.
  Variable good : sys S -> Prop.
  Notation dispatch := (dispatch with_imap flow_free flow_impact flow_friction).
  Hypothesis good_frame : forall y f, good y -> f < 2 ^ 32 -> good (set_frame y f).
  Hypothesis good_step : forall y s m it, good y -> dispatch (set_frame y 0) = Ok (s, m) -> it < 2 ^ 32 -> good (set_step y s m it).
  Notation export := (export hdf5 enc).
  Notation step := (step with_imap hdf5 enc flow_free flow_impact flow_friction).
  Notation loop := (loop with_imap hdf5 enc flow_free flow_impact flow_friction time_reached).
  Notation exec := (exec with_imap hdf5 enc flow_free flow_impact flow_friction time_reached).
  Definition src (o : bool) (e : event S) : Prop :=
    match e with ESnap nm bs => exists y, good y /\ enc y = Ok bs /\ nm = snap_name hdf5 y /\ y_over y = o | _ => True end.

  Lemma export_src y e r : good y -> export y = (e, r) -> Forall (src (y_over y)) e /\ (forall y', r = Ok y' -> good y' /\ y_over y' = y_over y).
  Proof.
    intros Hg. unfold Cli_Model.export. destruct (y_steps y =? 0); [intros H; injection H as <- <-; split; [constructor|discriminate]|].
    destruct (_ =? 0); [|intros H; injection H as <- <-; split; [constructor|]; intros y' E; injection E as <-; auto].
    assert (Hc : forall b : bool, Forall (src (y_over y))
        (if b then [EConfig (conf_name hdf5 "config" "h5" y) (y_iter y) (y_sim y)] else [])) by (intros [|]; repeat constructor).
    assert (Hn : forall y', Ok (set_frame y ((y_frame y + 1) mod 2 ^ 32)) = Ok y' -> good y' /\ y_over y' = y_over y).
    { intros y' E. injection E as <-. split; [|reflexivity]. apply good_frame; [assumption|]. apply u32_mod. }
    destruct (y_ser y); [destruct (enc y) as [b| |] eqn:Eb|]; intros H; injection H as <- <-.
    - split; [|exact Hn]. apply Forall_app. split; [apply Hc|]. constructor; [|constructor]. exists y. auto.
    - split; [apply Hc|discriminate].
    - split; [apply Hc|discriminate].
    - split; [apply Hc|exact Hn].
  Qed.
  Lemma step_src y e r : good y -> step y = (e, r) -> Forall (src (y_over y)) e /\ (forall y', r = Ok y' -> good y' /\ y_over y' = y_over y).
  Proof.
    intros Hg. unfold Cli_Model.step. destruct (hdf5 && y_forces y && (y_steps y =? 0))%bool; [intros H; injection H as <- <-; split; [constructor|discriminate]|].
    set (e0 := if (_ && _)%bool then _ else _).
    assert (H0 : Forall (src (y_over y)) e0) by (unfold e0; destruct (_ && _)%bool; repeat constructor).
    destruct (dispatch (set_frame y 0)) as [[s m]| |] eqn:Ed.
    - destruct (export _) as [e1 r1] eqn:Ex. intros H; injection H as <- <-.
      assert (Hg' : good (set_step y s m ((y_iter y + 1) mod 2 ^ 32))) by (eapply good_step; eauto using u32_mod).
      destruct (export_src _ _ _ Hg' Ex) as [A B]. split; [apply Forall_app; split; [exact H0|exact A]|exact B].
    - intros H; injection H as <- <-. split; [exact H0|discriminate].
    - intros H; injection H as <- <-. split; [exact H0|discriminate].
  Qed.
  Lemma loop_src n : forall y evs st, good y -> loop n y = (evs, st) -> Forall (src (y_over y)) evs.
  Proof.
    induction n as [|n IH]; intros y evs st Hg H; cbn [Cli_Model.loop] in H; [injection H as <- _; constructor|].
    destruct (step y) as [e r] eqn:Es. destruct (step_src _ _ _ Hg Es) as [A B].
    destruct (finished _ y).
    - destruct (hdf5 && y_forces y)%bool.
      + destruct r; injection H as <- _; [|exact A|exact A]. apply Forall_app. split; [exact A|repeat constructor].
      + injection H as <- _. repeat constructor.
    - destruct r as [y'| |]; [|injection H as <- _; exact A|injection H as <- _; exact A].
      destruct (loop n y') as [e' s'] eqn:El. injection H as <- _. destruct (B _ eq_refl) as [Hg' Ho].
      apply Forall_app. split; [exact A|]. rewrite <- Ho. eapply IH; eauto.
  Qed.
  Lemma exec_src n y evs st : good y -> exec n y = (evs, st) -> Forall (src (y_over y)) evs.
  Proof.
    intros Hg H. unfold Cli_Model.exec in H. destruct (export y) as [e r] eqn:Es. destruct (export_src _ _ _ Hg Es) as [A B].
    destruct r as [y'| |]; [|injection H as <- _; exact A|injection H as <- _; exact A].
    destruct (loop n y') as [e' s'] eqn:El. injection H as <- _. destruct (B _ eq_refl) as [Hg' Ho].
    apply Forall_app. split; [exact A|]. rewrite <- Ho. eapply loop_src; eauto.
  Qed.
End Source.

Section Tool2.
  Context {S : Type}.
  Variable with_imap hdf5 ql ip : bool.
  Variable ok_sim known_sim unw_sim : S -> Prop.
  Variable umaps : list umap.
  Variable enc : sys S -> outcome bytes.
  Variable p : parser (sys S).
  Hypothesis law : resume_law (ok_sys ok_sim with_imap hdf5) (known_sys ql ip umaps known_sim) (unwritable_sys unw_sim) enc p.
  Variable flow_free flow_impact : sys S -> outcome S.
  Variable flow_friction : sys S -> outcome (S * ifmap).
  Variable time_reached : N -> N -> N -> scalar -> bool.
  Hypothesis flows : flows_writable (writable ok_sim known_sim unw_sim) flow_free flow_impact flow_friction.
  Notation exec := (exec with_imap hdf5 enc flow_free flow_impact flow_friction time_reached).
  Notation good := (good_sys with_imap hdf5 ql ip ok_sim known_sim unw_sim umaps).

  (* while any snapshot is being written in overwrite mode, there is no readable snapshot *)
  Theorem overwrite_window n y0 pre nm bs post st fs k : good y0 -> y_over y0 = true ->
    exec n y0 = (pre ++ ESnap nm bs :: post, st) -> (k < length bs)%nat ->
    exists j, (length (flat_map actions pre) < j)%nat /\
      let disk := after (firstn j (flat_map actions (pre ++ ESnap nm bs :: post))) fs in
      disk nm = Some (firstn k bs) /\ p (firstn k bs) = UB /\
      forall nm' bs', In (ESnap nm' bs') (pre ++ ESnap nm bs :: post) -> nm' = nm.
  Proof.
    intros Hg Ho H Hk.
    assert (Hsrc := exec_src with_imap hdf5 enc flow_free flow_impact flow_friction time_reached good
      ltac:(intros; eapply good_sys_frame; eauto) ltac:(intros; eapply good_sys_step; eauto) n y0 _ _ Hg H).
    rewrite Ho in Hsrc. rewrite Forall_forall in Hsrc.
    assert (Hnm : forall nm' bs', In (ESnap nm' bs') (pre ++ ESnap nm bs :: post) -> nm' = to_bytes (lit "serial.bin")).
    { intros nm' bs' Hin. destruct (Hsrc _ Hin) as (y & _ & _ & -> & Hy). unfold snap_name. now rewrite Hy. }
    assert (Hin : In (ESnap nm bs) (pre ++ ESnap nm bs :: post)) by (apply in_or_app; right; left; reflexivity).
    destruct (Hsrc _ Hin) as (y & (G1 & G2 & G3) & Hy & _).
    destruct (proj1 law y G1 G2 G3) as (b & E' & _ & C). assert (b = bs) by congruence. subst b.
    exists (length (flat_map actions pre) + (1 + k))%nat. split; [lia|]. cbn zeta. split; [|split].
    - rewrite flat_map_app. 
      rewrite firstn_app_2. change (flat_map (@actions S) (ESnap nm bs :: post)) with (@actions S (ESnap nm bs) ++ flat_map actions post).
      assert (Hl : length (@actions S (ESnap nm bs)) = Datatypes.S (length bs)) by (cbn; now rewrite map_length).
      assert (H0 : (1 + k - length (@actions S (ESnap nm bs)) = 0)%nat) by lia.
      rewrite firstn_app, H0, firstn_O, app_nil_r, after_app. cbn [actions Nat.add]. rewrite firstn_cons, firstn_map. apply write_file.
    - apply (C (firstn k bs) (skipn k bs)); [symmetry; apply firstn_skipn|].
      intros E. apply (f_equal (@length _)) in E. rewrite skipn_length in E. cbn in E. lia.
    - intros nm' bs' Hi. rewrite (Hnm _ _ Hi), (Hnm _ _ Hin). reflexivity.
  Qed.
End Tool2.
