From Coq Require Import Reals ZArith NArith String List Bool Lia Lra.
From Verif Require Import Outcome Codec_Model Config_Model Str_Model Rational_Model Cli_Model Cli_Spec Gui_Model Gui_Spec Gui_Proofs.
Import ListNotations.
Open Scope N_scope.

Section Proofs.
  Context {St Ca W Co G : Type}.
  Variable K : kind.
  Variable E : env St Ca W Co G.
  Notation ses := (session St Ca W Co G).
  Variable w0 : W.

  Lemma inv_run h (g : ses) b : inv K E w0 h g ->
    inv K E w0 (mkHist b (h_scene h) (h_steps h) (h_opens h)) (with_boxes g (g_at_fps g) (g_lock g) b (g_export g) (g_spin g) (g_hud g)).
  Proof.
    intros [I1 I2]. split; [reflexivity|]. cbn [h_scene h_opens h_steps]. exact I2.
  Qed.

  Definition opened_valid (u : @user St) : Prop := match u with UOpen (Some sc) _ => valid_scene K sc | _ => True end.

  Lemma inv_act h (g : ses) u e g' : fresh_load E -> fresh_start E -> keeps_settings E -> same_measures E ->
    opened_valid u -> (K <> KBody2 \/ (h_opens (hstep h u) <= 1)%nat) -> inv K E w0 h g -> act K E g u = (e, Ok g') ->
    inv K E w0 (hstep h u) g'.
  Proof.
    intros FL FS KS SM V NB I H. destruct u as [[sc|] r| | | | |a|a|v|b|b| | |n]; cbn [act hstep] in *.
    - destruct (gl_open K E g sc r) as [g1| |] eqn:O; [|discriminate|discriminate].
      destruct (set_spin _ _) as [g2| |] eqn:S; [|discriminate|discriminate].
      destruct (export_off g2) as [e3 g3] eqn:X.
      assert (A : g' = g3) by congruence. subst g3.
      pose proof (core_export_off g2) as C2. rewrite X in C2. cbn [snd] in C2.
      pose proof (core_set_spin _ _ _ S) as C1.
      apply (inv_core K E w0 _ (with_boxes g1 (g_at_fps g1) (g_lock g1) false (g_export g1) (g_spin g1) (g_hud g1))).
      { rewrite C2, C1. reflexivity. }
      assert (NC : K <> KBody2 \/ snd (g_sim g) = e_nocache E).
      { destruct NB as [NB|NB]; [left; exact NB|right]. cbn in NB. destruct I as [_ I].
        destruct (h_scene h); [destruct I; lia|]. apply I. }
      exact (inv_run _ _ false (inv_open K E w0 h g sc r g1 FL V NC O)).
    - assert (A : g' = g) by congruence. subst g'. exact I.
    - pose proof I as [I1 _]. rewrite <- I1. destruct (g_running g) eqn:R.
      + pose proof (inv_step K E w0 h g e g' KS SM I H) as J. rewrite <- I1 in J. exact J.
      + assert (A : g' = g) by congruence. subst g'. exact I.
    - exact (inv_step K E w0 h g e g' KS SM I H).
    - destruct (gl_reset K E g) as [g1| |] eqn:R; [|discriminate|discriminate].
      pose proof (inv_reset K E w0 h g g1 FL FS I R) as J.
      destruct (export_off g1) as [e2 g2] eqn:X. pose proof (core_export_off g1) as C. rewrite X in C. cbn [snd] in C.
      destruct K; (assert (A : g' = g2) by congruence; subst g'; exact (inv_core _ E w0 _ _ _ C J)) ||
                  (assert (A : g' = g1) by congruence; subst g'; exact J).
    - assert (A : g' = with_boxes g (g_at_fps g) (g_lock g) (negb (g_running g)) (g_export g) (g_spin g) (g_hud g)) by congruence. subst g'.
      pose proof I as [I1 _]. rewrite <- I1. exact (inv_run h g _ I).
    - destruct (if g_export g then export_off g else export_on g a) as [e1 g1] eqn:X.
      assert (A : g' = g1) by congruence. subst g'. apply (inv_core K E w0 _ g); [|exact I].
      destruct (g_export g).
      + pose proof (core_export_off g) as C. rewrite X in C. exact C.
      + pose proof (core_export_on g a) as C. rewrite X in C. exact C.
    - destruct (export_off g) as [e1 g1] eqn:X1. destruct (export_on g1 a) as [e2 g2] eqn:X2.
      assert (A : g' = g2) by congruence. subst g'. apply (inv_core K E w0 _ g); [|exact I].
      pose proof (core_export_off g) as C. rewrite X1 in C. pose proof (core_export_on g1 a) as C2. rewrite X2 in C2. cbn [snd] in *. congruence.
    - unfold no_seen in H. assert (A : set_spin g v = Ok g') by congruence. apply (inv_core K E w0 _ g); [|exact I]. exact (core_set_spin _ _ _ A).
    - assert (A : g' = with_boxes g b (g_lock g) (g_running g) (g_export g) (g_spin g) (g_hud g)) by congruence. subst g'.
      apply (inv_core K E w0 _ g); [reflexivity|exact I].
    - assert (A : g' = with_boxes g (g_at_fps g) b (g_running g) (g_export g) (g_spin g) (g_hud g)) by congruence. subst g'.
      apply (inv_core K E w0 _ g); [reflexivity|exact I].
    - unfold no_seen in H.
      assert (A : paint K E (with_boxes g (g_at_fps g) (g_lock g) (g_running g) (g_export g) (g_spin g) (negb (g_hud g))) = Ok g') by congruence.
      apply core_paint in A. apply (inv_core K E w0 _ g); [rewrite A; reflexivity|exact I].
    - unfold no_seen in H. assert (A : paint K E g = Ok g') by congruence. apply core_paint in A. apply (inv_core K E w0 _ g); [exact A|exact I].
    - assert (A : g' = g) by congruence. subst g'. exact I.
  Qed.

  Lemma play_cons (g : ses) u us e g' : play K E g (u :: us) = (e, Ok g') ->
    exists e1 g1 e2, act K E g u = (e1, Ok g1) /\ play K E g1 us = (e2, Ok g') /\ e = e1 ++ e2.
  Proof.
    cbn [play]. destruct (act K E g u) as [e1 [g1| |]]; [|discriminate|discriminate].
    destruct (play K E g1 us) as [e2 r] eqn:P. intros H. exists e1, g1, e2.
    assert (A : r = Ok g') by congruence. assert (B : e = e1 ++ e2) by congruence. subst r e. split; [reflexivity|]. split; [exact P|reflexivity].
  Qed.

  Lemma inv_play us : fresh_load E -> fresh_start E -> keeps_settings E -> same_measures E ->
    forall h (g : ses) e g', (forall u, In u us -> opened_valid u) -> (K <> KBody2 \/ (h_opens (fold_left hstep us h) <= 1)%nat) ->
    inv K E w0 h g -> play K E g us = (e, Ok g') -> inv K E w0 (fold_left hstep us h) g'.
  Proof.
    intros FL FS KS SM. induction us as [|u us IH]; intros h g e g' V NB I H.
    - cbn in H |- *. assert (A : g' = g) by congruence. subst g'. exact I.
    - apply play_cons in H. destruct H as (e1 & g1 & e2 & H1 & H2 & ->). cbn [fold_left] in *.
      apply (IH _ g1 e2); auto.
      + intros v Hv. apply V. right. exact Hv.
      + apply (inv_act h g u e1 g1); auto; [apply V; left; reflexivity|].
        destruct NB as [NB|NB]; [left; exact NB|right]. pose proof (opens_mono us (hstep h u)). lia.
  Qed.

  Lemma inv_fresh s0 (g : ses) : fresh K E w0 s0 = Ok g -> inv K E w0 (mkHist false None 0 0) g.
  Proof.
    unfold fresh. cbv zeta. intros H. apply obind_Ok_inv in H. destruct H as (spf & _ & H).
    assert (A : exists c, g = c) by eauto. injection H as <-. split; [reflexivity|]. cbn. repeat split.
  Qed.

  Lemma inv_session us s0 g0 e g' : fresh_load E -> fresh_start E -> keeps_settings E -> same_measures E ->
    (forall sc r, In (UOpen (Some sc) r) us -> valid_scene K sc) -> (K <> KBody2 \/ (h_opens (history us) <= 1)%nat) ->
    fresh K E w0 s0 = Ok g0 -> play K E g0 us = (e, Ok g') -> inv K E w0 (history us) g'.
  Proof.
    intros FL FS KS SM V NB F P. apply (inv_play us FL FS KS SM _ g0 e); auto.
    - intros [[sc|] r| | | | | | | | | | | |] Hu; cbn; auto. exact (V _ _ Hu).
    - apply (inv_fresh s0). exact F.
  Qed.

  Lemma fresh_ok s0 : exists g, fresh K E w0 s0 = Ok g.
  Proof. unfold fresh. destruct K; vm_compute; eauto. Qed.

  (* ---- the end of a simulation ---- *)
  Lemma gl_step_end (g : ses) e r s : gl_step K E g = (e, r) -> In (SEnd s) e ->
    e_reached E (g_iter g) (g_dt g) (g_end g) = true /\ r = Exit /\ exists w, e_end E (g_world g) (fst (g_sim g)) = Ok (w, s).
  Proof.
    unfold gl_step. destruct (e_reached E _ _ _).
    - destruct (e_end E _ _) as [[w s1]| |]; intros H; injection H as <- <-; cbn; [|intros []|intros []].
      intros [Q|[]]. injection Q as <-. split; [reflexivity|]. split; [reflexivity|]. eauto.
    - intros H Hin. exfalso. revert H Hin.
      destruct (gl_flow K E g) as [[[[w x] f]|]| |]; try (intros H; injection H as <- <-; intros []).
      cbv zeta. fold (stepped E g w x f). destruct (refresh K E (stepped E g w x f)) as [g3| |]; try (intros H; injection H as <- <-; intros []).
      destruct (_ || negb (g_spf g3 =? 0))%bool; try (intros H; injection H as <- <-; intros []).
      destruct (if (negb (g_at_fps g3) || (g_iter g3 mod g_spf g3 =? 0))%bool then paint K E g3 else Ok g3) as [g4| |];
        try (intros H; injection H as <- <-; intros []).
      destruct ((match g_dir g3 with [] => false | _ => true end) && (g_iter g3 mod g_spf g3 =? 0))%bool; intros H; injection H as <- <-; cbn.
      + intros [Q|[]]. discriminate.
      + intros [].
  Qed.
  Lemma gl_step_reached (g : ses) : e_reached E (g_iter g) (g_dt g) (g_end g) = true ->
    forall w s, e_end E (g_world g) (fst (g_sim g)) = Ok (w, s) -> gl_step K E g = ([SEnd s], Exit).
  Proof. intros R w s X. unfold gl_step. rewrite R, X. reflexivity. Qed.
End Proofs.
