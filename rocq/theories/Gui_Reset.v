From Coq Require Import Reals ZArith NArith String List Bool Lia Lra.
From Verif Require Import Outcome Codec_Model Config_Model Str_Model Rational_Model Cli_Model Cli_Spec
  Gui_Model Gui_Spec Gui_Proofs Gui_Proofs2 Gui_Movie.
Import ListNotations.
Open Scope N_scope.

Section Reset.
  Context {St Ca W Co G : Type}.
  Variable K : kind.
  Variable E : env St Ca W Co G.
  Notation ses := (session St Ca W Co G).

  (* what only opening another scene changes *)
  Definition keep (g : ses) :=
    (reset_ifmap (g_ifmap g), g_sim0 g, match K with KBody3 => Some (g_colours g, g_gen g, g_renderers g) | _ => None end).
  Definition opens (u : @user St) : bool := match u with UOpen (Some _) _ => true | _ => false end.

  Lemma keep_paint g g' : paint K E g = Ok g' -> keep g' = keep g.
  Proof. unfold paint. destruct (drawable _ _ _ _ _); [|discriminate]. intros H. assert (A : g' = with_painted g (Some (fst (g_sim g), g_iter g))) by congruence. rewrite A. reflexivity. Qed.
  Lemma keep_export_off g : keep (snd (export_off g)) = keep g.
  Proof. unfold export_off. destruct (g_export g); reflexivity. Qed.
  Lemma keep_export_on g a : keep (snd (export_on g a)) = keep g.
  Proof. unfold export_on. destruct a; reflexivity. Qed.
  Lemma keep_set_spin g v g' : set_spin g v = Ok g' -> keep g' = keep g.
  Proof.
    unfold set_spin. destruct (_ =? _); intros H; [congruence|]. unfold set_fps in H.
    apply obind_Ok_inv in H. destruct H as (n & H1 & H2). injection H2 as <-. reflexivity.
  Qed.
  Lemma keep_refresh g g' : refresh K E g = Ok g' -> keep g' = keep g.
  Proof.
    unfold refresh, keep. destruct K.
    - destruct (adjust_colours _ _ _ _) as [cs ge]. intros H. assert (A : g' = with_show g (g_m0 g) (g_dev g) cs ge (g_renderers g)) by congruence.
      rewrite A. reflexivity.
    - destruct (if (List.length (g_colours g) =? e_bodies E (fst (g_sim g)))%nat then (g_colours g, g_gen g) else all_colours E (fst (g_sim g))) as [cs ge].
      intros H. apply obind_Ok_inv in H. destruct H as (rs & _ & H).
      assert (A : g' = with_show g (g_m0 g) (g_dev g) cs ge rs) by congruence. rewrite A. reflexivity.
    - intros H. congruence.
  Qed.
  Lemma keep_step g e g' : keeps_settings E -> gl_step K E g = (e, Ok g') -> keep g' = keep g.
  Proof.
    intros KS H. apply gl_step_inv in H. destruct H as [_ [(_ & -> & _)|(w & x & f & g3 & g4 & F & R & P & C)]]; [reflexivity|].
    apply keep_refresh in R. pose proof (flow_keeps _ _ _ _ _ _ KS F) as FK. cbv zeta in P, C.
    assert (A : keep g4 = keep g3) by (destruct (negb _ || _)%bool in P; [exact (keep_paint _ _ P)|congruence]).
    assert (B : keep (stepped E g w x f) = keep g).
    { unfold keep, stepped. cbn [with_run with_show g_ifmap g_sim0 g_colours g_gen g_renderers]. rewrite FK. reflexivity. }
    destruct C as [(_ & _ & ->)|(_ & _ & ->)].
    - transitivity (keep g4); [reflexivity|]. congruence.
    - congruence.
  Qed.

  (* what a reset leaves *)
  Lemma reset_fields g g' : gl_reset K E g = Ok g' ->
    exists w s, e_start E (g_world g) (fst (g_sim0 g)) = Ok (w, s) /\ g_world g' = w /\ g_sim g' = (s, snd (g_sim0 g)) /\ g_iter g' = 0 /\
    g_sim0 g' = g_sim0 g /\
    g_ifmap g' = reset_ifmap (g_ifmap g) /\ g_m0 g' = e_measure E (fst (g_sim0 g)) /\ g_dev g' = map (fun _ => 0%R) (e_measure E (fst (g_sim0 g))) /\
    (g_colours g', g_gen g', g_renderers g') =
      (match K with KBody3 => (g_colours g, g_gen g, g_renderers g) | _ => (all_colours E (fst (g_sim0 g)), all_renderers K E (fst (g_sim0 g))) end) /\
    g_painted g' = Some (s, 0).
  Proof.
    unfold gl_reset. cbv zeta. intros H.
    destruct (match K with KBody3 => (g_colours g, g_gen g, g_renderers g)
              | _ => (all_colours E (fst (g_sim0 g)), all_renderers K E (fst (g_sim0 g))) end) as [[cs ge] rs] eqn:A.
    apply obind_Ok_inv in H. destruct H as (g4 & H1 & H2).
    apply run_start_inv in H1. destruct H1 as (w & s & H1 & ->).
    unfold paint in H2. destruct (drawable _ _ _ _ _); [|discriminate].
    exists w, s. split; [destruct K; exact H1|].
    apply (f_equal (fun o => match o with Ok z => z | _ => g end)) in H2. rewrite <- H2.
    destruct K; cbn; repeat split; exact A.
  Qed.
  Lemma open_fields g sc r g' : gl_open K E g sc r = Ok g' ->
    exists w0 w s, e_start E w0 (sc_state sc) = Ok (w, s) /\
    let c := match K with KBody2 => snd (g_sim g) | _ => e_nocache E end in
    g_world g' = w /\ g_sim g' = (s, c) /\ g_iter g' = 0 /\ g_sim0 g' = (sc_state sc, c) /\
    g_ifmap g' = sc_ifmap sc /\ g_m0 g' = e_measure E (sc_state sc) /\ g_dev g' = map (fun _ => 0%R) (e_measure E (sc_state sc)) /\
    (g_colours g', g_gen g', g_renderers g') = (all_colours E (sc_state sc), all_renderers K E (sc_state sc)) /\
    (r = true -> g_painted g' = Some (s, 0)).
  Proof.
    unfold gl_open. intros H. apply obind_Ok_inv in H. destruct H as (w0 & H1 & H). cbv zeta in H.
    apply obind_Ok_inv in H. destruct H as (spf & _ & H).
    destruct (all_colours E (sc_state sc)) as [cs ge] eqn:A.
    apply obind_Ok_inv in H. destruct H as (g2 & H2 & H).
    apply run_start_inv in H2. destruct H2 as (w & s & H2 & ->). cbn [g_world g_sim fst] in H2.
    exists w0, w, s. split; [exact H2|].
    destruct r.
    - unfold paint in H. destruct (drawable _ _ _ _ _); [|discriminate].
      apply (f_equal (fun o => match o with Ok z => z | _ => g end)) in H. rewrite <- H. cbn. repeat split.
    - apply (f_equal (fun o => match o with Ok z => z | _ => g end)) in H. rewrite <- H. cbn. repeat split. discriminate.
  Qed.

  Definition shown (g : ses) := (g_world g, g_sim g, g_iter g, g_sim0 g, g_ifmap g, (g_m0 g, g_dev g, (g_colours g, g_gen g, g_renderers g), g_painted g)).
  Lemma shown_export_off g : shown (snd (export_off g)) = shown g.
  Proof. unfold export_off. destruct (g_export g); reflexivity. Qed.
  Lemma shown_set_spin g v g' : set_spin g v = Ok g' -> shown g' = shown g.
  Proof.
    unfold set_spin. destruct (_ =? _); intros H; [congruence|]. unfold set_fps in H.
    apply obind_Ok_inv in H. destruct H as (n & H1 & H2). injection H2 as <-. reflexivity.
  Qed.
  Lemma act_open_shown g sc r e g' : act K E g (UOpen (Some sc) r) = (e, Ok g') ->
    exists g1, gl_open K E g sc r = Ok g1 /\ shown g' = shown g1 /\ keep g' = keep g1.
  Proof.
    cbn [act]. destruct (gl_open K E g sc r) as [g1| |]; [|discriminate|discriminate].
    destruct (set_spin _ _) as [g2| |] eqn:S; [|discriminate|discriminate].
    pose proof (shown_export_off g2) as C. pose proof (keep_export_off g2) as D. destruct (export_off g2) as [e3 g3]. intros H.
    exists g1. split; [reflexivity|]. assert (A : g' = g3) by congruence. subst g3. cbn [snd] in *.
    split; [rewrite C, (shown_set_spin _ _ _ S); reflexivity|rewrite D, (keep_set_spin _ _ _ S); reflexivity].
  Qed.
  Lemma act_reset_shown g e g' : act K E g UReset = (e, Ok g') -> exists g1, gl_reset K E g = Ok g1 /\ shown g' = shown g1 /\ keep g' = keep g1.
  Proof.
    cbn [act]. destruct (gl_reset K E g) as [g1| |]; [|discriminate|discriminate].
    pose proof (shown_export_off g1) as C. pose proof (keep_export_off g1) as D. destruct (export_off g1) as [e3 g3]. intros H.
    exists g1. split; [reflexivity|]. cbn [snd] in *.
    unfold keep in *.
    destruct K; (assert (A : g' = g3) by congruence; subst g3; auto) || (assert (A : g' = g1) by congruence; subst g1; auto).
  Qed.

  Lemma keep_act g u e g' : keeps_settings E -> opens u = false -> act K E g u = (e, Ok g') -> keep g' = keep g.
  Proof.
    intros KS O H. destruct u as [[sc|] b| | | | |a|a|v|b|b| | |n]; try discriminate; cbn [act] in H.
    - congruence.
    - destruct (g_running g); [exact (keep_step _ _ _ KS H)|congruence].
    - exact (keep_step _ _ _ KS H).
    - apply act_reset_shown in H. destruct H as (g1 & R & _ & Kp). rewrite Kp. apply reset_fields in R.
      destruct R as (w & s & _ & _ & _ & _ & S0 & If & _ & _ & Cs & _). unfold keep. rewrite S0, If, reset_reset.
      destruct K; auto. rewrite Cs. reflexivity.
    - injection H as <- <-. reflexivity.
    - pose proof (keep_export_off g) as C. pose proof (keep_export_on g a) as D.
      destruct (g_export g); [destruct (export_off g) as [e1 g1]|destruct (export_on g a) as [e1 g1]]; cbn [snd] in *; congruence.
    - pose proof (keep_export_off g) as C. destruct (export_off g) as [e1 g1]. pose proof (keep_export_on g1 a) as D.
      destruct (export_on g1 a) as [e2 g2]. cbn [snd] in *. congruence.
    - unfold no_seen in H. assert (A : set_spin g v = Ok g') by congruence. exact (keep_set_spin _ _ _ A).
    - injection H as <- <-. reflexivity.
    - injection H as <- <-. reflexivity.
    - unfold no_seen in H.
      assert (A : paint K E (with_boxes g (g_at_fps g) (g_lock g) (g_running g) (g_export g) (g_spin g) (negb (g_hud g))) = Ok g') by congruence.
      apply keep_paint in A. rewrite A. reflexivity.
    - unfold no_seen in H. assert (A : paint K E g = Ok g') by congruence. exact (keep_paint _ _ A).
    - congruence.
  Qed.
  Lemma keep_play us : keeps_settings E -> forall g e g', (forall u, In u us -> opens u = false) -> play K E g us = (e, Ok g') -> keep g' = keep g.
  Proof.
    intros KS. induction us as [|u us IH]; intros g e g' O H.
    - cbn in H. congruence.
    - apply play_cons in H. destruct H as (e1 & g1 & e2 & H1 & H2 & _). rewrite (IH g1 e2 g'); auto.
      + apply (keep_act g u e1); auto. apply O. left. reflexivity.
      + intros v Hv. apply O. right. exact Hv.
  Qed.

  Lemma reset_like_open g sc e go us e' g1 e'' g2 : fresh_start E -> keeps_settings E -> no_cache (sc_ifmap sc) ->
    act K E g (UOpen (Some sc) true) = (e, Ok go) -> (forall u, In u us -> opens u = false) -> play K E go us = (e', Ok g1) ->
    act K E g1 UReset = (e'', Ok g2) -> shown g2 = shown go.
  Proof.
    intros FS KS NC HO NO HP HR.
    apply act_open_shown in HO. destruct HO as (gg & HO & SO & KO). rewrite SO.
    apply act_reset_shown in HR. destruct HR as (gr & HR & SR & _). rewrite SR.
    pose proof (keep_play us KS go e' g1 NO HP) as KP.
    apply open_fields in HO. cbv zeta in HO. destruct HO as (w0 & w & s & O0 & O1 & O2 & O3 & O4 & O5 & O6 & O7 & O8 & O9).
    apply reset_fields in HR. destruct HR as (w' & s' & R0 & R1 & R2 & R3 & R4 & R5 & R6 & R7 & R8 & R9).
    rewrite KO in KP. unfold keep in KP. rewrite O4, O5 in KP.
    apply pair_equal_spec in KP. destruct KP as [KP KC]. apply pair_equal_spec in KP. destruct KP as [KI KS0].
    rewrite KS0 in *. cbn [fst snd] in *.
    rewrite (FS _ w0) in R0. assert (Z1 : w' = w) by congruence. assert (Z2 : s' = s) by congruence.
    unfold shown. rewrite R1, R2, R3, R4, R5, R6, R7, R8, R9, O1, O2, O3, O4, O5, O6, O7, O8, (O9 eq_refl), Z1, Z2, KI, NC.
    destruct K; try reflexivity. assert (Z : (g_colours g1, g_gen g1, g_renderers g1) = (g_colours gg, g_gen gg, g_renderers gg)) by congruence.
    rewrite Z, O8. reflexivity.
  Qed.
End Reset.
