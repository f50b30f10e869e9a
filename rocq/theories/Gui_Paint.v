From Coq Require Import Reals ZArith NArith String List Bool Lia Lra.
From Verif Require Import Outcome Codec_Model Config_Model Str_Model Rational_Model Cli_Model Cli_Spec Gui_Model Gui_Spec Gui_Proofs Gui_Proofs2.
Import ListNotations.
Open Scope N_scope.

Section Paint.
  Context {St Ca W Co G : Type}.
  Variable K : kind.
  Variable E : env St Ca W Co G.
  Notation ses := (session St Ca W Co G).

  Definition rate_ok (dt : rational) : Prop := forall fps, 1 <= fps <= 1000 -> exists n, steps_per_frame dt fps = Ok n /\ n <> 0.
  Definition look (g : ses) := (g_colours g, g_renderers g, g_sim g, g_sim0 g, (g_fps g, g_spf g, g_dt g)).
  Definition looks (g : ses) : Prop :=
    let s := fst (g_sim g) in let s0 := fst (g_sim0 g) in
    List.length (g_colours g) = e_bodies E s /\
    match K with
    | KBall => True
    | KBody2 => g_renderers g = e_geometry E s
    | KBody3 => List.length (g_renderers g) = List.length (e_geometry E s) /\ e_bodies E s0 = e_bodies E s /\
                List.length (e_geometry E s0) = List.length (e_geometry E s)
    end.
  Definition pinv (g : ses) : Prop := 1 <= g_fps g <= 1000 /\ g_spf g <> 0 /\ rate_ok (g_dt g) /\ looks g.

  Lemma pinv_look g g' : look g' = look g -> pinv g -> pinv g'.
  Proof.
    unfold look. intros H. repeat (apply pair_equal_spec in H; let a := fresh "Q" in destruct H as [H a]).
    repeat match goal with Q : (_, _) = (_, _) |- _ => apply pair_equal_spec in Q; let a := fresh "Q" in destruct Q as [Q a] end.
    unfold pinv, looks. repeat match goal with Q : _ _ = _ _ |- _ => rewrite Q; clear Q end. auto.
  Qed.

  Lemma draw_length n : forall ge, List.length (fst (draw_colours E n ge)) = n.
  Proof.
    induction n as [|n IH]; intros ge; [reflexivity|]. cbn [draw_colours]. destruct (e_colour E ge) as [c ge1].
    specialize (IH ge1). destruct (draw_colours E n ge1) as [cs ge2]. cbn in *. lia.
  Qed.
  Lemma all_colours_length s : List.length (fst (all_colours E s)) = e_bodies E s.
  Proof. apply draw_length. Qed.
  Lemma adjust_length cs ge n : List.length (fst (adjust_colours E cs ge n)) = n.
  Proof.
    unfold adjust_colours. destruct (List.length cs =? n)%nat eqn:A; [apply Nat.eqb_eq in A; exact A|].
    destruct (n <? List.length cs)%nat eqn:B.
    - apply Nat.ltb_lt in B. cbn. rewrite firstn_length. lia.
    - apply Nat.ltb_ge in B. pose proof (draw_length (n - List.length cs) ge) as D.
      destruct (draw_colours E _ ge) as [m ge']. cbn in *. rewrite app_length. lia.
  Qed.

  Lemma looks_drawable g : shapes_exist E -> looks g -> drawable K E (fst (g_sim g)) (g_colours g) (g_renderers g) = true.
  Proof.
    intros SE [L R]. unfold drawable. rewrite L, Nat.leb_refl. cbn [andb]. destruct K; [reflexivity| |].
    - rewrite R. apply forallb_forall. intros i Hi. pose proof (SE _ _ Hi) as Li.
      destruct (nth_error (e_geometry E (fst (g_sim g))) i) as [r|] eqn:N; [|apply nth_error_None in N; lia].
      apply nth_error_In in N. destruct (is_circle r) eqn:C; [|reflexivity]. cbn. apply existsb_exists. exists r.
      rewrite C, N.eqb_refl. auto.
    - apply forallb_forall. intros i Hi. apply Nat.ltb_lt. pose proof (SE _ _ Hi). destruct R. lia.
  Qed.
  Lemma paint_ok g : shapes_exist E -> pinv g -> exists g', paint K E g = Ok g' /\ pinv g'.
  Proof.
    intros SE P. unfold paint. rewrite looks_drawable by (auto; apply P). eexists. split; [reflexivity|].
    exact (pinv_look _ _ eq_refl P).
  Qed.

  Lemma set_spin_ok g v : pinv g -> exists g', set_spin g v = Ok g' /\ pinv g'.
  Proof.
    intros P. unfold set_spin. destruct (_ =? _); [eauto|]. unfold set_fps.
    destruct P as (P1 & P2 & P3 & P4).
    assert (B : 1 <= clamp_spin v <= 1000) by (unfold clamp_spin; lia).
    destruct (P3 _ B) as (n & Hn & Nn). cbn [g_dt with_boxes]. rewrite Hn. cbn [obind]. eexists. split; [reflexivity|].
    split; [exact B|]. split; [exact Nn|]. split; [exact P3|]. exact P4.
  Qed.
  Lemma export_off_ok g : pinv g -> pinv (snd (export_off g)).
  Proof. intros P. unfold export_off. destruct (g_export g); exact P. Qed.
  Lemma export_on_ok g a : pinv g -> pinv (snd (export_on g a)).
  Proof. intros P. unfold export_on. destruct a; exact P. Qed.

  (* ---- steps ---- *)
  Lemma flow_defined g : simulator_defined E -> gl_flow K E g <> UB.
  Proof.
    intros (_ & _ & _ & D1 & D2 & D3). unfold gl_flow. cbv zeta.
    repeat match goal with |- context [if ?b then _ else _] => lazymatch type of b with bool => destruct b end end; try discriminate;
      match goal with |- omap _ ?r <> _ => destruct r eqn:F end; cbn; try discriminate; exfalso; solve [eapply D1; exact F | eapply D2; exact F | eapply D3; exact F].
  Qed.
  Lemma flow_steps g w x f : gl_flow K E g = Ok (Some (w, x, f)) -> steps_to E (fst (g_sim g)) (fst x).
  Proof.
    unfold gl_flow. cbv zeta. destruct (g_sim g) as [s c] eqn:S. destruct x as [s' c']. intros H.
    exists (g_world g), c, w, c'. cbn [fst]. revert H.
    destruct (is_null_umap (g_umap g) && _ && _ && _ && _)%bool; [discriminate|].
    destruct (negb (is_null_umap (g_umap g)) && is_null_op (g_impop g) && _ && is_null_fs (g_fsolver g) && _)%bool.
    { destruct (e_free E _ _ _ _ _) as [r| |] eqn:F; cbn; intros H; [|discriminate|discriminate]. assert (R : r = (w, (s', c'))) by congruence. rewrite R in F. left. do 3 eexists. exact F. }
    destruct (negb (is_null_umap (g_umap g)) && negb (is_null_op (g_impop g)) && _ && _ && _)%bool.
    { destruct (e_impact E _ _ _ _ _ _ _ _) as [r| |] eqn:F; cbn; intros H; [|discriminate|discriminate]. assert (R : r = (w, (s', c'))) by congruence. rewrite R in F. right. left. do 6 eexists. exact F. }
    destruct (_ && _)%bool; [|discriminate].
    destruct (e_friction E _ _ _ _ _ _ _ _ _) as [r| |] eqn:F; cbn; intros H; [|discriminate|discriminate]. assert (R : r = (w, (s', c'), f)) by congruence. rewrite R in F. right. right. do 8 eexists. exact F.
  Qed.

  Lemma refresh_ok g w x f : scripts_keep K E -> pinv g -> gl_flow K E g = Ok (Some (w, x, f)) ->
    refresh K E (stepped E g w x f) = Exit \/ exists g', refresh K E (stepped E g w x f) = Ok g' /\ pinv g'.
  Proof.
    intros (SE & SS & SK) (P1 & P2 & P3 & P4 & P5) F. apply flow_steps in F. unfold refresh.
    destruct K eqn:KK.
    - right. destruct (adjust_colours E _ _ _) as [cs ge] eqn:A. eexists. split; [reflexivity|].
      split; [exact P1|]. split; [exact P2|]. split; [exact P3|].
      pose proof (adjust_length (g_colours (stepped E g w x f)) (g_gen (stepped E g w x f)) (e_bodies E (fst (g_sim (stepped E g w x f))))) as L.
      rewrite A in L. unfold looks. rewrite KK. split; [exact L|exact I].
    - destruct (if (List.length (g_colours (stepped E g w x f)) =? e_bodies E (fst (g_sim (stepped E g w x f))))%nat
                then (g_colours (stepped E g w x f), g_gen (stepped E g w x f)) else all_colours E (fst (g_sim (stepped E g w x f)))) as [cs ge] eqn:A.
      assert (L : List.length cs = e_bodies E (fst x)).
      { destruct (_ =? _)%nat eqn:B in A.
        - apply Nat.eqb_eq in B. assert (Z : cs = g_colours g) by (cbn in A; congruence). rewrite Z. exact B.
        - pose proof (all_colours_length (fst (g_sim (stepped E g w x f)))) as D. rewrite A in D. exact D. }
      unfold stepped in *. cbn [with_run with_show g_sim g_renderers g_m0 g_dev fst] in *.
      destruct (List.length (g_renderers g) =? List.length (e_geometry E (fst x)))%nat eqn:B.
      + right. eexists. split; [reflexivity|]. split; [exact P1|]. split; [exact P2|]. split; [exact P3|]. unfold looks. rewrite KK.
        split; [exact L|]. cbn. apply Nat.eqb_eq in B. rewrite P5 in B. destruct (SK _ _ F) as [Z|Z]; [congruence|]. congruence.
      + unfold update_renderers. destruct (forallb is_circle _); [|left; reflexivity].
        right. eexists. split; [reflexivity|]. split; [exact P1|]. split; [exact P2|]. split; [exact P3|]. unfold looks. rewrite KK.
        split; [exact L|]. reflexivity.
    - right. eexists. split; [reflexivity|]. split; [exact P1|]. split; [exact P2|]. split; [exact P3|]. unfold looks. rewrite KK.
      destruct (SK _ _ F) as [Z1 Z2]. unfold stepped. cbn. rewrite Z1, Z2. split; [exact P4|]. exact P5.
  Qed.

  Lemma step_ok g e r : simulator_defined E -> scripts_keep K E -> pinv g -> gl_step K E g = (e, r) ->
    r = Exit \/ exists g', r = Ok g' /\ pinv g'.
  Proof.
    intros SD SK P. unfold gl_step. destruct (e_reached E _ _ _).
    { destruct (e_end E _ _) as [[w s]| |] eqn:X; intros H; [left; congruence|left; congruence|].
      exfalso. revert X. apply SD. }
    pose proof (flow_defined g SD) as FD.
    destruct (gl_flow K E g) as [[[[w x] f]|]| |] eqn:F; [| |left; congruence|congruence].
    2:{ intros H. right. exists g. split; [congruence|exact P]. }
    cbv zeta. fold (stepped E g w x f).
    destruct (refresh_ok g w x f SK P F) as [R|(g3 & R & P3)]; rewrite R; [left; congruence|].
    assert (Z : (g_spf g3 =? 0) = false) by (apply N.eqb_neq; apply P3). rewrite Z. cbn [negb]. rewrite orb_true_r.
    assert (A : exists g4, (if (negb (g_at_fps g3) || (g_iter g3 mod g_spf g3 =? 0))%bool then paint K E g3 else Ok g3) = Ok g4 /\ pinv g4).
    { destruct (_ || _)%bool; [apply paint_ok; auto; apply SK|eauto]. }
    destruct A as (g4 & A & P4). rewrite A.
    destruct ((match g_dir g3 with [] => false | _ => true end) && (g_iter g3 mod g_spf g3 =? 0))%bool; intros H; right.
    - eexists. split; [injection H as <- <-; reflexivity|]. exact P4.
    - exists g4. split; [congruence|exact P4].
  Qed.

  (* ---- opening and resetting ---- *)
  Lemma run_start_ok g : simulator_defined E -> scripts_keep K E -> pinv g ->
    (K = KBody3 \/ True) -> run_start E g = Exit \/ exists g', run_start E g = Ok g' /\ pinv g'.
  Proof.
    intros SD SK (P1 & P2 & P3 & P4 & P5) _. unfold run_start.
    destruct (e_start E (g_world g) (fst (g_sim g))) as [[w s]| |] eqn:S; [|left; reflexivity|exfalso; revert S; apply SD].
    right. eexists. split; [reflexivity|]. split; [exact P1|]. split; [exact P2|]. split; [exact P3|].
    destruct SK as (_ & SS & _). destruct (SS (fst (g_sim g)) s) as [Z1 Z2]; [exists (g_world g), w; exact S|].
    unfold looks. cbn [with_run g_colours g_sim fst g_renderers g_sim0]. rewrite Z1, Z2. split; [exact P4|exact P5].
  Qed.

  Lemma open_ok g sc r : simulator_defined E -> scripts_keep K E -> frames_exist sc -> pinv g ->
    gl_open K E g sc r = Exit \/ exists g', gl_open K E g sc r = Ok g' /\ pinv g'.
  Proof.
    intros SD SK [FE1 FE2] P. unfold gl_open.
    destruct (e_load E _ _ _) as [w| |] eqn:L; [|left; reflexivity|exfalso; revert L; apply SD]. cbn [obind]. cbv zeta.
    set (use := match K with KBall => v_set (sc_view sc) | _ => true end).
    assert (B : 1 <= (if use then v_fps (sc_view sc) else g_fps g) <= 1000) by (destruct use; [exact FE1|apply P]).
    destruct (FE2 _ B) as (n & Hn & Nn). rewrite Hn. cbn [obind].
    destruct (all_colours E (sc_state sc)) as [cs ge] eqn:A.
    match goal with |- obind (run_start E ?g1) _ = _ \/ _ => set (g1' := g1) end.
    assert (P' : pinv g1').
    { split; [exact B|]. split; [exact Nn|]. split; [exact FE2|]. unfold looks. subst g1'. cbn.
      pose proof (all_colours_length (sc_state sc)) as LL. rewrite A in LL. cbn in LL.
      unfold all_renderers. destruct K; auto. }
    destruct (run_start_ok g1' SD SK P') as [R|(g2 & R & P2)]; [right; exact I|rewrite R; left; reflexivity|].
    rewrite R. cbn [obind]. destruct r; [|right; eauto].
    right. apply paint_ok; auto. apply SK.
  Qed.

  Lemma reset_ok g : simulator_defined E -> scripts_keep K E -> pinv g ->
    gl_reset K E g = Exit \/ exists g', gl_reset K E g = Ok g' /\ pinv g'.
  Proof.
    intros SD SK P. unfold gl_reset. cbv zeta.
    destruct (match K with KBody3 => (g_colours g, g_gen g, g_renderers g)
              | _ => (all_colours E (fst (g_sim0 g)), all_renderers K E (fst (g_sim0 g))) end) as [[cs ge] rs] eqn:A.
    match goal with |- obind (run_start E ?g1) _ = _ \/ _ => set (g1' := g1) end.
    assert (P' : pinv g1').
    { assert (Q : pinv (with_show (with_run g (g_world g) (g_sim0 g) (reset_ifmap (g_ifmap g)) 0) (e_measure E (fst (g_sim0 g)))
                     (map (fun _ => 0%R) (e_measure E (fst (g_sim0 g)))) cs ge rs)).
      { destruct P as (P1 & P2 & P3 & P4). split; [exact P1|]. split; [exact P2|]. split; [exact P3|].
        unfold looks in *. cbn [with_show with_run g_colours g_sim g_sim0 g_renderers].
        pose proof (all_colours_length (fst (g_sim0 g))) as LL.
        destruct (all_colours E (fst (g_sim0 g))) as [cs0 ge0]. cbn [fst] in LL. unfold all_renderers in A. destruct K.
        - split; [|exact I]. congruence.
        - split; congruence.
        - destruct P4 as (L1 & L2 & L3 & L4). assert (Z1 : cs = g_colours g) by congruence. assert (Z2 : rs = g_renderers g) by congruence.
          rewrite Z1, Z2. repeat split; congruence. }
      subst g1'. destruct K; exact Q. }
    destruct (run_start_ok g1' SD SK P') as [R|(g2 & R & P2)]; [right; exact I|rewrite R; left; reflexivity|].
    rewrite R. cbn [obind]. right. apply paint_ok; auto. apply SK.
  Qed.

  Lemma act_ok g u e r : simulator_defined E -> scripts_keep K E -> (forall sc b, u = UOpen (Some sc) b -> frames_exist sc) -> pinv g ->
    act K E g u = (e, r) -> r = Exit \/ exists g', r = Ok g' /\ pinv g'.
  Proof.
    intros SD SK FE P H. destruct u as [[sc|] b| | | | |a|a|v|b|b| | |n]; cbn [act] in H.
    - destruct (open_ok g sc b SD SK (FE _ _ eq_refl) P) as [O|(g1 & O & P1)]; rewrite O in H; [left; congruence|].
      match type of H with context [set_spin ?g1' ?v] => destruct (set_spin_ok g1' v) as (g2 & S & P2); [exact P1|] end.
      rewrite S in H. pose proof (export_off_ok g2 P2) as P3. destruct (export_off g2) as [e3 g3]. right. exists g3. split; [congruence|exact P3].
    - right. exists g. split; [congruence|exact P].
    - destruct (g_running g); [exact (step_ok g e r SD SK P H)|]. right. exists g. split; [congruence|exact P].
    - exact (step_ok g e r SD SK P H).
    - destruct (reset_ok g SD SK P) as [O|(g1 & O & P1)]; rewrite O in H; [left; congruence|].
      right. pose proof (export_off_ok g1 P1) as P3. destruct (export_off g1) as [e3 g3].
      destruct K; (exists g3; split; [congruence|exact P3]) || (exists g1; split; [congruence|exact P1]).
    - right. eexists. split; [injection H as <- <-; reflexivity|exact P].
    - right. pose proof (export_off_ok g P) as P3. pose proof (export_on_ok g a P) as P4.
      destruct (g_export g); [destruct (export_off g) as [e1 g1]|destruct (export_on g a) as [e1 g1]]; exists g1; (split; [congruence|assumption]).
    - right. pose proof (export_off_ok g P) as P3. destruct (export_off g) as [e1 g1]. pose proof (export_on_ok g1 a P3) as P4.
      destruct (export_on g1 a) as [e2 g2]. exists g2. split; [congruence|exact P4].
    - destruct (set_spin_ok g v P) as (g2 & S & P2). right. exists g2. unfold no_seen in H. split; [congruence|exact P2].
    - right. eexists. split; [injection H as <- <-; reflexivity|exact P].
    - right. eexists. split; [injection H as <- <-; reflexivity|exact P].
    - right. unfold no_seen in H.
      destruct (paint_ok (with_boxes g (g_at_fps g) (g_lock g) (g_running g) (g_export g) (g_spin g) (negb (g_hud g)))) as (g1 & A & P1);
        [apply SK|exact P|]. exists g1. split; [congruence|exact P1].
    - right. unfold no_seen in H. destruct (paint_ok g) as (g1 & A & P1); [apply SK|exact P|]. exists g1. split; [congruence|exact P1].
    - right. exists g. split; [congruence|exact P].
  Qed.

  Lemma play_ok us : simulator_defined E -> scripts_keep K E -> forall g e r,
    (forall sc b, In (UOpen (Some sc) b) us -> frames_exist sc) -> pinv g -> play K E g us = (e, r) ->
    r = Exit \/ exists g', r = Ok g' /\ pinv g'.
  Proof.
    intros SD SK. induction us as [|u us IH]; intros g e r FE P H; cbn [play] in H.
    - right. exists g. split; [congruence|exact P].
    - destruct (act K E g u) as [e1 r1] eqn:A.
      assert (FU : forall sc b, u = UOpen (Some sc) b -> frames_exist sc) by (intros sc b ->; apply (FE sc b); left; reflexivity).
      destruct (act_ok g u e1 r1 SD SK FU P A) as [->|(g1 & -> & P1)]; [left; congruence|].
      destruct (play K E g1 us) as [e2 r2] eqn:Q.
      assert (Z : r2 = r) by congruence. rewrite <- Z. refine (IH g1 e2 r2 _ P1 Q). intros sc b Hin. apply (FE sc b). right. exact Hin.
  Qed.

  Lemma rate_zero : rate_ok (mkRat 0 1).
  Proof. intros fps _. exists 1. split; [reflexivity|discriminate]. Qed.
  Lemma fresh_pinv w0 s0 g : empty_state E s0 -> fresh K E w0 s0 = Ok g -> pinv g.
  Proof.
    intros [E1 E2] H. unfold fresh in H. cbv zeta in H. apply obind_Ok_inv in H. destruct H as (spf & S & H).
    assert (A : spf = 1) by (destruct K; cbv in S; congruence). subst spf. injection H as <-.
    split; [cbn; destruct K; lia|]. split; [discriminate|]. split; [exact rate_zero|].
    unfold looks. cbn. rewrite E1, E2. destruct K; auto.
  Qed.
End Paint.
