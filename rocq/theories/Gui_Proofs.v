From Coq Require Import Reals ZArith NArith String List Bool Lia Lra.
From Verif Require Import Outcome Codec_Model Config_Model Str_Model Rational_Model Cli_Model Cli_Spec Gui_Model Gui_Spec.
Import ListNotations.
Open Scope N_scope.

Section Proofs.
  Context {St Ca W Co G : Type}.
  Variable K : kind.
  Variable E : env St Ca W Co G.
  Notation ses := (session St Ca W Co G).

  (* the members that decide what is simulated and measured *)
  Definition core (g : ses) :=
    (g_umap g, g_impop g, g_imap g, g_fsolver g, g_ifmap g, (g_world g, g_cor g, g_mu g, g_sim g, g_sim0 g),
     (g_dt g, g_iter g, g_end g, g_m0 g, g_dev g, g_running g)).

  Lemma core_paint g g' : paint K E g = Ok g' -> core g' = core g.
  Proof. unfold paint. destruct (drawable _ _ _ _ _); [|discriminate]. intros H. assert (A : g' = _) by (injection H as <-; reflexivity). rewrite A. reflexivity. Qed.
  Lemma core_movie g a b c d : core (with_movie g a b c d) = core g.
  Proof. reflexivity. Qed.
  Lemma core_set_dir g d : core (snd (set_dir g d)) = core g.
  Proof. destruct d; reflexivity. Qed.
  Lemma core_export_off g : core (snd (export_off g)) = core g.
  Proof. unfold export_off. destruct (g_export g); reflexivity. Qed.
  Lemma core_export_on g a : core (snd (export_on g a)) = core g.
  Proof. unfold export_on. destruct a; reflexivity. Qed.
  Lemma core_set_fps g f g' : set_fps g f = Ok g' -> core g' = core g.
  Proof.
    unfold set_fps. intros H. apply obind_Ok_inv in H. destruct H as (n & H1 & H2).
    assert (A : g' = with_movie g f n 0 (g_dir g)) by congruence. rewrite A. reflexivity.
  Qed.
  Lemma core_set_spin g v g' : set_spin g v = Ok g' -> core g' = core g.
  Proof.
    unfold set_spin. destruct (_ =? _); intros H.
    - assert (A : g' = g) by congruence. rewrite A. reflexivity.
    - apply core_set_fps in H. rewrite H. reflexivity.
  Qed.

  Lemma core_refresh g g' : refresh K E g = Ok g' -> core g' = core g.
  Proof.
    unfold refresh. destruct K.
    - destruct (adjust_colours _ _ _ _) as [cs ge]. intros H. assert (A : g' = with_show g (g_m0 g) (g_dev g) cs ge (g_renderers g)) by congruence.
      rewrite A. reflexivity.
    - destruct (if (List.length (g_colours g) =? e_bodies E (fst (g_sim g)))%nat then (g_colours g, g_gen g) else all_colours E (fst (g_sim g))) as [cs ge]. intros H. apply obind_Ok_inv in H. destruct H as (rs & _ & H).
      assert (A : g' = with_show g (g_m0 g) (g_dev g) cs ge rs) by congruence. rewrite A. reflexivity.
    - intros H. congruence.
  Qed.

  Definition stepped (g : ses) (w : W) (x : St * Ca) (f : ifmap) : ses :=
    let g1 := with_run g w x f ((g_iter g + 1) mod 2 ^ 32) in
    with_show g1 (g_m0 g1) (deviate (g_dev g1) (g_m0 g1) (e_measure E (fst x))) (g_colours g1) (g_gen g1) (g_renderers g1).

  (* A step that the session survives. *)
  Lemma gl_step_inv g e g' : gl_step K E g = (e, Ok g') ->
    e_reached E (g_iter g) (g_dt g) (g_end g) = false /\
    ((gl_flow K E g = Ok None /\ g' = g /\ e = []) \/
     exists w x f g3 g4, gl_flow K E g = Ok (Some (w, x, f)) /\ refresh K E (stepped g w x f) = Ok g3 /\
       let movie := match g_dir g3 with [] => false | _ => true end in
       let due := (g_iter g3 mod g_spf g3 =? 0) in
       (if (negb (g_at_fps g3) || due)%bool then paint K E g3 else Ok g3) = Ok g4 /\
       ((movie && due)%bool = true /\ e = [SShot (frame_name (g_dir g4) (g_frame g4)) (g_painted g4)] /\
          g' = with_movie g4 (g_fps g4) (g_spf g4) ((g_frame g4 + 1) mod 2 ^ 32) (g_dir g4) \/
        (movie && due)%bool = false /\ e = [] /\ g' = g4)).
  Proof.
    unfold gl_step. destruct (e_reached E _ _ _).
    { destruct (e_end _ _ _) as [[w s]| |]; intros H; discriminate. }
    intros H. split; [reflexivity|].
    destruct (gl_flow K E g) as [o| |] eqn:F; [|discriminate|discriminate].
    destruct o as [r|].
    2:{ left. split; [reflexivity|]. split; congruence. }
    right. destruct r as [[w x] f].
    exists w, x, f. fold (stepped g w x f) in H. destruct (refresh K E (stepped g w x f)) as [g3| |] eqn:R; [|discriminate|discriminate].
    destruct (_ || negb (g_spf g3 =? 0))%bool; [|discriminate].
    exists g3. cbv zeta in H |- *.
    destruct (if (negb (g_at_fps g3) || (g_iter g3 mod g_spf g3 =? 0))%bool then paint K E g3 else Ok g3) as [g4| |] eqn:P;
      [|discriminate|discriminate].
    exists g4. split; [reflexivity|]. split; [reflexivity|]. split; [reflexivity|].
    destruct ((match g_dir g3 with [] => false | _ => true end) && (g_iter g3 mod g_spf g3 =? 0))%bool eqn:D.
    - left. split; [reflexivity|]. split; congruence.
    - right. split; [reflexivity|]. split; congruence.
  Qed.
  Lemma gl_step_core g e g' : gl_step K E g = (e, Ok g') ->
    e_reached E (g_iter g) (g_dt g) (g_end g) = false /\
    ((gl_flow K E g = Ok None /\ g' = g) \/
     exists w x f, gl_flow K E g = Ok (Some (w, x, f)) /\ core g' = core (stepped g w x f)).
  Proof.
    intros H. apply gl_step_inv in H. destruct H as [H0 H]. split; [exact H0|].
    destruct H as [(H1 & H2 & _)|(w & x & f & g3 & g4 & H1 & H2 & H3 & H4)]; [left; auto|].
    right. exists w, x, f. split; [exact H1|].
    apply core_refresh in H2.
    assert (A : core g4 = core g3).
    { destruct (negb _ || _)%bool in H3; [exact (core_paint _ _ H3)|congruence]. }
    destruct H4 as [(_ & _ & ->)|(_ & _ & ->)]; [rewrite core_movie|]; rewrite A, H2; reflexivity.
  Qed.

  (* the fields of a session with a given core *)
  Ltac cores H := unfold core in H; repeat (apply pair_equal_spec in H; let a := fresh "Q" in destruct H as [H a]);
    repeat match goal with Q : (_, _) = (_, _) |- _ => apply pair_equal_spec in Q; let a := fresh "Q" in destruct Q as [Q a] end.

  Ltac flat := unfold stepped in *; cbv zeta in *; cbn [with_run with_movie with_show with_painted with_boxes g_umap g_impop g_imap g_fsolver g_ifmap g_world g_cor g_mu g_sim g_sim0 g_dt g_iter g_end g_fps g_at_fps g_lock g_spf g_frame g_dir g_m0 g_dev g_colours g_gen g_renderers g_painted g_running g_export g_spin g_hud h_run h_scene h_steps h_opens] in *.

  (* ---- the two dispatches ---- *)
  Definition wi := match K with KBody3 => false | _ => true end.
  Definition matches (g : ses) (y : sys (cli_sim (St:=St) (Ca:=Ca) (W:=W))) : Prop :=
    y_sim y = (g_world g, g_sim g) /\ y_iter y = g_iter g /\ y_umap y = g_umap g /\ cli_dt y = g_dt g /\ y_impop y = g_impop g /\
    y_cor y = g_cor g /\ y_fsolver y = g_fsolver g /\ y_mu y = g_mu g /\ y_imap y = g_imap g /\ y_ifmap y = g_ifmap g.
  Definition valid_maps (u : umap) (o : impop) (i : imap) (f : fsolver) (m : ifmap) : Prop :=
    u <> UNull /\
    ((o = OpNull /\ i = ImNull /\ f = FsNull /\ m = IfNull) \/
     (o <> OpNull /\ (K = KBody3 \/ i <> ImNull) /\ f = FsNull /\ m = IfNull) \/
     (o = OpNull /\ i = ImNull /\ f <> FsNull /\ m <> IfNull)).

  Lemma null_umap u : u <> UNull -> is_null_umap u = false.  Proof. destruct u; (reflexivity || congruence). Qed.
  Lemma null_op u : u <> OpNull -> is_null_op u = false.  Proof. destruct u; (reflexivity || congruence). Qed.
  Lemma null_imap u : u <> ImNull -> is_null_imap u = false.  Proof. destruct u; (reflexivity || congruence). Qed.
  Lemma null_fs u : u <> FsNull -> is_null_fs u = false.  Proof. destruct u; (reflexivity || congruence). Qed.
  Lemma null_ifmap u : u <> IfNull -> is_null_ifmap u = false.  Proof. destruct u; (reflexivity || congruence). Qed.

  Lemma flow_dispatch g y : matches g y -> valid_maps (g_umap g) (g_impop g) (g_imap g) (g_fsolver g) (g_ifmap g) ->
    gl_flow K E g = omap (fun r => Some r) (dispatch wi (cli_free E) (cli_impact E) (cli_friction E) y).
  Proof.
    intros (M1 & M2 & M3 & M4 & M5 & M6 & M7 & M8 & M9 & M10) [U V].
    unfold gl_flow, dispatch, cli_free, cli_impact, cli_friction, wi.
    rewrite M1, M2, M3, M4, M5, M6, M7, M8, M9, M10.
    rewrite (null_umap _ U).
    destruct V as [(-> & -> & -> & ->)|[(O & I & -> & ->)|(-> & -> & F & M)]].
    - destruct K; cbn; destruct (e_free E _ _ _ _ _); reflexivity.
    - rewrite (null_op _ O). destruct I as [->|I].
      + cbn. destruct (e_impact E _ _ _ _ _ _ _ _); reflexivity.
      + rewrite (null_imap _ I). destruct K; cbn; destruct (e_impact E _ _ _ _ _ _ _ _); reflexivity.
    - rewrite (null_fs _ F), (null_ifmap _ M). destruct K; cbn; destruct (e_friction E _ _ _ _ _ _ _ _ _) as [[? ?]| |]; reflexivity.
  Qed.

  (* ---- histories ---- *)
  Lemma history_snoc (us : list (@user St)) u : history (us ++ [u]) = hstep (history us) u.
  Proof. unfold history. rewrite fold_left_app. reflexivity. Qed.
  Lemma opens_step (h : hist St) u : (h_opens h <= h_opens (hstep h u))%nat.
  Proof. destruct u as [[sc|] r| | | | | | | | | | | |]; cbn; try lia. destruct (h_run h); cbn; lia. Qed.
  Lemma opens_mono (us : list (@user St)) : forall h, (h_opens h <= h_opens (fold_left hstep us h))%nat.
  Proof.
    induction us as [|u us IH]; intros h; cbn [fold_left]; [lia|].
    pose proof (opens_step h u). pose proof (IH (hstep h u)). lia.
  Qed.

  (* largest differences, component by component *)
  Definition dev_ok (m0 dev : list R) (ms : list (list R)) : Prop :=
    List.length dev = List.length m0 /\
    forall i, (i < List.length m0)%nat ->
      (0 <= nth i dev 0)%R /\ (forall m, In m ms -> (Rabs (nth i m0 0 - nth i m 0) <= nth i dev 0)%R) /\
      (nth i dev 0 = 0 \/ exists m, In m ms /\ nth i dev 0 = Rabs (nth i m0 0 - nth i m 0))%R.

  Lemma deviate_length : forall dev m0 now, List.length dev = List.length m0 -> List.length now = List.length m0 ->
    List.length (deviate dev m0 now) = List.length m0.
  Proof.
    induction dev as [|d dev IH]; intros [|a m0] [|b now] H1 H2; cbn in *; try lia.
    rewrite IH; lia.
  Qed.
  Lemma deviate_nth : forall dev m0 now i, List.length dev = List.length m0 -> List.length now = List.length m0 -> (i < List.length m0)%nat ->
    nth i (deviate dev m0 now) 0%R = Rmax (nth i dev 0%R) (Rabs (nth i m0 0%R - nth i now 0%R)).
  Proof.
    induction dev as [|d dev IH]; intros [|a m0] [|b now] i H1 H2 Hi; cbn in *; try lia.
    destruct i as [|i]; [reflexivity|]. apply IH; lia.
  Qed.
  Lemma dev_ok_zero m0 : dev_ok m0 (map (fun _ => 0%R) m0) [].
  Proof.
    split; [apply map_length|]. intros i Hi.
    assert (A : nth i (map (fun _ => 0%R) m0) 0%R = 0%R).
    { clear Hi. revert i. induction m0 as [|a m IH]; intros [|i]; cbn; auto. }
    rewrite A. split; [lra|]. split; [intros m []|]. left. reflexivity.
  Qed.
  Lemma dev_ok_step m0 dev ms now : List.length now = List.length m0 -> dev_ok m0 dev ms ->
    dev_ok m0 (deviate dev m0 now) (now :: ms).
  Proof.
    intros L [H1 H2]. split; [apply deviate_length; auto|]. intros i Hi.
    rewrite (deviate_nth _ _ _ _ H1 L Hi). destruct (H2 i Hi) as (B1 & B2 & B3).
    split; [pose proof (Rmax_l (nth i dev 0%R) (Rabs (nth i m0 0%R - nth i now 0%R))); lra|].
    split.
    - intros m [<-|Hm]; [apply Rmax_r|]. pose proof (B2 m Hm). pose proof (Rmax_l (nth i dev 0%R) (Rabs (nth i m0 0%R - nth i now 0%R))). lra.
    - unfold Rmax. destruct (Rle_dec _ _).
      + right. exists now. split; [left; reflexivity|reflexivity].
      + destruct B3 as [B3|(m & Hm & B3)]; [left; exact B3|right; exists m; split; [right; exact Hm|exact B3]].
  Qed.

  (* ---- the invariant ---- *)
  Variable w0 : W.
  Definition holds_scene (g : ses) (sc : scene St) : Prop :=
    g_umap g = sc_umap sc /\ g_impop g = sc_impop sc /\ g_imap g = sc_imap sc /\ g_fsolver g = sc_fsolver sc /\
    reset_ifmap (g_ifmap g) = sc_ifmap sc /\ g_cor g = sc_cor sc /\ g_mu g = sc_mu sc /\
    g_sim0 g = (sc_state sc, e_nocache E) /\ g_dt g = sc_dt sc /\ g_end g = sc_end sc /\ g_m0 g = e_measure E (sc_state sc).
  Definition follows (g : ses) (sc : scene St) (k : nat) : Prop :=
    exists y, batch K E w0 sc k = Ok y /\ matches g y /\
    exists ms, (forall m, In m ms <-> exists j, (1 <= j <= k)%nat /\ batch_measures K E w0 sc j m) /\
    dev_ok (g_m0 g) (g_dev g) ms.
  Definition no_maps (g : ses) : Prop :=
    g_umap g = UNull /\ g_impop g = OpNull /\ g_imap g = ImNull /\ g_fsolver g = FsNull /\ g_ifmap g = IfNull.
  Definition inv (h : hist St) (g : ses) : Prop :=
    g_running g = h_run h /\
    match h_scene h with
    | None => no_maps g /\ snd (g_sim g) = e_nocache E /\ snd (g_sim0 g) = e_nocache E
    | Some sc => (1 <= h_opens h)%nat /\ valid_scene K sc /\ holds_scene g sc /\ g_iter g = N.of_nat (h_steps h) mod 2 ^ 32 /\
        (exists y0, cli_load E w0 sc = Ok y0) /\ (N.of_nat (h_steps h) < 2 ^ 32 -> follows g sc (h_steps h))
    end.

  Lemma inv_core h g g' : core g' = core g -> inv h g -> inv h g'.
  Proof.
    intros C. cores C. unfold inv, no_maps, holds_scene, follows, matches.
    repeat match goal with Q : _ _ = _ _ |- _ => rewrite Q; clear Q end. auto.
  Qed.
  Lemma inv_core_run h g g' : core g' = core (with_boxes g (g_at_fps g) (g_lock g) (negb (g_running g)) (g_export g) (g_spin g) (g_hud g)) ->
    inv h g -> inv (mkHist (negb (h_run h)) (h_scene h) (h_steps h) (h_opens h)) g'.
  Proof.
    intros C [I1 I2]. cores C. flat. split; [cbn; congruence|]. cbn [h_scene h_opens h_steps].
    revert I2. unfold no_maps, holds_scene, follows, matches.
    repeat match goal with Q : _ _ = _ _ |- _ => rewrite Q; clear Q end. auto.
  Qed.

  Lemma reset_null m : reset_ifmap m = IfNull <-> m = IfNull.
  Proof. destruct m; cbn; split; congruence. Qed.
  Lemma reset_reset m : reset_ifmap (reset_ifmap m) = reset_ifmap m.
  Proof. destruct m; reflexivity. Qed.
  Lemma flow_none g : no_maps g -> gl_flow K E g = Ok None.
  Proof. intros (A & B & C & D & F). unfold gl_flow. rewrite A, B, C, D, F. destruct K; reflexivity. Qed.
  Lemma flow_some g : g_umap g <> UNull -> gl_flow K E g <> Ok None.
  Proof.
    intros U. unfold gl_flow. rewrite (null_umap _ U). cbn [andb negb]. cbv zeta.
    repeat match goal with |- context [if ?b then _ else _] => lazymatch type of b with bool => destruct b end end; try discriminate;
      match goal with |- omap _ ?r <> _ => destruct r end; cbn; discriminate.
  Qed.
  Lemma flow_keeps g w x f : keeps_settings E -> gl_flow K E g = Ok (Some (w, x, f)) -> reset_ifmap f = reset_ifmap (g_ifmap g).
  Proof.
    intros KS. unfold gl_flow. cbv zeta.
    destruct (is_null_umap (g_umap g) && _ && _ && _ && _)%bool; [discriminate|].
    destruct (negb (is_null_umap (g_umap g)) && is_null_op (g_impop g) && _ && is_null_fs (g_fsolver g) && _)%bool.
    { destruct (e_free E _ _ _ _ _) as [r| |]; cbn; intros H; [|discriminate|discriminate]. congruence. }
    destruct (negb (is_null_umap (g_umap g)) && negb (is_null_op (g_impop g)) && _ && _ && _)%bool.
    { destruct (e_impact E _ _ _ _ _ _ _ _) as [r| |]; cbn; intros H; [|discriminate|discriminate]. congruence. }
    destruct (_ && _)%bool; [|discriminate].
    destruct (e_friction E _ _ _ _ _ _ _ _ _) as [[[w1 x1] f1]| |] eqn:F; cbn; intros H; [|discriminate|discriminate].
    assert (A : f1 = f) by congruence. rewrite <- A. exact (KS _ _ _ _ _ _ _ _ _ _ _ _ F).
  Qed.

  Lemma holds_maps g sc : valid_scene K sc -> holds_scene g sc -> valid_maps (g_umap g) (g_impop g) (g_imap g) (g_fsolver g) (g_ifmap g).
  Proof.
    intros (V1 & V2 & _) (A & B & C & D & F & _). split; [congruence|]. rewrite B, C, D.
    destruct V2 as [(O & I & S & M)|[(O & I & S & M)|(O & I & S & M)]].
    - left. repeat split; auto. rewrite M in F. apply (proj1 (reset_null _)) in F. exact F.
    - right. left. repeat split; auto. rewrite M in F. apply (proj1 (reset_null _)) in F. exact F.
    - right. right. repeat split; auto. intros Z. rewrite Z in F. cbn in F. congruence.
  Qed.

  Lemma batch_S sc k y s m : batch K E w0 sc k = Ok y -> dispatch wi (cli_free E) (cli_impact E) (cli_friction E) y = Ok (s, m) ->
    batch K E w0 sc (S k) = Ok (set_step y s m (y_iter y + 1)).
  Proof.
    unfold batch. intros H D. apply obind_Ok_inv in H. destruct H as (y0 & H1 & H2). rewrite H1. cbn [obind state_at].
    fold wi in H2 |- *. rewrite H2. cbn [obind]. rewrite D. reflexivity.
  Qed.

  Lemma of_nat_S_mod k : (N.of_nat k mod 2 ^ 32 + 1) mod 2 ^ 32 = N.of_nat (S k) mod 2 ^ 32.
  Proof. rewrite N.add_mod_idemp_l by discriminate. f_equal. lia. Qed.

  Lemma inv_step h g e g' : keeps_settings E -> same_measures E -> inv h g -> gl_step K E g = (e, Ok g') ->
    inv (mkHist (h_run h) (h_scene h) (S (h_steps h)) (h_opens h)) g'.
  Proof.
    intros KS SM [I1 I2] H. apply gl_step_core in H. destruct H as [_ H]. unfold inv. cbn [h_run h_scene h_steps h_opens].
    destruct (h_scene h) as [sc|].
    2:{ destruct I2 as (I2 & I3 & I4). rewrite (flow_none _ I2) in H. destruct H as [[_ ->]|(w & x & f & H & _)]; [|discriminate].
        repeat split; auto; apply I2. }
    destruct I2 as (O & V & HS & It & L & Fo).
    destruct H as [[H _]|(w & x & f & F & C)].
    { exfalso. apply (flow_some g) in H; [exact H|]. destruct HS as (A & _). rewrite A. apply V. }
    pose proof (flow_keeps _ _ _ _ KS F) as FK.
    pose proof (holds_maps _ _ V HS) as VM.
    assert (C' := C). cores C'. flat.
    split; [congruence|]. split; [exact O|]. split; [exact V|].
    destruct HS as (S1 & S2 & S3 & S4 & S5 & S6 & S7 & S8 & S9 & S10 & S11).
    split.
    { unfold holds_scene. repeat split; congruence. }
    assert (It' : g_iter g' = N.of_nat (S (h_steps h)) mod 2 ^ 32).
    { rewrite <- of_nat_S_mod. rewrite <- It. congruence. }
    split; [exact It'|]. split; [exact L|].
    intros Hb. destruct Fo as (y & B & M & ms & Hms & Dv); [lia|].
    pose proof (flow_dispatch _ _ M VM) as FD. rewrite F in FD.
    destruct (dispatch wi (cli_free E) (cli_impact E) (cli_friction E) y) as [[s m]| |] eqn:D; cbn in FD; [|discriminate|discriminate].
    assert (As : s = (w, x)) by congruence. assert (Am : m = f) by congruence. subst s m.
    pose proof (batch_S _ _ _ _ _ B D) as BS.
    exists (set_step y (w, x) f (y_iter y + 1)). split; [exact BS|].
    destruct M as (M1 & M2 & M3 & M4 & M5 & M6 & M7 & M8 & M9 & M10).
    split.
    { unfold matches, cli_dt in *. cbn. repeat split; try congruence.
      rewrite M2, It', It. rewrite !N.mod_small by lia. lia. }
    exists (e_measure E (fst x) :: ms). split.
    - intros mm. cbn [In]. rewrite Hms. split.
      + intros [<-|(j & Hj & Bj)].
        * exists (S (h_steps h)). split; [lia|]. exists (set_step y (w, x) f (y_iter y + 1)). split; [exact BS|reflexivity].
        * exists j. split; [lia|exact Bj].
      + intros (j & Hj & Bj). destruct (Nat.eq_dec j (S (h_steps h))) as [->|Ne].
        * left. destruct Bj as (y' & By & ->). assert (Y : y' = set_step y (w, x) f (y_iter y + 1)) by congruence. rewrite Y. reflexivity.
        * right. exists j. split; [lia|exact Bj].
    - assert (Dv' : dev_ok (g_m0 g) (deviate (g_dev g) (g_m0 g) (e_measure E (fst x))) (e_measure E (fst x) :: ms)).
      { apply dev_ok_step; [|exact Dv]. rewrite S11. apply SM. }
      congruence.
  Qed.

  (* ---- opening and resetting ---- *)
  Lemma run_start_inv g g' : run_start E g = Ok g' -> exists w s, e_start E (g_world g) (fst (g_sim g)) = Ok (w, s) /\
    g' = with_run g w (s, snd (g_sim g)) (g_ifmap g) (g_iter g).
  Proof.
    unfold run_start. intros H. apply obind_Ok_inv in H. destruct H as ([w s] & H1 & H2). exists w, s. split; [exact H1|congruence].
  Qed.
  Lemma core_opt_paint (b : bool) g g' : (if b then paint K E g else Ok g) = Ok g' -> core g' = core g.
  Proof. destruct b; [apply core_paint|congruence]. Qed.

  Lemma gl_open_core g sc r g' : gl_open K E g sc r = Ok g' ->
    exists w w' s, e_load E (g_world g) (sc_path sc) (sc_script sc) = Ok w /\ e_start E w (sc_state sc) = Ok (w', s) /\
    let c := match K with KBody2 => snd (g_sim g) | _ => e_nocache E end in
    core g' = (sc_umap sc, sc_impop sc, sc_imap sc, sc_fsolver sc, sc_ifmap sc, (w', sc_cor sc, sc_mu sc, (s, c), (sc_state sc, c)),
               (sc_dt sc, 0, sc_end sc, e_measure E (sc_state sc), map (fun _ => 0%R) (e_measure E (sc_state sc)), g_running g)).
  Proof.
    unfold gl_open. intros H. apply obind_Ok_inv in H. destruct H as (w & H1 & H). cbv zeta in H.
    apply obind_Ok_inv in H. destruct H as (spf & _ & H).
    destruct (all_colours E (sc_state sc)) as [cs ge].
    apply obind_Ok_inv in H. destruct H as (g2 & H2 & H).
    apply run_start_inv in H2. destruct H2 as (w' & s & H2 & ->). cbn in H2.
    exists w, w', s. split; [exact H1|]. split; [exact H2|]. cbv zeta.
    apply core_opt_paint in H. rewrite H. reflexivity.
  Qed.

  Lemma cli_dt_ok (sc : scene St) : (0 < num (sc_dt sc))%Z -> (0 < den (sc_dt sc))%Z ->
    mkRat (Z.of_N (Z.to_N (num (sc_dt sc)))) (Z.of_N (Z.to_N (den (sc_dt sc)))) = sc_dt sc.
  Proof. intros A B. rewrite !Z2N.id by lia. destruct (sc_dt sc); reflexivity. Qed.

  Lemma start_follows g sc w w' s : valid_scene K sc -> e_load E w0 (sc_path sc) (sc_script sc) = Ok w -> e_start E w (sc_state sc) = Ok (w', s) ->
    holds_scene g sc -> g_ifmap g = sc_ifmap sc -> g_world g = w' -> g_sim g = (s, e_nocache E) -> g_iter g = 0 ->
    g_dev g = map (fun _ => 0%R) (g_m0 g) -> (exists y0, cli_load E w0 sc = Ok y0) /\ follows g sc 0.
  Proof.
    intros V L ST HS F Wd Si It Dv.
    assert (CL : exists y0, cli_load E w0 sc = Ok y0) by (unfold cli_load; rewrite L; cbn [obind]; rewrite ST; cbn [obind]; eauto).
    split; [exact CL|].
    unfold follows, batch. unfold cli_load. rewrite L. cbn [obind]. rewrite ST. cbn [obind state_at].
    destruct HS as (S1 & S2 & S3 & S4 & S5 & S6 & S7 & S8 & S9 & S10 & S11).
    destruct V as (_ & _ & _ & P1 & P2).
    eexists. split; [reflexivity|]. split.
    - unfold matches, cli_dt. cbn. repeat split; try congruence. rewrite cli_dt_ok by auto. congruence.
    - exists []. split; [intros m; split; [intros []|intros (j & Hj & _); lia]|]. rewrite Dv. apply dev_ok_zero.
  Qed.

  Lemma inv_open (h : hist St) g sc r g' : fresh_load E -> valid_scene K sc -> (K <> KBody2 \/ snd (g_sim g) = e_nocache E) ->
    gl_open K E g sc r = Ok g' ->
    inv (mkHist (g_running g) (Some sc) 0 (S (h_opens h))) g'.
  Proof.
    intros FL V NC H. apply gl_open_core in H. destruct H as (w & w' & s & H1 & H2 & C). cbv zeta in C.
    assert (A : match K with KBody2 => snd (g_sim g) | _ => e_nocache E end = e_nocache E).
    { destruct K; auto. destruct NC; congruence. }
    rewrite A in C. cores C. flat.
    assert (HS : holds_scene g' sc).
    { unfold holds_scene. repeat split; try congruence. assert (Z : g_ifmap g' = sc_ifmap sc) by congruence. rewrite Z. apply V. }
    split; [cbn; congruence|]. cbn [h_scene h_opens h_steps].
    destruct (start_follows g' sc w w' s) as [F1 F2]; auto; try congruence.
    { rewrite <- H1. apply FL. }
    repeat split; auto; try lia; try congruence; try apply HS; try apply V.
  Qed.

  Lemma gl_reset_core g g' : gl_reset K E g = Ok g' ->
    exists w' s, e_start E (g_world g) (fst (g_sim0 g)) = Ok (w', s) /\
    core g' = (g_umap g, g_impop g, g_imap g, g_fsolver g, reset_ifmap (g_ifmap g), (w', g_cor g, g_mu g, (s, snd (g_sim0 g)), g_sim0 g),
               (g_dt g, 0, g_end g, e_measure E (fst (g_sim0 g)), map (fun _ => 0%R) (e_measure E (fst (g_sim0 g))), g_running g)).
  Proof.
    unfold gl_reset. cbv zeta. intros H.
    destruct (match K with KBody3 => (g_colours g, g_gen g, g_renderers g)
              | _ => (all_colours E (fst (g_sim0 g)), all_renderers K E (fst (g_sim0 g))) end) as [[cs ge] rs].
    apply obind_Ok_inv in H. destruct H as (g4 & H1 & H2). apply core_paint in H2.
    apply run_start_inv in H1. destruct H1 as (w & s & H1 & ->). exists w, s.
    split; [destruct K; exact H1|]. rewrite H2. destruct K; reflexivity.
  Qed.

  Lemma inv_reset h g g' : fresh_load E -> fresh_start E -> inv h g -> gl_reset K E g = Ok g' ->
    inv (mkHist (h_run h) (h_scene h) 0 (h_opens h)) g'.
  Proof.
    intros FL FS [I1 I2] H. apply gl_reset_core in H. destruct H as (w' & s & H1 & C). cores C. flat.
    split; [cbn; congruence|]. cbn [h_scene h_opens h_steps].
    destruct (h_scene h) as [sc|].
    - destruct I2 as (O & V & HS & It & (y0 & L) & _).
      destruct HS as (S1 & S2 & S3 & S4 & S5 & S6 & S7 & S8 & S9 & S10 & S11).
      assert (HS' : holds_scene g' sc).
      { unfold holds_scene. repeat split; try congruence.
        - assert (Z : g_ifmap g' = reset_ifmap (g_ifmap g)) by congruence. rewrite Z, reset_reset. exact S5.
        - assert (Z : g_m0 g' = e_measure E (fst (g_sim0 g))) by congruence. rewrite Z, S8. reflexivity. }
      unfold cli_load in L. apply obind_Ok_inv in L. destruct L as (w & L1 & L2).
      rewrite S8 in H1. cbn [fst] in H1. rewrite (FS _ w) in H1.
      destruct (start_follows g' sc w w' s) as [F1 F2]; auto; try congruence.
      { assert (Z : g_sim g' = (s, snd (g_sim0 g))) by congruence. rewrite Z, S8. reflexivity. }
      split; [exact O|]. split; [exact V|]. split; [exact HS'|]. split; [assert (Z : g_iter g' = 0) by congruence; rewrite Z; reflexivity|]. split; [exact F1|]. intros _. exact F2.
    - destruct I2 as ((N1 & N2 & N3 & N4 & N5) & I3 & I4).
      assert (Z : g_ifmap g' = reset_ifmap (g_ifmap g)) by congruence. rewrite N5 in Z. cbn in Z.
      assert (Z2 : g_sim g' = (s, snd (g_sim0 g))) by congruence.
      unfold no_maps. repeat split; try congruence. rewrite Z2. exact I4.
  Qed.
End Proofs.
