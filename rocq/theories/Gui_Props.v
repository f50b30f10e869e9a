(* C71: interactive sessions. *)
From Coq Require Import Reals ZArith NArith QArith String List Bool Lia Lra.
From Verif Require Import Outcome Codec_Model Config_Model Str_Model Rational_Model Rational_Spec Cli_Model Cli_Spec
  Gui_Model Gui_Spec Gui_Proofs Gui_Proofs2 Gui_Paint Gui_Movie Gui_Reset Gui_Rate Gui_Ex.
Import ListNotations.
Open Scope N_scope.

(* Whatever the user did before - opened, reset, started and stopped, exported, changed the frame rate - the simulation on the
   screen is the one the command line tool arrives at with the scene opened last, after as many steps as the user saw since they
   opened or reset it. Scripts have to start afresh. In rigidbody2dqt4 this holds for the first scene of a session. *)
Theorem C71_session : forall (St Ca W Co G : Type) (K : kind) (E : env St Ca W Co G) w0 s0 us g0 e g sc,
  fresh_load E -> fresh_start E -> keeps_settings E -> same_measures E ->
  (forall sc r, In (UOpen (Some sc) r) us -> valid_scene K sc) -> (K <> KBody2 \/ (h_opens (history us) <= 1)%nat) ->
  fresh K E w0 s0 = Ok g0 -> play K E g0 us = (e, Ok g) ->
  h_scene (history us) = Some sc -> N.of_nat (h_steps (history us)) < 2 ^ 32 ->
  exists y, batch K E w0 sc (h_steps (history us)) = Ok y /\
    y_sim y = (g_world g, g_sim g) /\ y_ifmap y = g_ifmap g /\ y_iter y = g_iter g /\ g_iter g = N.of_nat (h_steps (history us)).
Proof.
  intros St Ca W Co G K E w0 s0 us g0 e g sc FL FS KS SM V NB F P HS HB.
  pose proof (inv_session K E w0 us s0 g0 e g FL FS KS SM V NB F P) as [_ I]. rewrite HS in I.
  destruct I as (_ & _ & _ & I1 & _ & I2). destruct (I2 HB) as (y & Y1 & (Y2 & Y3 & _ & _ & _ & _ & _ & _ & _ & Y4) & _).
  exists y. split; [exact Y1|]. split; [exact Y2|]. split; [exact Y4|]. split; [exact Y3|]. rewrite I1. apply N.mod_small. exact HB.
Qed.
Print Assumptions C71_session.

(* The maximum deviations on the display are those of the energy and the momenta of all states since the scene was opened or reset
   from their values in the scene file. *)
Theorem C71_deviations : forall (St Ca W Co G : Type) (K : kind) (E : env St Ca W Co G) w0 s0 us g0 e g sc,
  fresh_load E -> fresh_start E -> keeps_settings E -> same_measures E ->
  (forall sc r, In (UOpen (Some sc) r) us -> valid_scene K sc) -> (K <> KBody2 \/ (h_opens (history us) <= 1)%nat) ->
  fresh K E w0 s0 = Ok g0 -> play K E g0 us = (e, Ok g) ->
  h_scene (history us) = Some sc -> N.of_nat (h_steps (history us)) < 2 ^ 32 ->
  let m0 := e_measure E (sc_state sc) in
  List.length (g_dev g) = List.length m0 /\
  forall i, (i < List.length m0)%nat ->
    (0 <= nth i (g_dev g) 0)%R /\
    (forall j m, (1 <= j <= h_steps (history us))%nat -> batch_measures K E w0 sc j m -> (Rabs (nth i m0 0 - nth i m 0) <= nth i (g_dev g) 0)%R) /\
    (nth i (g_dev g) 0%R = 0%R \/ exists j m, (1 <= j <= h_steps (history us))%nat /\ batch_measures K E w0 sc j m /\
                                  nth i (g_dev g) 0%R = Rabs (nth i m0 0 - nth i m 0)%R).
Proof.
  intros St Ca W Co G K E w0 s0 us g0 e g sc FL FS KS SM V NB F P HS HB m0.
  pose proof (inv_session K E w0 us s0 g0 e g FL FS KS SM V NB F P) as [_ I]. rewrite HS in I.
  destruct I as (_ & _ & HH & I1 & _ & I2). destruct (I2 HB) as (y & Y1 & _ & ms & M & D1 & D2).
  assert (Q : g_m0 g = m0) by (destruct HH as (_ & _ & _ & _ & _ & _ & _ & _ & _ & _ & Q); exact Q).
  rewrite Q in D1, D2. split; [exact D1|]. intros i Hi. destruct (D2 i Hi) as (A & B & C). split; [exact A|]. split.
  - intros j m Hj Hm. apply B. apply M. exists j. split; assumption.
  - destruct C as [C|(m & Hm & C)]; [left; exact C|right]. apply M in Hm. destruct Hm as (j & Hj & Hm). exists j, m. auto.
Qed.
Print Assumptions C71_deviations.

(* The session ends, with the end of simulation callback, at the step after the end time of the scene, and at no other step. *)
Theorem C71_ends : forall (St Ca W Co G : Type) (K : kind) (E : env St Ca W Co G) w0 s0 us g0 e g sc,
  fresh_load E -> fresh_start E -> keeps_settings E -> same_measures E ->
  (forall sc r, In (UOpen (Some sc) r) us -> valid_scene K sc) -> (K <> KBody2 \/ (h_opens (history us) <= 1)%nat) ->
  fresh K E w0 s0 = Ok g0 -> play K E g0 us = (e, Ok g) ->
  h_scene (history us) = Some sc -> N.of_nat (h_steps (history us)) < 2 ^ 32 ->
  let over := e_reached E (N.of_nat (h_steps (history us))) (sc_dt sc) (sc_end sc) in
  (forall e' r s, act K E g UStep = (e', r) -> In (SEnd s) e' -> over = true /\ r = Exit) /\
  (over = true -> forall w s, e_end E (g_world g) (fst (g_sim g)) = Ok (w, s) -> act K E g UStep = ([SEnd s], Exit)) /\
  (over = true -> forall g', snd (act K E g UStep) <> Ok g').
Proof.
  intros St Ca W Co G K E w0 s0 us g0 e g sc FL FS KS SM V NB F P HS HB over.
  pose proof (inv_session K E w0 us s0 g0 e g FL FS KS SM V NB F P) as [_ I]. rewrite HS in I.
  destruct I as (_ & _ & HH & I1 & _ & _). rewrite N.mod_small in I1 by exact HB.
  destruct HH as (_ & _ & _ & _ & _ & _ & _ & _ & D & N1 & _).
  assert (Q : over = e_reached E (g_iter g) (g_dt g) (g_end g)) by (unfold over; rewrite I1, D, N1; reflexivity).
  rewrite Q. cbn [act]. split; [|split].
  - intros e' r s A B. destruct (gl_step_end K E g e' r s A B) as (X & Y & _). split; assumption.
  - intros O w s X. exact (gl_step_reached K E g O w s X).
  - intros O g'. unfold gl_step. rewrite O. destruct (e_end E _ _) as [[w s]| |]; discriminate.
Qed.
Print Assumptions C71_ends.

(* Reset brings back what opening the scene had shown: state, script, caches, iteration, reference values, colours, renderers and
   picture are those of the moment the scene was opened, in all three programs. *)
Theorem C71_reset : forall (St Ca W Co G : Type) (K : kind) (E : env St Ca W Co G) g sc e go us e' g1 e'' g2,
  fresh_start E -> keeps_settings E -> no_cache (sc_ifmap sc) ->
  act K E g (UOpen (Some sc) true) = (e, Ok go) -> (forall sc' r, ~ In (UOpen (Some sc') r) us) -> play K E go us = (e', Ok g1) ->
  act K E g1 UReset = (e'', Ok g2) ->
  g_world g2 = g_world go /\ g_sim g2 = g_sim go /\ g_iter g2 = g_iter go /\ g_ifmap g2 = g_ifmap go /\ g_m0 g2 = g_m0 go /\
  g_dev g2 = g_dev go /\ g_colours g2 = g_colours go /\ g_renderers g2 = g_renderers go /\ g_painted g2 = g_painted go.
Proof.
  intros St Ca W Co G K E g sc e go us e' g1 e'' g2 FS KS NC HO NU HP HR.
  assert (NO : forall u, In u us -> opens u = false).
  { intros [[sc'|] r| | | | | | | | | | | |] Hu; try reflexivity. destruct (NU _ _ Hu). }
  pose proof (reset_like_open K E g sc e go us e' g1 e'' g2 FS KS NC HO NO HP HR) as S. unfold shown in S.
  repeat (apply pair_equal_spec in S; let a := fresh "Q" in destruct S as [S a]).
  repeat match goal with Q : (_, _) = (_, _) |- _ => apply pair_equal_spec in Q; let a := fresh "Q" in destruct Q as [Q a] end.
  repeat split; assumption.
Qed.
Print Assumptions C71_reset.

(* With a simulator that is defined and scripts that leave bodies and shapes alone where the painting relies on them, no session
   accesses an array out of bounds, divides by zero or uses a shape that is gone. *)
Theorem C71_defined : forall (St Ca W Co G : Type) (K : kind) (E : env St Ca W Co G) w0 s0 us g0 e r,
  simulator_defined E -> scripts_keep K E -> (forall sc b, In (UOpen (Some sc) b) us -> frames_exist sc) ->
  empty_state E s0 -> fresh K E w0 s0 = Ok g0 -> play K E g0 us = (e, r) -> r <> UB.
Proof.
  intros St Ca W Co G K E w0 s0 us g0 e r SD SK FE ES F P.
  destruct (play_ok K E us SD SK g0 e r FE (fresh_pinv K E w0 s0 g0 ES F) P) as [->|(g' & -> & _)]; discriminate.
Qed.
Print Assumptions C71_defined.

(* The frames of a movie. The first shows what was on the screen; then every steps-per-frame-th state of the simulation, exactly as
   stepping without a movie reaches it, and no other state, is saved under the next number. *)
Theorem C71_movie : forall (St Ca W Co G : Type) (K : kind) (E : env St Ca W Co G) g dir n e1 g1 e g',
  dir <> [] -> g_umap g <> UNull -> g_spf g <> 0 -> g_iter g + N.of_nat n < 2 ^ 32 -> 1 + N.of_nat n < 2 ^ 32 ->
  act K E g (UMovie dir) = (e1, Ok g1) -> play K E g1 (repeat UStep n) = (e, Ok g') ->
  let i0 := N.to_nat (g_iter g) in let sp := N.to_nat (g_spf g) in
  e1 = [SShot (frame_name dir 0) (g_painted g)] /\
  e = map (fun k => SShot (frame_name dir (1 + N.of_nat k)) (shown_after K E g1 ((i0 / sp + 1 + k) * sp - i0)))
        (seq 0 ((i0 + n) / sp - i0 / sp)).
Proof.
  intros St Ca W Co G K E g dir n e1 g1 e g' Hd Hu Hs Hi Hf A P i0 sp.
  cbn [act] in A. 
  assert (X : g_iter (snd (export_off g)) = g_iter g /\ g_spf (snd (export_off g)) = g_spf g /\ g_umap (snd (export_off g)) = g_umap g /\
              g_painted (snd (export_off g)) = g_painted g /\ fst (export_off g) = []).
  { unfold export_off. destruct (g_export g); repeat split. }
  destruct (export_off g) as [e0 ga]. cbn [fst snd] in X. destruct X as (X1 & X2 & X3 & X4 & X5). subst e0.
  unfold export_on in A. destruct dir as [|b dir]; [congruence|]. unfold set_dir in A.
  set (gb := with_boxes ga (g_at_fps ga) (g_lock ga) (g_running ga) true (g_spin ga) (g_hud ga)) in *.
  assert (B : g1 = with_movie gb (g_fps gb) (g_spf gb) 1 (b :: dir)) by congruence.
  assert (C : e1 = [SShot (frame_name (b :: dir) 0) (g_painted gb)]) by (cbn [app] in A; congruence).
  split; [rewrite C, <- X4; reflexivity|].
  assert (Y1 : g_iter g1 = g_iter g) by (rewrite B; exact X1). assert (Y2 : g_spf g1 = g_spf g) by (rewrite B; exact X2).
  assert (Y3 : g_umap g1 = g_umap g) by (rewrite B; exact X3). assert (Y4 : g_dir g1 = b :: dir) by (rewrite B; reflexivity).
  assert (Y5 : g_frame g1 = 1) by (rewrite B; reflexivity).
  assert (Z : g_dir g1 <> []) by (rewrite Y4; discriminate).
  destruct (movie_steps K E n g1 e g' Z) as (M & _); try (rewrite ?Y1, ?Y2, ?Y3, ?Y5; assumption).
  rewrite Y1, Y2, Y4, Y5 in M. exact M.
Qed.
Print Assumptions C71_movie.

(* No two frames of one directory share a file. *)
Theorem C71_frame_names : forall dir k k', frame_name dir k = frame_name dir k' -> k = k'.
Proof. exact frame_name_inj. Qed.
Print Assumptions C71_frame_names.

(* At every moment of a session the number of steps per frame belongs to the frame rate and the time step in use: if a whole number
   of steps makes up the time of a frame it is that number, and otherwise every step gets a frame. *)
Theorem C71_rate : forall (St Ca W Co G : Type) (K : kind) (E : env St Ca W Co G) w0 s0 us g0 e g,
  fresh K E w0 s0 = Ok g0 -> play K E g0 us = (e, Ok g) -> lowest_terms (g_dt g) -> (0 < num (g_dt g))%Z -> 1 <= g_fps g ->
  (forall m, 0 < m < 2 ^ 32 -> (inject_Z (Z.of_N m) * (rval (g_dt g) * inject_Z (Z.of_N (g_fps g))) == 1)%Q -> g_spf g = m) /\
  ((forall z, ~ (inject_Z z * (rval (g_dt g) * inject_Z (Z.of_N (g_fps g))) == 1)%Q) -> g_spf g = 1).
Proof.
  intros St Ca W Co G K E w0 s0 us g0 e g F P L N1 F1.
  apply (spf_exact (g_dt g) (g_fps g)); auto. exact (rate_play K E us g0 e g (rate_fresh K E w0 s0 g0 F) P).
Qed.
Print Assumptions C71_rate.

(* ---- one session that meets all hypotheses: two scenes, a reset, a movie ---- *)
Definition a_session : list (@user toy) :=
  [UOpen (Some plain_scene) true; UStep; UStep; UReset; USimulate; UTick; UOpen (Some plain_scene) true; UMovie (lit "d"); UStep; USimulate; UTick; UTick; UImage (lit "x.png")].
Example C71_example : exists g0 e g,
  fresh_load plain /\ fresh_start plain /\ keeps_settings plain /\ same_measures plain /\
  simulator_defined plain /\ scripts_keep KBall plain /\ empty_state plain empty /\
  (forall sc r, In (UOpen (Some sc) r) a_session -> valid_scene KBall sc /\ frames_exist sc) /\
  h_scene (history a_session) = Some plain_scene /\ h_steps (history a_session) = 3%nat /\ h_opens (history a_session) = 2%nat /\
  fresh KBall plain 0 empty = Ok g0 /\ play KBall plain g0 a_session = (e, Ok g) /\
  g_spf g = 2 /\ fst (g_sim g) = mkToy 3 [] 3 /\ lowest_terms (g_dt g) /\
  shots e = [(frame_name (lit "d") 0, Some 0); (frame_name (lit "d") 1, Some 2); (lit "x.png", Some 3)].
Proof.
  eexists _, _, _.
  split; [apply sim_load|]. split; [apply no_start_fresh|]. split; [apply sim_keeps|]. split; [apply sim_measures|].
  split; [apply sim_defined; discriminate|]. split; [exact plain_keeps_scripts|]. split; [split; reflexivity|].
  split.
  { intros sc r H. repeat (destruct H as [H|H]; [try discriminate; try (injection H as <- <-; split; [apply scene_valid; reflexivity|apply hundredth_frames])|]).
    destruct H. }
  split; [reflexivity|]. split; [reflexivity|]. split; [reflexivity|]. split; [reflexivity|].
  split; [cbv -[IZR Rabs Rmax Rminus]; reflexivity|].
  repeat split; vm_compute; reflexivity.
Qed.

(* ---- what does not hold ---- *)
(* rigidbody2dqt4 does not clear the constraint cache when a scene is opened: the second scene starts with the forces of the first. *)
Theorem C71_second_scene_refuted : exists (E : env toy N N N N) us g0 e g sc y,
  fresh_load E /\ fresh_start E /\ keeps_settings E /\ same_measures E /\
  (forall sc r, In (UOpen (Some sc) r) us -> valid_scene KBody2 sc) /\
  fresh KBody2 E 0 empty = Ok g0 /\ play KBody2 E g0 us = (e, Ok g) /\ h_scene (history us) = Some sc /\
  batch KBody2 E 0 sc (h_steps (history us)) = Ok y /\ fst (g_sim g) <> fst (snd (y_sim y)).
Proof.
  exists (sim no_start cached), [UOpen (Some plain_scene) true; UStep; UOpen (Some plain_scene) true; UStep].
  eexists _, _, _, _, _.
  split; [apply sim_load|]. split; [apply no_start_fresh|]. split; [apply sim_keeps|]. split; [apply sim_measures|].
  split.
  { intros sc r H. repeat (destruct H as [H|H]; [try discriminate; try (injection H as <- <-; apply scene_valid; reflexivity)|]). destruct H. }
  split; [reflexivity|]. split; [cbv -[IZR Rabs Rmax Rminus]; reflexivity|]. split; [reflexivity|].
  split; [cbv -[IZR Rabs Rmax Rminus]; reflexivity|]. vm_compute. discriminate.
Qed.
Print Assumptions C71_second_scene_refuted.

(* A script that remembers something is not reset with the simulation. *)
Theorem C71_script_memory_refuted : exists (E : env toy N N N N) us g0 e g sc y,
  fresh_load E /\ keeps_settings E /\ (forall sc r, In (UOpen (Some sc) r) us -> valid_scene KBall sc) /\
  fresh KBall E 0 empty = Ok g0 /\ play KBall E g0 us = (e, Ok g) /\ h_scene (history us) = Some sc /\ h_opens (history us) = 1%nat /\
  batch KBall E 0 sc (h_steps (history us)) = Ok y /\ fst (g_sim g) <> fst (snd (y_sim y)).
Proof.
  exists (sim (fun w s => Ok (w, mkToy (t_n s) (t_geo s) (t_x s + Z.of_N w))) move_on), [UOpen (Some plain_scene) true; UStep; UReset].
  eexists _, _, _, _, _.
  split; [apply sim_load|]. split; [apply sim_keeps|].
  split.
  { intros sc r H. repeat (destruct H as [H|H]; [try discriminate; try (injection H as <- <-; apply scene_valid; reflexivity)|]). destruct H. }
  split; [reflexivity|]. split; [cbv -[IZR Rabs Rmax Rminus]; reflexivity|]. split; [reflexivity|]. split; [reflexivity|].
  split; [cbv -[IZR Rabs Rmax Rminus]; reflexivity|]. vm_compute. discriminate.
Qed.
Print Assumptions C71_script_memory_refuted.

(* What the start of simulation callback does to the energy counts as deviation: here nothing changes once the simulation runs. *)
Theorem C71_start_deviation_refuted : exists (E : env toy N N N N) us g0 e g sc,
  fresh KBall E 0 empty = Ok g0 /\ play KBall E g0 us = (e, Ok g) /\ h_scene (history us) = Some sc /\
  (forall j y, batch KBall E 0 sc j = Ok y -> fst (snd (y_sim y)) = mkToy 2 [] 5) /\ g_dev g = [5%R].
Proof.
  exists (sim (fun w s => Ok (w, mkToy (t_n s) (t_geo s) 5)) same), [UOpen (Some plain_scene) true; UStep].
  eexists _, _, _, _.
  split; [reflexivity|]. split; [cbv -[IZR Rabs Rmax Rminus]; reflexivity|]. split; [reflexivity|]. split.
  - intros j. unfold batch. cbn [cli_load plain_scene scene_of sim e_load e_start sc_path sc_script sc_state obind].
    match goal with |- forall y, state_at _ _ _ _ ?y0 _ = _ -> _ => set (z := y0) end.
    assert (A : forall y, state_at true (cli_free (sim (fun w s => Ok (w, mkToy (t_n s) (t_geo s) 5)) same)) (cli_impact (sim (fun w s => Ok (w, mkToy (t_n s) (t_geo s) 5)) same))
       (cli_friction (sim (fun w s => Ok (w, mkToy (t_n s) (t_geo s) 5)) same)) z j = Ok y -> fst (snd (y_sim y)) = mkToy 2 [] 5 /\ y_umap y = UVerlet /\ y_impop y = OpNull /\
        y_imap y = ImNull /\ y_fsolver y = FsNull /\ y_ifmap y = IfNull).
    { induction j as [|j IH]; intros y H.
      - cbn [state_at] in H. apply (f_equal (fun o => match o with Ok q => q | _ => z end)) in H. rewrite <- H. repeat split.
      - cbn [state_at] in H. apply obind_Ok_inv in H. destruct H as (y1 & H1 & H). destruct (IH y1 H1) as (B1 & B2 & B3 & B4 & B5 & B6).
        apply obind_Ok_inv in H. destruct H as ([s m] & D & H).
        unfold dispatch in D. rewrite B2, B3, B4, B5, B6 in D. cbn in D. unfold cli_free in D. cbn in D. unfold same in D.
        destruct (y_sim y1) as [w1 [s1 c1]] eqn:Q. cbn in D, B1.
        assert (S : s = (w1, (s1, c1))) by congruence. assert (M : m = IfNull) by congruence.
        apply (f_equal (fun o => match o with Ok q => q | _ => z end)) in H. rewrite <- H. cbn. rewrite S, B1, B2, B3, B4, B5, M. repeat split. }
    intros y H. exact (proj1 (A y H)).
  - cbn. f_equal. rewrite Rmax_right by apply Rabs_pos. rewrite Rabs_left; lra.
Qed.
Print Assumptions C71_start_deviation_refuted.

(* When only frames are painted, a movie switched on between two of them starts with an old picture. *)
Theorem C71_first_frame_refuted : exists (E : env toy N N N N) us g0 e g,
  fresh KBall E 0 empty = Ok g0 /\ play KBall E g0 us = (e, Ok g) /\ shots e = [(frame_name (lit "d") 0, Some 0)] /\ g_iter g = 1.
Proof.
  exists plain, [UOpen (Some (scene_of two_balls hundredth (mkView true 50 true false))) true; UStep; UMovie (lit "d")].
  eexists _, _, _. split; [reflexivity|]. split; [cbv -[IZR Rabs Rmax Rminus]; reflexivity|]. split; reflexivity.
Qed.
Print Assumptions C71_first_frame_refuted.

(* Changing the frame rate while a movie is exported starts the numbering again: the first frame is overwritten. *)
Theorem C71_fps_change_refuted : exists (E : env toy N N N N) us g0 e g,
  fresh KBall E 0 empty = Ok g0 /\ play KBall E g0 us = (e, Ok g) /\
  shots e = [(frame_name (lit "d") 0, Some 0); (frame_name (lit "d") 1, Some 1); (frame_name (lit "d") 0, Some 2)].
Proof.
  exists plain, [UOpen (Some (scene_of two_balls fiftieth a_view)) true; UMovie (lit "d"); UStep; USpin 25; UStep].
  eexists _, _, _. split; [reflexivity|]. split; [cbv -[IZR Rabs Rmax Rminus]; reflexivity|]. reflexivity.
Qed.
Print Assumptions C71_fps_change_refuted.

(* In rigidbody3dqt4 a reset leaves the movie running: frames of the new run follow those of the old one. *)
Theorem C71_reset_movie_refuted : exists (E : env toy N N N N) us g0 e g,
  fresh KBody3 E 0 empty = Ok g0 /\ play KBody3 E g0 us = (e, Ok g) /\
  shots e = [(frame_name (lit "d") 0, Some 0); (frame_name (lit "d") 1, Some 1); (frame_name (lit "d") 2, Some 1)].
Proof.
  exists (sim no_start move_on), [UOpen (Some (scene_of two_balls fiftieth a_view)) true; UMovie (lit "d"); UStep; UReset; UStep].
  eexists _, _, _. split; [reflexivity|]. split; [cbv -[IZR Rabs Rmax Rminus]; reflexivity|]. reflexivity.
Qed.
Print Assumptions C71_reset_movie_refuted.

(* A ball added by the start of simulation callback has no colour: painting reads past the end of the colours. *)
Theorem C71_start_callback_refuted : exists (E : env toy N N N N) g0,
  simulator_defined E /\ empty_state E empty /\ frames_exist plain_scene /\
  fresh KBall E 0 empty = Ok g0 /\ snd (act KBall E g0 (UOpen (Some plain_scene) true)) = UB.
Proof.
  exists (sim (fun w s => Ok (w, mkToy (S (t_n s)) (t_geo s) (t_x s))) same). eexists.
  split; [apply sim_defined; discriminate|]. split; [split; reflexivity|]. split; [apply hundredth_frames|]. split; [reflexivity|]. vm_compute. reflexivity.
Qed.
Print Assumptions C71_start_callback_refuted.

(* rigidbody2dqt4: a script that replaces a circle in one step leaves the renderer with a reference to the old one. *)
Theorem C71_replaced_circle_refuted : exists (E : env toy N N N N) sc g0 e g,
  simulator_defined E /\ empty_state E empty /\ frames_exist sc /\
  fresh KBody2 E 0 empty = Ok g0 /\ play KBody2 E g0 [UOpen (Some sc) true] = (e, Ok g) /\ snd (act KBody2 E g UStep) = UB.
Proof.
  exists (sim no_start (fun w x => Ok (w, (mkToy 1 [mkGeom true (1 + match t_geo (fst x) with o :: _ => object o | [] => 0 end)] 0, snd x)))),
    (scene_of (mkToy 1 [mkGeom true 0] 0) hundredth a_view).
  eexists _, _, _.
  split; [apply sim_defined; discriminate|]. split; [split; reflexivity|]. split; [apply hundredth_frames|].
  split; [reflexivity|]. split; [cbv -[IZR Rabs Rmax Rminus]; reflexivity|]. vm_compute. reflexivity.
Qed.
Print Assumptions C71_replaced_circle_refuted.

(* rigidbody2dqt4: a script that adds a circle to a scene with a box ends the program. *)
Theorem C71_box_refuted : exists (E : env toy N N N N) sc g0 e g,
  fresh KBody2 E 0 empty = Ok g0 /\ play KBody2 E g0 [UOpen (Some sc) true] = (e, Ok g) /\ e_reached E (g_iter g) (g_dt g) (g_end g) = false /\
  act KBody2 E g UStep = ([], Exit).
Proof.
  exists (sim no_start (fun w x => Ok (w, (mkToy 2 (t_geo (fst x) ++ [mkGeom true 7]) 0, snd x)))),
    (scene_of (mkToy 1 [mkGeom false 0] 0) hundredth a_view).
  eexists _, _, _.
  split; [reflexivity|]. split; [cbv -[IZR Rabs Rmax Rminus]; reflexivity|]. split; vm_compute; reflexivity.
Qed.
Print Assumptions C71_box_refuted.

(* With a time step of 1/2^32 and one frame per second the number of steps per frame is stored as 0, and the next step divides by it. *)
Theorem C71_zero_steps_refuted : exists (E : env toy N N N N) sc g0 e g,
  simulator_defined E /\ scripts_keep KBall E /\ empty_state E empty /\ valid_scene KBall sc /\
  fresh KBall E 0 empty = Ok g0 /\ play KBall E g0 [UOpen (Some sc) true] = (e, Ok g) /\ snd (act KBall E g UStep) = UB.
Proof.
  exists plain, (scene_of two_balls (mkRat 1 (2 ^ 32)) (mkView true 1 true false)). eexists _, _, _.
  split; [apply sim_defined; discriminate|]. split; [exact plain_keeps_scripts|]. split; [split; reflexivity|].
  split; [apply scene_valid; reflexivity|].
  split; [reflexivity|]. split; [cbv -[IZR Rabs Rmax Rminus]; reflexivity|]. vm_compute. reflexivity.
Qed.
Print Assumptions C71_zero_steps_refuted.
