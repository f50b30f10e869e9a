(* What an interactive session should do, in terms of the command line run of the same scene. *)
From Coq Require Import Reals ZArith NArith String List Bool.
From Verif Require Import Outcome Codec_Model Config_Model Str_Model Rational_Model Cli_Model Cli_Spec Gui_Model.
Import ListNotations.
Open Scope N_scope.

(* ---- which scene is open and how many steps it has taken, from the user's actions alone ---- *)
Record hist (St : Type) := mkHist { h_run : bool; h_scene : option (scene St); h_steps : nat; h_opens : nat }.
Arguments mkHist {St}. Arguments h_run {St}. Arguments h_scene {St}. Arguments h_steps {St}. Arguments h_opens {St}.
Definition hstep {St} (h : hist St) (u : user) : hist St :=
  match u with
  | UOpen (Some sc) _ => mkHist false (Some sc) 0 (S (h_opens h))
  | UTick => if h_run h then mkHist true (h_scene h) (S (h_steps h)) (h_opens h) else h
  | UStep => mkHist (h_run h) (h_scene h) (S (h_steps h)) (h_opens h)
  | UReset => mkHist (h_run h) (h_scene h) 0 (h_opens h)
  | USimulate => mkHist (negb (h_run h)) (h_scene h) (h_steps h) (h_opens h)
  | _ => h
  end.
Definition history {St} (us : list (@user St)) : hist St := fold_left hstep us (mkHist false None 0 0).

Section Spec.
  Context {St Ca W Co G : Type}.
  Variable K : kind.
  Variable E : env St Ca W Co G.

  (* Scenes as the readers of scene files deliver them: one of the three combinations of maps that openScene asserts,
     a friction map without a cache, a positive time step. *)
  Definition no_cache (m : ifmap) : Prop := reset_ifmap m = m.
  Definition valid_scene (sc : scene St) : Prop :=
    sc_umap sc <> UNull /\
    ((sc_impop sc = OpNull /\ sc_imap sc = ImNull /\ sc_fsolver sc = FsNull /\ sc_ifmap sc = IfNull) \/
     (sc_impop sc <> OpNull /\ (K = KBody3 \/ sc_imap sc <> ImNull) /\ sc_fsolver sc = FsNull /\ sc_ifmap sc = IfNull) \/
     (sc_impop sc = OpNull /\ sc_imap sc = ImNull /\ sc_fsolver sc <> FsNull /\ sc_ifmap sc <> IfNull)) /\
    no_cache (sc_ifmap sc) /\ (0 < num (sc_dt sc))%Z /\ (0 < den (sc_dt sc))%Z.

  (* Scripts that start afresh when they are loaded and when the simulation starts. *)
  Definition fresh_load : Prop := forall w w' p n, e_load E w p n = e_load E w' p n.
  Definition fresh_start : Prop := forall w w' s, e_start E w s = e_start E w' s.
  (* a step changes what the friction map remembers, not its settings *)
  Definition keeps_settings : Prop := forall w x it dt u c m f i w' x' i',
    e_friction E w x it dt u c m f i = Ok (w', x', i') -> reset_ifmap i' = reset_ifmap i.
  Definition same_measures : Prop := forall s s', List.length (e_measure E s) = List.length (e_measure E s').

  (* ---- the same simulator behind the command line tool ---- *)
  Definition cli_sim := (W * (St * Ca))%type.
  Definition cli_dt (y : sys cli_sim) : rational := mkRat (Z.of_N (y_dt_num y)) (Z.of_N (y_dt_den y)).
  Definition cli_free (y : sys cli_sim) : outcome cli_sim :=
    e_free E (fst (y_sim y)) (snd (y_sim y)) ((y_iter y + 1) mod 2 ^ 32) (cli_dt y) (y_umap y).
  Definition cli_impact (y : sys cli_sim) : outcome cli_sim :=
    e_impact E (fst (y_sim y)) (snd (y_sim y)) ((y_iter y + 1) mod 2 ^ 32) (cli_dt y) (y_umap y) (y_impop y) (y_cor y) (y_imap y).
  Definition cli_friction (y : sys cli_sim) : outcome (cli_sim * ifmap) :=
    e_friction E (fst (y_sim y)) (snd (y_sim y)) ((y_iter y + 1) mod 2 ^ 32) (cli_dt y) (y_umap y) (y_cor y) (y_mu y)
      (y_fsolver y) (y_ifmap y).
  (* ball2d_cli.cpp:126-156 loadXMLScene in a program that has just been started with the scripting world [w0];
     the output settings do not matter *)
  Definition cli_load (w0 : W) (sc : scene St) : outcome (sys cli_sim) :=
    let! w := e_load E w0 (sc_path sc) (sc_script sc) in
    let! (w', s) := e_start E w (sc_state sc) in
    Ok (mkSys (w', (s, e_nocache E)) 0 (sc_umap sc) (Z.to_N (num (sc_dt sc))) (Z.to_N (den (sc_dt sc))) (sc_end sc) (sc_impop sc)
          (sc_cor sc) (sc_fsolver sc) (sc_mu sc) (sc_imap sc) (sc_ifmap sc) [] [] [] false 1 0 0 0 false false).
  (* the command line tool's simulation of the scene after [k] steps *)
  Definition batch (w0 : W) (sc : scene St) (k : nat) : outcome (sys cli_sim) :=
    let! y0 := cli_load w0 sc in
    state_at (match K with KBody3 => false | _ => true end) cli_free cli_impact cli_friction y0 k.

  (* the state the command line tool is in after [k] steps has the measurements [m] *)
  Definition batch_measures (w0 : W) (sc : scene St) (k : nat) (m : list R) : Prop :=
    exists y, batch w0 sc k = Ok y /\ m = e_measure E (fst (snd (y_sim y))).

  (* ---- scripts and painting ---- *)
  (* the frame rate is one the FPS box can hold, and whatever the FPS box says there is a number of steps per frame *)
  Definition frames_exist (sc : scene St) : Prop :=
    1 <= v_fps (sc_view sc) <= 1000 /\ forall fps, 1 <= fps <= 1000 -> exists n, steps_per_frame (sc_dt sc) fps = Ok n /\ n <> 0.
  (* a default-constructed simulation state *)
  Definition empty_state (s : St) : Prop := e_bodies E s = 0%nat /\ e_geometry E s = [].
  (* nothing goes wrong inside the simulator and the scripts *)
  Definition simulator_defined : Prop :=
    (forall w p n, e_load E w p n <> UB) /\ (forall w s, e_start E w s <> UB) /\ (forall w s, e_end E w s <> UB) /\
    (forall w x it dt u, e_free E w x it dt u <> UB) /\
    (forall w x it dt u o c i, e_impact E w x it dt u o c i <> UB) /\
    (forall w x it dt u c m f i, e_friction E w x it dt u c m f i <> UB).
  (* what any step does to the state *)
  Definition steps_to (s s' : St) : Prop := exists w c w' c',
    (exists it dt u, e_free E w (s, c) it dt u = Ok (w', (s', c'))) \/
    (exists it dt u o r i, e_impact E w (s, c) it dt u o r i = Ok (w', (s', c'))) \/
    (exists it dt u r m f i i', e_friction E w (s, c) it dt u r m f i = Ok (w', (s', c'), i')).
  Definition starts_to (s s' : St) : Prop := exists w w', e_start E w s = Ok (w', s').
  (* What scripts must not do if painting is to stay inside the arrays: the start of simulation callback must not change
     bodies or shapes; in rigidbody2dqt4 a step must not replace shapes without changing how many there are; in
     rigidbody3dqt4 scripts cannot add or remove anything. *)
  Definition shapes_exist : Prop := forall s i, In i (e_shape E s) -> (i < List.length (e_geometry E s))%nat.
  Definition scripts_keep : Prop :=
    shapes_exist /\
    (forall s s', starts_to s s' -> e_bodies E s' = e_bodies E s /\ e_geometry E s' = e_geometry E s) /\
    match K with
    | KBall => True
    | KBody2 => forall s s', steps_to s s' ->
        e_geometry E s' = e_geometry E s \/ List.length (e_geometry E s') <> List.length (e_geometry E s)
    | KBody3 => forall s s', steps_to s s' ->
        e_bodies E s' = e_bodies E s /\ List.length (e_geometry E s') = List.length (e_geometry E s)
    end.

  (* ---- movies ---- *)
  (* what a session shows after [j] presses of the step button *)
  Definition shown_after (g : session St Ca W Co G) (j : nat) : option (St * N) :=
    match snd (play K E g (repeat UStep j)) with
    | Ok gj => Some (fst (g_sim gj), g_iter gj)
    | _ => None
    end.
End Spec.
Definition shot_name {St} (e : seen St) : option str := match e with SShot n _ => Some n | SEnd _ => None end.
