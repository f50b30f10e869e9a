(* C46: script hooks run in order. C55: collision response only acts on contacts. *)
From Coq Require Import List Reals NArith ZArith Bool Lia.
From Verif Require Import Outcome Codec_Model SnapBall_Model Config_Model Cli_Model Flow_Model Flow_Spec Flow_Proofs Flow_Run Flow_End.
Import ListNotations.
Open Scope N_scope.

(* One step, whatever the integrator, the collision detection, the solvers and the script: start-of-step hook, friction and
   restitution hooks (only with contacts), end-of-step hook. *)
Theorem C46_step : forall (W Q V C B A F X Mem : Type) (e : engine W Q V C B A F X) (sc : script W C Mem) planar m it w f lv w' f' lv',
  sim_flow e sc planar m it w f lv = Ok (w', f', lv') ->
  exists s, l_log lv' = l_log lv ++ s
    /\ step_calls sc (match m with MFree => false | _ => true end) (match m with MFree | MImpact => false | _ => true end) (e_mu e) (e_CoR e) it w w' s.
Proof. intros W Q V C B A F X Mem. exact sim_flow_calls. Qed.
Print Assumptions C46_step.
(* Every run of the command line tools: whatever is saved at any time, and the state given to the end-of-simulation hook, comes
   from a history of complete steps, each starting where the one before ended. *)
Theorem C46_run : forall (W Q V C B A X Mem : Type) (e : engine W Q V C B A (list scalar) X) (sc : script W C Mem) planar with_imap hdf5 enc time_reached fuel y ev st,
  exec with_imap hdf5 enc (run_free e sc planar) (run_impact e sc planar) (run_friction e sc planar) time_reached fuel y = (ev, st) -> y_umap y <> UNull ->
  forall x, In x ev ->
  match x with
  | EConfig _ n s | EForces _ n s =>
      exists l, l_log (snd s) = l_log (snd (y_sim y)) ++ l /\ history sc (with_contacts y) (with_friction y) (e_mu e) (e_CoR e) (y_iter y) (fst (y_sim y)) n (fst s) l
  | EEndOfSim s =>
      exists n l, l_log (snd s) = l_log (snd (y_sim y)) ++ l /\ history sc (with_contacts y) (with_friction y) (e_mu e) (e_CoR e) (y_iter y) (fst (y_sim y)) n (fst s) l
  | ESnap _ _ => True
  end.
Proof.
  intros W Q V C B A X Mem e sc planar with_imap hdf5 enc tr fuel y ev st H U x Hx.
  assert (O : ok_sys e sc (with_contacts y) (with_friction y) (y_iter y) (fst (y_sim y)) (l_log (snd (y_sim y))) y).
  { split; [|split; [exact U|split; reflexivity]]. exists []. split; [rewrite app_nil_r; reflexivity|constructor]. }
  pose proof (exec_ok e sc planar with_imap hdf5 enc tr _ _ _ _ _ fuel y ev st O H) as K. rewrite Forall_forall in K. specialize (K x Hx). destruct x; try exact K.
Qed.
Print Assumptions C46_run.
(* In a history of k steps the step hooks run k times with the iteration numbers n0 + 1, ..., n0 + k. *)
Theorem C46_iterations : forall (W C Mem : Type) (sc : script W C Mem) c fr mu cor n0 w0 n w l, history sc c fr mu cor n0 w0 n w l -> n0 < 2 ^ 32 ->
  exists k, n = (n0 + N.of_nat k) mod 2 ^ 32
    /\ (runs sc (sc_start_step sc) = true -> starts l = map (fun i => (n0 + 1 + N.of_nat i) mod 2 ^ 32) (seq 0 k))
    /\ (runs sc (sc_end_step sc) = true -> ends l = map (fun i => (n0 + 1 + N.of_nat i) mod 2 ^ 32) (seq 0 k)).
Proof. intros W C Mem. exact history_numbers. Qed.
Print Assumptions C46_iterations.
(* The end-of-simulation hook runs once, last, in a run that completes, and never in one that does not. *)
Theorem C46_end_of_simulation : forall (S : Type) with_imap hdf5 enc flow_free flow_impact flow_friction time_reached fuel (y : sys S) ev st,
  exec with_imap hdf5 enc flow_free flow_impact flow_friction time_reached fuel y = (ev, st) ->
  (st = SDone -> exists pre s, ev = pre ++ [EEndOfSim s] /\ forall x, In x pre -> match x with EEndOfSim _ => False | _ => True end)
  /\ (st <> SDone -> forall x, In x ev -> match x with EEndOfSim _ => False | _ => True end).
Proof.
  intros S wi h en f1 f2 f3 tr fuel y ev st H. destruct (exec_end _ _ _ _ _ _ _ _ _ _ _ H) as [H1 H2]. split.
  - intro Z. destruct (H1 Z) as (pre & s & E & N). exists pre, s. split; [exact E|]. intros x Hx. specialize (N x Hx). destruct x; try exact I. apply N. exact I.
  - intros Z x Hx. specialize (H2 Z x Hx). destruct x; try exact I. apply H2. exact I.
Qed.
Print Assumptions C46_end_of_simulation.
(* A script whose step hooks use the state and whose coefficient hooks use the contacts and coefficients never reaches through
   a null pointer. *)
Theorem C46_polite_scripts_are_safe : forall (W Q V C B A F X Mem : Type) (e : engine W Q V C B A F X) (sc : script W C Mem) planar m it w f lv,
  defined_engine e -> polite sc -> sim_flow e sc planar m it w f lv <> UB.
Proof. intros W Q V C B A F X Mem. exact sim_flow_defined. Qed.
Print Assumptions C46_polite_scripts_are_safe.
(* The friction solver works with the coefficients the hooks left, or with the scene's where there is no hook. *)
Theorem C46_coefficients_reach_the_solver : forall (W Q V C B A F X Mem : Type) (e : engine W Q V C B A F X) (sc : script W C Mem) m it w f lv q v w' f' lv',
  (match m with MFree | MImpact => false | _ => true end) = true -> map_flow e sc m it w f lv = Ok (q, v, w', f', lv') ->
  lv' = lv \/ exists active mu cor v0 b x f0 a0 a1 v1, active <> [] /\ e_solve e it w cor mu (e_q e w) v0 active b x f0 a0 = Ok (a1, v1, f')
    /\ l_log lv' = l_log lv ++ when (runs sc (sc_friction sc)) (CFriction active (repeat (e_mu e) (length active)) mu)
                             ++ when (runs sc (sc_restitution sc)) (CRestitution active (repeat (e_CoR e) (length active)) cor)
    /\ (runs sc (sc_friction sc) = false -> mu = repeat (e_mu e) (length active)) /\ (runs sc (sc_restitution sc) = false -> cor = repeat (e_CoR e) (length active)).
Proof. intros W Q V C B A F X Mem. exact friction_coefficients. Qed.
Print Assumptions C46_coefficients_reach_the_solver.
Theorem C46_restitution_reaches_the_operator : forall (W Q V C B A F X Mem : Type) (e : engine W Q V C B A F X) (sc : script W C Mem) it w f lv q v w' f' lv',
  map_flow e sc MImpact it w f lv = Ok (q, v, w', f', lv') ->
  lv' = lv \/ exists active cor a0 a1 v1, active <> [] /\ e_impact e (e_clear e w) (e_q e w) (e_v e w) active cor a0 = Ok (a1, v1) /\ (exists w2, e_umap e it w2 (e_q e w) v1 = Ok (q, v))
    /\ l_log lv' = l_log lv ++ when (runs sc (sc_restitution sc)) (CRestitution active (repeat (e_CoR e) (length active)) cor)
    /\ (runs sc (sc_restitution sc) = false -> cor = repeat (e_CoR e) (length active)).
Proof. intros W Q V C B A F X Mem. exact impact_coefficients. Qed.
Print Assumptions C46_restitution_reaches_the_operator.
(* In space the mass matrices are brought up to date with the new orientations in every step: whatever the update establishes, and
   the boundaries and the end-of-step hook keep, holds after every step. *)
Theorem C46_masses_are_current : forall (W Q V C B A F X Mem : Type) (e : engine W Q V C B A F X) (sc : script W C Mem) (P : W -> Prop) m it w f lv w' f' lv',
  (forall w, P (e_mass e w)) -> (forall w w', P w -> e_periodic e w = Ok w' -> P w') -> (forall w w', P w -> e_boundary e w = Ok w' -> P w') ->
  hook_keeps P (sc_end_step sc) -> sim_flow e sc false m it w f lv = Ok (w', f', lv') -> P w'.
Proof. intros W Q V C B A F X Mem e sc P. exact (sim_flow_mass P e sc). Qed.
Print Assumptions C46_masses_are_current.

(* C55. Without contacts a step is the integrator's step; the coefficient hooks do not run and no solver is called. *)
Theorem C55_no_contact : forall (W Q V C B A F X Mem : Type) (e : engine W Q V C B A F X) (sc : script W C Mem) m it w f lv q1 v1, m = MImpact \/ m = MGeometric ->
  e_umap e it w (e_q e w) (e_v e w) = Ok (q1, v1) -> e_active e w (e_q e w) q1 (e_v e w) = Ok [] ->
  exists f', map_flow e sc m it w f lv = Ok (q1, v1, e_clear e w, f', lv).
Proof. intros W Q V C B A F X Mem. exact no_contacts_free. Qed.
Print Assumptions C55_no_contact.
Theorem C55_no_contact_stabilized : forall (W Q V C B A F X Mem : Type) (e : engine W Q V C B A F X) (sc : script W C Mem) it w f lv q1 v1,
  e_umap e it w (e_q e w) (e_v e w) = Ok (q1, v1) -> e_active e w (e_q e w) q1 v1 = Ok [] ->
  exists f', map_flow e sc MStabilized it w f lv = Ok (q1, v1, w, f', lv).
Proof. intros W Q V C B A F X Mem. exact no_contacts_stabilized. Qed.
Print Assumptions C55_no_contact_stabilized.
Theorem C55_no_contact_symplectic : forall (W Q V C B A F X Mem : Type) (e : engine W Q V C B A F X) (sc : script W C Mem) it w f lv vd, e_vdelta e w (e_q e w) (e_v e w) = Ok vd ->
  e_active e w (e_q e w) (e_linear e w (e_q e w) (e_plus e (e_v e w) vd)) (e_v e w) = Ok [] ->
  exists f', map_flow e sc MSymplectic it w f lv = Ok (e_linear e w (e_q e w) (e_plus e (e_v e w) vd), e_plus e (e_v e w) vd, e_clear e w, f', lv).
Proof. intros W Q V C B A F X Mem. exact no_contacts_symplectic. Qed.
Print Assumptions C55_no_contact_symplectic.

(* ---------- an example: a ball bouncing on the floor 0, in integers ---------- *)
Definition ball_engine : engine (Z * Z) Z Z unit unit Z (list scalar) unit :=
  {| e_q := fst; e_v := snd; e_set := fun _ q v => (q, v); e_umap := fun _ _ q v => Ok (q + v, v)%Z;
     e_active := fun _ _ q1 _ => Ok (if (q1 <? 0)%Z then [tt] else []); e_bases := fun _ _ _ _ => Ok tt; e_clear := fun w => w;
     e_init := fun _ _ => Ok 0%Z; e_cache := fun w _ _ => Ok w; e_ninit := fun _ _ => Ok 0%Z; e_ncache := fun w _ _ => Ok w; e_zero := fun _ => 0%Z;
     e_impact := fun _ _ v _ _ _ => Ok (- 2 * v, - v)%Z; e_solve := fun _ _ _ _ _ v _ _ _ f _ => Ok (- 2 * v, - v, f)%Z; e_resize := fun f _ => f;
     e_vdelta := fun _ _ _ => Ok 0%Z; e_plus := Z.add; e_linear := fun _ q v => (q + v)%Z; e_extra := fun _ _ _ _ _ => tt;
     e_start := fun _ w => Ok w; e_mass := fun w => w; e_periodic := fun w => Ok w; e_boundary := fun w => Ok w; e_warm := true; e_CoR := 1%R; e_mu := 0%R |}.
(* the start hook counts steps in the module's memory, the end hook pushes the ball up by one, the friction hook sets mu to 2 *)
Definition ball_script : script (Z * Z) unit nat :=
  {| sc_named := true; sc_start_sim := None; sc_end_sim := None; sc_start_step := Some (fun m => NextIteration (fun n => Return (N.to_nat n)));
     sc_end_step := Some (fun m => OnState (fun w => Ok (fst w + 1, snd w)%Z) (fun _ => Return m));
     sc_friction := Some (fun m => OnContacts (fun l => OnMu (map (fun _ => 2%R)) (fun _ => Return m))); sc_restitution := None |}.
Example ball_engine_defined : defined_engine ball_engine.
Proof. unfold defined_engine, ball_engine; cbn. repeat split; intros; discriminate. Qed.
Example ball_script_polite : polite ball_script.
Proof. unfold polite, ball_script, hook_uses; cbn. repeat split; intros; try discriminate; auto. Qed.
(* a step with a contact and a step without *)
Example ball_steps : sim_flow ball_engine ball_script true MGeometric 7 (2, -3)%Z [] (mkLive 0%nat [])
    = Ok ((6, 3)%Z, [], mkLive 7%nat [CStartStep 7 (2, -3)%Z (2, -3)%Z; CFriction [tt] [0%R] [2%R]; CEndStep 7 (5, 3)%Z (6, 3)%Z])
  /\ sim_flow ball_engine ball_script true MGeometric 8 (6, 3)%Z [] (mkLive 7%nat [])
    = Ok ((10, 3)%Z, [], mkLive 8%nat [CStartStep 8 (6, 3)%Z (6, 3)%Z; CEndStep 8 (9, 3)%Z (10, 3)%Z]).
Proof. split; reflexivity. Qed.
Example ball_no_contact : e_umap ball_engine 8 (6, 3)%Z 6%Z 3%Z = Ok (9, 3)%Z /\ e_active ball_engine (6, 3)%Z 6%Z 9%Z 3%Z = Ok [].
Proof. split; reflexivity. Qed.
(* a run: four steps, saving after every step *)
Definition ball_sys : sys (Z * Z * live (Z * Z) unit nat) :=
  mkSys ((2, -3)%Z, mkLive 0%nat []) 0 USymplecticEuler 1 1 0 OpNull 0 (FsGRRFriction OpNull FoNull) 0 ImNull (IfGeometric [] 0 0 0) [] [] [111] false 1 0 0 3 false false.
Definition ball_run := exec true true (fun _ => Ok []) (run_free ball_engine ball_script true) (run_impact ball_engine ball_script true) (run_friction ball_engine ball_script true) (fun n _ _ _ => 4 <=? n) 10 ball_sys.
Example ball_run_logs : snd ball_run = SDone /\ match last (fst ball_run) (ESnap [] []) with
  | EEndOfSim s => starts (l_log (snd s)) = [1; 2; 3; 4] /\ ends (l_log (snd s)) = [1; 2; 3; 4] /\ length (l_log (snd s)) = 9%nat /\ fst s = (18, 3)%Z | _ => False end.
Proof. vm_compute. repeat split; reflexivity. Qed.
(* a body whose inertia, the second number, is to be twice its orientation, turning by three in a step *)
Definition spin_engine : engine (Z * Z) Z Z unit unit Z (list scalar) unit :=
  {| e_q := fst; e_v := fun _ => 3%Z; e_set := fun w q _ => (q, snd w); e_umap := fun _ _ q v => Ok (q + v, v)%Z;
     e_active := fun _ _ _ _ => Ok []; e_bases := fun _ _ _ _ => Ok tt; e_clear := fun w => w;
     e_init := fun _ _ => Ok 0%Z; e_cache := fun w _ _ => Ok w; e_ninit := fun _ _ => Ok 0%Z; e_ncache := fun w _ _ => Ok w; e_zero := fun _ => 0%Z;
     e_impact := fun _ _ v _ _ _ => Ok (0, v)%Z; e_solve := fun _ _ _ _ _ v _ _ _ f _ => Ok (0, v, f)%Z; e_resize := fun f _ => f;
     e_vdelta := fun _ _ _ => Ok 0%Z; e_plus := Z.add; e_linear := fun _ q v => (q + v)%Z; e_extra := fun _ _ _ _ _ => tt;
     e_start := fun _ w => Ok w; e_mass := fun w => (fst w, 2 * fst w)%Z; e_periodic := fun w => Ok w; e_boundary := fun w => Ok w; e_warm := true; e_CoR := 1%R; e_mu := 0%R |}.
Definition no_hooks : script (Z * Z) unit nat :=
  {| sc_named := false; sc_start_sim := None; sc_end_sim := None; sc_start_step := None; sc_end_step := None; sc_friction := None; sc_restitution := None |}.
Example spin_step : sim_flow spin_engine no_hooks false MGeometric 7 (5, 10)%Z [] (mkLive 0%nat []) = Ok ((8, 16)%Z, [], mkLive 0%nat [])
  /\ (forall w, snd (e_mass spin_engine w) = 2 * fst (e_mass spin_engine w))%Z /\ hook_keeps (fun w => snd w = 2 * fst w)%Z (sc_end_step no_hooks).
Proof. split; [reflexivity|]. split; [reflexivity|exact I]. Qed.

(* ---------- findings ---------- *)
(* A coefficient hook that asks for the state (numBodies(), configuration(), ...) reaches through a null pointer, as soon as there is a contact. *)
Definition rude_script : script (Z * Z) unit nat :=
  {| sc_named := true; sc_start_sim := None; sc_end_sim := None; sc_start_step := None; sc_end_step := None;
     sc_friction := Some (fun m => OnState (fun w => Ok w) (fun _ => Return m)); sc_restitution := None |}.
Theorem C46_state_in_friction_hook_refuted : exists (e : engine (Z * Z) Z Z unit unit Z (list scalar) unit) (sc : script (Z * Z) unit nat) w lv,
  defined_engine e /\ hook_uses true true true true (sc_friction sc) /\ sc_start_step sc = None /\ sc_end_step sc = None /\ sc_restitution sc = None
  /\ forall planar it, sim_flow e sc planar MGeometric it w [] lv = UB.
Proof.
  exists ball_engine, rude_script, (2, -3)%Z, (mkLive 0%nat []). split; [exact ball_engine_defined|]. split; [cbn; intros; repeat split; intros; try discriminate|].
  split; [reflexivity|]. split; [reflexivity|]. split; [reflexivity|]. intros [|] it; reflexivity.
Qed.
Print Assumptions C46_state_in_friction_hook_refuted.
(* A coefficient hook that asks for the iteration number is told 0. *)
Definition curious_script : script (Z * Z) unit nat :=
  {| sc_named := true; sc_start_sim := None; sc_end_sim := None; sc_start_step := None; sc_end_step := None;
     sc_friction := Some (fun m => NextIteration (fun n => Return (N.to_nat n))); sc_restitution := None |}.
Theorem C46_iteration_in_friction_hook_refuted : exists (e : engine (Z * Z) Z Z unit unit Z (list scalar) unit) (sc : script (Z * Z) unit nat) w,
  (forall m, sc_friction sc = Some (fun _ => NextIteration (fun n => Return (N.to_nat n))) /\
   exists w' f' lv', sim_flow e sc true MGeometric 7 w [] (mkLive m []) = Ok (w', f', lv') /\ l_mem lv' = 0%nat).
Proof.
  exists ball_engine, curious_script, (2, -3)%Z. intro m. split; [reflexivity|]. eexists _, _, _. split; reflexivity.
Qed.
Print Assumptions C46_iteration_in_friction_hook_refuted.
