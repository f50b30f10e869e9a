(* One step of a simulation with scripting: the flow methods of the simulations
     /repo/ball2d/Ball2DSim.cpp:259-326, /repo/rigidbody2d/RigidBody2DSim.cpp:764-831,
     /repo/rigidbody3d/RigidBody3DSim.cpp:407-616,
   the maps they call
     /repo/scisim/ConstrainedMaps/ImpactMaps/ImpactMap.cpp:51-188
     /repo/scisim/ConstrainedMaps/GeometricImpactFrictionMap.cpp:267-442
     /repo/scisim/ConstrainedMaps/StabilizedImpactFrictionMap.cpp:48-183
     /repo/scisim/ConstrainedMaps/SymplecticEulerImpactFrictionMap.cpp:201-404
   and the script hooks
     /repo/scisim/ScriptingCallback.cpp:12-70, /repo/rigidbody2d/PythonScripting.cpp:138-325 (alike in the other two).
   What these call (integrator, collision detection, solvers, caches) is an arbitrary function, a field of [engine]; several of
   them are modelled elsewhere. Saving forces to HDF5 is not modelled here. *)
From Coq Require Import List Reals NArith Bool.
From Verif Require Import Outcome.
Import ListNotations.

Section Flow.
  (* W: the simulation (state and caches); Q, V: configurations and velocities; C: contacts; B: contact bases; A: the impulses
     alpha and beta; F: the friction impulses a map keeps (m_f); X: extra relative velocities; Mem: what the Python module keeps *)
  Context {W Q V C B A F X Mem : Type}.

  (* A Python hook: it may call the functions of the scripting module, which reach the program through the static pointers
     s_state, s_active_set, s_mu, s_cor and the static s_next_iteration. [Raise]: an uncaught exception. *)
  Inductive prog :=
  | Return (m : Mem)
  | Raise
  | OnState (f : W -> outcome W) (k : W -> prog)
  | OnContacts (k : list C -> prog)
  | OnMu (f : list R -> list R) (k : list R -> prog)
  | OnCor (f : list R -> list R) (k : list R -> prog)
  | NextIteration (k : N -> prog).
  (* PythonScripting.cpp:21-28 *)
  Record statics := mkStatics { st_state : option W; st_active : option (list C); st_mu : option (list R); st_cor : option (list R); st_iter : N }.
  Definition set_state (s : statics) (w : W) := mkStatics (Some w) (st_active s) (st_mu s) (st_cor s) (st_iter s).
  Definition set_mu (s : statics) (m : list R) := mkStatics (st_state s) (st_active s) (Some m) (st_cor s) (st_iter s).
  Definition set_cor (s : statics) (c : list R) := mkStatics (st_state s) (st_active s) (st_mu s) (Some c) (st_iter s).
  (* PyObject_CallObject; reaching through a null pointer is undefined, an exception ends the program *)
  Fixpoint interp (p : prog) (s : statics) : outcome (statics * Mem) :=
    match p with
    | Return m => Ok (s, m)
    | Raise => Exit
    | OnState f k => match st_state s with Some w => let! w' := f w in interp (k w') (set_state s w') | None => UB end
    | OnContacts k => match st_active s with Some l => interp (k l) s | None => UB end
    | OnMu f k => match st_mu s with Some m => interp (k (f m)) (set_mu s (f m)) | None => UB end
    | OnCor f k => match st_cor s with Some c => interp (k (f c)) (set_cor s (f c)) | None => UB end
    | NextIteration k => interp (k (st_iter s)) s
    end.
  (* the loaded module: PythonScripting.cpp:76-118; [None] for a function it does not define *)
  Record script := mkScript { sc_named : bool; sc_start_sim : option (Mem -> prog); sc_end_sim : option (Mem -> prog);
    sc_start_step : option (Mem -> prog); sc_end_step : option (Mem -> prog); sc_friction : option (Mem -> prog); sc_restitution : option (Mem -> prog) }.

  (* a record of the hooks that ran: what they were given and what they left *)
  Inductive call :=
  | CStartSim (seen left : W)
  | CEndSim (seen left : W)
  | CStartStep (it : N) (seen left : W)
  | CEndStep (it : N) (seen left : W)
  | CFriction (active : list C) (given left : list R)
  | CRestitution (active : list C) (given left : list R).
  Record live := mkLive { l_mem : Mem; l_log : list call }.

  (* setState; the callback; forgetState. ScriptingCallback.cpp:33-70, PythonScripting.cpp:200-305 *)
  Definition state_hook (named : bool) (p : option (Mem -> prog)) (it : N) (tag : W -> W -> call) (w : W) (lv : live) : outcome (W * live) :=
    if named then
      match p with
      | None => Ok (w, lv)
      | Some body =>
          let! (s, m) := interp (body (l_mem lv)) (mkStatics (Some w) None None None it) in
          match st_state s with Some w' => Ok (w', mkLive m (l_log lv ++ [tag w w'])) | None => UB end
      end
    else Ok (w, lv).
  Definition startOfSim (sc : script) := state_hook (sc_named sc) (sc_start_sim sc) 0 CStartSim.
  Definition endOfSim (sc : script) := state_hook (sc_named sc) (sc_end_sim sc) 0 CEndSim.
  Definition startOfStep (sc : script) (it : N) := state_hook (sc_named sc) (sc_start_step sc) it (CStartStep it).
  Definition endOfStep (sc : script) (it : N) := state_hook (sc_named sc) (sc_end_step sc) it (CEndStep it).
  (* ScriptingCallback.cpp:22-31, PythonScripting.cpp:170-198 *)
  Definition frictionCoefficient (sc : script) (active : list C) (mu : list R) (lv : live) : outcome (list R * live) :=
    if sc_named sc then
      match sc_friction sc with
      | None => Ok (mu, lv)
      | Some body =>
          let! (s, m) := interp (body (l_mem lv)) (mkStatics None (Some active) (Some mu) None 0) in
          match st_mu s with Some mu' => Ok (mu', mkLive m (l_log lv ++ [CFriction active mu mu'])) | None => UB end
      end
    else Ok (mu, lv).
  (* ScriptingCallback.cpp:12-20, PythonScripting.cpp:138-168 *)
  Definition restitutionCoefficient (sc : script) (active : list C) (cor : list R) (lv : live) : outcome (list R * live) :=
    if sc_named sc then
      match sc_restitution sc with
      | None => Ok (cor, lv)
      | Some body =>
          let! (s, m) := interp (body (l_mem lv)) (mkStatics None (Some active) None (Some cor) 0) in
          match st_cor s with Some c' => Ok (c', mkLive m (l_log lv ++ [CRestitution active cor c'])) | None => UB end
      end
    else Ok (cor, lv).

  (* What a step calls. *)
  Record engine := mkEngine {
    e_q : W -> Q; e_v : W -> V; e_set : W -> Q -> V -> W;                       (* state.q(), state.v() and the swaps *)
    e_umap : N -> W -> Q -> V -> outcome (Q * V);                              (* UnconstrainedMap::flow *)
    e_active : W -> Q -> Q -> V -> outcome (list C);                           (* computeActiveSet *)
    e_bases : W -> Q -> V -> list C -> outcome B;                              (* computeContactBases *)
    e_clear : W -> W;                                                          (* clearConstraintCache *)
    e_init : W -> list C -> outcome A; e_cache : W -> list C -> A -> outcome W; (* initializeImpulses, cacheImpulses *)
    e_ninit : W -> list C -> outcome A; e_ncache : W -> list C -> A -> outcome W; (* ImpactMap.cpp:85-93, 149-158 *)
    e_zero : list C -> A;                                                      (* setZero() *)
    e_impact : W -> Q -> V -> list C -> list R -> A -> outcome (A * V);        (* ImpactMap.cpp:106-139: CoR; v2 = v0 + Minv N alpha *)
    e_solve : N -> W -> list R -> list R -> Q -> V -> list C -> B -> option X -> F -> A -> outcome (A * V * F); (* FrictionSolver::solve: CoR, mu *)
    e_resize : F -> V -> F;                                                    (* if( m_f.size() != v0.size() ) m_f = 0 *)
    e_vdelta : W -> Q -> V -> outcome V; e_plus : V -> V -> V;                 (* dt * Minv * F *)
    e_linear : W -> Q -> V -> Q;                                               (* linearInertialConfigurationUpdate *)
    e_extra : W -> Q -> list C -> B -> V -> X;                                 (* nrel, drel *)
    e_start : N -> W -> outcome W;                                             (* updatePeriodicBoundaryConditionsStartOfStep *)
    e_mass : W -> W;                                                           (* updateMandMinv *)
    e_periodic : W -> outcome W; e_boundary : W -> outcome W;                  (* enforcePeriodicBoundaryConditions, treatSimulationBoundary *)
    e_warm : bool; e_CoR : R; e_mu : R }.
  Variable e : engine.
  Variable sc : script.

  (* ImpactMap.cpp:51-188 *)
  Definition impact_flow (it : N) (w : W) (lv : live) : outcome (Q * V * W * live) :=
    let q0 := e_q e w in let v0 := e_v e w in
    let! (q1, v1) := e_umap e it w q0 v0 in
    let! active := e_active e w q0 q1 v0 in
    match active with
    | [] => Ok (q1, v1, e_clear e w, lv)
    | _ :: _ =>
        let! alpha := if e_warm e then e_ninit e w active else Ok (e_zero e active) in
        let w := e_clear e w in
        let! (cor, lv) := restitutionCoefficient sc active (repeat (e_CoR e) (length active)) lv in
        let! (alpha, v2) := e_impact e w q0 v0 active cor alpha in
        let! w := if e_warm e then e_ncache e w active alpha else Ok w in
        let! (q1, v1) := e_umap e it w q0 v2 in
        Ok (q1, v1, w, lv)
    end.
  (* GeometricImpactFrictionMap.cpp:267-442 *)
  Definition geometric_flow (it : N) (w : W) (f : F) (lv : live) : outcome (Q * V * W * F * live) :=
    let q0 := e_q e w in let v0 := e_v e w in
    let f := e_resize e f v0 in
    let! (q1, v1) := e_umap e it w q0 v0 in
    let! active := e_active e w q0 q1 v0 in
    match active with
    | [] => Ok (q1, v1, e_clear e w, f, lv)
    | _ :: _ =>
        let! b := e_bases e w q0 v0 active in
        let! (mu, lv) := frictionCoefficient sc active (repeat (e_mu e) (length active)) lv in
        let! (cor, lv) := restitutionCoefficient sc active (repeat (e_CoR e) (length active)) lv in
        let! a := e_init e w active in
        let! (a, v2, f) := e_solve e it w cor mu q0 v0 active b None f a in
        let! w := e_cache e w active a in
        let! (q1, v1) := e_umap e it w q0 v2 in
        Ok (q1, v1, w, f, lv)
    end.
  (* StabilizedImpactFrictionMap.cpp:48-183 *)
  Definition stabilized_flow (it : N) (w : W) (f : F) (lv : live) : outcome (Q * V * W * F * live) :=
    let q0 := e_q e w in let v0 := e_v e w in
    let f := e_resize e f v0 in
    let! (q1, v1) := e_umap e it w q0 v0 in
    let! active := e_active e w q0 q1 v1 in
    match active with
    | [] => Ok (q1, v1, w, f, lv)
    | _ :: _ =>
        let! b := e_bases e w q0 v1 active in
        let! (mu, lv) := frictionCoefficient sc active (repeat (e_mu e) (length active)) lv in
        let! (cor, lv) := restitutionCoefficient sc active (repeat (e_CoR e) (length active)) lv in
        let! (a, v2, f) := e_solve e it w cor mu q0 v1 active b None f (e_zero e active) in
        Ok (e_linear e w q0 v2, v2, w, f, lv)
    end.
  (* SymplecticEulerImpactFrictionMap.cpp:201-404 *)
  Definition symplectic_flow (it : N) (w : W) (f : F) (lv : live) : outcome (Q * V * W * F * live) :=
    let q0 := e_q e w in let v0 := e_v e w in
    let f := e_resize e f v0 in
    let! vd := e_vdelta e w q0 v0 in
    let q1 := e_linear e w q0 (e_plus e v0 vd) in
    let! active := e_active e w q0 q1 v0 in
    match active with
    | [] => let v1 := e_plus e v0 vd in Ok (e_linear e w q0 v1, v1, e_clear e w, f, lv)
    | _ :: _ =>
        let! (mu, lv) := frictionCoefficient sc active (repeat (e_mu e) (length active)) lv in
        let! (cor, lv) := restitutionCoefficient sc active (repeat (e_CoR e) (length active)) lv in
        let! a := e_init e w active in
        let! b := e_bases e w q0 v0 active in
        let! (a, v1, f) := e_solve e it w cor mu q0 v0 active b (Some (e_extra e w q0 active b vd)) f a in
        let v1 := e_plus e v1 vd in
        let! w := e_cache e w active a in
        Ok (e_linear e w q0 v1, v1, w, f, lv)
    end.

  Inductive method := MFree | MImpact | MGeometric | MStabilized | MSymplectic.
  Definition map_flow (m : method) (it : N) (w : W) (f : F) (lv : live) : outcome (Q * V * W * F * live) :=
    match m with
    | MFree => let! (q1, v1) := e_umap e it w (e_q e w) (e_v e w) in Ok (q1, v1, w, f, lv)
    | MImpact => let! (q1, v1, w, lv) := impact_flow it w lv in Ok (q1, v1, w, f, lv)
    | MGeometric => geometric_flow it w f lv
    | MStabilized => stabilized_flow it w f lv
    | MSymplectic => symplectic_flow it w f lv
    end.
  (* Ball2DSim.cpp:259-326 and RigidBody2DSim.cpp:764-831: [planar]; RigidBody3DSim.cpp:407-616: not [planar] *)
  Definition sim_flow (planar : bool) (m : method) (it : N) (w : W) (f : F) (lv : live) : outcome (W * F * live) :=
    let! (w, lv) := startOfStep sc it w lv in
    let! w := if planar then e_start e it w else Ok w in
    let! (q1, v1, w, f, lv) := map_flow m it w f lv in
    let w := e_set e w q1 v1 in
    let w := if planar then w else e_mass e w in
    let! w := e_periodic e w in
    let! w := if planar then Ok w else e_boundary e w in
    let! (w, lv) := endOfStep sc it w lv in
    Ok (w, f, lv).
End Flow.
Arguments prog : clear implicits. Arguments statics : clear implicits. Arguments script : clear implicits. Arguments call : clear implicits. Arguments live : clear implicits. Arguments engine : clear implicits.
