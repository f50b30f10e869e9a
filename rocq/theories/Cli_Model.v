(* The simulation loop of the three command line tools: ball2dcli/ball2d_cli.cpp:318-476,
   rigidbody2dcli/rigidbody2d_cli.cpp:308-467, rigidbody3dcli/rigidbody3d_cli.cpp:322-475. The tools' globals are the
   record [sys] of Config_Model.v. Everything the loop calls is an arbitrary function (Section variables):
   the three flow methods of the simulation, the comparison of the simulated time with the end time, the serialiser.
   Opening and writing files is assumed to succeed. *)
From Coq Require Import ZArith NArith Ascii String List Bool.
From Verif Require Import Outcome Codec_Model SnapBall_Model Config_Model Str_Model Names_Model.
Import ListNotations.
Open Scope N_scope.

Definition to_bytes (s : str) : bstring := map N_of_ascii s.
Definition of_bytes (b : bstring) : str := map ascii_of_N b.

(* What a run does to the outside world, in order. [EConfig] is the HDF5 state file: its contents are a function of the
   time step, the iteration and the simulation. [EForces] is the HDF5 force file: its contents are a function of the
   system before the step. *)
Inductive event (S : Type) :=
| EConfig (name : bstring) (iteration : N) (sim : S)
| ESnap (name : bstring) (content : bytes)
| EForces (name : bstring) (iteration : N) (sim : S)
| EEndOfSim (sim : S).
Arguments EConfig {S}. Arguments ESnap {S}. Arguments EForces {S}. Arguments EEndOfSim {S}.

Inductive status := SDone | SFailed | SUndefined | SRunning.

Section Loop.
  Context {S : Type}.
  Variable with_imap : bool.     (* false in rigidbody3d_cli.cpp, which has no g_impact_map *)
  Variable hdf5 : bool.          (* USE_HDF5 *)
  Variable enc : sys S -> outcome bytes.                    (* serializeSystem's bytes *)
  Variable flow_free : sys S -> outcome S.                  (* flow( script, iter, dt, umap ) *)
  Variable flow_impact : sys S -> outcome S.                (* flow( ..., umap, impact operator, CoR, impact map ) *)
  Variable flow_friction : sys S -> outcome (S * ifmap).    (* flow( ..., CoR, mu, solver, impact friction map ) *)
  Variable time_reached : N -> N -> N -> scalar -> bool.    (* iteration * scalar( dt ) >= end_time *)

  (* ball2d_cli.cpp:445, 73-84: with USE_HDF5 the directory is prepended when it is not empty *)
  Definition conf_name (prefix ext : string) (y : sys S) : bstring :=
    to_bytes (config_file_name (if hdf5 then of_bytes (y_outdir y) else []) (lit prefix) (lit ext) (N.to_nat (y_width y)) (y_frame y)).
  (* ball2d_cli.cpp:201-202 *)
  Definition snap_name (y : sys S) : bstring :=
    if y_over y then to_bytes (lit "serial.bin") else conf_name "serial" "bin" y.
  (* ball2d_cli.cpp:344-351; unsigned subtraction *)
  Definition force_name (y : sys S) : bstring :=
    to_bytes (forces_file_name (of_bytes (y_outdir y)) (N.to_nat (y_width y)) ((y_frame y + 2 ^ 32 - 1) mod 2 ^ 32)).

  Definition set_frame (y : sys S) (f : N) : sys S :=
    mkSys (y_sim y) (y_iter y) (y_umap y) (y_dt_num y) (y_dt_den y) (y_end y) (y_impop y) (y_cor y) (y_fsolver y) (y_mu y)
      (y_imap y) (y_ifmap y) (y_spath y) (y_smod y) (y_outdir y) (y_forces y) (y_steps y) f (y_prec y) (y_width y)
      (y_ser y) (y_over y).
  Definition set_step (y : sys S) (s : S) (m : ifmap) (it : N) : sys S :=
    mkSys s it (y_umap y) (y_dt_num y) (y_dt_den y) (y_end y) (y_impop y) (y_cor y) (y_fsolver y) (y_mu y)
      (y_imap y) m (y_spath y) (y_smod y) (y_outdir y) (y_forces y) (y_steps y) (y_frame y) (y_prec y) (y_width y)
      (y_ser y) (y_over y).

  (* ball2d_cli.cpp:318-342 exportConfigurationData *)
  Definition export (y : sys S) : list (event S) * outcome (sys S) :=
    if y_steps y =? 0 then ([], UB)                          (* % 0 *)
    else if y_iter y mod y_steps y =? 0 then
      let e1 := if (hdf5 && negb (match y_outdir y with [] => true | _ => false end))%bool
                then [EConfig (conf_name "config" "h5" y) (y_iter y) (y_sim y)] else [] in
      let next := Ok (set_frame y ((y_frame y + 1) mod 2 ^ 32)) in
      if y_ser y then
        match enc y with
        | Ok b => (e1 ++ [ESnap (snap_name y) b], next)
        | Exit => (e1, Exit)
        | UB => (e1, UB)
        end
      else (e1, next)
    else ([], Ok y).

  (* ball2d_cli.cpp:386-434: which flow is called depends on which of the five pointers are null *)
  Definition is_null_umap (u : umap) := match u with UNull => true | _ => false end.
  Definition is_null_op (o : impop) := match o with OpNull => true | _ => false end.
  Definition is_null_imap (m : imap) := match m with ImNull => true | _ => false end.
  Definition is_null_fs (s : fsolver) := match s with FsNull => true | _ => false end.
  Definition is_null_ifmap (m : ifmap) := match m with IfNull => true | _ => false end.
  Definition dispatch (y : sys S) : outcome (S * ifmap) :=
    let u := is_null_umap (y_umap y) in let o := is_null_op (y_impop y) in
    let fs := is_null_fs (y_fsolver y) in let fm := is_null_ifmap (y_ifmap y) in
    (* without g_impact_map the tests on it are absent *)
    let im_null := (negb with_imap || is_null_imap (y_imap y))%bool in
    let im_set := (negb with_imap || negb (is_null_imap (y_imap y)))%bool in
    if (u && o && im_null && fs && fm)%bool then Ok (y_sim y, y_ifmap y)
    else if (negb u && o && im_null && fs && fm)%bool then omap (fun s => (s, y_ifmap y)) (flow_free y)
    else if (negb u && negb o && im_set && fs && fm)%bool then omap (fun s => (s, y_ifmap y)) (flow_impact y)
    else if (negb u && o && im_null && negb fs && negb fm)%bool then flow_friction y
    else Exit.

  (* ball2d_cli.cpp:353-439 stepSystem; the flow methods do not see the output frame counter *)
  Definition step (y : sys S) : list (event S) * outcome (sys S) :=
    if (hdf5 && y_forces y && (y_steps y =? 0))%bool then ([], UB)
    else
      let e0 := if (hdf5 && y_forces y && (y_iter y mod y_steps y =? 0))%bool
                then [EForces (force_name y) (y_iter y) (y_sim y)] else [] in
      match dispatch (set_frame y 0) with
      | Ok (s, m) => let (e1, r) := export (set_step y s m ((y_iter y + 1) mod 2 ^ 32)) in (e0 ++ e1, r)
      | Exit => (e0, Exit)
      | UB => (e0, UB)
      end.

  Definition finished (y : sys S) : bool := time_reached (y_iter y) (y_dt_num y) (y_dt_den y) (y_end y).

  (* ball2d_cli.cpp:448-475, the while loop; [fuel] bounds the number of rounds looked at *)
  Fixpoint loop (fuel : nat) (y : sys S) : list (event S) * status :=
    match fuel with
    | O => ([], SRunning)
    | Datatypes.S k =>
        if finished y then
          if (hdf5 && y_forces y)%bool then
            match step y with
            | (e, Ok y') => (e ++ [EEndOfSim (y_sim y')], SDone)
            | (e, Exit) => (e, SFailed)
            | (e, UB) => (e, SUndefined)
            end
          else ([EEndOfSim (y_sim y)], SDone)
        else
          match step y with
          | (e, Ok y') => let (e', s) := loop k y' in (e ++ e', s)
          | (e, Exit) => (e, SFailed)
          | (e, UB) => (e, SUndefined)
          end
    end.

  (* ball2d_cli.cpp:441-446 executeSimLoop *)
  Definition exec (fuel : nat) (y : sys S) : list (event S) * status :=
    match export y with
    | (e, Ok y') => let (e', s) := loop fuel y' in (e ++ e', s)
    | (e, Exit) => (e, SFailed)
    | (e, UB) => (e, SUndefined)
    end.

  (* ball2d_cli.cpp:651-658 (main with a snapshot file name): load, then executeSimLoop *)
  Definition resume (p : parser (sys S)) (fuel : nat) (file : bytes) : list (event S) * status :=
    match p file with
    | Ok (y, _) => exec fuel y
    | Exit => ([], SFailed)
    | UB => ([], SUndefined)
    end.
End Loop.
