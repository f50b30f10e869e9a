(* What a run of a command line tool should output. *)
From Coq Require Import ZArith NArith Ascii String List Bool.
From Verif Require Import Outcome Codec_Model Config_Model Config_Spec Str_Model Names_Model Cli_Model.
Import ListNotations.
Open Scope N_scope.

Section Spec.
  Context {S : Type}.
  Variable with_imap hdf5 : bool.
  Variable enc : sys S -> outcome bytes.
  Variable flow_free flow_impact : sys S -> outcome S.
  Variable flow_friction : sys S -> outcome (S * ifmap).

  (* the system after [j] steps of the simulation, no output involved *)
  Fixpoint state_at (y0 : sys S) (j : nat) : outcome (sys S) :=
    match j with
    | O => Ok (set_frame y0 0)
    | Datatypes.S k =>
        let! y := state_at y0 k in
        let! (s, m) := dispatch with_imap flow_free flow_impact flow_friction y in
        Ok (set_step y s m (y_iter y + 1))
    end.

  (* the files of frame [k] of a run that starts with frame [k0] and [sp] steps per frame: the state after
     (k - k0) * sp steps, labelled with iteration k * sp and numbered k *)
  Definition frame_outputs (y0 : sys S) (k0 sp k : nat) : list (event S) :=
    match state_at y0 ((k - k0) * sp) with
    | Ok y =>
        let yk := set_frame y (N.of_nat k) in
        let dir := if hdf5 then of_bytes (y_outdir y0) else [] in
        let width := N.to_nat (y_width y0) in
        (if (hdf5 && negb (match y_outdir y0 with [] => true | _ => false end))%bool
         then [EConfig (to_bytes (config_file_name dir (lit "config") (lit "h5") width (N.of_nat k))) (N.of_nat (k * sp)) (y_sim y)]
         else []) ++
        (if y_ser y0 then
           match enc yk with
           | Ok b => [ESnap (to_bytes (if y_over y0 then lit "serial.bin"
                                       else config_file_name dir (lit "serial") (lit "bin") width (N.of_nat k))) b]
           | _ => []
           end
         else [])
    | _ => []
    end.
  Definition is_output (e : event S) : bool := match e with EConfig _ _ _ | ESnap _ _ => true | _ => false end.

  (* the force file of frame [k]: written by the step that leaves iteration k * sp *)
  Definition force_outputs (y0 : sys S) (k0 sp k : nat) : list (event S) :=
    match state_at y0 ((k - k0) * sp) with
    | Ok y => [EForces (to_bytes (forces_file_name (of_bytes (y_outdir y0)) (N.to_nat (y_width y0)) (N.of_nat k))) (N.of_nat (k * sp)) (y_sim y)]
    | _ => []
    end.
  Definition is_forces (e : event S) : bool := match e with EForces _ _ _ => true | _ => false end.
End Spec.

(* nothing, or the state file of the system [y] *)
Definition only_config {S} (hdf5 : bool) (y : sys S) (cfg : list (event S)) : Prop :=
  cfg = [] \/ cfg = [EConfig (conf_name hdf5 "config" "h5" y) (y_iter y) (y_sim y)].

(* A run can only be saved while the simulation stays representable (sizes that fit the file format, readable kinds of
   bodies and forces); [ok] [known] [unwritable] are those of Config_Spec.v. This says that steps preserve it. *)
Definition writable {S} (ok known unwritable : S -> Prop) (s : S) : Prop := ok s /\ known s /\ ~ unwritable s.
Definition flows_writable {S} (w : S -> Prop) (flow_free flow_impact : sys S -> outcome S)
    (flow_friction : sys S -> outcome (S * ifmap)) : Prop :=
  (forall y s, w (y_sim y) -> flow_free y = Ok s -> w s) /\
  (forall y s, w (y_sim y) -> flow_impact y = Ok s -> w s) /\
  (forall y s m, w (y_sim y) -> flow_friction y = Ok (s, m) -> w s /\ ok_ifmap m).

(* Cutting the run [exec] at any snapshot and resuming from it gives the rest of the run: the same snapshot again, and
   then exactly the events [post] that followed it, with the same final status. The only other output is the state file
   of the resumed frame, which the original run had written just before. *)
Definition resumes {S} (hdf5 : bool) (resume : nat -> bytes -> list (event S) * status)
    (pre : list (event S)) (nm : bstring) (bs : bytes) (post : list (event S)) (st : status) : Prop :=
  exists m y1 cfg pre', resume m bs = (cfg ++ ESnap nm bs :: post, st) /\ pre = pre' ++ cfg /\ only_config hdf5 y1 cfg.

(* ---- crashes ----
   A file is created empty and then grows byte by byte; a crash can happen between any two of these actions. *)
Inductive io := IOpen (name : bstring) | IAppend (name : bstring) (b : N).
Definition files := bstring -> option bytes.
Definition upd (fs : files) (n : bstring) (c : bytes) : files := fun m => if bstring_eqb m n then Some c else fs m.
Definition do_io (fs : files) (a : io) : files :=
  match a with
  | IOpen n => upd fs n []
  | IAppend n b => match fs n with Some c => upd fs n (c ++ [b]) | None => fs end
  end.
(* the contents of the HDF5 files do not matter here *)
Definition actions {S} (e : event S) : list io :=
  match e with
  | ESnap n bs => IOpen n :: map (IAppend n) bs
  | EConfig n _ _ | EForces n _ _ => [IOpen n]
  | EEndOfSim _ => []
  end.

(* the file an event writes *)
Definition file_of {S} (e : event S) : option bstring :=
  match e with ESnap n _ | EConfig n _ _ | EForces n _ _ => Some n | EEndOfSim _ => None end.
(* the files after the actions [l] *)
Definition after (l : list io) (fs : files) : files := fold_left do_io l fs.
