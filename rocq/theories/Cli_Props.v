(* C11, C12, C48: runs of the command line tools. *)
From Coq Require Import ZArith NArith Ascii String Bool List Lia.
From Verif Require Import Outcome Codec_Model Codec_Spec SnapBall_Model SnapRb2_Model SnapRb3_Model Snap_Spec Snap_Props
  Config_Model Config_Spec Config_Proofs Config_Props Str_Model Names_Model Cli_Model Cli_Spec Cli_Proofs.
Import ListNotations.
Open Scope N_scope.

(* [flow_free], [flow_impact], [flow_friction], [time_reached] are arbitrary: what a step does and when the run ends are
   not restricted, except that a step keeps the simulation representable in the file format (flows_writable). *)

(* ---- C12 ---- *)
(* A run that starts at frame k0 = iteration / sp and ends normally, or is still running after n rounds, has output
   exactly the files of the frames k0, k0+1, ..., k0 + T/sp, in order, where T is the number of steps taken: frame k holds
   the state after (k - k0) * sp steps. It stops at the first step E whose time reaches the end time (one more step is
   taken when forces are written). Force files exist for the frames k with (k - k0) * sp < T. *)
Theorem C12_schedule : forall (S : Type) with_imap hdf5 enc flow_free flow_impact flow_friction time_reached (y0 : sys S) n evs st,
  let sp := N.to_nat (y_steps y0) in let k0 := N.to_nat (y_frame y0) in
  let reached i := time_reached (y_iter y0 + N.of_nat i) (y_dt_num y0) (y_dt_den y0) (y_end y0) in
  let forcing := (hdf5 && y_forces y0)%bool in
  y_steps y0 <> 0 -> y_iter y0 = y_frame y0 * y_steps y0 -> y_iter y0 + N.of_nat n + 1 < 2 ^ 32 ->
  exec with_imap hdf5 enc flow_free flow_impact flow_friction time_reached n y0 = (evs, st) -> st = SDone \/ st = SRunning ->
  exists T,
    ((st = SRunning /\ T = n /\ forall i, (i < T)%nat -> reached i = false) \/
     (st = SDone /\ exists E, (E < n)%nat /\ reached E = true /\ (forall i, (i < E)%nat -> reached i = false) /\
        T = (if forcing then Datatypes.S E else E))) /\
    filter is_output evs =
      flat_map (frame_outputs with_imap hdf5 enc flow_free flow_impact flow_friction y0 k0 sp) (seq k0 (Datatypes.S (T / sp))) /\
    filter is_forces evs =
      (if forcing then flat_map (force_outputs with_imap flow_free flow_impact flow_friction y0 k0 sp) (seq k0 ((T + sp - 1) / sp)) else []).
Proof.
  intros S with_imap hdf5 enc ff fi fr tr y0 n evs st sp k0 reached forcing H1 H2 H3 H4 H5.
  destruct (exec_schedule with_imap hdf5 enc ff fi fr tr y0 H1 H2 n evs st H3 H4 H5) as (T & He & Ho & Hf).
  exists T. split; [|split; assumption].
  destruct He as [(A & B & C)|(A & E & B & C & D & F)].
  - left. split; [exact A|]. split; [exact B|]. intros i Hi. apply C. lia.
  - right. split; [exact A|]. exists E. split; [lia|]. split; [exact C|]. split; [|exact F]. intros i Hi. apply D. lia.
Qed.
Print Assumptions C12_schedule.

(* ---- C11 ----
   [hdf5 && y_forces] and a last snapshot written in the final step is the exception, see below. *)
Theorem C11_ball_resume : forall ql ip hdf5 git flow_free flow_impact flow_friction time_reached n y0 pre nm bs post st,
  ok_string git -> ok_sys ok_b2_sim true hdf5 y0 -> known_sys ql ip umaps_b2 (fun s => ~ has_penalty_force s) y0 -> ~ unwritable_sys (fun _ => False) y0 ->
  flows_writable (writable ok_b2_sim (fun s => ~ has_penalty_force s) (fun _ => False)) flow_free flow_impact flow_friction ->
  exec true hdf5 (enc_sys_b2 hdf5 git) flow_free flow_impact flow_friction time_reached n y0 = (pre ++ ESnap nm bs :: post, st) ->
  (hdf5 && y_forces y0)%bool = false \/ (forall s, post <> [EEndOfSim s]) ->
  resumes hdf5 (resume true hdf5 (enc_sys_b2 hdf5 git) flow_free flow_impact flow_friction time_reached (p_sys_b2 ql ip hdf5)) pre nm bs post st.
Proof.
  exact (fun ql ip hdf5 git ff fi fr tr n y0 pre nm bs post st Hg H1 H2 H3 Hf =>
    tool_resumes true hdf5 ql ip _ _ _ _ _ _ (law_b2 ql ip hdf5 git Hg) ff fi fr tr Hf n y0 pre nm bs post st (conj H1 (conj H2 H3))).
Qed.
Print Assumptions C11_ball_resume.
Theorem C11_rb2d_resume : forall ql ip hdf5 git flow_free flow_impact flow_friction time_reached n y0 pre nm bs post st,
  ok_string git -> ok_sys ok_r2_sim true hdf5 y0 -> known_sys ql ip umaps_r2 (fun _ => True) y0 -> ~ unwritable_sys (fun _ => False) y0 ->
  flows_writable (writable ok_r2_sim (fun _ => True) (fun _ => False)) flow_free flow_impact flow_friction ->
  exec true hdf5 (enc_sys_r2 hdf5 git) flow_free flow_impact flow_friction time_reached n y0 = (pre ++ ESnap nm bs :: post, st) ->
  (hdf5 && y_forces y0)%bool = false \/ (forall s, post <> [EEndOfSim s]) ->
  resumes hdf5 (resume true hdf5 (enc_sys_r2 hdf5 git) flow_free flow_impact flow_friction time_reached (p_sys_r2 ql ip hdf5)) pre nm bs post st.
Proof.
  exact (fun ql ip hdf5 git ff fi fr tr n y0 pre nm bs post st Hg H1 H2 H3 Hf =>
    tool_resumes true hdf5 ql ip _ _ _ _ _ _ (law_r2 ql ip hdf5 git Hg) ff fi fr tr Hf n y0 pre nm bs post st (conj H1 (conj H2 H3))).
Qed.
Print Assumptions C11_rb2d_resume.
Theorem C11_rb3d_resume : forall ql ip hdf5 git flow_free flow_impact flow_friction time_reached n y0 pre nm bs post st,
  ok_string git -> ok_sys ok_r3_sim false hdf5 y0 -> known_sys ql ip umaps_r3 (fun _ => True) y0 -> ~ unwritable_sys has_staple y0 ->
  flows_writable (writable ok_r3_sim (fun _ => True) has_staple) flow_free flow_impact flow_friction ->
  exec false hdf5 (enc_sys_r3 hdf5 git) flow_free flow_impact flow_friction time_reached n y0 = (pre ++ ESnap nm bs :: post, st) ->
  (hdf5 && y_forces y0)%bool = false \/ (forall s, post <> [EEndOfSim s]) ->
  resumes hdf5 (resume false hdf5 (enc_sys_r3 hdf5 git) flow_free flow_impact flow_friction time_reached (p_sys_r3 ql ip hdf5)) pre nm bs post st.
Proof.
  exact (fun ql ip hdf5 git ff fi fr tr n y0 pre nm bs post st Hg H1 H2 H3 Hf =>
    tool_resumes false hdf5 ql ip _ _ _ _ _ _ (law_r3 ql ip hdf5 git Hg) ff fi fr tr Hf n y0 pre nm bs post st (conj H1 (conj H2 H3))).
Qed.
Print Assumptions C11_rb3d_resume.

(* ---- C48 ----
   Keep mode: once a snapshot has been written, it is intact at every later crash point (after any number [k] of the
   remaining file actions), whatever the file system held before. *)
Theorem C48_completed_snapshots_survive : forall (S : Type) with_imap hdf5 enc flow_free flow_impact flow_friction time_reached
    n (y : sys S) pre nm bs post st fs k,
  y_over y = false -> y_frame y + N.of_nat n + 2 < 2 ^ 32 ->
  exec with_imap hdf5 enc flow_free flow_impact flow_friction time_reached n y = (pre ++ ESnap nm bs :: post, st) ->
  after (flat_map actions (pre ++ [ESnap nm bs]) ++ firstn k (flat_map actions post)) fs nm = Some bs.
Proof. exact (fun S wi hdf5 enc ff fi fr tr n y pre nm bs post st fs k => completed_snapshots_survive wi hdf5 enc ff fi fr tr n y pre nm bs post st fs k). Qed.
Print Assumptions C48_completed_snapshots_survive.

(* Overwrite mode: every snapshot of the run is the same file, and while it is rewritten (crash after any strict prefix of
   [k] bytes) nothing readable is left. *)
Theorem C48_ball_overwrite_refuted : forall ql ip hdf5 git flow_free flow_impact flow_friction time_reached n y0 pre nm bs post st fs k,
  ok_string git -> ok_sys ok_b2_sim true hdf5 y0 -> known_sys ql ip umaps_b2 (fun s => ~ has_penalty_force s) y0 -> ~ unwritable_sys (fun _ => False) y0 ->
  flows_writable (writable ok_b2_sim (fun s => ~ has_penalty_force s) (fun _ => False)) flow_free flow_impact flow_friction ->
  y_over y0 = true ->
  exec true hdf5 (enc_sys_b2 hdf5 git) flow_free flow_impact flow_friction time_reached n y0 = (pre ++ ESnap nm bs :: post, st) ->
  (k < length bs)%nat ->
  exists j, (length (flat_map actions pre) < j)%nat /\
    let disk := after (firstn j (flat_map actions (pre ++ ESnap nm bs :: post))) fs in
    disk nm = Some (firstn k bs) /\ p_sys_b2 ql ip hdf5 (firstn k bs) = UB /\
    forall nm' bs', In (ESnap nm' bs') (pre ++ ESnap nm bs :: post) -> nm' = nm.
Proof.
  exact (fun ql ip hdf5 git ff fi fr tr n y0 pre nm bs post st fs k Hg H1 H2 H3 Hf =>
    overwrite_window true hdf5 ql ip _ _ _ _ _ _ (law_b2 ql ip hdf5 git Hg) ff fi fr tr Hf n y0 pre nm bs post st fs k (conj H1 (conj H2 H3))).
Qed.
Print Assumptions C48_ball_overwrite_refuted.
Theorem C48_rb2d_overwrite_refuted : forall ql ip hdf5 git flow_free flow_impact flow_friction time_reached n y0 pre nm bs post st fs k,
  ok_string git -> ok_sys ok_r2_sim true hdf5 y0 -> known_sys ql ip umaps_r2 (fun _ => True) y0 -> ~ unwritable_sys (fun _ => False) y0 ->
  flows_writable (writable ok_r2_sim (fun _ => True) (fun _ => False)) flow_free flow_impact flow_friction ->
  y_over y0 = true ->
  exec true hdf5 (enc_sys_r2 hdf5 git) flow_free flow_impact flow_friction time_reached n y0 = (pre ++ ESnap nm bs :: post, st) ->
  (k < length bs)%nat ->
  exists j, (length (flat_map actions pre) < j)%nat /\
    let disk := after (firstn j (flat_map actions (pre ++ ESnap nm bs :: post))) fs in
    disk nm = Some (firstn k bs) /\ p_sys_r2 ql ip hdf5 (firstn k bs) = UB /\
    forall nm' bs', In (ESnap nm' bs') (pre ++ ESnap nm bs :: post) -> nm' = nm.
Proof.
  exact (fun ql ip hdf5 git ff fi fr tr n y0 pre nm bs post st fs k Hg H1 H2 H3 Hf =>
    overwrite_window true hdf5 ql ip _ _ _ _ _ _ (law_r2 ql ip hdf5 git Hg) ff fi fr tr Hf n y0 pre nm bs post st fs k (conj H1 (conj H2 H3))).
Qed.
Print Assumptions C48_rb2d_overwrite_refuted.
Theorem C48_rb3d_overwrite_refuted : forall ql ip hdf5 git flow_free flow_impact flow_friction time_reached n y0 pre nm bs post st fs k,
  ok_string git -> ok_sys ok_r3_sim false hdf5 y0 -> known_sys ql ip umaps_r3 (fun _ => True) y0 -> ~ unwritable_sys has_staple y0 ->
  flows_writable (writable ok_r3_sim (fun _ => True) has_staple) flow_free flow_impact flow_friction ->
  y_over y0 = true ->
  exec false hdf5 (enc_sys_r3 hdf5 git) flow_free flow_impact flow_friction time_reached n y0 = (pre ++ ESnap nm bs :: post, st) ->
  (k < length bs)%nat ->
  exists j, (length (flat_map actions pre) < j)%nat /\
    let disk := after (firstn j (flat_map actions (pre ++ ESnap nm bs :: post))) fs in
    disk nm = Some (firstn k bs) /\ p_sys_r3 ql ip hdf5 (firstn k bs) = UB /\
    forall nm' bs', In (ESnap nm' bs') (pre ++ ESnap nm bs :: post) -> nm' = nm.
Proof.
  exact (fun ql ip hdf5 git ff fi fr tr n y0 pre nm bs post st fs k Hg H1 H2 H3 Hf =>
    overwrite_window false hdf5 ql ip _ _ _ _ _ _ (law_r3 ql ip hdf5 git Hg) ff fi fr tr Hf n y0 pre nm bs post st fs k (conj H1 (conj H2 H3))).
Qed.
Print Assumptions C48_rb3d_overwrite_refuted.

(* ---- a concrete run ---- a ball simulation with a stand-in integrator that swaps positions and velocities; it ends at
   iteration 3, one frame per step *)
Definition ex_flow (y : sys b2_sim) : outcome b2_sim :=
  let s := y_sim y in let t := b2_st s in
  Ok (mkB2Sim (mkB2State (b2s_v t) (b2s_q t) (b2s_r t) (b2s_fixed t) (b2s_M t) (b2s_Minv t) (b2s_drums t) (b2s_planes t) (b2s_portals t) (b2s_forces t)) (b2_ca s)).
Definition ex_friction (y : sys b2_sim) : outcome (b2_sim * ifmap) := Exit.
Definition ex_end (it num den : N) (e : scalar) : bool := 3 <=? it.
Definition ex_run_sys (forces over : bool) : sys b2_sim :=
  mkSys (ex_b2 (B2Gravity [0; 1])) 0 UVerlet 1 100 7 OpNull 5 FsNull 6 ImNull IfNull [97] [98] [99; 100] forces 1 0 3 2 true over.
Notation ex_run forces over n := (exec true true (enc_sys_b2 true [103]) ex_flow ex_flow ex_friction ex_end n (ex_run_sys forces over)).
Notation ex_resume n bs := (resume true true (enc_sys_b2 true [103]) ex_flow ex_flow ex_friction ex_end (p_sys_b2 false false true) n bs).
Example ex_run_sys_ok : forall f o, let y := ex_run_sys f o in
  ok_sys ok_b2_sim true true y /\ known_sys false false umaps_b2 (fun s => ~ has_penalty_force s) y /\ ~ unwritable_sys (fun _ => False) y.
Proof.
  intros f o. split; [|split].
  - unfold ok_sys; cbn -[ok_b2_sim u32 u64 ok_string]. repeat split; try reflexivity; try discriminate; ok_crush.
  - unfold known_sys; cbn. repeat split; auto. intros H. inversion H as [? ? X|? ? X]; inversion X.
  - unfold unwritable_sys; cbn. tauto.
Qed.
Example ex_flows_writable : flows_writable (writable ok_b2_sim (fun s => ~ has_penalty_force s) (fun _ => False)) ex_flow ex_flow ex_friction.
Proof.
  assert (K : forall y s, writable ok_b2_sim (fun s => ~ has_penalty_force s) (fun _ => False) (y_sim y) -> ex_flow y = Ok s ->
     writable ok_b2_sim (fun s => ~ has_penalty_force s) (fun _ => False) s).
  { intros y s (H1 & H2 & H3) E. unfold ex_flow in E. injection E as <-. split; [|split; [exact H2|exact H3]].
    unfold ok_b2_sim, ok_b2_state in *. cbn [b2_st b2_ca b2s_q b2s_v b2s_r b2s_fixed b2s_M b2s_Minv b2s_drums b2s_planes b2s_portals b2s_forces] in *. tauto. }
  split; [exact K|]. split; [exact K|]. intros y s m _ E. discriminate.
Qed.
(* the run writes frames 0 to 3 and then ends *)
Example ex_run_frames : exists evs, ex_run false false 10 = (evs, SDone) /\
  map file_of evs = map (fun x => match x with EmptyString => None | _ => Some (to_bytes (lit x)) end)
    ["cd/config_00.h5"; "cd/serial_00.bin"; "cd/config_01.h5"; "cd/serial_01.bin"; "cd/config_02.h5"; "cd/serial_02.bin";
     "cd/config_03.h5"; "cd/serial_03.bin"; ""]%string.
Proof. eexists. split; vm_compute; reflexivity. Qed.
(* resuming the second snapshot *)
Example ex_run_split : exists pre nm bs post, ex_run false false 10 = (pre ++ ESnap nm bs :: post, SDone) /\
  nm = to_bytes (lit "cd/serial_01.bin") /\ length post = 5%nat.
Proof.
  eexists (firstn 3 (fst (ex_run false false 10))), _, _, (skipn 4 (fst (ex_run false false 10))). split; [|split].
  - vm_compute. reflexivity.
  - vm_compute. reflexivity.
  - vm_compute. reflexivity.
Qed.
(* in overwrite mode the names coincide *)
Example ex_run_overwrite : exists pre bs post, ex_run false true 10 = (pre ++ ESnap (to_bytes (lit "serial.bin")) bs :: post, SDone) /\
  length pre = 3%nat /\ (0 < length bs)%nat.
Proof.
  eexists (firstn 3 (fst (ex_run false true 10))), _, (skipn 4 (fst (ex_run false true 10))). split; [|split].
  - vm_compute. reflexivity.
  - vm_compute. reflexivity.
  - vm_compute. apply le_n_S, Nat.le_0_l.
Qed.
Definition ex_last := match last (removelast (fst (ex_run true false 10))) (EEndOfSim (ex_b2 (B2Gravity [0; 1]))) with ESnap nm bs => (nm, bs) | _ => ([], []) end.
Definition ex_final : b2_sim := ex_b2 (B2Gravity [0; 1]).
Lemma ex_forces_run : ex_run true false 10 = (firstn 13 (fst (ex_run true false 10)) ++ [ESnap (fst ex_last) (snd ex_last); EEndOfSim ex_final], SDone).
Proof. vm_compute. reflexivity. Qed.
Lemma ex_resume_0 : snd (ex_resume 0 (snd ex_last)) = SRunning.
Proof. vm_compute. reflexivity. Qed.
Lemma ex_resume_S m : length (fst (ex_resume (Datatypes.S m) (snd ex_last))) = 6%nat.
Proof. vm_compute. reflexivity. Qed.
Lemma ex_no_resume cfg m : cfg = [] \/ (exists c, cfg = [c]) -> ex_resume m (snd ex_last) <> (cfg ++ ESnap (fst ex_last) (snd ex_last) :: [EEndOfSim ex_final], SDone).
Proof.
  intros Hc E. destruct m as [|m].
  - pose proof ex_resume_0 as L. rewrite E in L. clear E. discriminate L.
  - pose proof (ex_resume_S m) as L. rewrite E in L. cbn [fst] in L. rewrite app_length in L. cbn [length] in L.
    clear E. destruct Hc as [-> | [c ->]]; discriminate L.
Qed.

(* C11, the exception: with forces output the run takes one step past the end time. Resuming from the snapshot of that
   extra step does not end the run: it takes one more step and writes one more frame. *)
Theorem C11_final_step_snapshot_refuted : exists ql ip git flow_free flow_impact flow_friction time_reached n y0 pre nm bs s,
  ok_string git /\ ok_sys ok_b2_sim true true y0 /\ known_sys ql ip umaps_b2 (fun s => ~ has_penalty_force s) y0 /\
  ~ unwritable_sys (fun _ => False) y0 /\
  flows_writable (writable ok_b2_sim (fun s => ~ has_penalty_force s) (fun _ => False)) flow_free flow_impact flow_friction /\
  exec true true (enc_sys_b2 true git) flow_free flow_impact flow_friction time_reached n y0 = (pre ++ [ESnap nm bs; EEndOfSim s], SDone) /\
  ~ resumes true (resume true true (enc_sys_b2 true git) flow_free flow_impact flow_friction time_reached (p_sys_b2 ql ip true))
      pre nm bs [EEndOfSim s] SDone.
Proof.
  exists false, false, [103], ex_flow, ex_flow, ex_friction, ex_end, 10%nat, (ex_run_sys true false).
  exists (firstn 13 (fst (ex_run true false 10))), (fst ex_last), (snd ex_last), ex_final.
  destruct (ex_run_sys_ok true false) as (H1 & H2 & H3).
  split; [vm_compute; auto|]. split; [exact H1|]. split; [exact H2|]. split; [exact H3|]. split; [exact ex_flows_writable|].
  split; [exact ex_forces_run|].
  intros (m & y1 & cfg & pre' & E & _ & Hc). apply (ex_no_resume cfg m); [|exact E].
  destruct Hc as [-> | ->]; [left; reflexivity|right; eauto].
Qed.
Print Assumptions C11_final_step_snapshot_refuted.
