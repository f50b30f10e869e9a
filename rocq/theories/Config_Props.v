(* C09, C10, C47: the snapshot file of the three command line tools. *)
From Coq Require Import ZArith NArith List.
From Verif Require Import Outcome Codec_Model Codec_Spec Codec_Proofs SnapBall_Model SnapRb2_Model SnapRb3_Model Snap_Spec Snap_Proofs Snap_Props
  Config_Model Config_Spec Config_Proofs.
Import ListNotations.
Open Scope N_scope.

(* [ql], [ip], [hdf5]: optional components of the build; [git]: the revision string written into the file.
   [known_sys] (Config_Spec.v) lists what the readers can construct, [unwritable_sys] what the writers refuse. *)

(* ---- ball ---- *)
Theorem C10_ball_known_resumes : forall ql ip hdf5 git y, ok_string git ->
  ok_sys ok_b2_sim true hdf5 y -> known_sys ql ip umaps_b2 (fun s => ~ has_penalty_force s) y -> ~ unwritable_sys (fun _ => False) y ->
  exists bs, enc_sys_b2 hdf5 git y = Ok bs /\ forall rest, p_sys_b2 ql ip hdf5 (bs ++ rest) = Ok (y, rest).
Proof.
  exact (fun ql ip hdf5 git y Hg H1 H2 H3 => match proj1 (law_b2 ql ip hdf5 git Hg) y H1 H2 H3 with
    ex_intro _ bs (conj E (conj R _)) => ex_intro _ bs (conj E R) end).
Qed.
Print Assumptions C10_ball_known_resumes.
Theorem C10_ball_unknown_terminates : forall ql ip hdf5 git y, ok_string git ->
  ok_sys ok_b2_sim true hdf5 y -> ~ known_sys ql ip umaps_b2 (fun s => ~ has_penalty_force s) y -> ~ unwritable_sys (fun _ => False) y ->
  exists bs, enc_sys_b2 hdf5 git y = Ok bs /\ forall rest, p_sys_b2 ql ip hdf5 (bs ++ rest) = Exit.
Proof. exact (fun ql ip hdf5 git y Hg => proj1 (proj2 (law_b2 ql ip hdf5 git Hg)) y). Qed.
Print Assumptions C10_ball_unknown_terminates.
Theorem C10_ball_unwritable_terminates : forall hdf5 git y, ok_string git ->
  unwritable_sys (fun _ => False) y -> enc_sys_b2 hdf5 git y = Exit.
Proof. exact (fun hdf5 git y Hg => proj2 (proj2 (law_b2 true true hdf5 git Hg)) y). Qed.
Print Assumptions C10_ball_unwritable_terminates.
Theorem C09_ball_file_truncated : forall ql ip hdf5 git y bs front back, ok_string git ->
  ok_sys ok_b2_sim true hdf5 y -> known_sys ql ip umaps_b2 (fun s => ~ has_penalty_force s) y -> ~ unwritable_sys (fun _ => False) y ->
  enc_sys_b2 hdf5 git y = Ok bs -> bs = front ++ back -> back <> [] -> p_sys_b2 ql ip hdf5 front = UB.
Proof.
  exact (fun ql ip hdf5 git y bs front back Hg H1 H2 H3 E => match proj1 (law_b2 ql ip hdf5 git Hg) y H1 H2 H3 with
    ex_intro _ bs' (conj E' (conj _ C)) => fun Eb => C front back (eq_trans (Ok_inj _ _ (eq_trans (eq_sym E') E)) Eb) end).
Qed.
Print Assumptions C09_ball_file_truncated.

(* ---- rb2d ---- *)
Theorem C10_rb2d_known_resumes : forall ql ip hdf5 git y, ok_string git ->
  ok_sys ok_r2_sim true hdf5 y -> known_sys ql ip umaps_r2 (fun _ => True) y -> ~ unwritable_sys (fun _ => False) y ->
  exists bs, enc_sys_r2 hdf5 git y = Ok bs /\ forall rest, p_sys_r2 ql ip hdf5 (bs ++ rest) = Ok (y, rest).
Proof.
  exact (fun ql ip hdf5 git y Hg H1 H2 H3 => match proj1 (law_r2 ql ip hdf5 git Hg) y H1 H2 H3 with
    ex_intro _ bs (conj E (conj R _)) => ex_intro _ bs (conj E R) end).
Qed.
Print Assumptions C10_rb2d_known_resumes.
Theorem C10_rb2d_unknown_terminates : forall ql ip hdf5 git y, ok_string git ->
  ok_sys ok_r2_sim true hdf5 y -> ~ known_sys ql ip umaps_r2 (fun _ => True) y -> ~ unwritable_sys (fun _ => False) y ->
  exists bs, enc_sys_r2 hdf5 git y = Ok bs /\ forall rest, p_sys_r2 ql ip hdf5 (bs ++ rest) = Exit.
Proof. exact (fun ql ip hdf5 git y Hg => proj1 (proj2 (law_r2 ql ip hdf5 git Hg)) y). Qed.
Print Assumptions C10_rb2d_unknown_terminates.
Theorem C10_rb2d_unwritable_terminates : forall hdf5 git y, ok_string git ->
  unwritable_sys (fun _ => False) y -> enc_sys_r2 hdf5 git y = Exit.
Proof. exact (fun hdf5 git y Hg => proj2 (proj2 (law_r2 true true hdf5 git Hg)) y). Qed.
Print Assumptions C10_rb2d_unwritable_terminates.
Theorem C09_rb2d_file_truncated : forall ql ip hdf5 git y bs front back, ok_string git ->
  ok_sys ok_r2_sim true hdf5 y -> known_sys ql ip umaps_r2 (fun _ => True) y -> ~ unwritable_sys (fun _ => False) y ->
  enc_sys_r2 hdf5 git y = Ok bs -> bs = front ++ back -> back <> [] -> p_sys_r2 ql ip hdf5 front = UB.
Proof.
  exact (fun ql ip hdf5 git y bs front back Hg H1 H2 H3 E => match proj1 (law_r2 ql ip hdf5 git Hg) y H1 H2 H3 with
    ex_intro _ bs' (conj E' (conj _ C)) => fun Eb => C front back (eq_trans (Ok_inj _ _ (eq_trans (eq_sym E') E)) Eb) end).
Qed.
Print Assumptions C09_rb2d_file_truncated.

(* ---- rb3d ---- *)
Theorem C10_rb3d_known_resumes : forall ql ip hdf5 git y, ok_string git ->
  ok_sys ok_r3_sim false hdf5 y -> known_sys ql ip umaps_r3 (fun _ => True) y -> ~ unwritable_sys has_staple y ->
  exists bs, enc_sys_r3 hdf5 git y = Ok bs /\ forall rest, p_sys_r3 ql ip hdf5 (bs ++ rest) = Ok (y, rest).
Proof.
  exact (fun ql ip hdf5 git y Hg H1 H2 H3 => match proj1 (law_r3 ql ip hdf5 git Hg) y H1 H2 H3 with
    ex_intro _ bs (conj E (conj R _)) => ex_intro _ bs (conj E R) end).
Qed.
Print Assumptions C10_rb3d_known_resumes.
Theorem C10_rb3d_unknown_terminates : forall ql ip hdf5 git y, ok_string git ->
  ok_sys ok_r3_sim false hdf5 y -> ~ known_sys ql ip umaps_r3 (fun _ => True) y -> ~ unwritable_sys has_staple y ->
  exists bs, enc_sys_r3 hdf5 git y = Ok bs /\ forall rest, p_sys_r3 ql ip hdf5 (bs ++ rest) = Exit.
Proof. exact (fun ql ip hdf5 git y Hg => proj1 (proj2 (law_r3 ql ip hdf5 git Hg)) y). Qed.
Print Assumptions C10_rb3d_unknown_terminates.
Theorem C10_rb3d_unwritable_terminates : forall hdf5 git y, ok_string git ->
  unwritable_sys has_staple y -> enc_sys_r3 hdf5 git y = Exit.
Proof. exact (fun hdf5 git y Hg => proj2 (proj2 (law_r3 true true hdf5 git Hg)) y). Qed.
Print Assumptions C10_rb3d_unwritable_terminates.
Theorem C09_rb3d_file_truncated : forall ql ip hdf5 git y bs front back, ok_string git ->
  ok_sys ok_r3_sim false hdf5 y -> known_sys ql ip umaps_r3 (fun _ => True) y -> ~ unwritable_sys has_staple y ->
  enc_sys_r3 hdf5 git y = Ok bs -> bs = front ++ back -> back <> [] -> p_sys_r3 ql ip hdf5 front = UB.
Proof.
  exact (fun ql ip hdf5 git y bs front back Hg H1 H2 H3 E => match proj1 (law_r3 ql ip hdf5 git Hg) y H1 H2 H3 with
    ex_intro _ bs' (conj E' (conj _ C)) => fun Eb => C front back (eq_trans (Ok_inj _ _ (eq_trans (eq_sym E') E)) Eb) end).
Qed.
Print Assumptions C09_rb3d_file_truncated.

(* ---- files of the other tools ---- *)
Theorem C47_ball_file_refused_by_rb2d : forall ql ip hdf5 hdf5' git y bs rest,
  enc_sys_b2 hdf5 git y = Ok bs -> p_sys_r2 ql ip hdf5' (bs ++ rest) = Exit.
Proof. exact (fun ql ip hdf5 hdf5' git y bs rest => wrong_magic _ _ _ _ _ _ _ _ _ _ _ _ _ _ _ (proj1 magics) (proj1 magics_differ)). Qed.
Print Assumptions C47_ball_file_refused_by_rb2d.
Theorem C47_ball_file_refused_by_rb3d : forall ql ip hdf5 hdf5' git y bs rest,
  enc_sys_b2 hdf5 git y = Ok bs -> p_sys_r3 ql ip hdf5' (bs ++ rest) = Exit.
Proof. exact (fun ql ip hdf5 hdf5' git y bs rest => wrong_magic _ _ _ _ _ _ _ _ _ _ _ _ _ _ _ (proj1 magics) (proj1 (proj2 magics_differ))). Qed.
Print Assumptions C47_ball_file_refused_by_rb3d.
Theorem C47_rb2d_file_refused_by_ball : forall ql ip hdf5 hdf5' git y bs rest,
  enc_sys_r2 hdf5 git y = Ok bs -> p_sys_b2 ql ip hdf5' (bs ++ rest) = Exit.
Proof. exact (fun ql ip hdf5 hdf5' git y bs rest => wrong_magic _ _ _ _ _ _ _ _ _ _ _ _ _ _ _ (proj1 (proj2 magics)) (not_eq_sym (proj1 magics_differ))). Qed.
Print Assumptions C47_rb2d_file_refused_by_ball.
Theorem C47_rb2d_file_refused_by_rb3d : forall ql ip hdf5 hdf5' git y bs rest,
  enc_sys_r2 hdf5 git y = Ok bs -> p_sys_r3 ql ip hdf5' (bs ++ rest) = Exit.
Proof. exact (fun ql ip hdf5 hdf5' git y bs rest => wrong_magic _ _ _ _ _ _ _ _ _ _ _ _ _ _ _ (proj1 (proj2 magics)) (proj2 (proj2 magics_differ))). Qed.
Print Assumptions C47_rb2d_file_refused_by_rb3d.
Theorem C47_rb3d_file_refused_by_ball : forall ql ip hdf5 hdf5' git y bs rest,
  enc_sys_r3 hdf5 git y = Ok bs -> p_sys_b2 ql ip hdf5' (bs ++ rest) = Exit.
Proof. exact (fun ql ip hdf5 hdf5' git y bs rest => wrong_magic _ _ _ _ _ _ _ _ _ _ _ _ _ _ _ (proj2 (proj2 magics)) (not_eq_sym (proj1 (proj2 magics_differ)))). Qed.
Print Assumptions C47_rb3d_file_refused_by_ball.
Theorem C47_rb3d_file_refused_by_rb2d : forall ql ip hdf5 hdf5' git y bs rest,
  enc_sys_r3 hdf5 git y = Ok bs -> p_sys_r2 ql ip hdf5' (bs ++ rest) = Exit.
Proof. exact (fun ql ip hdf5 hdf5' git y bs rest => wrong_magic _ _ _ _ _ _ _ _ _ _ _ _ _ _ _ (proj2 (proj2 magics)) (not_eq_sym (proj2 (proj2 magics_differ)))). Qed.
Print Assumptions C47_rb3d_file_refused_by_rb2d.

(* ---- configurations a user can choose in a scene file that cannot be resumed ---- *)
Theorem C10_not_resumable_refuted :
  (forall ql ip k y, y_umap y = USymplecticEuler \/ y_umap y = UNull -> ~ known_sys (S := b2_sim) ql ip umaps_b2 k y) /\
  (forall ql ip k y, y_umap y = UNull -> ~ known_sys (S := r2_sim) ql ip umaps_r2 k y) /\
  (forall ql ip k y, y_umap y = UExpEuler -> ~ known_sys (S := r3_sim) ql ip umaps_r3 k y) /\
  (forall (S : Type) ql ip u k (y : sys S) io fo, y_fsolver y = FsGRRFriction io fo -> ~ known_sys ql ip u k y) /\
  (forall (S : Type) un (y : sys S) t, y_impop y = OpJacobi t \/ y_impop y = OpQLVP t -> unwritable_sys un y).
Proof. exact not_resumable. Qed.
Print Assumptions C10_not_resumable_refuted.

(* ---- concrete systems meeting the hypotheses ---- *)
Definition ex_sys {S} (s : S) (u : umap) (o : impop) (f : fsolver) (im : imap) : sys S :=
  mkSys s 12 u 1 100 4611686018427387904 o 5 f 6 im (IfGeometric [1;2] 3 4 1) [97] [98] [99; 100] true 10 2 3 4 true false.
Definition ex_op : impop := OpGR 1 (OpGRR (OpAPGD 2 3) (OpQL 4)).
Definition ex_fs : fsolver := FsStaggered true false (OpAPGD 7 8) (FoLinear 4 9).
Example ex_sys_b2_ok : let y := ex_sys (ex_b2 (B2Gravity [0; 1])) UVerlet ex_op ex_fs (ImMap true) in
  ok_sys ok_b2_sim true true y /\ known_sys true false umaps_b2 (fun s => ~ has_penalty_force s) y /\ ~ unwritable_sys (fun _ => False) y.
Proof.
  split; [|split].
  - unfold ok_sys; cbn -[ok_b2_sim u32 u64 ok_string]. repeat split; try reflexivity; try discriminate; ok_crush.
  - unfold known_sys; cbn. repeat split; auto. intros H. inversion H as [? ? X|? ? X]; inversion X.
  - unfold unwritable_sys; cbn. tauto.
Qed.
Example ex_sys_b2_unknown : let y := ex_sys (ex_b2 (B2Gravity [0; 1])) USymplecticEuler ex_op ex_fs (ImMap true) in
  ok_sys ok_b2_sim true true y /\ ~ known_sys true false umaps_b2 (fun s => ~ has_penalty_force s) y /\ ~ unwritable_sys (fun _ => False) y.
Proof.
  split; [|split].
  - unfold ok_sys; cbn -[ok_b2_sim u32 u64 ok_string]. repeat split; try reflexivity; try discriminate; ok_crush.
  - unfold known_sys; cbn. intuition discriminate.
  - unfold unwritable_sys; cbn. tauto.
Qed.
Example ex_sys_r2_ok : let y := ex_sys ex_r2 USymplecticEuler ex_op ex_fs ImNull in
  ok_sys ok_r2_sim true true y /\ known_sys true false umaps_r2 (fun _ => True) y /\ ~ unwritable_sys (fun _ => False) y.
Proof.
  split; [|split].
  - unfold ok_sys; cbn -[ok_r2_sim u32 u64 ok_string]. repeat split; try reflexivity; try discriminate; ok_crush.
  - unfold known_sys; cbn. repeat split; auto.
  - unfold unwritable_sys; cbn. tauto.
Qed.
Example ex_sys_r3_ok : let y := ex_sys (ex_r3 [R3Mesh ex_mesh; R3Sphere 1]) UDMV ex_op ex_fs ImNull in
  ok_sys ok_r3_sim false true y /\ known_sys true false umaps_r3 (fun _ => True) y /\ ~ unwritable_sys has_staple y.
Proof.
  split; [|split].
  - unfold ok_sys; cbn -[ok_r3_sim u32 u64 ok_string]. repeat split; try reflexivity; try discriminate; ok_crush.
  - unfold known_sys; cbn. repeat split; auto.
  - unfold unwritable_sys; cbn. intuition discriminate.
Qed.
Example ex_sys_unwritable : unwritable_sys (fun _ => False) (ex_sys ex_r2 UVerlet (OpGRR OpNull (OpJacobi 3)) FsNull ImNull).
Proof. right. left. cbn. auto. Qed.
