(* C06-C09, C42: snapshots of the three simulators. *)
From Coq Require Import ZArith NArith List Lia.
From Verif Require Import Outcome Codec_Model Codec_Spec Codec_Proofs SnapBall_Model SnapRb2_Model SnapRb3_Model Snap_Spec Snap_Proofs.
Import ListNotations.
Open Scope N_scope.

(* C06. What was written is read back, bit for bit, and exactly those bytes are consumed. *)
Theorem C06_ball_round_trip : forall s rest, ok_b2_sim s -> ~ has_penalty_force s ->
  p_b2_sim (enc_b2_sim s ++ rest) = Ok (s, rest).
Proof. exact (fun s rest H Hn => proj1 (reads_b2_sim s H Hn) rest). Qed.
Print Assumptions C06_ball_round_trip.

(* C06. The exception: with a penalty force among the forces the program ends when reading. *)
Theorem C06_penalty_force_not_restored_refuted : forall s rest, ok_b2_sim s -> has_penalty_force s ->
  p_b2_sim (enc_b2_sim s ++ rest) = Exit.
Proof. exact (fun s rest H Hp => exits_b2_sim s H Hp rest). Qed.
Print Assumptions C06_penalty_force_not_restored_refuted.

(* C07 *)
Theorem C07_rb2d_round_trip : forall s rest, ok_r2_sim s -> p_r2_sim (enc_r2_sim s ++ rest) = Ok (s, rest).
Proof. exact (fun s rest H => proj1 (reads_r2_sim s H) rest). Qed.
Print Assumptions C07_rb2d_round_trip.

(* C08. Without staples writing succeeds and reading returns the state. *)
Theorem C08_rb3d_round_trip : forall s, ok_r3_sim s -> ~ has_staple s ->
  exists bs, enc_r3_sim s = Ok bs /\ forall rest, p_r3_sim (bs ++ rest) = Ok (s, rest).
Proof.
  exact (fun s H Hs => match enc_r3_sim_total s Hs with ex_intro _ bs E => ex_intro _ bs (conj E (proj1 (reads_r3_sim s bs H E))) end).
Qed.
Print Assumptions C08_rb3d_round_trip.

(* C08. With a staple the program ends when writing. *)
Theorem C08_staple_terminates : forall s, has_staple s -> enc_r3_sim s = Exit.
Proof. exact enc_r3_sim_staple. Qed.
Print Assumptions C08_staple_terminates.

(* C09. A strict prefix of a snapshot is never decoded (the reader uses data it never received). *)
Theorem C09_ball_truncated : forall s front back, ok_b2_sim s -> ~ has_penalty_force s ->
  enc_b2_sim s = front ++ back -> back <> [] -> p_b2_sim front = UB.
Proof. exact (fun s f b H Hn => proj2 (reads_b2_sim s H Hn) f b). Qed.
Print Assumptions C09_ball_truncated.
Theorem C09_rb2d_truncated : forall s front back, ok_r2_sim s ->
  enc_r2_sim s = front ++ back -> back <> [] -> p_r2_sim front = UB.
Proof. exact (fun s f b H => proj2 (reads_r2_sim s H) f b). Qed.
Print Assumptions C09_rb2d_truncated.
Theorem C09_rb3d_truncated : forall s bs front back, ok_r3_sim s -> enc_r3_sim s = Ok bs ->
  bs = front ++ back -> back <> [] -> p_r3_sim front = UB.
Proof. exact (fun s bs f b H E => proj2 (reads_r3_sim s bs H E) f b). Qed.
Print Assumptions C09_rb3d_truncated.

(* C09. Two different states never have the same snapshot, and none is a prefix of the other's. *)
Theorem C09_ball_injective : forall s1 s2 rest1 rest2, ok_b2_sim s1 -> ~ has_penalty_force s1 ->
  ok_b2_sim s2 -> ~ has_penalty_force s2 -> enc_b2_sim s1 ++ rest1 = enc_b2_sim s2 ++ rest2 -> s1 = s2 /\ rest1 = rest2.
Proof.
  exact (fun s1 s2 r1 r2 H1 N1 H2 N2 => reads_prefix_free p_b2_sim _ s1 _ s2 r1 r2 (reads_b2_sim s1 H1 N1) (reads_b2_sim s2 H2 N2)).
Qed.
Print Assumptions C09_ball_injective.
Theorem C09_rb2d_injective : forall s1 s2 rest1 rest2, ok_r2_sim s1 -> ok_r2_sim s2 ->
  enc_r2_sim s1 ++ rest1 = enc_r2_sim s2 ++ rest2 -> s1 = s2 /\ rest1 = rest2.
Proof.
  exact (fun s1 s2 r1 r2 H1 H2 => reads_prefix_free p_r2_sim _ s1 _ s2 r1 r2 (reads_r2_sim s1 H1) (reads_r2_sim s2 H2)).
Qed.
Print Assumptions C09_rb2d_injective.
Theorem C09_rb3d_injective : forall s1 s2 b1 b2 rest1 rest2, ok_r3_sim s1 -> ok_r3_sim s2 ->
  enc_r3_sim s1 = Ok b1 -> enc_r3_sim s2 = Ok b2 -> b1 ++ rest1 = b2 ++ rest2 -> s1 = s2 /\ rest1 = rest2.
Proof.
  exact (fun s1 s2 b1 b2 r1 r2 H1 H2 E1 E2 => reads_prefix_free p_r3_sim b1 s1 b2 s2 r1 r2 (reads_r3_sim s1 b1 H1 E1) (reads_r3_sim s2 b2 H2 E2)).
Qed.
Print Assumptions C09_rb3d_injective.

(* C42. Dense vectors, 3 x n matrices, compressed sparse matrices, caches. *)
Theorem C42_dense_vector_round_trip : forall l rest, ok_vecx l -> p_vecx (enc_vecx l ++ rest) = Ok (l, rest).
Proof. exact (fun l rest H => proj1 (reads_vecx l H) rest). Qed.
Print Assumptions C42_dense_vector_round_trip.
Theorem C42_dense_matrix_round_trip : forall m rest, ok_vec (ok_fix 3) m -> p_mat3x (enc_mat3x m ++ rest) = Ok (m, rest).
Proof. exact (fun l rest H => proj1 (reads_mat3x l H) rest). Qed.
Print Assumptions C42_dense_matrix_round_trip.
Theorem C42_sparse_round_trip : forall a rest, ok_sparse a -> p_sparse (enc_sparse a ++ rest) = Ok (a, rest).
Proof. exact (fun a rest H => proj1 (reads_sparse a H) rest). Qed.
Print Assumptions C42_sparse_round_trip.
Theorem C42_sparse_truncated : forall a front back, ok_sparse a -> enc_sparse a = front ++ back -> back <> [] -> p_sparse front = UB.
Proof. exact (fun a f b H => proj2 (reads_sparse a H) f b). Qed.
Print Assumptions C42_sparse_truncated.

(* ---- concrete states meeting the hypotheses ---- *)
Definition ex_diag2 : sparse := mkSparse 2 2 [0; 1] [0; 1; 2] [4607182418800017408; 4611686018427387904].
Definition ex_b2_plane := mkB2Plane [1;2] [3;4] [5;6] [7;8].
Definition ex_cache : kmap (list scalar) := [((0,1), [77]); ((0,2), [78;79]); ((1,2), [])].
Definition ex_b2 (f : b2_force) : b2_sim :=
  mkB2Sim (mkB2State [1;2] [3;4] [5] [true] ex_diag2 ex_diag2 [mkB2Drum [1;2] 9] [ex_b2_plane]
             [mkB2Portal ex_b2_plane ex_b2_plane 1 2 3] [f])
          (mkB2Cache ex_cache [] ex_cache).
Ltac ok_crush := repeat match goal with
  | |- _ /\ _ => split
  | |- Forall _ _ => constructor
  | |- True => exact I
  | |- _ = _ => reflexivity
  | |- _ < _ => reflexivity
  | |- key_lt _ _ => vm_compute; first [left; reflexivity | right; split; reflexivity]
  | _ => progress (unfold ok_b2_sim, ok_b2_state, ok_b2_cache, ok_b2_plane, ok_b2_drum, ok_b2_portal, ok_b2_force,
      ok_r2_sim, ok_r2_state, ok_r2_cache, ok_r2_plane, ok_r2_portal, ok_r2_geo, ok_r2_force,
      ok_r3_sim, ok_r3_state, ok_r3_cache, ok_r3_plane, ok_r3_portal, ok_r3_geo, ok_r3_force, ok_r3_cyl, ok_r3_mesh,
      ok_sparse, ok_vecx, ok_vecxu, ok_vec, ok_fix, ok_fix32, ok_string, ok_cache, ok_entry, sized, u8, u32, u64)
  | _ => progress cbn
  end.
Example ex_b2_ok : ok_b2_sim (ex_b2 (B2Gravity [0; 13847160077856899072])) /\
  ~ has_penalty_force (ex_b2 (B2Gravity [0; 13847160077856899072])).
Proof. split; [ok_crush|]. intros H. inversion H as [? ? X|? ? X]; inversion X. Qed.
Example ex_b2_penalty : ok_b2_sim (ex_b2 (B2Penalty 1 2)) /\ has_penalty_force (ex_b2 (B2Penalty 1 2)).
Proof. split; [ok_crush|]. constructor. exact I. Qed.

Definition ex_r2_plane := mkR2Plane [1;2] [3;4] [5;6] [7;8] 9.
Definition ex_diag3 : sparse := mkSparse 3 3 [0; 1; 2] [0; 1; 2; 3] [1; 2; 3].
Definition ex_r2 : r2_sim :=
  mkR2Sim (mkR2State [1;2;3] [4;5;6] ex_diag3 ex_diag3 [false] [1] [R2Circle 4; R2Box [5;6]] [R2Gravity [0;1]]
             [ex_r2_plane] [mkR2Portal ex_r2_plane ex_r2_plane 1 2 3])
          (mkR2Cache ex_cache ex_cache [] []).
Example ex_r2_ok : ok_r2_sim ex_r2.
Proof. ok_crush. Qed.

Definition ex_r3_plane := mkR3Plane [1;2;3] [3;4;5] [5;6;7] [7;8;9].
Definition ex_mesh : r3_mesh :=
  mkR3Mesh [104; 105] [[1;2;3]] [[0;0;0]] 1 [1;2;3] [1;2;3] [1;2;3;4;5;6;7;8;9] [[1;2;3]; [4;5;6]] [] [1;1;1] [2;2;2] [0;0;0]
    [1;2;3;4;5;6;7;8] [1;1;1].
Definition ex_r3 (gs : list r3_geo) : r3_sim :=
  mkR3Sim (mkR3State 1 [1;2;3] [4;5;6] ex_diag3 ex_diag3 ex_diag3 ex_diag3 [false] gs [0] [R3Gravity [0;1;2]]
             [ex_r3_plane] [mkR3Cyl [1;2;3] [1;2;3] 4 [1;2;3] [1;2;3] 5] [mkR3Portal ex_r3_plane ex_r3_plane [1;0;4294967295]]
             1 [1;2;3] [4;5;6])
          (mkR3Cache ex_cache [] ex_cache []).
Example ex_r3_ok : ok_r3_sim (ex_r3 [R3Mesh ex_mesh; R3Box [1;2;3]; R3Sphere 1]) /\
  ~ has_staple (ex_r3 [R3Mesh ex_mesh; R3Box [1;2;3]; R3Sphere 1]).
Proof. split; [ok_crush|]. cbn. intuition discriminate. Qed.
Example ex_r3_staple : has_staple (ex_r3 [R3Sphere 1; R3Staple]).
Proof. cbn. auto. Qed.
