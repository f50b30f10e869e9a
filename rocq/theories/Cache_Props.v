(* C21, C22: the impulse caches and warm starting. *)
From Coq Require Import List NArith Reals Bool Lia Lra.
From Verif Require Import Outcome Codec_Model Codec_Spec Lin_Model Cache_Model Cache_Spec Cache_Proofs Cache_Thms.
Import ListNotations.
Open Scope N_scope.

(* ---------- C21 ---------- *)
Theorem C21_ball_cache_is_a_map : forall A (zero : A), behaves_as_map zero good_ball same_ball (ball_ops A zero).
Proof. intros A. exact ball_map. Qed.
Print Assumptions C21_ball_cache_is_a_map.
Theorem C21_rb2_cache_is_a_map : forall A (zero : A), behaves_as_map zero good_rb2 same_rb2 (rb2_ops A zero).
Proof. intros A. exact rb2_map. Qed.
Print Assumptions C21_rb2_cache_is_a_map.
Theorem C21_rb3_cache_is_a_map : forall A (zero : A), behaves_as_map zero good_rb3 same_rb3 (rb3_ops A zero).
Proof. intros A. exact rb3_map. Qed.
Print Assumptions C21_rb3_cache_is_a_map.

(* the kinds of contact the caches do not know end the program, on storing and on reading *)
Theorem C21_unsupported : forall A (zero : A) r n,
  (forall c t, supported_ball c = false -> op_put (ball_ops A zero) c r t = Exit /\ op_get (ball_ops A zero) c n t = Exit) /\
  (forall c t, supported_rb2 c = false -> op_put (rb2_ops A zero) c r t = Exit /\ op_get (rb2_ops A zero) c n t = Exit) /\
  (forall c t, supported_rb3 c = false -> op_put (rb3_ops A zero) c r t = Exit /\ op_get (rb3_ops A zero) c n t = Exit).
Proof.
  intros A zero r n. split; [|split]; intros c t; [apply ball_unsupported|apply rb2_unsupported|apply rb3_unsupported].
Qed.
Print Assumptions C21_unsupported.

(* the maps written to a snapshot have strictly increasing keys, as a snapshot requires *)
Theorem C21_ball_sorted : forall A (zero : A) (h : list (call A ball_contact)) t0 t, all_good good_ball h ->
  replay (ball_ops A zero) h (op_clear (ball_ops A zero) t0) = Ok t ->
  sorted_keys (bc_ball_ball A t) /\ sorted_keys (bc_plane_ball A t) /\ sorted_keys (bc_drum_ball A t).
Proof. intros A. exact ball_sorted. Qed.
Print Assumptions C21_ball_sorted.
Theorem C21_rb2_sorted : forall A (zero : A) (h : list (call A rb2_contact)) t0 t, all_good good_rb2 h ->
  replay (rb2_ops A zero) h (op_clear (rb2_ops A zero) t0) = Ok t ->
  sorted_keys (rc2_circle_circle A t) /\ sorted_keys (rc2_body_body A t) /\
  sorted_keys (rc2_kin_circle A t) /\ sorted_keys (rc2_plane_circle A t).
Proof. intros A. exact rb2_sorted. Qed.
Print Assumptions C21_rb2_sorted.
Theorem C21_rb3_sorted : forall A (zero : A) (h : list (call A rb3_contact)) t0 t, all_good good_rb3 h ->
  replay (rb3_ops A zero) h (op_clear (rb3_ops A zero) t0) = Ok t ->
  sorted_keys (rc3_sphere_sphere A t) /\ sorted_keys (rc3_plane_sphere A t) /\
  sorted_keys (rc3_cylinder_sphere A t) /\ sorted_keys (rc3_kin_sphere A t).
Proof. intros A. exact rb3_sorted. Qed.
Print Assumptions C21_rb3_sorted.

(* a concrete history: two contacts stored, a clear, one stored again *)
Definition some_history : list (call N ball_contact) :=
  [Put (BallBall 1 2) [7]; Put (BallPlane 0 2) [8]; Clear; Put (BallBall 1 2) [9]; Put (BallDrum 0 1) [5]].
Example some_history_good : all_good good_ball some_history.
Proof. repeat constructor. Qed.
Example some_history_answers : forall t0, exists t,
  replay (ball_ops N 0) some_history (op_clear (ball_ops N 0) t0) = Ok t /\
  op_get (ball_ops N 0) (BallBall 1 2) 1 t = Ok [9] /\ op_get (ball_ops N 0) (BallPlane 0 2) 1 t = Ok [0] /\
  op_get (ball_ops N 0) (BallDrum 0 1) 1 t = Ok [5] /\ op_empty (ball_ops N 0) t = false.
Proof. intros t0. eexists. repeat split; reflexivity. Qed.

(* ---------- C22 ---------- *)
Theorem C22_impact_map : forall A (zero : A),
  warm_starts good_ball same_ball zero (fun a => a) (op_clear (ball_ops A zero)) (impact_map_step A zero (ball_ops A zero) true) /\
  warm_starts good_rb2 same_rb2 zero (fun a => a) (op_clear (rb2_ops A zero)) (impact_map_step A zero (rb2_ops A zero) true) /\
  warm_starts good_rb3 same_rb3 zero (fun a => a) (op_clear (rb3_ops A zero)) (impact_map_step A zero (rb3_ops A zero) true).
Proof. intros A zero. exact (conj (ball_impact_warm zero) (conj (rb2_impact_warm zero) (rb3_impact_warm zero))). Qed.
Print Assumptions C22_impact_map.

Theorem C22_normal_mode : forall A (zero : A) three_d,
  warm_starts good_ball same_ball (zero, zero) (fun ab => (fst ab, zero)) (op_clear (ball_ops A zero))
    (friction_map_step A zero (ball_ops A zero) CacheNormal three_d) /\
  warm_starts good_rb2 same_rb2 (zero, zero) (fun ab => (fst ab, zero)) (op_clear (rb2_ops A zero))
    (friction_map_step A zero (rb2_ops A zero) CacheNormal three_d) /\
  warm_starts good_rb3 same_rb3 (zero, zero) (fun ab => (fst ab, zero)) (op_clear (rb3_ops A zero))
    (friction_map_step A zero (rb3_ops A zero) CacheNormal three_d).
Proof. intros A zero d3. exact (conj (ball_normal_warm zero d3) (conj (rb2_normal_warm zero d3) (rb3_normal_warm zero d3))). Qed.
Print Assumptions C22_normal_mode.

Theorem C22_planar_friction_mode : forall A (zero : A),
  warm_starts good_ball same_ball (zero, zero) (fun ab => ab) (op_clear (ball_ops A zero))
    (friction_map_step A zero (ball_ops A zero) CacheNormalAndFriction false) /\
  warm_starts good_rb2 same_rb2 (zero, zero) (fun ab => ab) (op_clear (rb2_ops A zero))
    (friction_map_step A zero (rb2_ops A zero) CacheNormalAndFriction false).
Proof. intros A zero. exact (conj (ball_planar_warm zero) (rb2_planar_warm zero)). Qed.
Print Assumptions C22_planar_friction_mode.

(* three dimensions: the guess has the previous normal impulse and a friction impulse of the
   previous size; where the contact normal has not moved it is the very same force *)
Theorem C22_spatial_friction_mode : forall steps t0 basis0, good_steps3 same_rb3 good_rb3 steps ->
  exists logs t, run_steps3 (spatial_step (rb3_ops R 0%R) from_two_vectors) steps (op_clear (rb3_ops R 0%R) t0) = Ok (logs, t) /\
    logged3 steps logs /\ well_started3 same_rb3 basis0 [] logs.
Proof. exact rb3_spatial_warm. Qed.
Print Assumptions C22_spatial_friction_mode.
Theorem C22_from_two_vectors : turns from_two_vectors.
Proof. exact from_two_vectors_turns. Qed.
Print Assumptions C22_from_two_vectors.

(* without warm starting every guess is zero and nothing is stored *)
Theorem C22_cold_start : forall A (zero : A) C T (ops : cache_ops A C T) solve active t,
  exists y, impact_map_step A zero ops false solve active t = Ok (repeat zero (length active), y, op_clear ops t).
Proof. intros. destruct active; eexists; reflexivity. Qed.
Print Assumptions C22_cold_start.

(* warm starting ends the program as soon as a contact of another kind shows up *)
Theorem C22_unsupported_contacts : forall A (zero : A),
  (forall solve active t c, In c active -> supported_ball c = false ->
     impact_map_step A zero (ball_ops A zero) true solve active (op_clear (ball_ops A zero) t) = Exit) /\
  (forall solve active t c, In c active -> supported_rb2 c = false ->
     impact_map_step A zero (rb2_ops A zero) true solve active (op_clear (rb2_ops A zero) t) = Exit) /\
  (forall solve active t c, In c active -> supported_rb3 c = false ->
     impact_map_step A zero (rb3_ops A zero) true solve active (op_clear (rb3_ops A zero) t) = Exit).
Proof. intros A zero. split; [|split]; [exact (ball_exit zero)|exact (rb2_exit zero)|exact (rb3_exit zero)]. Qed.
Print Assumptions C22_unsupported_contacts.

(* Two boxes that touch in two points make two contacts with the same key: the second point starts
   from the impulse of the first.  (BodyBodyConstraint objects of one pair carry no point index.) *)
Theorem C22_two_point_contact_refuted : forall (a b : R) t0, a <> b -> exists x1 y2 t,
  run_steps (impact_map_step R 0%R (rb2_ops R 0%R) true)
    [([BodyBody2 1 2; BodyBody2 1 2], fun _ _ => [a; b]);
     ([BodyBody2 1 2; BodyBody2 1 2], fun _ x => x)] (op_clear (rb2_ops R 0%R) t0) =
  Ok ([mkLog [BodyBody2 1 2; BodyBody2 1 2] x1 [a; b];
       mkLog [BodyBody2 1 2; BodyBody2 1 2] [a; a] y2], t).
Proof. intros a b t0 _. eexists _, _, _. reflexivity. Qed.
Print Assumptions C22_two_point_contact_refuted.

(* Deleting body 0 from a script renumbers the bodies but not the cache: the contact of the bodies
   that were 2 and 3 starts from the impulse of the bodies that were 1 and 2. *)
Theorem C22_deleted_body_refuted : forall (a b : R) t0, a <> b -> exists x1 y2 t,
  run_steps (impact_map_step R 0%R (rb2_ops R 0%R) true)
    [([CircleCircle 1 2; CircleCircle 2 3], fun _ _ => [a; b]);
     ([CircleCircle (after_removal 0 2) (after_removal 0 3)], fun _ x => x)] (op_clear (rb2_ops R 0%R) t0) =
  Ok ([mkLog [CircleCircle 1 2; CircleCircle 2 3] x1 [a; b];
       mkLog [CircleCircle (after_removal 0 2) (after_removal 0 3)] [a] y2], t).
Proof. intros a b t0 _. eexists _, _, _. reflexivity. Qed.
Print Assumptions C22_deleted_body_refuted.

(* concrete steps: a contact that stays, one that goes, one that appears, and a step with none *)
Definition some_steps : list (list rb2_contact * (list rb2_contact -> list N -> list N)) :=
  [([CircleCircle 1 2; KinCircle 5 3], fun _ _ => [10; 20]);
   ([KinCircle 3 5; PlaneCircle 0 2], fun _ x => x);
   ([], fun _ x => x);
   ([PlaneCircle 0 2], fun _ x => x)].
Example some_steps_good : good_steps good_rb2 same_rb2 some_steps.
Proof.
  repeat constructor; cbn; auto; intros x Hx; try exact Hx; try reflexivity.
Qed.
Example some_steps_run : forall t0, exists t,
  run_steps (impact_map_step N 0 (rb2_ops N 0) true) some_steps (op_clear (rb2_ops N 0) t0) =
  Ok ([mkLog [CircleCircle 1 2; KinCircle 5 3] [0; 0] [10; 20];
       mkLog [KinCircle 3 5; PlaneCircle 0 2] [20; 0] [20; 0];
       mkLog [] [] [];
       mkLog [PlaneCircle 0 2] [0] [0]], t).
Proof. intros t0. eexists. reflexivity. Qed.

(* a spatial run with orthonormal frames *)
Definition axes : frame := mkFrame (V3 0 0 1) (V3 1 0 0) (V3 0 1 0).
Definition turned_axes : frame := mkFrame (V3 1 0 0) (V3 0 1 0) (V3 0 0 1).
Example some_spatial_steps : good_steps3 same_rb3 good_rb3
  [([SphereSphere 0 1; PlaneSphere 0 1], fun _ => axes, fun _ x => x);
   ([SphereSphere 0 1], fun _ => turned_axes, fun _ x => x)].
Proof.
  assert (O : orthonormal axes /\ orthonormal turned_axes).
  { unfold orthonormal, dot3, axes, turned_axes. cbn [f_n f_s f_t c0 c1 c2]. repeat split; lra. }
  destruct O as [O1 O2].
  constructor; [|constructor; [|constructor]]; cbn [fst snd].
  - split; [repeat constructor|]. split; [repeat constructor|]. split; [intros; exact O1|auto].
  - split; [repeat constructor|]. split; [repeat constructor|]. split; [intros; exact O2|auto].
Qed.
