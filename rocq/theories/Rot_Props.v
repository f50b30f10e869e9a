(* C31 mass matrices, C32 orientations, C33 free rotation, C26 and C45 for 3D bodies. *)
From Coq Require Import List Reals Arith Bool Lia Lra.
From Verif Require Import Ccd_Model Lin_Model ContactRb3_Model Lin_Proofs Rot_Model Rot_Spec Rot_Alg Rot_Proofs Rot_Thms.
Import ListNotations.
Open Scope R_scope.

(* ---------- C31 ---------- *)
(* a state that has just been set is consistent, and holds what it was given *)
Theorem C31_set_state : forall n X Vl m Rm omega I0 fixed g,
  (forall i, (i < n)%nat -> 0 < m i /\ positive3 (I0 i) /\ rotation (Rm i)) ->
  let s := set_state n X Vl m Rm omega I0 fixed g in
  consistent s /\ forall i, (i < n)%nat ->
    position s i = X i /\ velocity s i = Vl i /\ orientation s i = Rm i /\ spin s i = omega i /\ mass s i = m i /\ inertia0 s i = I0 i.
Proof. intros n X Vl m Rm omega I0 fixed g H s. split; [apply set_state_consistent; exact H|]. intros i Hi. apply set_state_views. exact Hi. Qed.
(* recomputing the matrices makes them current for whatever rotations the state holds *)
Theorem C31_recomputed : forall s, constants_ok s -> rotations s -> consistent (update_mass s).
Proof. exact update_consistent. Qed.
Theorem C31_inverse : forall s x, consistent s -> forall k, (k < 6 * s3_n s)%nat ->
  mass_mul (s3_n s) (s3_Minv s) (mass_mul (s3_n s) (s3_M s) x) k = x k /\ mass_mul (s3_n s) (s3_M s) (mass_mul (s3_n s) (s3_Minv s) x) k = x k.
Proof. intros s x H k Hk. destruct (mass_inverse s x H) as [A B]. split; [apply A|apply B]; exact Hk. Qed.
Theorem C31_symmetric : forall s x y, consistent s ->
  dotn (s3_n s) x (mass_mul (s3_n s) (s3_M s) y) = dotn (s3_n s) y (mass_mul (s3_n s) (s3_M s) x)
  /\ dotn (s3_n s) x (mass_mul (s3_n s) (s3_Minv s) y) = dotn (s3_n s) y (mass_mul (s3_n s) (s3_Minv s) x).
Proof. exact mass_symmetric. Qed.
Theorem C31_kinetic_energy_positive : forall s, consistent s -> (exists k, (k < 6 * s3_n s)%nat /\ s3_v s k <> 0) -> 0 < s3_kinetic s.
Proof. intros s H N. pose proof (mass_positive s (s3_v s) H N) as P. unfold s3_kinetic. unfold dotn in P. lra. Qed.
(* and that stays so over any number of steps of the three integrators *)
Theorem C31_steps : forall svd dt k s, consistent s -> svd_ok svd ->
  consistent (rb3_steps split_ham dt k s) /\ consistent (rb3_steps dmv dt k s) /\ consistent (rb3_steps (exp_euler_map svd) dt k s).
Proof.
  intros svd dt k s H HV. split; [exact (ham_steps_consistent _ dt k s split_keeps H)|]. split; [exact (ham_steps_consistent _ dt k s dmv_keeps H)|].
  apply exp_steps_consistent; assumption.
Qed.
Theorem C31_planar : forall m, (forall x, In x m -> 0 < x) ->
  length (create_M m) = length m /\ length (create_Minv m) = length m
  /\ (forall i a, nth_error m i = Some a -> nth_error (create_M m) i = Some a /\ nth_error (create_Minv m) i = Some (/ a) /\ a * / a = 1)
  /\ (forall v : nat -> R, (exists k, (k < length m)%nat /\ v k <> 0) -> 0 < rsum (length m) (fun k => nth k (create_M m) 0 * (v k * v k))).
Proof.
  intros m H. unfold create_M, create_Minv. rewrite !map_length, seq_length. split; [reflexivity|]. split; [reflexivity|].
  assert (map (fun col => nth col m 0) (seq 0 (length m)) = m) as E.
  { clear H. apply (nth_ext _ _ 0 0); [rewrite map_length, seq_length; reflexivity|]. intros i Hi. rewrite map_length, seq_length in Hi.
    rewrite (nth_indep _ 0 ((fun col => nth col m 0) 0%nat)) by (rewrite map_length, seq_length; exact Hi).
    rewrite (map_nth (fun col => nth col m 0)), seq_nth by exact Hi. reflexivity. }
  split.
  - intros i a Hi. rewrite E. split; [exact Hi|].
    assert (i < length m)%nat as L by (apply nth_error_Some; rewrite Hi; discriminate).
    split; [|apply Rinv_r; pose proof (H a (nth_error_In _ _ Hi)); lra].
    rewrite nth_error_map. rewrite (nth_error_nth' _ 0%nat) by (rewrite seq_length; exact L). rewrite seq_nth by exact L. cbn [option_map Nat.add].
    rewrite (nth_error_nth _ _ _ Hi). f_equal. lra.
  - intros v (k & Hk & N). rewrite E.
    assert (forall i, (i < length m)%nat -> 0 < nth i m 0) as P by (intros i Hi; apply H; apply nth_In; exact Hi).
    apply (rsum_pos _ _ k).
    + intros i Hi. apply Rmult_le_pos; [apply Rlt_le, P, Hi|apply sq_nn].
    + exact Hk.
    + apply Rmult_lt_0_compat; [apply P, Hk|apply sq_pos, N].
Qed.

(* ---------- C32 ---------- *)
Theorem C32_split_hamiltonian : forall dt I R0 L, rotation R0 -> rotation (fst (split_rotate dt I R0 L)).
Proof. exact split_rotate_rotation. Qed.
Theorem C32_moser_veselov : forall h I R0 L, rotation R0 -> rotation (dmv_rotate h I R0 L).
Proof. exact dmv_rotate_rotation. Qed.
(* Eigen's conversion from a rotation matrix to a quaternion and back loses nothing, whichever branch it takes *)
Theorem C32_quaternion_round_trip : forall A, rotation A -> quat_norm2 (mat_quat A) = 1 /\ quat_mat (mat_quat A) = A.
Proof. exact mat_quat_ok. Qed.
(* the polar projection after the tangent step, given a singular value decomposition of the matrix at hand, which exists *)
Theorem C32_exponential_map : forall svd dt w R0, rotation R0 -> decomposes (svd (tangent_step dt w R0)) (tangent_step dt w R0) ->
  rotation (project_orientation svd (tangent_step dt w R0)).
Proof.
  intros svd dt w R0 H HD. apply project_rotation; [exact HD|]. rewrite tangent_det, (proj2 H).
  pose proof (dot_nn w) as P. pose proof (Rmult_le_pos _ _ (sq_nn dt) P). lra.
Qed.
Theorem C32_decomposition_exists : forall dt w R0, rotation R0 -> exists r, decomposes r (tangent_step dt w R0).
Proof. exact decomposition_exists. Qed.
Theorem C32_exponential_euler : forall dt w R0, rotation R0 -> rotation (update_orientation dt w R0).
Proof. exact update_orientation_rotation. Qed.
(* exponentialEuler over all bodies: rotations stay rotations, fixed bodies stay put *)
Theorem C32_exponential_euler_bodies : forall n fixed q0 v0 dt q1,
  (forall i, (i < n)%nat -> rotation (mat_at q0 (3 * n + 9 * i))) ->
  forall i, (i < n)%nat -> rotation (mat_at (exponential_euler n fixed q0 v0 dt q1) (3 * n + 9 * i))
  /\ (fixed i = true -> seg3 (exponential_euler n fixed q0 v0 dt q1) (3 * i) = seg3 q0 (3 * i)
        /\ mat_at (exponential_euler n fixed q0 v0 dt q1) (3 * n + 9 * i) = mat_at q0 (3 * n + 9 * i)).
Proof.
  intros n fixed q0 v0 dt q1 H i Hi. destruct (exponential_euler_views n fixed q0 v0 dt q1 i Hi) as [E1 E2]. rewrite E1, E2.
  split; [destruct (fixed i); [apply H; exact Hi|apply update_orientation_rotation, H, Hi]|]. intros ->. split; reflexivity.
Qed.
Theorem C32_steps : forall svd dt k s, consistent s -> svd_ok svd ->
  rotations (rb3_steps split_ham dt k s) /\ rotations (rb3_steps dmv dt k s) /\ rotations (rb3_steps (exp_euler_map svd) dt k s).
Proof. intros svd dt k s H HV. destruct (C31_steps svd dt k s H HV) as (A & B & C). split; [apply A|]. split; [apply B|apply C]. Qed.
(* the exponential map has no notion of a scripted body: it carries it along with its velocity *)
Theorem C32_exponential_map_moves_scripted_bodies_refuted : forall svd dt s j, consistent s -> (j < s3_n s)%nat -> s3_fixed s j = true ->
  0 < dt -> velocity s j <> zero3 -> position (rb3_step (exp_euler_map svd) dt s) j <> position s j.
Proof.
  intros svd dt s j HS Hj _ Hd N E. destruct (exp_step_views svd dt s j HS Hj) as (E1 & _). rewrite E1 in E. apply N.
  destruct (position s j) as [x y z], (velocity s j) as [a b c]. unfold add3, scale3 in E. cbn [c0 c1 c2] in E. injection E as Ea Eb Ec.
  assert (dt * a = 0) as Za by lra. assert (dt * b = 0) as Zb by lra. assert (dt * c = 0) as Zc by lra.
  apply Rmult_integral in Za, Zb, Zc. unfold zero3. f_equal; [destruct Za|destruct Zb|destruct Zc]; lra.
Qed.

(* ---------- C33 ---------- *)
(* the state a free body is in after k steps: its world-space angular momentum is the same, its linear momentum and position
   are those of free fall (with no gravity: unchanged momentum, straight line) *)
Theorem C33_split_hamiltonian : forall dt k s j, consistent s -> (j < s3_n s)%nat -> s3_fixed s j = false ->
  let s' := rb3_steps split_ham dt k s in
  angular_momentum s' j = angular_momentum s j /\ (s3_g s = [] -> linear_momentum s' j = linear_momentum s j).
Proof.
  intros dt k s j HS Hj Hf s'. destruct (ham_steps_free _ dt k s j split_keeps HS Hj Hf) as (_ & E2 & E3 & E4). split; [exact E3|].
  intros Hg. unfold linear_momentum. rewrite (E2 : velocity s' j = _), (E4 : mass s' j = _), Hg. cbn [total fold_right]. rewrite scale3_zero, add3_zero_r. reflexivity.
Qed.
Theorem C33_moser_veselov : forall dt k s j, consistent s -> (j < s3_n s)%nat -> s3_fixed s j = false ->
  let s' := rb3_steps dmv dt k s in
  angular_momentum s' j = angular_momentum s j /\ (s3_g s = [] -> linear_momentum s' j = linear_momentum s j).
Proof.
  intros dt k s j HS Hj Hf s'. destruct (ham_steps_free _ dt k s j dmv_keeps HS Hj Hf) as (_ & E2 & E3 & E4). split; [exact E3|].
  intros Hg. unfold linear_momentum. rewrite (E2 : velocity s' j = _), (E4 : mass s' j = _), Hg. cbn [total fold_right]. rewrite scale3_zero, add3_zero_r. reflexivity.
Qed.
(* the orientation a step leaves is the one the rotation routine computed from the current momentum, and that routine is not idle:
   about a principal axis the split step turns the body by dt times its angular velocity *)
Theorem C33_split_step : forall dt s j, consistent s -> (j < s3_n s)%nat -> s3_fixed s j = false ->
  orientation (rb3_step split_ham dt s) j = fst (split_rotate dt (inertia0 s j) (orientation s j) (angular_momentum s j)).
Proof. intros dt s j HS Hj Hf. apply (ham_step_free _ dt s j split_keeps HS Hj Hf). Qed.
Theorem C33_split_principal_axis : forall dt I R0 L l, rotation R0 -> positive3 I ->
  (mul3 (tr R0) L = scale3 l ex3 -> fst (split_rotate dt I R0 L) = mm R0 (angle_axis (dt * l / c0 I) ex3))
  /\ (mul3 (tr R0) L = scale3 l ey3 -> fst (split_rotate dt I R0 L) = mm R0 (angle_axis (dt * l / c1 I) ey3))
  /\ (mul3 (tr R0) L = scale3 l ez3 -> fst (split_rotate dt I R0 L) = mm R0 (angle_axis (dt * l / c2 I) ez3)).
Proof. exact split_principal. Qed.
(* running time backwards undoes the rotation *)
Theorem C33_split_reversible : forall dt I R0 L, rotation R0 -> fst (split_rotate (- dt) I (fst (split_rotate dt I R0 L)) L) = R0.
Proof. exact split_reverse. Qed.
Theorem C33_moser_veselov_step : forall dt s j, consistent s -> (j < s3_n s)%nat -> s3_fixed s j = false ->
  let p := mul3 (tr (orientation s j)) (angular_momentum s j) in
  orientation (rb3_step dmv dt s) j = mm (orientation s j) (cayley (dmv_vector p dt (inertia0 s j))).
Proof.
  intros dt s j HS Hj Hf p. destruct (ham_step_free _ dt s j dmv_keeps HS Hj Hf) as (_ & _ & E & _).
  change (rb3_step dmv dt s) with (rb3_step (hamiltonian_flow dmv_rotate) dt s). rewrite E. apply dmv_rotate_cayley. apply HS. exact Hj.
Qed.
(* a vector at which the iteration has come to rest solves the discrete Moser-Veselov equation *)
Theorem C33_moser_veselov_equation : forall h I p c, positive3 I -> dmv_pass (dmv_am p h I) (dmv_fac I) c = c ->
  hat (scale3 h p) = sub_m3 (mm (cayley c) (diag3 (half_trace I))) (mm (diag3 (half_trace I)) (tr (cayley c))).
Proof. exact dmv_fixed_point. Qed.
(* a scripted body keeps its place and comes out with its momenta stored as its velocities *)
Theorem C33_scripted_body : forall dt s j, consistent s -> (j < s3_n s)%nat -> s3_fixed s j = true ->
  (let s' := rb3_step split_ham dt s in
   position s' j = position s j /\ orientation s' j = orientation s j /\ velocity s' j = linear_momentum s j /\ spin s' j = angular_momentum s j)
  /\ (let s' := rb3_step dmv dt s in
   position s' j = position s j /\ orientation s' j = orientation s j /\ velocity s' j = linear_momentum s j /\ spin s' j = angular_momentum s j).
Proof. intros dt s j HS Hj Hf. split; apply (ham_step_fixed _ dt s j HS Hj Hf). Qed.

(* ---------- C26: uniform gravity ---------- *)
Theorem C26_rb3_gravity : forall dt k s j, consistent s -> (j < s3_n s)%nat -> s3_fixed s j = false ->
  let t := INR k * dt in let g := total (s3_g s) in
  (let s' := rb3_steps split_ham dt k s in
   position s' j = add3 (position s j) (add3 (scale3 t (velocity s j)) (scale3 (/ 2 * t * t) g)) /\ velocity s' j = add3 (velocity s j) (scale3 t g))
  /\ (let s' := rb3_steps dmv dt k s in
   position s' j = add3 (position s j) (add3 (scale3 t (velocity s j)) (scale3 (/ 2 * t * t) g)) /\ velocity s' j = add3 (velocity s j) (scale3 t g)).
Proof.
  intros dt k s j HS Hj Hf t g.
  destruct (ham_steps_free _ dt k s j split_keeps HS Hj Hf) as (A1 & A2 & _). destruct (ham_steps_free _ dt k s j dmv_keeps HS Hj Hf) as (B1 & B2 & _).
  split; split; assumption.
Qed.

(* ---------- C45 ---------- *)
Theorem C45_rb3_kinetic : forall s, consistent s -> s3_kinetic s =
  rsum (s3_n s) (fun i => / 2 * mass s i * dot3 (velocity s i) (velocity s i)
    + (let w := mul3 (tr (orientation s i)) (spin s i) in
       / 2 * (c0 (inertia0 s i) * (c0 w * c0 w) + c1 (inertia0 s i) * (c1 w * c1 w) + c2 (inertia0 s i) * (c2 w * c2 w)))).
Proof. exact kinetic_sum. Qed.
Theorem C45_rb3_momentum : forall s, consistent s -> s3_momentum s = sum3 (s3_n s) (linear_momentum s).
Proof. exact momentum_sum. Qed.
Theorem C45_rb3_angular_momentum : forall s, consistent s -> s3_angular s =
  sum3 (s3_n s) (fun i => add3 (cross3 (position s i) (linear_momentum s i)) (angular_momentum s i)).
Proof. exact angular_sum. Qed.
Theorem C45_rb3_potential : forall s q, consistent s ->
  s3_potential s q = rsum (s3_n s) (fun i => - mass s i * dot3 (total (s3_g s)) (seg3 q (3 * i))).
Proof. exact potential_sum. Qed.
(* force is minus the gradient of the potential: the potential is affine and its slope along body i is minus the force on body i *)
Theorem C45_rb3_force : forall s q i d, consistent s -> (i < s3_n s)%nat ->
  s3_potential s (add_seg3 q (3 * i) d) = s3_potential s q - dot3 (seg3 (rb3_force s) (3 * i)) d
  /\ seg3 (rb3_force s) (3 * s3_n s + 3 * i) = zero3.
Proof. intros s q i d HS Hi. split; [apply force_gradient; assumption|]. apply (force_segs s i HS Hi). Qed.

Print Assumptions C31_set_state.
Print Assumptions C31_inverse.
Print Assumptions C31_steps.
Print Assumptions C31_planar.
Print Assumptions C32_quaternion_round_trip.
Print Assumptions C32_exponential_map.
Print Assumptions C32_decomposition_exists.
Print Assumptions C33_split_hamiltonian.
Print Assumptions C33_split_reversible.
Print Assumptions C33_moser_veselov_equation.
Print Assumptions C26_rb3_gravity.
Print Assumptions C45_rb3_force.

(* ---------- a case ---------- *)
(* two bodies with unequal inertias, tumbling, one of them scripted, under gravity *)
Definition two_tumbling : rb3 :=
  set_state 2 (fun _ => zero3) (fun _ => V3 1 0 0) (fun _ => 2) (fun _ => angle_axis 1 ez3) (fun _ => V3 1 2 3) (fun _ => V3 1 2 3) (fun i => Nat.eqb i 1) [V3 0 (-10) 0].
Lemma two_tumbling_ok : consistent two_tumbling.
Proof.
  apply C31_set_state. intros i Hi. split; [lra|]. split; [unfold positive3; cbn [c0 c1 c2]; lra|]. apply angle_axis_rotation, unit_ez.
Qed.
Example C31_case : consistent two_tumbling /\ (exists k, (k < 6 * s3_n two_tumbling)%nat /\ s3_v two_tumbling k <> 0) /\ rotation (angle_axis 1 ez3) /\ angle_axis 1 ez3 <> id3.
Proof.
  split; [apply two_tumbling_ok|]. split; [|split].
  - exists 0%nat. split; [cbn; lia|]. assert (velocity two_tumbling 0 = V3 1 0 0) as E by (apply set_state_views; lia).
    pose proof (f_equal c0 E) as E0. unfold velocity, seg3 in E0. cbn [c0 Nat.mul Nat.add] in E0. rewrite E0. lra.
  - apply angle_axis_rotation, unit_ez.
  - intro E. pose proof (f_equal (fun A => c0 (row1 A)) E) as E1. unfold angle_axis in E1. m3u.
    assert (0 < sin 1) by (apply sin_gt_0; [lra|pose proof PI2_1; unfold PI2 in *; lra]). lra.
Qed.
(* after one step the free body's momentum is the same and the scripted body's velocity has doubled *)
Example C33_case : s3_fixed two_tumbling 0 = false /\ s3_fixed two_tumbling 1 = true
  /\ angular_momentum (rb3_step split_ham (/ 10) two_tumbling) 0 = angular_momentum two_tumbling 0
  /\ velocity two_tumbling 1 = V3 1 0 0 /\ velocity (rb3_step split_ham (/ 10) two_tumbling) 1 = V3 2 0 0.
Proof.
  split; [reflexivity|]. split; [reflexivity|].
  split; [apply (C33_split_hamiltonian (/ 10) 1 two_tumbling 0 two_tumbling_ok); [cbn; lia|reflexivity]|].
  assert (velocity two_tumbling 1 = V3 1 0 0) as E by (apply set_state_views; lia). split; [exact E|].
  destruct (proj1 (C33_scripted_body (/ 10) two_tumbling 1 two_tumbling_ok ltac:(cbn; lia) eq_refl)) as (_ & _ & EV & _). rewrite EV.
  unfold linear_momentum. rewrite E. assert (mass two_tumbling 1 = 2) as -> by (apply set_state_views; lia). m3u. f_equal; ring.
Qed.
Example C32_case : rotation (project_orientation (fun A => (angle_axis (PI / 4) ez3, V3 (sqrt 2) (sqrt 2) 1, id3)) (tangent_step 1 ez3 id3)).
Proof.
  apply C32_exponential_map; [apply rotation_id|]. unfold decomposes.
  split; [apply rotation_orthogonal, angle_axis_rotation, unit_ez|]. split; [apply rotation_orthogonal, rotation_id|]. cbn [c0 c1 c2].
  pose proof (sqrt_pos 2) as P. split; [exact P|]. split; [exact P|]. split; [lra|].
  rewrite tangent_frame, mm_id_r, tr_id, mm_id_r. unfold angle_axis. rewrite sin_PI4, cos_PI4.
  unfold hat, scale_m3, add_m3, mm, vmul, mul3, id3, diag3, dot3, add3, scale3, ez3, tr. cbn [row0 row1 row2_ c0 c1 c2].
  assert (0 < sqrt 2) by (apply sqrt_lt_R0; lra).
  f_equal; f_equal; field; lra.
Qed.
Example C32_exponential_map_moves_scripted_bodies_case : forall svd, position (rb3_step (exp_euler_map svd) 1 two_tumbling) 1 <> position two_tumbling 1.
Proof.
  intros svd. apply C32_exponential_map_moves_scripted_bodies_refuted; [apply two_tumbling_ok|cbn; lia|reflexivity|lra|].
  assert (velocity two_tumbling 1 = V3 1 0 0) as -> by (apply set_state_views; lia). intro E. pose proof (f_equal c0 E) as E0. cbn [c0 zero3] in E0. lra.
Qed.
(* a body at rest under the discrete Moser-Veselov iteration *)
Example C33_moser_veselov_case : dmv_pass (dmv_am (V3 0 0 (/ 2)) 2 (V3 1 1 1)) (dmv_fac (V3 1 1 1)) (V3 0 0 1) = V3 0 0 1.
Proof. unfold dmv_pass, dmv_am, dmv_fac. cbn [c0 c1 c2]. f_equal; field. Qed.
