(* The 3D integrators: rotations stay rotations, momenta are kept. *)
From Coq Require Import List Reals Arith Bool Lia Lra.
From Verif Require Import Ccd_Model Lin_Model ContactRb3_Model Lin_Proofs Rot_Model Rot_Spec Rot_Alg Rot_Proofs.
Import ListNotations.
Open Scope R_scope.

Lemma add3_assoc : forall a b c, add3 a (add3 b c) = add3 (add3 a b) c.
Proof. intros [? ? ?] [? ? ?] [? ? ?]. m3u. f_equal; ring. Qed.
Lemma add3_zero_r : forall a, add3 a zero3 = a.
Proof. intros [? ? ?]. m3u. f_equal; ring. Qed.
Lemma scale3_add : forall k a b, scale3 k (add3 a b) = add3 (scale3 k a) (scale3 k b).
Proof. intros k [? ? ?] [? ? ?]. m3u. f_equal; ring. Qed.
Lemma scale3_scale : forall k l a, scale3 k (scale3 l a) = scale3 (k * l) a.
Proof. intros k l [? ? ?]. m3u. f_equal; ring. Qed.
Lemma scale3_zero : forall k, scale3 k zero3 = zero3.
Proof. intros k. m3u. f_equal; ring. Qed.

(* ---------- one body ---------- *)
Lemma neg_unit : forall e, dot3 e e = 1 -> dot3 (neg3 e) (neg3 e) = 1.
Proof. intros [x y z] H. m3u. lra. Qed.
Lemma split_turn_mat : forall a e s, fst (split_turn a e s) = mm (fst s) (angle_axis a e).
Proof. intros a e s. unfold split_turn. cbn [fst]. rewrite angle_axis_neg. reflexivity. Qed.
Lemma split_turn_vec : forall a e s, snd (split_turn a e s) = mul3 (tr (angle_axis a e)) (snd s).
Proof. intros a e s. unfold split_turn. cbn [snd]. rewrite <- (angle_axis_neg a e), <- angle_axis_tr, Ropp_involutive. reflexivity. Qed.
Lemma split_turn_momentum : forall a e s, dot3 e e = 1 -> mul3 (fst (split_turn a e s)) (snd (split_turn a e s)) = mul3 (fst s) (snd s).
Proof.
  intros a e s H. rewrite split_turn_mat, split_turn_vec, <- mul3_mm, <- mm_assoc.
  rewrite (proj1 (angle_axis_rotation a e H)), mm_id_r. reflexivity.
Qed.
Lemma split_turn_rotation : forall a e s, dot3 e e = 1 -> rotation (fst s) -> rotation (fst (split_turn a e s)).
Proof. intros a e s H HR. rewrite split_turn_mat. apply rotation_mm; [exact HR|]. apply angle_axis_rotation. exact H. Qed.
Lemma unit_ex : dot3 ex3 ex3 = 1. Proof. m3u. ring. Qed.
Lemma unit_ey : dot3 ey3 ey3 = 1. Proof. m3u. ring. Qed.
Lemma unit_ez : dot3 ez3 ez3 = 1. Proof. m3u. ring. Qed.
Lemma split_rotate_rotation : forall dt I R0 L, rotation R0 -> rotation (fst (split_rotate dt I R0 L)).
Proof. intros dt I R0 L H. unfold split_rotate. repeat (apply split_turn_rotation; [apply unit_ex || apply unit_ey || apply unit_ez|]). exact H. Qed.
(* the body-space momentum the loop ends with is that of the final orientation *)
Lemma split_rotate_momentum : forall dt I R0 L, rotation R0 -> mul3 (fst (split_rotate dt I R0 L)) (snd (split_rotate dt I R0 L)) = L.
Proof.
  intros dt I R0 L H. unfold split_rotate.
  rewrite !split_turn_momentum by (apply unit_ex || apply unit_ey || apply unit_ez). cbn [fst snd].
  rewrite <- mul3_mm, (proj1 H). apply mul3_id.
Qed.

Lemma dmv_apply_mul : forall c q, dmv_apply c q = quat_normalize (qmul q (Quat 1 (c0 c) (c1 c) (c2 c))).
Proof. intros c q. unfold dmv_apply, qmul. cbn [qw qx qy qz]. do 2 f_equal; ring. Qed.
Definition cayley (c : v3) : m3 := scale_m3 (/ (1 + dot3 c c)) (hom (Quat 1 (c0 c) (c1 c) (c2 c))).
Lemma dot_nn : forall c, 0 <= dot3 c c.
Proof. intros [x y z]. m3u. pose proof (sq_nn x). pose proof (sq_nn y). pose proof (sq_nn z). lra. Qed.
Lemma cayley_quat : forall c, cayley c = quat_mat (quat_normalize (Quat 1 (c0 c) (c1 c) (c2 c))) /\ rotation (cayley c).
Proof.
  intros c. set (q := Quat 1 (c0 c) (c1 c) (c2 c)). assert (quat_norm2 q = 1 + dot3 c c) as E by (unfold quat_norm2, q, dot3; cbn [qw qx qy qz]; ring).
  assert (0 < quat_norm2 q) as P by (rewrite E; pose proof (dot_nn c); lra).
  assert (cayley c = quat_mat (quat_normalize q)) as C by (rewrite (normalize_hom q P), E; reflexivity).
  split; [exact C|]. rewrite C. apply quat_mat_rotation, normalize_norm2, P.
Qed.
Lemma scale_m3_mm : forall k A B, scale_m3 k (mm A B) = mm A (scale_m3 k B).
Proof. intros k [[a b c] [d e f] [g h i]] [[a' b' c'] [d' e' f'] [g' h' i']]. unfold scale_m3. m3u. f_equal; f_equal; ring. Qed.
(* the discrete Moser-Veselov update turns the body by the Cayley rotation of the vector it computed *)
Lemma dmv_rotate_cayley : forall h I R0 L, rotation R0 -> dmv_rotate h I R0 L = mm R0 (cayley (dmv_vector (mul3 (tr R0) L) h I)).
Proof.
  intros h I R0 L H. destruct (mat_quat_ok R0 H) as [N E]. unfold dmv_rotate. set (c := dmv_vector _ _ _). rewrite dmv_apply_mul.
  set (d := Quat 1 (c0 c) (c1 c) (c2 c)). assert (quat_norm2 d = 1 + dot3 c c) as Ed by (unfold quat_norm2, d, dot3; cbn [qw qx qy qz]; ring).
  assert (quat_norm2 (qmul (mat_quat R0) d) = 1 + dot3 c c) as En by (rewrite norm2_mul, N, Ed; ring).
  rewrite normalize_hom by (rewrite En; pose proof (dot_nn c); lra). rewrite hom_mul, scale_m3_mm, En, <- (quat_mat_hom _ N), E. reflexivity.
Qed.
Lemma dmv_rotate_rotation : forall h I R0 L, rotation R0 -> rotation (dmv_rotate h I R0 L).
Proof. intros h I R0 L H. rewrite dmv_rotate_cayley by exact H. apply rotation_mm; [exact H|apply cayley_quat]. Qed.

(* ---------- the whole step ---------- *)
Lemma gravity_segs : forall n (M : dvec) gs F j, (j < n)%nat ->
  let F' := fold_left (fun F g => for_bodies n (fun i F => add_seg3 F (3 * i) (scale3 (M (3 * i)%nat) g)) F) gs F in
  seg3 F' (3 * j) = add3 (seg3 F (3 * j)) (scale3 (M (3 * j)%nat) (total gs)) /\ seg3 F' (3 * n + 3 * j) = seg3 F (3 * n + 3 * j).
Proof.
  intros n M gs. induction gs as [|g gs IH]; intros F j Hj F'; subst F'; cbn [fold_left total fold_right].
  - rewrite scale3_zero, add3_zero_r. split; reflexivity.
  - destruct (IH (for_bodies n (fun i F => add_seg3 F (3 * i) (scale3 (M (3 * i)%nat) g)) F) j Hj) as [E1 E2]. rewrite E1, E2. split.
    + rewrite (loop_slot (fun F => seg3 F (3 * j)) (fun y => add3 y (scale3 (M (3 * j)%nat) g)) n _ j _ Hj).
      * fold (total gs). rewrite scale3_add, add3_assoc. reflexivity.
      * intros i x Hi N. apply seg_add_other. lia.
      * intros x. apply seg_add.
    + apply (loop_keep (fun F => seg3 F (3 * n + 3 * j))). intros i x Hi. apply seg_add_other. lia.
Qed.
Lemma force_segs : forall s j, consistent s -> (j < s3_n s)%nat ->
  seg3 (rb3_force s) (3 * j) = scale3 (mass s j) (total (s3_g s)) /\ seg3 (rb3_force s) (3 * s3_n s + 3 * j) = zero3.
Proof.
  intros s j (HC & _) Hj. destruct (gravity_segs (s3_n s) (s3_M s) (s3_g s) (fun _ => 0) j Hj) as [E1 E2].
  unfold rb3_force. rewrite E1, E2. split; [|reflexivity].
  destruct (HC j Hj) as (_ & _ & _ & _ & _ & HM & _). pose proof (f_equal c0 HM) as H0. unfold seg3, all3 in H0. cbn [c0] in H0. rewrite Nat.add_0_r in H0. rewrite H0.
  change (seg3 (fun _ => 0) (3 * j)) with zero3. destruct (scale3 (mass s j) (total (s3_g s))). m3u. f_equal; ring.
Qed.
Lemma kick_segs : forall s dt F p j, (j < s3_n s)%nat ->
  seg3 (momentum_kick s dt F p) (3 * j) = (if s3_fixed s j then seg3 p (3 * j) else add3 (seg3 p (3 * j)) (scale3 (/ 2 * dt) (seg3 F (3 * j))))
  /\ seg3 (momentum_kick s dt F p) (3 * s3_n s + 3 * j) =
     (if s3_fixed s j then seg3 p (3 * s3_n s + 3 * j) else add3 (seg3 p (3 * s3_n s + 3 * j)) (scale3 (/ 2 * dt) (seg3 F (3 * s3_n s + 3 * j)))).
Proof.
  intros s dt F p j Hj. unfold momentum_kick. cbv zeta. split.
  - apply (loop_slot (fun v => seg3 v (3 * j)) (fun y => if s3_fixed s j then y else add3 y (scale3 (/ 2 * dt) (seg3 F (3 * j)))) _ _ j _ Hj).
    + intros i x Hi N. destruct (s3_fixed s i); [reflexivity|]. rewrite !seg_add_other by lia. reflexivity.
    + intros x. destruct (s3_fixed s j); [reflexivity|]. rewrite seg_add_other by lia. apply seg_add.
  - apply (loop_slot (fun v => seg3 v (3 * s3_n s + 3 * j)) (fun y => if s3_fixed s j then y else add3 y (scale3 (/ 2 * dt) (seg3 F (3 * s3_n s + 3 * j)))) _ _ j _ Hj).
    + intros i x Hi N. destruct (s3_fixed s i); [reflexivity|]. rewrite !seg_add_other by lia. reflexivity.
    + intros x. destruct (s3_fixed s j); [reflexivity|]. rewrite seg_add, seg_add_other by lia. reflexivity.
Qed.

Section Flow.
Variable rotate : R -> v3 -> m3 -> v3 -> m3.
Variable s : rb3.
Variable dt : R.
Hypothesis HS : consistent s.
Let n := s3_n s.
Let q1 := fst (hamiltonian_flow rotate s dt).
Let v1 := snd (hamiltonian_flow rotate s dt).
Definition turned_to (j : nat) : m3 := rotate dt (inertia0 s j) (orientation s j) (angular_momentum s j).

Lemma flow_free : forall j, (j < n)%nat -> s3_fixed s j = false ->
  seg3 q1 (3 * j) = add3 (position s j) (add3 (scale3 dt (velocity s j)) (scale3 (/ 2 * dt * dt) (total (s3_g s))))
  /\ mat_at q1 (3 * n + 9 * j) = turned_to j
  /\ seg3 v1 (3 * j) = add3 (velocity s j) (scale3 dt (total (s3_g s)))
  /\ seg3 v1 (3 * n + 3 * j) = mul3 (turned (turned_to j) (inv3 (inertia0 s j))) (angular_momentum s j).
Proof.
  intros j Hj Hf. destruct (force_segs s j HS Hj) as [FL FA]. pose proof (proj1 HS j Hj) as (Hm & Hp & E0 & E0i & EIi & _ & _).
  destruct (consistent_segs s (s3_v s) j HS Hj) as (ML & _ & MA & _). destruct (consistent_segs s (rb3_force s) j HS Hj) as (_ & FiL & _ & _).
  set (p := mass_mul n (s3_M s) (s3_v s)). destruct (kick_segs s dt (rb3_force s) p j Hj) as [K1 K2].
  set (p1 := momentum_kick s dt (rb3_force s) p) in *. destruct (kick_segs s dt (rb3_force s) p1 j Hj) as [K3 K4].
  set (p2 := momentum_kick s dt (rb3_force s) p1) in *. rewrite Hf in K1, K2, K3, K4. fold n in ML, MA, FL, FA, FiL, K1, K2, K3, K4, EIi. fold p in ML, MA.
  assert (seg3 p1 (3 * n + 3 * j) = angular_momentum s j) as EL.
  { rewrite K2, FA, scale3_zero, add3_zero_r. exact MA. }
  assert (mat_at q1 (3 * n + 9 * j) = turned_to j) as EQ.
  { unfold q1, hamiltonian_flow. cbn [fst]. fold n p p1.
    rewrite (loop_slot (fun q => mat_at q (3 * n + 9 * j)) (fun _ => turned_to j) n _ j _ Hj); [reflexivity| |].
    - intros i x Hi N. destruct (s3_fixed s i); [reflexivity|]. apply mat_set_other. lia.
    - intros x. rewrite Hf, mat_set, EL. reflexivity. }
  split; [|split; [exact EQ|]].
  - unfold q1, hamiltonian_flow. cbn [fst]. fold n p p1.
    rewrite (loop_keep (fun q => seg3 q (3 * j))) by (intros i x Hi; destruct (s3_fixed s i); [reflexivity|]; apply seg_set_mat; lia).
    rewrite (loop_slot (fun q => seg3 q (3 * j)) (fun y => add3 y (add3 (scale3 dt (velocity s j)) (scale3 (/ 2 * dt * dt) (total (s3_g s))))) n _ j _ Hj); [reflexivity| |].
    + intros i x Hi N. destruct (s3_fixed s i); [reflexivity|]. apply seg_add_other. lia.
    + intros x. rewrite Hf, seg_add. f_equal.
      transitivity (add3 (scale3 dt (velocity s j)) (scale3 (/ 2 * dt * dt) (seg3 (mass_mul n (s3_Minv s) (rb3_force s)) (3 * j)))); [reflexivity|].
      rewrite FiL, FL. do 2 f_equal. apply scale_inv. exact Hm.
  - assert (seg3 p2 (3 * j) = scale3 (mass s j) (add3 (velocity s j) (scale3 dt (total (s3_g s))))) as EP.
    { rewrite K3, K1, ML, FL. unfold velocity. destruct (seg3 (s3_v s) (3 * j)), (total (s3_g s)). m3u. f_equal; field. }
    assert (seg3 p2 (3 * n + 3 * j) = angular_momentum s j) as EA.
    { rewrite K4, FA, scale3_zero, add3_zero_r. exact EL. }
    change v1 with (for_bodies n (fun i v =>
      if s3_fixed s i then v
      else
        let a := seg3 v (3 * i) in let m := seg3 (s3_M0 s) (3 * i) in
        let v := set_seg3 v (3 * i) (V3 (c0 a / c0 m) (c1 a / c1 m) (c2 a / c2 m)) in
        let Rm := mat_at q1 (3 * n + 9 * i) in
        set_seg3 v (3 * n + 3 * i)
          (mul3 (mm (mm Rm (diag3 (seg3 (s3_Minv0 s) (3 * n + 3 * i)))) (tr Rm)) (seg3 v (3 * n + 3 * i)))) p2).
    split.
    + rewrite (loop_slot (fun v => seg3 v (3 * j)) (fun y => V3 (c0 y / mass s j) (c1 y / mass s j) (c2 y / mass s j)) n _ j _ Hj).
      * rewrite EP. destruct (add3 (velocity s j) (scale3 dt (total (s3_g s)))). m3u. f_equal; field; lra.
      * intros i x Hi N. destruct (s3_fixed s i); [reflexivity|]. cbv zeta. rewrite !seg_set_other by lia. reflexivity.
      * intros x. rewrite Hf. cbv zeta. rewrite seg_set_other by lia. rewrite seg_set, E0. reflexivity.
    + rewrite (loop_slot (fun v => seg3 v (3 * n + 3 * j)) (fun y => mul3 (turned (turned_to j) (inv3 (inertia0 s j))) y) n _ j _ Hj).
      * rewrite EA. reflexivity.
      * intros i x Hi N. destruct (s3_fixed s i); [reflexivity|]. cbv zeta. rewrite !seg_set_other by lia. reflexivity.
      * intros x. rewrite Hf. cbv zeta. rewrite seg_set, seg_set_other by lia. rewrite EQ, EIi. reflexivity.
Qed.
(* a kinematically scripted body stays where it is, and its velocity is replaced by its momentum *)
Lemma flow_fixed : forall j, (j < n)%nat -> s3_fixed s j = true ->
  seg3 q1 (3 * j) = position s j /\ mat_at q1 (3 * n + 9 * j) = orientation s j
  /\ seg3 v1 (3 * j) = linear_momentum s j /\ seg3 v1 (3 * n + 3 * j) = angular_momentum s j.
Proof.
  intros j Hj Hf. destruct (consistent_segs s (s3_v s) j HS Hj) as (ML & _ & MA & _).
  set (p := mass_mul n (s3_M s) (s3_v s)). destruct (kick_segs s dt (rb3_force s) p j Hj) as [K1 K2].
  set (p1 := momentum_kick s dt (rb3_force s) p) in *. destruct (kick_segs s dt (rb3_force s) p1 j Hj) as [K3 K4].
  set (p2 := momentum_kick s dt (rb3_force s) p1) in *. rewrite Hf in K1, K2, K3, K4. fold n in ML, MA, K1, K2, K3, K4. fold p in ML, MA.
  split; [|split].
  - unfold q1, hamiltonian_flow. cbn [fst]. fold n.
    rewrite (loop_keep (fun q => seg3 q (3 * j))) by (intros i x Hi; destruct (s3_fixed s i); [reflexivity|]; apply seg_set_mat; lia).
    rewrite (loop_slot (fun q => seg3 q (3 * j)) (fun y => y) n _ j _ Hj); [reflexivity| |].
    + intros i x Hi N. destruct (s3_fixed s i); [reflexivity|]. apply seg_add_other. lia.
    + intros x. rewrite Hf. reflexivity.
  - unfold q1, hamiltonian_flow. cbn [fst]. fold n.
    rewrite (loop_slot (fun q => mat_at q (3 * n + 9 * j)) (fun y => y) n _ j _ Hj).
    + rewrite (loop_keep (fun q => mat_at q (3 * n + 9 * j))) by (intros i x Hi; destruct (s3_fixed s i); [reflexivity|]; apply mat_add_seg; lia). reflexivity.
    + intros i x Hi N. destruct (s3_fixed s i); [reflexivity|]. apply mat_set_other. lia.
    + intros x. rewrite Hf. reflexivity.
  - change v1 with (for_bodies n (fun i v =>
      if s3_fixed s i then v
      else
        let a := seg3 v (3 * i) in let m := seg3 (s3_M0 s) (3 * i) in
        let v := set_seg3 v (3 * i) (V3 (c0 a / c0 m) (c1 a / c1 m) (c2 a / c2 m)) in
        let Rm := mat_at q1 (3 * n + 9 * i) in
        set_seg3 v (3 * n + 3 * i)
          (mul3 (mm (mm Rm (diag3 (seg3 (s3_Minv0 s) (3 * n + 3 * i)))) (tr Rm)) (seg3 v (3 * n + 3 * i)))) p2).
    split.
    + rewrite (loop_slot (fun v => seg3 v (3 * j)) (fun y => y) n _ j _ Hj).
      * rewrite K3, K1, ML. reflexivity.
      * intros i x Hi N. destruct (s3_fixed s i); [reflexivity|]. cbv zeta. rewrite !seg_set_other by lia. reflexivity.
      * intros x. rewrite Hf. reflexivity.
    + rewrite (loop_slot (fun v => seg3 v (3 * n + 3 * j)) (fun y => y) n _ j _ Hj).
      * rewrite K4, K2, MA. reflexivity.
      * intros i x Hi N. destruct (s3_fixed s i); [reflexivity|]. cbv zeta. rewrite !seg_set_other by lia. reflexivity.
      * intros x. rewrite Hf. reflexivity.
Qed.
End Flow.

(* ---------- steps of the simulation ---------- *)
Lemma step_fields : forall map dt s, let s' := rb3_step map dt s in
  s3_n s' = s3_n s /\ s3_q s' = fst (map s dt) /\ s3_v s' = snd (map s dt) /\ s3_M0 s' = s3_M0 s /\ s3_Minv0 s' = s3_Minv0 s
  /\ s3_fixed s' = s3_fixed s /\ s3_g s' = s3_g s.
Proof. intros map dt s. repeat split; reflexivity. Qed.
Lemma step_consistent : forall map dt s, consistent s ->
  (forall i, (i < s3_n s)%nat -> rotation (mat_at (fst (map s dt)) (3 * s3_n s + 9 * i))) -> consistent (rb3_step map dt s).
Proof.
  intros map dt s (HC & HR & _) H. unfold rb3_step. cbv zeta. apply update_consistent.
  - intros i Hi. exact (HC i Hi).
  - intros i Hi. exact (H i Hi).
Qed.
Definition keeps_rotations (rotate : R -> v3 -> m3 -> v3 -> m3) : Prop := forall dt I R0 L, rotation R0 -> rotation (rotate dt I R0 L).
Lemma ham_step_consistent : forall rotate dt s, keeps_rotations rotate -> consistent s -> consistent (rb3_step (hamiltonian_flow rotate) dt s).
Proof.
  intros rotate dt s HK HS. apply step_consistent; [exact HS|]. intros i Hi. destruct (s3_fixed s i) eqn:Hf.
  - rewrite (proj1 (proj2 (flow_fixed rotate s dt HS i Hi Hf))). apply HS. exact Hi.
  - rewrite (proj1 (proj2 (flow_free rotate s dt HS i Hi Hf))). apply HK. apply HS. exact Hi.
Qed.
Lemma ham_steps_consistent : forall rotate dt k s, keeps_rotations rotate -> consistent s -> consistent (rb3_steps (hamiltonian_flow rotate) dt k s).
Proof. intros rotate dt k. induction k as [|k IH]; intros s HK HS; [exact HS|]. cbn [rb3_steps]. apply IH; [exact HK|]. apply ham_step_consistent; assumption. Qed.
Lemma ham_step_free : forall rotate dt s j, keeps_rotations rotate -> consistent s -> (j < s3_n s)%nat -> s3_fixed s j = false ->
  let s' := rb3_step (hamiltonian_flow rotate) dt s in
  position s' j = add3 (position s j) (add3 (scale3 dt (velocity s j)) (scale3 (/ 2 * dt * dt) (total (s3_g s))))
  /\ velocity s' j = add3 (velocity s j) (scale3 dt (total (s3_g s)))
  /\ orientation s' j = rotate dt (inertia0 s j) (orientation s j) (angular_momentum s j)
  /\ angular_momentum s' j = angular_momentum s j.
Proof.
  intros rotate dt s j HK HS Hj Hf s'. destruct (flow_free rotate s dt HS j Hj Hf) as (E1 & E2 & E3 & E4).
  destruct (proj1 HS j Hj) as (_ & Hp & _).
  assert (rotation (turned_to rotate s dt j)) as HR by (apply HK; apply HS; exact Hj).
  split; [exact E1|]. split; [exact E3|]. split; [exact E2|].
  unfold angular_momentum at 1. unfold s', spin, orientation, inertia0. cbn [s3_n s3_q s3_v s3_M0 rb3_step update_mass].
  rewrite E2, E4. fold (inertia0 s j). rewrite <- mul3_mm, turned_inv by assumption. apply mul3_id.
Qed.
Lemma ham_step_fixed : forall rotate dt s j, consistent s -> (j < s3_n s)%nat -> s3_fixed s j = true ->
  let s' := rb3_step (hamiltonian_flow rotate) dt s in
  position s' j = position s j /\ orientation s' j = orientation s j /\ velocity s' j = linear_momentum s j /\ spin s' j = angular_momentum s j.
Proof. intros rotate dt s j HS Hj Hf s'. exact (flow_fixed rotate s dt HS j Hj Hf). Qed.
(* any number of steps *)
Lemma ham_steps_free : forall rotate dt k s j, keeps_rotations rotate -> consistent s -> (j < s3_n s)%nat -> s3_fixed s j = false ->
  let s' := rb3_steps (hamiltonian_flow rotate) dt k s in let t := INR k * dt in
  position s' j = add3 (position s j) (add3 (scale3 t (velocity s j)) (scale3 (/ 2 * t * t) (total (s3_g s))))
  /\ velocity s' j = add3 (velocity s j) (scale3 t (total (s3_g s)))
  /\ angular_momentum s' j = angular_momentum s j /\ mass s' j = mass s j.
Proof.
  intros rotate dt k. induction k as [|k IH]; intros s j HK HS Hj Hf s' t.
  - subst s' t. cbn [rb3_steps INR]. set (G := total (s3_g s)). set (X := position s j). set (V := velocity s j).
    split; [|split; [|split; reflexivity]]; destruct G, X, V; m3u; f_equal; ring.
  - subst s'. cbn [rb3_steps]. set (s1 := rb3_step (hamiltonian_flow rotate) dt s).
    destruct (ham_step_free rotate dt s j HK HS Hj Hf) as (E1 & E2 & _ & E4). fold s1 in E1, E2, E4.
    destruct (IH s1 j HK (ham_step_consistent rotate dt s HK HS) Hj Hf) as (F1 & F2 & F3 & F4).
    change (s3_g s1) with (s3_g s) in F1, F2. rewrite E1, E2 in F1. rewrite E2 in F2. rewrite E4 in F3.
    split; [|split; [|split; [exact F3|exact F4]]].
    + rewrite F1. unfold t. rewrite S_INR. destruct (position s j), (velocity s j), (total (s3_g s)). m3u. f_equal; field.
    + rewrite F2. unfold t. rewrite S_INR. destruct (velocity s j), (total (s3_g s)). m3u. f_equal; ring.
Qed.
Lemma split_keeps : keeps_rotations (fun dt I R0 L => fst (split_rotate dt I R0 L)).
Proof. intros dt I R0 L H. apply split_rotate_rotation. exact H. Qed.
Lemma dmv_keeps : keeps_rotations dmv_rotate.
Proof. intros dt I R0 L H. apply dmv_rotate_rotation. exact H. Qed.

(* ---------- the direction and speed of the rotation ---------- *)
Lemma aa_zero : forall e, angle_axis (/ 2 * 0) e = id3 .
Proof. intros e. rewrite Rmult_0_r. apply angle_axis_0. Qed.
Lemma aa_add : forall a b e, e = ex3 \/ e = ey3 \/ e = ez3 -> mm (angle_axis a e) (angle_axis b e) = angle_axis (a + b) e.
Proof.
  intros a b e [-> | [-> | ->]]; unfold angle_axis; rewrite sin_plus, cos_plus; m3u; f_equal; f_equal; ring.
Qed.
Lemma turn_zero : forall a e s, a = 0 -> split_turn a e s = s.
Proof.
  intros a e [A p] ->. unfold split_turn. cbn [fst snd]. rewrite Ropp_0, !angle_axis_0, mm_id_r, mul3_id. reflexivity.
Qed.
Lemma zdiv : forall a b, a * 0 / b = 0.
Proof. intros a b. unfold Rdiv. ring. Qed.
Lemma turn_axis : forall a e A l, dot3 e e = 1 -> split_turn a e (A, scale3 l e) = (mm A (angle_axis a e), scale3 l e).
Proof.
  intros a e A l H. rewrite (surjective_pairing (split_turn _ _ _)), split_turn_mat, split_turn_vec. cbn [fst snd]. f_equal.
  rewrite mul3_scale. f_equal. rewrite <- angle_axis_tr. apply angle_axis_fixes. exact H.
Qed.
(* a body spinning about a principal axis e turns about it by the angle dt * l / I, exactly *)
Lemma split_principal : forall dt I R0 L l, rotation R0 -> positive3 I ->
  (mul3 (tr R0) L = scale3 l ex3 -> fst (split_rotate dt I R0 L) = mm R0 (angle_axis (dt * l / c0 I) ex3))
  /\ (mul3 (tr R0) L = scale3 l ey3 -> fst (split_rotate dt I R0 L) = mm R0 (angle_axis (dt * l / c1 I) ey3))
  /\ (mul3 (tr R0) L = scale3 l ez3 -> fst (split_rotate dt I R0 L) = mm R0 (angle_axis (dt * l / c2 I) ez3)).
Proof.
  intros dt I R0 L l H (I0 & I1 & I2). unfold split_rotate.
  assert (c0 (scale3 l ex3) = l /\ c1 (scale3 l ex3) = 0 /\ c2 (scale3 l ex3) = 0) as (X0 & X1 & X2) by (m3u; repeat split; ring).
  assert (c0 (scale3 l ey3) = 0 /\ c1 (scale3 l ey3) = l /\ c2 (scale3 l ey3) = 0) as (Y0 & Y1 & Y2) by (m3u; repeat split; ring).
  assert (c0 (scale3 l ez3) = 0 /\ c1 (scale3 l ez3) = 0 /\ c2 (scale3 l ez3) = l) as (Z0 & Z1 & Z2) by (m3u; repeat split; ring).
  split; [|split]; intros ->.
  - cbn [snd]. rewrite X2, zdiv, (turn_zero 0) by reflexivity. cbn [snd]. rewrite X1, zdiv, (turn_zero 0) by reflexivity. cbn [snd].
    rewrite X0, turn_axis by apply unit_ex. cbn [snd]. rewrite X1, zdiv, (turn_zero 0) by reflexivity. cbn [snd]. rewrite X2, zdiv, (turn_zero 0) by reflexivity. reflexivity.
  - cbn [snd]. rewrite Y2, zdiv, (turn_zero 0) by reflexivity. cbn [snd]. rewrite Y1, turn_axis by apply unit_ey. cbn [snd].
    rewrite Y0, zdiv, (turn_zero 0) by reflexivity. cbn [snd]. rewrite Y1, turn_axis by apply unit_ey. cbn [snd]. rewrite Y2, zdiv, (turn_zero 0) by reflexivity.
    cbn [fst]. rewrite <- mm_assoc, aa_add by auto. do 2 f_equal. field. lra.
  - cbn [snd]. rewrite Z2, turn_axis by apply unit_ez. cbn [snd]. rewrite Z1, zdiv, (turn_zero 0) by reflexivity. cbn [snd].
    rewrite Z0, zdiv, (turn_zero 0) by reflexivity. cbn [snd]. rewrite Z1, zdiv, (turn_zero 0) by reflexivity. cbn [snd].
    rewrite Z2, turn_axis by apply unit_ez. cbn [fst]. rewrite <- mm_assoc, aa_add by auto. do 2 f_equal. field. lra.
Qed.

(* the split rotation is undone by the step with the time reversed *)
Lemma turn_back : forall a e s, dot3 e e = 1 -> split_turn (- a) e (split_turn a e s) = s.
Proof.
  intros a e [A p] H. rewrite (surjective_pairing (split_turn (- a) _ _)), split_turn_mat, split_turn_vec, split_turn_mat, split_turn_vec. cbn [fst snd]. f_equal.
  - rewrite angle_axis_tr, <- mm_assoc, (proj1 (angle_axis_rotation a e H)). apply mm_id_r.
  - rewrite angle_axis_tr, tr_tr, <- mul3_mm, (proj1 (angle_axis_rotation a e H)). apply mul3_id.
Qed.
Lemma turn_c0 : forall a s, c0 (snd (split_turn a ex3 s)) = c0 (snd s).
Proof. intros a [A [x y z]]. rewrite split_turn_vec. unfold angle_axis. cbn [snd]. m3u. ring. Qed.
Lemma turn_c1 : forall a s, c1 (snd (split_turn a ey3 s)) = c1 (snd s).
Proof. intros a [A [x y z]]. rewrite split_turn_vec. unfold angle_axis. cbn [snd]. m3u. ring. Qed.
Lemma turn_c2 : forall a s, c2 (snd (split_turn a ez3 s)) = c2 (snd s).
Proof. intros a [A [x y z]]. rewrite split_turn_vec. unfold angle_axis. cbn [snd]. m3u. ring. Qed.
Lemma flip : forall a t x d, a * - t * x / d = - (a * t * x / d).
Proof. intros. unfold Rdiv. ring. Qed.
Lemma flip1 : forall t x d, - t * x / d = - (t * x / d).
Proof. intros. unfold Rdiv. ring. Qed.
Lemma back_x : forall dt I s, split_turn (- dt * c0 (snd (split_turn (dt * c0 (snd s) / c0 I) ex3 s)) / c0 I) ex3 (split_turn (dt * c0 (snd s) / c0 I) ex3 s) = s.
Proof. intros. rewrite turn_c0, flip1. apply turn_back, unit_ex. Qed.
Lemma back_y : forall dt I s, split_turn (/ 2 * - dt * c1 (snd (split_turn (/ 2 * dt * c1 (snd s) / c1 I) ey3 s)) / c1 I) ey3 (split_turn (/ 2 * dt * c1 (snd s) / c1 I) ey3 s) = s.
Proof. intros. rewrite turn_c1, flip. apply turn_back, unit_ey. Qed.
Lemma back_z : forall dt I s, split_turn (/ 2 * - dt * c2 (snd (split_turn (/ 2 * dt * c2 (snd s) / c2 I) ez3 s)) / c2 I) ez3 (split_turn (/ 2 * dt * c2 (snd s) / c2 I) ez3 s) = s.
Proof. intros. rewrite turn_c2, flip. apply turn_back, unit_ez. Qed.
Lemma split_reverse : forall dt I R0 L, rotation R0 -> fst (split_rotate (- dt) I (fst (split_rotate dt I R0 L)) L) = R0.
Proof.
  intros dt I R0 L H. pose proof (split_rotate_rotation dt I R0 L H) as H1. pose proof (split_rotate_momentum dt I R0 L H) as EL.
  assert (mul3 (tr (fst (split_rotate dt I R0 L))) L = snd (split_rotate dt I R0 L)) as EP.
  { rewrite <- EL at 2. rewrite <- mul3_mm, (rotation_left _ H1). apply mul3_id. }
  unfold split_rotate at 1. rewrite EP, <- surjective_pairing. clear EP EL H1.
  unfold split_rotate. cbv zeta. set (s0 := (R0, mul3 (tr R0) L)).
  rewrite back_z, back_y, back_x, back_y, back_z. reflexivity.
Qed.

(* discrete Moser-Veselov: a fixed point of the iteration solves the discrete equation h p^ = W J - J W^T for the turn W *)
Definition hat (p : v3) : m3 := M3 (V3 0 (- c2 p) (c1 p)) (V3 (c2 p) 0 (- c0 p)) (V3 (- c1 p) (c0 p) 0).
Definition sub_m3 (A B : m3) : m3 := M3 (sub3 (row0 A) (row0 B)) (sub3 (row1 A) (row1 B)) (sub3 (row2_ A) (row2_ B)).
Definition half_trace (I : v3) : v3 := V3 ((c1 I + c2 I - c0 I) / 2) ((c2 I + c0 I - c1 I) / 2) ((c0 I + c1 I - c2 I) / 2).
Lemma dmv_fixed_point : forall h I p c, positive3 I -> dmv_pass (dmv_am p h I) (dmv_fac I) c = c ->
  hat (scale3 h p) = sub_m3 (mm (cayley c) (diag3 (half_trace I))) (mm (diag3 (half_trace I)) (tr (cayley c))).
Proof.
  intros h [i0 i1 i2] [p0 p1 p2] [x y z] (P0 & P1 & P2) E. unfold dmv_pass, dmv_am, dmv_fac in E. cbn [c0 c1 c2] in *.
  pose proof (f_equal c0 E) as E0. pose proof (f_equal c1 E) as E1. pose proof (f_equal c2 E) as E2. clear E. cbn [c0 c1 c2] in E0, E1, E2.
  rewrite E0 in E1. rewrite E0, E1 in E2.
  set (al := 1 + (x * x + y * y + z * z)). assert (0 < al) as Pa by (unfold al; pose proof (sq_nn x); pose proof (sq_nn y); pose proof (sq_nn z); lra).
  assert (h * p0 = 2 * (i0 * x - (i1 - i2) * y * z) / al) as H0.
  { apply (Rmult_eq_reg_r al); [|lra]. unfold Rdiv. rewrite (Rmult_assoc (2 * _)), Rinv_l, Rmult_1_r by lra. pose proof (f_equal (Rmult (2 * i0)) E0) as K. match type of K with ?l = _ => replace l with (h * p0 * al + 2 * (i1 - i2) * y * z) in K by (unfold al; field; lra) end. lra. }
  assert (h * p1 = 2 * (i1 * y - (i2 - i0) * x * z) / al) as H1.
  { apply (Rmult_eq_reg_r al); [|lra]. unfold Rdiv. rewrite (Rmult_assoc (2 * _)), Rinv_l, Rmult_1_r by lra. pose proof (f_equal (Rmult (2 * i1)) E1) as K. match type of K with ?l = _ => replace l with (h * p1 * al + 2 * (i2 - i0) * x * z) in K by (unfold al; field; lra) end. lra. }
  assert (h * p2 = 2 * (i2 * z - (i0 - i1) * x * y) / al) as H2.
  { apply (Rmult_eq_reg_r al); [|lra]. unfold Rdiv. rewrite (Rmult_assoc (2 * _)), Rinv_l, Rmult_1_r by lra. pose proof (f_equal (Rmult (2 * i2)) E2) as K. match type of K with ?l = _ => replace l with (h * p2 * al + 2 * (i0 - i1) * x * y) in K by (unfold al; field; lra) end. lra. }
  assert (cayley (V3 x y z) = M3 (V3 (/ al * (1 * 1 + x * x - y * y - z * z)) (/ al * (2 * (x * y - 1 * z))) (/ al * (2 * (x * z + 1 * y))))
     (V3 (/ al * (2 * (x * y + 1 * z))) (/ al * (1 * 1 - x * x + y * y - z * z)) (/ al * (2 * (y * z - 1 * x))))
     (V3 (/ al * (2 * (x * z - 1 * y))) (/ al * (2 * (y * z + 1 * x))) (/ al * (1 * 1 - x * x - y * y + z * z)))) as -> by reflexivity.
  clearbody al. clear E0 E1 E2. unfold hat, sub_m3, half_trace. cbn [row0 row1 row2_ c0 c1 c2].
  unfold mm, vmul, mul3. cbn [row0 row1 row2_ c0 c1 c2 tr diag3]. unfold dot3, scale3, sub3. cbn [c0 c1 c2]. rewrite H0, H1, H2. clear H0 H1 H2.
  f_equal; f_equal; field; lra.
Qed.

(* ---------- ExponentialEulerMap ---------- *)
Lemma tangent_det : forall dt w A, det3 (tangent_step dt w A) = (1 + dt * dt * dot3 w w) * det3 A.
Proof.
  intros dt [x y z] [[a b c] [d e f] [g h i]].
  unfold tangent_step, det3, dot3, cross3, add3, scale3. cbn [tr row0 row1 row2_ c0 c1 c2]. ring.
Qed.
Lemma orthogonal_mm : forall A B, orthogonal A -> orthogonal B -> orthogonal (mm A B).
Proof.
  intros A B [A1 A2] [B1 B2]. split; rewrite tr_mm.
  - rewrite mm_assoc, <- (mm_assoc A B), B1, mm_id_r. exact A1.
  - rewrite mm_assoc, <- (mm_assoc (tr B) (tr A)), A2, mm_id_r. exact B2.
Qed.
Lemma orthogonal_tr : forall A, orthogonal A -> orthogonal (tr A).
Proof. intros A [H1 H2]. split; rewrite tr_tr; assumption. Qed.
Lemma orthogonal_det : forall A, orthogonal A -> det3 A = 1 \/ det3 A = -1.
Proof.
  intros A [H _]. pose proof (f_equal det3 H) as D. rewrite det_mm, det_tr, det_id in D.
  assert ((det3 A - 1) * (det3 A + 1) = 0) as Z by lra. apply Rmult_integral in Z. destruct Z; [left|right]; lra.
Qed.
Lemma project_rotation : forall svd A, decomposes (svd A) A -> 0 < det3 A -> rotation (project_orientation svd A).
Proof.
  intros svd A HS HA. unfold project_orientation. unfold decomposes in HS. destruct (svd A) as [[U d] V] eqn:E. destruct HS as (HU & HV & D0 & D1 & D2 & EA).
  pose proof (orthogonal_mm U (tr V) HU (orthogonal_tr V HV)) as [O _]. split; [exact O|].
  rewrite det_mm, det_tr. rewrite EA, !det_mm, det_diag, det_tr in HA.
  pose proof (Rmult_le_pos _ _ (Rmult_le_pos _ _ D0 D1) D2) as DD.
  revert HA DD. set (X := c0 d * c1 d * c2 d). clearbody X. destruct (orthogonal_det U HU) as [-> | ->], (orthogonal_det V HV) as [-> | ->]; intros HA DD; try lra.
Qed.
(* the matrices the map decomposes do have a decomposition *)
Lemma axis_frame : forall e, dot3 e e = 1 -> exists Q, rotation Q /\ mul3 Q ez3 = e.
Proof.
  intros [x y z] H. unfold dot3 in H. cbn [c0 c1 c2] in H. set (r2 := x * x + y * y).
  destruct (Req_dec r2 0) as [Z|N].
  - assert (x = 0 /\ y = 0) as [-> ->] by (unfold r2 in Z; pose proof (sq_nn x); pose proof (sq_nn y); split; apply Rsqr_0_uniq; unfold Rsqr; lra).
    assert ((z - 1) * (z + 1) = 0) as Hz by (clear - H; ring_simplify in H; ring_simplify; lra). apply Rmult_integral in Hz. destruct Hz as [Hz|Hz].
    + exists id3. split; [apply rotation_id|]. rewrite mul3_id. unfold ez3. f_equal. lra.
    + exists (diag3 (V3 1 (-1) (-1))). split.
      * split; [rewrite tr_diag, diag_diag; unfold id3; do 2 f_equal; cbn; ring|rewrite det_diag; cbn; ring].
      * unfold ez3, mul3, diag3, dot3. cbn [row0 row1 row2_ c0 c1 c2]. f_equal; [ring|ring|lra].
  - assert (0 < r2) as P by (pose proof (sq_nn x); pose proof (sq_nn y); unfold r2 in *; lra).
    set (r := sqrt r2). assert (r * r = x * x + y * y) as Er by exact (sqrt_sqrt r2 (Rlt_le _ _ P)). assert (r <> 0) as Nr by (intro Z; rewrite Z in Er; unfold r2 in N; lra).
    assert (z * z = 1 - r * r) as Ez by lra.
    exists (M3 (V3 (- y / r) (- (x * z) / r) x) (V3 (x / r) (- (y * z) / r) y) (V3 0 r z)).
    assert (r * r / (r * r) = 1) as One by (field; exact Nr).
    assert (x / r * (x / r) + y / r * (y / r) = 1) as U1.
    { transitivity ((x * x + y * y) / (r * r)); [field; exact Nr|]. rewrite <- Er. exact One. }
    set (a := x / r) in *. set (b := y / r) in *. assert (x = a * r) as Ex by (unfold a; field; exact Nr). assert (y = b * r) as Ey by (unfold b; field; exact Nr).
    split; [split|].
    + unfold mm, vmul, mul3, id3, diag3, dot3. cbn [row0 row1 row2_ c0 c1 c2 tr].
      replace (- y / r) with (- b) by (unfold b; field; exact Nr). replace (- (x * z) / r) with (- (a * z)) by (unfold a; field; exact Nr).
      replace (- (y * z) / r) with (- (b * z)) by (unfold b; field; exact Nr). rewrite Ex, Ey. clearbody a b.
      f_equal; f_equal.
      * transitivity (b * b + a * a * (z * z) + a * a * (r * r)); [ring|rewrite Ez; lra].
      * transitivity (- (a * b) + a * b * (z * z) + a * b * (r * r)); [ring|rewrite Ez; ring].
      * ring.
      * transitivity (- (a * b) + a * b * (z * z) + a * b * (r * r)); [ring|rewrite Ez; ring].
      * transitivity (a * a + b * b * (z * z) + b * b * (r * r)); [ring|rewrite Ez; lra].
      * ring.
      * ring.
      * ring.
      * lra.
    + unfold det3, dot3, cross3. cbn [row0 row1 row2_ c0 c1 c2].
      replace (- y / r) with (- b) by (unfold b; field; exact Nr). replace (- (x * z) / r) with (- (a * z)) by (unfold a; field; exact Nr).
      replace (- (y * z) / r) with (- (b * z)) by (unfold b; field; exact Nr). rewrite Ex, Ey. clearbody a b.
      transitivity ((a * a + b * b) * (z * z) + (a * a + b * b) * (r * r)); [ring|]. replace (a * a + b * b) with 1 by lra. lra.
    + unfold mul3, ez3, dot3. cbn [row0 row1 row2_ c0 c1 c2]. f_equal; ring.
Qed.
Lemma tangent_frame : forall dt w R0, tangent_step dt w R0 = mm (add_m3 id3 (scale_m3 dt (hat w))) R0.
Proof.
  intros dt [x y z] [[a b c] [d e f] [g h i]]. unfold tangent_step, hat, scale_m3, add_m3, mm, vmul, mul3, id3, diag3, dot3, cross3, add3, scale3, tr.
  cbn [row0 row1 row2_ c0 c1 c2]. f_equal; f_equal; ring.
Qed.
Lemma hat_turn : forall Q l, rotation Q -> hat (scale3 l (mul3 Q ez3)) = mm (mm Q (hat (scale3 l ez3))) (tr Q).
Proof.
  intros Q l H. pose proof (rot_eqs Q H) as E. cbv zeta in E. destruct Q as [[m00 m01 m02] [m10 m11 m12] [m20 m21 m22]].
  destruct E as (_ & _ & (J1 & J2 & J3 & J4 & J5 & J6 & J7 & J8 & J9)). clear H. cbn [row0 row1 row2_ c0 c1 c2] in *.
  unfold hat, mm, vmul, mul3, ez3, scale3, dot3. cbn [tr row0 row1 row2_ c0 c1 c2]. f_equal; f_equal; try ring.
  - rewrite J9. ring.
  - rewrite J6. ring.
  - rewrite J9. ring.
  - rewrite J3. ring.
  - rewrite J6. ring.
  - rewrite J3. ring.
Qed.
Lemma decomposition_exists : forall dt w R0, rotation R0 -> exists r, decomposes r (tangent_step dt w R0).
Proof.
  intros dt w R0 HR. set (th := sqrt (dot3 w w)). assert (th * th = dot3 w w) as Et by (apply sqrt_sqrt, dot_nn).
  assert (exists Q, rotation Q /\ w = scale3 th (mul3 Q ez3)) as (Q & HQ & Ew).
  { destruct (Req_dec th 0) as [Z|N].
    - exists id3. split; [apply rotation_id|]. rewrite Z, mul3_id. rewrite Z in Et. destruct w as [x y z]. unfold dot3 in Et. cbn [c0 c1 c2] in Et.
      pose proof (sq_nn x). pose proof (sq_nn y). pose proof (sq_nn z).
      assert (x = 0) as -> by (apply Rsqr_0_uniq; unfold Rsqr; lra). assert (y = 0) as -> by (apply Rsqr_0_uniq; unfold Rsqr; lra).
      assert (z = 0) as -> by (apply Rsqr_0_uniq; unfold Rsqr; lra). unfold ez3. m3u. f_equal; ring.
    - destruct (axis_frame (scale3 (/ th) w)) as (Q & HQ & EQ).
      + transitivity (/ th * / th * dot3 w w); [destruct w; m3u; ring|]. rewrite <- Et. field. exact N.
      + exists Q. split; [exact HQ|]. rewrite EQ. destruct w as [x y z]. m3u. f_equal; field; exact N. }
  set (k := dt * th). set (c := sqrt (1 + k * k)).
  assert (c * c = 1 + k * k) as Ec by (apply sqrt_sqrt; pose proof (sq_nn k); lra).
  assert (0 < c) as Pc by (apply sqrt_lt_R0; pose proof (sq_nn k); lra).
  set (Z := M3 (V3 (1 / c) (- k / c) 0) (V3 (k / c) (1 / c) 0) (V3 0 0 1)). set (d := V3 c c 1).
  assert (rotation Z) as HZ.
  { assert ((1 + k * k) / (c * c) = 1) as One by (rewrite <- Ec; field; lra).
    split; unfold Z; [unfold mm, vmul, mul3, id3, diag3, dot3; cbn [row0 row1 row2_ c0 c1 c2 tr]; f_equal; f_equal|unfold det3, dot3, cross3; cbn [row0 row1 row2_ c0 c1 c2]];
      try (field; lra); (transitivity ((1 + k * k) / (c * c)); [field; lra|exact One]). }
  assert (add_m3 id3 (scale_m3 dt (hat (scale3 th ez3))) = mm Z (diag3 d)) as EZ.
  { unfold Z, d, add_m3, scale_m3, hat, mm, vmul, mul3, id3, diag3, dot3, scale3, add3, ez3. cbn [row0 row1 row2_ c0 c1 c2 tr]. fold k.
    f_equal; f_equal; unfold k; field; lra. }
  exists (mm Q Z, d, mm (tr R0) Q). unfold decomposes.
  split; [apply rotation_orthogonal, rotation_mm; assumption|]. split; [apply rotation_orthogonal, rotation_mm; [apply rotation_tr|]; assumption|].
  unfold d. cbn [c0 c1 c2]. fold d. split; [lra|]. split; [lra|]. split; [lra|].
  rewrite tangent_frame, Ew, hat_turn by exact HQ. rewrite tr_mm, tr_tr.
  transitivity (mm (mm (mm Q (add_m3 id3 (scale_m3 dt (hat (scale3 th ez3))))) (tr Q)) R0).
  - f_equal. assert (forall A B, mm (mm A (add_m3 id3 B)) (tr A) = add_m3 (mm A (tr A)) (mm (mm A B) (tr A))) as D1.
    { intros [[a1 a2 a3] [a4 a5 a6] [a7 a8 a9]] [[b1 b2 b3] [b4 b5 b6] [b7 b8 b9]]. unfold add_m3, mm, vmul, mul3, id3, diag3, dot3, add3.
      cbn [row0 row1 row2_ c0 c1 c2 tr]. f_equal; f_equal; ring. }
    assert (forall A B l, mm (mm A (scale_m3 l B)) (tr A) = scale_m3 l (mm (mm A B) (tr A))) as D2.
    { intros [[a1 a2 a3] [a4 a5 a6] [a7 a8 a9]] [[b1 b2 b3] [b4 b5 b6] [b7 b8 b9]] l. unfold scale_m3, mm, vmul, mul3, dot3, scale3.
      cbn [row0 row1 row2_ c0 c1 c2 tr]. f_equal; f_equal; ring. }
    rewrite D1, D2, (proj1 HQ). reflexivity.
  - rewrite EZ, !mm_assoc. reflexivity.
Qed.
Lemma exp_map_views : forall svd s dt j, (j < s3_n s)%nat ->
  let r := exp_euler_map svd s dt in
  seg3 (fst r) (3 * j) = add3 (position s j) (scale3 dt (velocity s j))
  /\ mat_at (fst r) (3 * s3_n s + 9 * j) = project_orientation svd (tangent_step dt (spin s j) (orientation s j))
  /\ seg3 (snd r) (3 * j) = add3 (velocity s j) (scale3 dt (seg3 (mass_mul (s3_n s) (s3_Minv s) (rb3_force s)) (3 * j)))
  /\ seg3 (snd r) (3 * s3_n s + 3 * j) = add3 (spin s j) (scale3 dt (seg3 (mass_mul (s3_n s) (s3_Minv s) (rb3_force s)) (3 * s3_n s + 3 * j))).
Proof.
  intros svd s dt j Hj r. set (n := s3_n s) in *. unfold r, exp_euler_map. cbn [fst snd]. fold n. split; [|split; [|split]].
  - rewrite (loop_keep (fun q => seg3 q (3 * j))) by (intros i x Hi; apply seg_set_mat; lia).
    rewrite (loop_slot (fun q => seg3 q (3 * j)) (fun _ => add3 (position s j) (scale3 dt (velocity s j))) n _ j _ Hj); [reflexivity| |].
    + intros i x Hi N. cbv zeta. rewrite seg_set_mat, seg_set_other by lia. reflexivity.
    + intros x. cbv zeta. rewrite seg_set_mat, seg_set by lia. reflexivity.
  - rewrite (loop_slot (fun q => mat_at q (3 * n + 9 * j)) (fun A => project_orientation svd A) n _ j _ Hj).
    + f_equal. rewrite (loop_slot (fun q => mat_at q (3 * n + 9 * j)) (fun _ => tangent_step dt (spin s j) (orientation s j)) n _ j _ Hj); [reflexivity| |].
      * intros i x Hi N. cbv zeta. rewrite mat_set_other, mat_set_seg by lia. reflexivity.
      * intros x. cbv zeta. rewrite mat_set. reflexivity.
    + intros i x Hi N. apply mat_set_other. lia.
    + intros x. apply mat_set.
  - rewrite (loop_slot (fun v => seg3 v (3 * j)) (fun _ => add3 (velocity s j) (scale3 dt (seg3 (mass_mul n (s3_Minv s) (rb3_force s)) (3 * j)))) n _ j _ Hj); [reflexivity| |].
    + intros i x Hi N. cbv zeta. rewrite !seg_set_other by lia. reflexivity.
    + intros x. cbv zeta. rewrite seg_set_other, seg_set by lia. reflexivity.
  - rewrite (loop_slot (fun v => seg3 v (3 * n + 3 * j)) (fun _ => add3 (spin s j) (scale3 dt (seg3 (mass_mul n (s3_Minv s) (rb3_force s)) (3 * n + 3 * j)))) n _ j _ Hj); [reflexivity| |].
    + intros i x Hi N. cbv zeta. rewrite !seg_set_other by lia. reflexivity.
    + intros x. cbv zeta. replace (3 * (n + j))%nat with (3 * n + 3 * j)%nat by lia. rewrite seg_set. reflexivity.
Qed.
Lemma exp_step_consistent : forall svd dt s, svd_ok svd -> consistent s -> consistent (rb3_step (exp_euler_map svd) dt s).
Proof.
  intros svd dt s HV HS. apply step_consistent; [exact HS|]. intros i Hi. rewrite (proj1 (proj2 (exp_map_views svd s dt i Hi))).
  apply project_rotation; [apply HV; apply HS; exact Hi|]. rewrite tangent_det. rewrite (proj2 (proj1 (proj2 HS) i Hi)).
  pose proof (dot_nn (spin s i)). pose proof (Rmult_le_pos _ _ (sq_nn dt) H). lra.
Qed.
Lemma exp_steps_consistent : forall svd dt k s, svd_ok svd -> consistent s -> consistent (rb3_steps (exp_euler_map svd) dt k s).
Proof. intros svd dt k. induction k as [|k IH]; intros s HV HS; [exact HS|]. cbn [rb3_steps]. apply IH; [exact HV|]. apply exp_step_consistent; assumption. Qed.
Lemma exp_step_views : forall svd dt s j, consistent s -> (j < s3_n s)%nat ->
  let s' := rb3_step (exp_euler_map svd) dt s in
  position s' j = add3 (position s j) (scale3 dt (velocity s j)) /\ velocity s' j = add3 (velocity s j) (scale3 dt (total (s3_g s))) /\ spin s' j = spin s j.
Proof.
  intros svd dt s j HS Hj s'. destruct (exp_map_views svd s dt j Hj) as (E1 & _ & E3 & E4). destruct (force_segs s j HS Hj) as [FL FA].
  destruct (consistent_segs s (rb3_force s) j HS Hj) as (_ & G1 & _ & G2). destruct (proj1 HS j Hj) as (Hm & _).
  split; [exact E1|]. split.
  - unfold s', velocity at 1. cbn [s3_v rb3_step update_mass]. rewrite E3, G1, FL, (proj2 (scale_inv _ _ Hm)). reflexivity.
  - unfold s', spin at 1. cbn [s3_n s3_v rb3_step update_mass]. rewrite E4, G2, FA, mul3_zero, scale3_zero. apply add3_zero_r.
Qed.

(* ---------- exponentialEuler ---------- *)
Lemma update_orientation_rotation : forall dt w A, rotation A -> rotation (update_orientation dt w A).
Proof.
  intros dt w A H. unfold update_orientation. set (th := sqrt (dot3 w w)). destruct (Req_EM_T th 0) as [Z|N].
  - rewrite Z, Rmult_0_l, angle_axis_0, mm_id_l. exact H.
  - apply rotation_mm; [|exact H]. apply angle_axis_rotation.
    assert (th * th = dot3 w w) as E by (apply sqrt_sqrt, dot_nn). unfold dot3 in *. cbn [c0 c1 c2] in *.
    replace (_ + _) with ((c0 w * c0 w + c1 w * c1 w + c2 w * c2 w) / (th * th)) by (field; exact N). rewrite <- E. apply Rinv_r.
    intro Z. apply Rmult_integral in Z. destruct Z; apply N; assumption.
Qed.
Lemma exponential_euler_views : forall n fixed q0 v0 dt q1 j, (j < n)%nat ->
  let q := exponential_euler n fixed q0 v0 dt q1 in
  seg3 q (3 * j) = (if fixed j then seg3 q0 (3 * j) else add3 (seg3 q0 (3 * j)) (scale3 dt (seg3 v0 (3 * j))))
  /\ mat_at q (3 * n + 9 * j) = (if fixed j then mat_at q0 (3 * n + 9 * j) else update_orientation dt (seg3 v0 (3 * n + 3 * j)) (mat_at q0 (3 * n + 9 * j))).
Proof.
  intros n fixed q0 v0 dt q1 j Hj q. unfold q, exponential_euler. split.
  - rewrite (loop_keep (fun q => seg3 q (3 * j))) by (intros i x Hi; apply seg_set_mat; lia).
    rewrite (loop_slot (fun q => seg3 q (3 * j)) (fun _ => if fixed j then seg3 q0 (3 * j) else add3 (seg3 q0 (3 * j)) (scale3 dt (seg3 v0 (3 * j)))) n _ j _ Hj); [reflexivity| |].
    + intros i x Hi N. destruct (fixed i); apply seg_set_other; lia.
    + intros x. destruct (fixed j); apply seg_set.
  - rewrite (loop_slot (fun q => mat_at q (3 * n + 9 * j)) (fun _ => if fixed j then mat_at q0 (3 * n + 9 * j) else update_orientation dt (seg3 v0 (3 * n + 3 * j)) (mat_at q0 (3 * n + 9 * j))) n _ j _ Hj); [reflexivity| |].
    + intros i x Hi N. apply mat_set_other. lia.
    + intros x. apply mat_set.
Qed.

(* ---------- energies and momenta ---------- *)
Lemma kinetic_sum : forall s, consistent s -> s3_kinetic s =
  rsum (s3_n s) (fun i => / 2 * mass s i * dot3 (velocity s i) (velocity s i)
    + (let w := mul3 (tr (orientation s i)) (spin s i) in
       / 2 * (c0 (inertia0 s i) * (c0 w * c0 w) + c1 (inertia0 s i) * (c1 w * c1 w) + c2 (inertia0 s i) * (c2 w * c2 w)))).
Proof.
  intros s HS. unfold s3_kinetic. change (rsum (6 * s3_n s) _) with (dotn (s3_n s) (s3_v s) (mass_mul (s3_n s) (s3_M s) (s3_v s))).
  rewrite dotn_segs, <- rsum_plus, <- rsum_scal. apply rsum_ext. intros i Hi.
  destruct (consistent_segs s (s3_v s) i HS Hi) as (E1 & _ & E3 & _). rewrite E1, E3, turned_form. fold (velocity s i) (spin s i).
  cbv zeta. set (w := mul3 _ _). unfold dot3, scale3. cbn [c0 c1 c2]. ring.
Qed.
Lemma sum3_ext : forall n f g, (forall i, (i < n)%nat -> f i = g i) -> sum3 n f = sum3 n g.
Proof. intros n f g H. unfold sum3. f_equal; apply rsum_ext; intros i Hi; rewrite H by exact Hi; reflexivity. Qed.
Lemma sum3_add : forall n f g, sum3 n (fun i => add3 (f i) (g i)) = add3 (sum3 n f) (sum3 n g).
Proof. intros n f g. unfold sum3, add3. cbn [c0 c1 c2]. rewrite !rsum_plus. reflexivity. Qed.
Lemma mass_M : forall s i, consistent s -> (i < s3_n s)%nat -> s3_M s (3 * i)%nat = mass s i.
Proof.
  intros s i HS Hi. destruct (proj1 HS i Hi) as (_ & _ & _ & _ & _ & HM & _). pose proof (f_equal c0 HM) as H0.
  unfold seg3, all3 in H0. cbn [c0] in H0. rewrite Nat.add_0_r in H0. exact H0.
Qed.
Lemma momentum_sum : forall s, consistent s -> s3_momentum s = sum3 (s3_n s) (linear_momentum s).
Proof. intros s HS. unfold s3_momentum, rb3_momentum. apply sum3_ext. intros i Hi. rewrite mass_M by assumption. reflexivity. Qed.
Lemma angular_sum : forall s, consistent s -> s3_angular s =
  sum3 (s3_n s) (fun i => add3 (cross3 (position s i) (linear_momentum s i)) (angular_momentum s i)).
Proof.
  intros s HS. unfold s3_angular, rb3_angular. rewrite sum3_add. f_equal; apply sum3_ext; intros i Hi.
  - rewrite mass_M by assumption. fold (position s i) (velocity s i). unfold linear_momentum. destruct (position s i), (velocity s i). m3u. f_equal; ring.
  - destruct (proj2 (proj2 HS) i Hi) as [E _]. rewrite E. replace (3 * (s3_n s + i))%nat with (3 * s3_n s + 3 * i)%nat by lia. reflexivity.
Qed.
Lemma fold_sum : forall n (f : nat -> R) a, fold_left (fun U i => U + f i) (seq 0 n) a = a + rsum n f.
Proof.
  intros n f a. induction n as [|n IH]; [cbn; ring|]. rewrite seq_S, fold_left_app, IH. cbn [fold_left rsum Nat.add]. ring.
Qed.
Lemma dot3_add_l : forall a b c, dot3 (add3 a b) c = dot3 a c + dot3 b c.
Proof. intros [? ? ?] [? ? ?] [? ? ?]. m3u. ring. Qed.
Lemma potential_sum : forall s q, consistent s -> s3_potential s q = rsum (s3_n s) (fun i => - mass s i * dot3 (total (s3_g s)) (seg3 q (3 * i))).
Proof.
  intros s q HS. unfold s3_potential.
  assert (forall gs a, fold_left (fun U g => U + fold_left (fun U i => U + - (s3_M s (3 * i)%nat) * dot3 g (seg3 q (3 * i))) (seq 0 (s3_n s)) 0) gs a
    = a + rsum (s3_n s) (fun i => - mass s i * dot3 (total gs) (seg3 q (3 * i)))) as G.
  { induction gs as [|g gs IH]; intros a; cbn [fold_left total fold_right].
    - rewrite rsum_zero; [ring|]. intros i Hi. unfold dot3, zero3. cbn [c0 c1 c2]. ring.
    - rewrite IH, (fold_sum (s3_n s) (fun i => - (s3_M s (3 * i)%nat) * dot3 g (seg3 q (3 * i)))). fold (total gs). rewrite Rplus_0_l, Rplus_assoc, <- rsum_plus. f_equal. apply rsum_ext. intros i Hi.
      rewrite mass_M by assumption. rewrite dot3_add_l. ring. }
  rewrite G. ring.
Qed.
(* moving body i by d changes the potential by minus the force times d: the force is minus the gradient *)
Lemma force_gradient : forall s q i d, consistent s -> (i < s3_n s)%nat ->
  s3_potential s (add_seg3 q (3 * i) d) = s3_potential s q - dot3 (seg3 (rb3_force s) (3 * i)) d.
Proof.
  intros s q i d HS Hi. rewrite !potential_sum by assumption. rewrite (proj1 (force_segs s i HS Hi)).
  transitivity (rsum (s3_n s) (fun j => - mass s j * dot3 (total (s3_g s)) (seg3 q (3 * j)) + (if Nat.eqb j i then - dot3 (scale3 (mass s i) (total (s3_g s))) d else 0))).
  - apply rsum_ext. intros j Hj. destruct (Nat.eqb_spec j i) as [->|N].
    + rewrite seg_add. unfold dot3, add3, scale3. cbn [c0 c1 c2]. ring.
    + rewrite seg_add_other by lia. ring.
  - rewrite rsum_plus. unfold Rminus. f_equal. rewrite (rsum_one _ _ i Hi).
    + rewrite Nat.eqb_refl. reflexivity.
    + intros j Hj N. destruct (Nat.eqb_spec j i); [contradiction|reflexivity].
Qed.
