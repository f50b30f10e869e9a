(* Centring shows everything. *)
From Coq Require Import List Reals Lra Psatz Bool.
From Coquelicot Require Import Coquelicot.
From Verif Require Import Outcome Ccd_Model Lin_Model ContactRb3_Model Rot_Model Rot_Spec Rot_Alg Geom_Model Geom_Spec Wall_Model Cam_Model Cam_Spec Cam_Plane Cam_Space Cam_Space2.
Import ListNotations.
Open Scope R_scope.

(* ---------- tan( a x ) <= a tan x ---------- *)
Lemma tan_convex : forall a x, 0 < a <= 1 -> 0 <= x < PI / 2 -> sin (a * x) * cos x <= a * (sin x * cos (a * x)).
Proof.
  intros a x [A A1] [X X1]. pose proof PI_RGT_0.
  set (f := fun x => a * (sin x * cos (a * x)) - sin (a * x) * cos x).
  set (f' := fun x => (1 - a * a) * (sin x * sin (a * x))).
  assert (D : forall t, is_derive f t (f' t)).
  { intros t. unfold f, f'. auto_derive; [exact I|]. ring. }
  destruct (Req_dec x 0) as [->|N]; [rewrite Rmult_0_r, sin_0; lra|].
  destruct (MVT_gen f 0 x f') as (c & [C0 C1] & E).
  - intros t _. apply D.
  - intros t _. apply continuity_pt_filterlim. apply (ex_derive_continuous f t). exists (f' t). apply D.
  - rewrite Rmin_left in C0 by lra. rewrite Rmax_right in C1 by lra.
    assert (F0 : f 0 = 0) by (unfold f; rewrite Rmult_0_r, sin_0; ring). rewrite F0 in E.
    assert (0 <= f' c).
    { unfold f'. assert (a * c <= c) by nra. assert (0 <= a * c) by nra. apply Rmult_le_pos; [nra|]. apply Rmult_le_pos; apply sin_ge_0; lra. }
    assert (0 <= f x) by nra. unfold f in *. lra.
Qed.

(* ---------- a ball fits between two planes ---------- *)
(* e is the coordinate across, d that along the axis, towards the camera *)
Lemma fits : forall e d n r rho s c, s * s + c * c = 1 -> 0 < s -> 0 < c -> e * e + d * d <= n -> n <= r * r -> 0 <= r -> r <= rho * s ->
  Rabs e * c <= s * (rho - d).
Proof.
  intros e d n r rho s c U S C N R R0 H.
  assert (B : forall x, x * x = e * e -> x * c + d * s <= r).
  { intros x X. apply Rsqr_incr_0_var; [|exact R0]. unfold Rsqr.
    assert ((x * c + d * s) * (x * c + d * s) + (x * s - d * c) * (x * s - d * c) = (x * x + d * d) * (s * s + c * c)) by ring.
    pose proof (Rle_0_sqr (x * s - d * c)) as Q. unfold Rsqr in Q. rewrite U, X in H0. lra. }
  assert (A : Rabs e * Rabs e = e * e) by (rewrite <- Rabs_mult; apply Rabs_pos_eq; apply Rle_0_sqr).
  specialize (B (Rabs e) A). lra.
Qed.
Lemma half_fov : / 2 * fov * (PI / 180) = fov / 360 * PI.
Proof. field. Qed.
Definition hf : R := fov / 360 * PI.
Lemma hf_range : 0 < hf < PI / 2.
Proof. pose proof PI_RGT_0. unfold hf, fov. lra. Qed.
Lemma hf_sin : 0 < sin hf /\ 0 < cos hf /\ sin hf < 1.
Proof.
  pose proof hf_range. pose proof PI_RGT_0. assert (0 < sin hf) by (apply sin_gt_0; lra). assert (0 < cos hf) by (apply cos_gt_0; lra).
  repeat split; try assumption. pose proof (sc1 hf). nra.
Qed.

(* eye coordinates of a point relative to the target have its distance *)
Lemma eye_norm : forall v p, frames v -> right_of v p * right_of v p + above v p * above v p + (distance v - depth v p) * (distance v - depth v p) = dot3 (sub3 p (target v)) (sub3 p (target v)).
Proof.
  intros v p F. rewrite <- (rot_dot (cam_rot v) (sub3 p (target v)) (sub3 p (target v)) (cam_rot_ok v F)).
  unfold right_of, above, depth. rewrite (eye_form v p F). unfold sub3 at 1 3 5 7 9 11. cbn [c0 c1 c2]. unfold dot3 at 1. ring.
Qed.

(* the whole of a ball around the target is in the window when the camera is far enough *)
Lemma persp_fits : forall v r a, frames v -> faithful3 v -> w_persp v = true -> 0 < r -> a = w_w v / w_h v ->
  r <= p_rho (w_p v) * sin hf -> (a < 1 -> r <= p_rho (w_p v) * sin (a * hf)) ->
  forall p, in_ball3 (target v) r p -> in_window3 v p.
Proof.
  intros v r a F (W & H & Q) P R A D1 D2 p B. destruct hf_sin as (S & C & S1). pose proof hf_range as [HF1 HF2]. pose proof PI_RGT_0.
  assert (A0 : 0 < a) by (rewrite A; apply Rdiv_lt_0_compat; assumption).
  pose proof (eye_norm v p F) as N. unfold in_ball3 in B. rewrite <- N in B. unfold distance in B. rewrite P in B. set (rho := p_rho (w_p v)) in *.
  set (x := right_of v p) in *. set (y := above v p) in *. set (d := rho - depth v p) in *.
  assert (RHO : 0 < rho) by nra.
  pose proof (Rle_0_sqr x) as X2. pose proof (Rle_0_sqr y) as Y2. unfold Rsqr in X2, Y2. pose proof (sc1 hf) as SC.
  assert (DP : 0 < depth v p).
  { assert (r < rho) by nra. assert (d <= r) by (apply Rsqr_incr_0_var; unfold Rsqr; lra). unfold d in H2. lra. }
  assert (DD : rho - d = depth v p) by (unfold d; ring).
  assert (FY : Rabs y * cos hf <= sin hf * depth v p).
  { rewrite <- DD. apply (fits y d (y * y + d * d) r rho (sin hf) (cos hf)); try lra. }
  assert (FX : Rabs x * cos hf <= a * (sin hf * depth v p)).
  { destruct (Rlt_dec a 1) as [L|L].
    - specialize (D2 L). assert (AH : 0 < a * hf < PI / 2) by (split; nra).
      assert (SA : 0 < sin (a * hf)) by (apply sin_gt_0; lra). assert (CA : 0 < cos (a * hf)) by (apply cos_gt_0; lra).
      assert (FX : Rabs x * cos (a * hf) <= sin (a * hf) * depth v p).
      { rewrite <- DD. pose proof (sc1 (a * hf)). apply (fits x d (x * x + d * d) r rho (sin (a * hf)) (cos (a * hf))); try lra. }
      pose proof (tan_convex a hf (conj A0 (Rlt_le _ _ L)) (conj (Rlt_le _ _ HF1) HF2)) as T.
      apply (Rmult_le_reg_r (cos (a * hf))); [exact CA|].
      apply Rle_trans with (sin (a * hf) * depth v p * cos hf); [|].
      + replace (Rabs x * cos hf * cos (a * hf)) with (Rabs x * cos (a * hf) * cos hf) by ring. apply Rmult_le_compat_r; lra.
      + replace (sin (a * hf) * depth v p * cos hf) with (sin (a * hf) * cos hf * depth v p) by ring.
        replace (a * (sin hf * depth v p) * cos (a * hf)) with (a * (sin hf * cos (a * hf)) * depth v p) by ring. apply Rmult_le_compat_r; lra.
    - apply Rle_trans with (sin hf * depth v p).
      + rewrite <- DD. apply (fits x d (x * x + d * d) r rho (sin hf) (cos hf)); try lra.
      + assert (0 < sin hf * depth v p) by (apply Rmult_lt_0_compat; assumption). nra. }
  unfold in_window3. rewrite Q, P. cbv zeta. fold hf. split; [exact DP|]. rewrite <- A. unfold tan.
  assert (TC : forall k z, Rabs z * cos hf <= k * (sin hf * depth v p) -> Rabs z * / 10 <= sin hf / cos hf / 10 * k * depth v p).
  { intros k z Hz. apply (Rmult_le_reg_r (10 * cos hf)); [lra|].
    replace (Rabs z * / 10 * (10 * cos hf)) with (Rabs z * cos hf) by field.
    replace (sin hf / cos hf / 10 * k * depth v p * (10 * cos hf)) with (k * (sin hf * depth v p)) by (field; nz). exact Hz. }
  split.
  - exact (TC a x FX).
  - specialize (TC 1 y). rewrite Rmult_1_r in TC. apply TC. lra.
Qed.

(* the camera that centring chooses *)
Lemma center_persp : forall v b, 0 < w_h v -> w_persp v = true -> w_lock v = false -> fresh_fov v -> extended3 b -> sin (w_w v / w_h v * hf) <> 0 ->
  let v' := center_camera3 v (Some b) in let r := snd (bounding_sphere b) in
  target v' = fst (bounding_sphere b) /\ r <= p_rho (w_p v') * sin hf
  /\ (0 < sin (w_w v / w_h v * hf) -> r <= p_rho (w_p v') * sin (w_w v / w_h v * hf)).
Proof.
  intros v b H P L [G1 G2] E N v' r. unfold v', center_camera3. rewrite L, P. unfold target. cbn [w_persp put_p w_p]. rewrite P. split; [reflexivity|].
  unfold p_center, p_update, p_with. cbv zeta. cbn [p_rho]. rewrite G1, G2, half_fov. fold hf.
  replace (/ 2 * (w_w v / w_h v) * fov * (PI / 180)) with (w_w v / w_h v * hf) by (unfold hf; field; nz).
  fold r. destruct hf_sin as (S & _ & _). pose proof (Rmax_l (r / sin hf) (r / sin (w_w v / w_h v * hf))) as M1. pose proof (Rmax_r (r / sin hf) (r / sin (w_w v / w_h v * hf))) as M2. split.
  - replace r with (r / sin hf * sin hf) at 1 by (field; nz). apply Rmult_le_compat_r; lra.
  - intros S2. replace r with (r / sin (w_w v / w_h v * hf) * sin (w_w v / w_h v * hf)) at 1 by (field; exact N). apply Rmult_le_compat_r; lra.
Qed.
Theorem centred_persp : forall v b p, frames v -> proj_ok v -> fresh_fov v -> w_persp v = true -> w_lock v = false ->
  extended3 b -> sin (w_w v / w_h v * (fov / 360 * PI)) <> 0 -> in_ball3 (fst (bounding_sphere b)) (snd (bounding_sphere b)) p ->
  in_window3 (center_camera3 v (Some b)) p.
Proof.
  intros v b p F P G V L E N B. destruct (center_persp v b (proj1 (proj2 P)) V L G E N) as (T & D1 & D2).
  assert (F' : frames (center_camera3 v (Some b))) by (apply center_frames; exact F).
  destruct (center_proj v (Some b)) as [P' _]; [discriminate|exact P|intros _; exact G|].
  assert (V' : w_persp (center_camera3 v (Some b)) = true) by (unfold center_camera3; rewrite L, V; exact V).
  assert (W' : w_w (center_camera3 v (Some b)) = w_w v /\ w_h (center_camera3 v (Some b)) = w_h v) by (unfold center_camera3; rewrite L, V; split; reflexivity).
  destruct W' as [W1 W2].
  apply (persp_fits _ (snd (bounding_sphere b)) (w_w v / w_h v) F' (proj_faithful _ P') V' E).
  - rewrite W1, W2. reflexivity.
  - exact D1.
  - intros A. apply D2. destruct P as (W & H & _). pose proof hf_range. pose proof PI_RGT_0. assert (0 < w_w v / w_h v) by (apply Rdiv_lt_0_compat; assumption).
    apply sin_gt_0; nra.
  - rewrite T. exact B.
Qed.
Theorem centred_ortho : forall v b p, frames v -> proj_ok v -> w_persp v = false -> w_lock v = false ->
  in_ball3 (fst (bounding_sphere b)) (snd (bounding_sphere b)) p -> extended3 b ->
  in_window3 (center_camera3 v (Some b)) p.
Proof.
  intros v b p F (W & H & Q) V L B E. unfold extended3 in E. set (r := snd (bounding_sphere b)) in *.
  assert (F' : frames (center_camera3 v (Some b))) by (apply center_frames; exact F).
  pose proof (eye_norm _ p F') as N.
  assert (T : target (center_camera3 v (Some b)) = fst (bounding_sphere b)) by (unfold center_camera3; rewrite L, V; unfold target; cbn; rewrite V; reflexivity).
  rewrite T in N. unfold in_ball3 in B. rewrite <- N in B. set (v' := center_camera3 v (Some b)) in *.
  set (s := Rmax (/ 100000) (Rmax (w_h v / w_w v * r) r)).
  assert (PR : w_proj v' = Ortho (s / (w_h v / w_w v)) s (- 100) 100).
  { unfold v', center_camera3. rewrite L, V. reflexivity. }
  unfold in_window3. rewrite PR.
  assert (S1 : r <= s) by (unfold s; apply Rle_trans with (Rmax (w_h v / w_w v * r) r); [apply Rmax_r|apply Rmax_r]).
  assert (S2 : w_h v / w_w v * r <= s) by (unfold s; apply Rle_trans with (Rmax (w_h v / w_w v * r) r); [apply Rmax_l|apply Rmax_r]).
  pose proof (Rle_0_sqr (right_of v' p)) as X2. pose proof (Rle_0_sqr (above v' p)) as Y2. pose proof (Rle_0_sqr (distance v' - depth v' p)) as Z2. unfold Rsqr in X2, Y2, Z2.
  assert (K : forall z, z * z <= r * r -> Rabs z <= r).
  { intros z Hz. apply Rsqr_incr_0_var; [|lra]. unfold Rsqr. rewrite <- Rabs_mult, Rabs_pos_eq by apply Rle_0_sqr. exact Hz. }
  assert (HW : 0 < w_h v / w_w v) by (apply Rdiv_lt_0_compat; assumption). split.
  - apply Rle_trans with r; [apply K; lra|]. apply (Rmult_le_reg_l (w_h v / w_w v)); [exact HW|].
    replace (w_h v / w_w v * (s / (w_h v / w_w v))) with s by (field; nz). exact S2.
  - apply Rle_trans with r; [apply K; lra|exact S1].
Qed.
(* and none of it is too near or too far, in the usual cases *)
Theorem range_persp : forall v r p, frames v -> faithful3 v -> w_persp v = true -> in_ball3 (target v) r p -> 0 <= r ->
  r + / 10 <= p_rho (w_p v) -> p_rho (w_p v) + r <= 1000 -> in_range3 v p.
Proof.
  intros v r p F (_ & _ & Q) V B R0 N M. pose proof (eye_norm v p F) as E. unfold in_ball3 in B. rewrite <- E in B. unfold distance in B. rewrite V in B.
  unfold in_range3. rewrite Q, V. cbv zeta. pose proof (Rle_0_sqr (right_of v p)) as X2. pose proof (Rle_0_sqr (above v p)) as Y2. unfold Rsqr in X2, Y2.
  set (d := p_rho (w_p v) - depth v p) in *. assert (- r <= d <= r).
  { split; [|apply Rsqr_incr_0_var; unfold Rsqr; lra]. assert (- d <= r) by (apply Rsqr_incr_0_var; unfold Rsqr; lra). lra. }
  unfold d in *. lra.
Qed.
Theorem range_ortho : forall v r p, frames v -> faithful3 v -> w_persp v = false -> in_ball3 (target v) r p -> 0 <= r <= 50 -> in_range3 v p.
Proof.
  intros v r p F (_ & _ & Q) V B R0. pose proof (eye_norm v p F) as E. unfold in_ball3 in B. rewrite <- E in B. unfold distance in B. rewrite V in B.
  unfold in_range3. rewrite Q, V. pose proof (Rle_0_sqr (right_of v p)) as X2. pose proof (Rle_0_sqr (above v p)) as Y2. unfold Rsqr in X2, Y2.
  set (d := 50 - depth v p) in *. assert (- r <= d <= r).
  { split; [|apply Rsqr_incr_0_var; unfold Rsqr; lra]. assert (- d <= r) by (apply Rsqr_incr_0_var; unfold Rsqr; lra). lra. }
  unfold d in *. lra.
Qed.
