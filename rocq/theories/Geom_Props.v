(* Bounding boxes, narrow-phase contact tests and closest points: C34 - C38. *)
From Coq Require Import List Reals Arith Bool Lra Lia.
From Verif Require Import Outcome Ccd_Model Lin_Model ContactRb3_Model Rot_Model Rot_Spec Rot_Alg Geom_Model Geom_Spec Geom_Sets
  Geom_Circle Geom_BoxBox Geom_Space Geom_Aabb.
Import ListNotations.
Open Scope R_scope.

(* ---------- C34 ---------- *)
Theorem C34_circle : forall r x theta, 0 <= r -> tight2 (circle_aabb r x theta) (in_disc x r).
Proof. exact circle_aabb_tight. Qed.
Print Assumptions C34_circle.
Theorem C34_box : forall r x theta, 0 <= fst r -> 0 <= snd r -> tight2 (box_aabb r x theta) (in_box2 x theta r).
Proof. exact box_aabb_tight. Qed.
Print Assumptions C34_box.
Theorem C34_swept_circle : forall r x0 t0 x1 t1, 0 <= r -> tight2 (circle_collision_aabb r x0 t0 x1 t1) (swept_disc x0 x1 r).
Proof. exact circle_sweep_tight. Qed.
Print Assumptions C34_swept_circle.
Theorem C34_sphere : forall r x M, 0 <= r -> tight3 (sphere_aabb r x M) (in_ball3 x r).
Proof. exact sphere_aabb_tight. Qed.
Print Assumptions C34_sphere.
Theorem C34_box3 : forall w x M, rotation M -> 0 <= c0 w -> 0 <= c1 w -> 0 <= c2 w ->
  tight3 (box3_aabb w x M) (in_box3 x M w).
Proof. exact box3_aabb_tight. Qed.
Print Assumptions C34_box3.
(* the box of a list of vertices is the smallest around their convex hull; there is none only if there is no vertex *)
Theorem C34_mesh : forall vs x M,
  match vertices_aabb vs x M with
  | Some b => tight3 b (placed x M (hull vs))
  | None => forall p, ~ placed x M (hull vs) p
  end.
Proof. exact vertices_aabb_tight. Qed.
Print Assumptions C34_mesh.
(* the boxes of whole states *)
Theorem C34_rb2_state : forall bodies, Forall body2_valid bodies ->
  match rb2_bounding_box bodies with
  | Some b => tight2 b (fun p => exists body, In body bodies /\ body2_points body p)
  | None => forall p, ~ (exists body, In body bodies /\ body2_points body p)
  end.
Proof. exact rb2_bounding_box_tight. Qed.
Print Assumptions C34_rb2_state.
Theorem C34_ball_state : forall balls drums, Forall (fun b => 0 <= snd b) (balls ++ drums) ->
  match ball_bounding_box balls drums with
  | Some b => tight2 b (fun p => exists c, In c (balls ++ drums) /\ in_disc (fst c) (snd c) p)
  | None => forall p, ~ (exists c, In c (balls ++ drums) /\ in_disc (fst c) (snd c) p)
  end.
Proof. exact ball_bounding_box_tight. Qed.
Print Assumptions C34_ball_state.
Theorem C34_rb3_state : forall bodies, Forall body3_valid bodies ->
  match rb3_bounding_box bodies with
  | Some b => tight3 b (fun p => exists body, In body bodies /\ body3_points body p)
  | None => forall p, ~ (exists body, In body bodies /\ body3_points body p)
  end.
Proof. exact rb3_bounding_box_tight. Qed.
Print Assumptions C34_rb3_state.
(* a staple of wire diameter D: the computed box misses part of it, and moved out by D / 2 it is the smallest box *)
Theorem C34_staple_refuted : forall w l D x M, 0 < D ->
  exists b z, body3_aabb (Body3 x M (Staple3 (mk_staple w l D))) = Some b
    /\ in_staple (w - D) (l - D) (D / 2) x M z /\ c0 (snd b) < c0 z.
Proof. exact staple_box_misses. Qed.
Print Assumptions C34_staple_refuted.
Theorem C34_staple : forall w l D x M, 0 <= D ->
  exists b, body3_aabb (Body3 x M (Staple3 (mk_staple w l D))) = Some b
    /\ tight3 (widened b (D / 2)) (in_staple (w - D) (l - D) (D / 2) x M).
Proof. exact staple_box. Qed.
Print Assumptions C34_staple.
(* the collision box of a planar box is the box of its end position only *)
Theorem C34_box_sweep_refuted : exists r x0 t0 x1 t1,
  0 < fst r /\ 0 < snd r /\ ~ encloses2 (box_collision_aabb r x0 t0 x1 t1) (in_box2 x0 t0 r).
Proof.
  exists (1, 1), (10, 0), 0, (0, 0), 0. cbn [fst snd]. split; [lra|]. split; [lra|]. intros E.
  assert (I : in_box2 (10, 0) 0 (1, 1) (10, 0)).
  { unfold in_box2, vdot, vsub, axis_x, axis_y. cbn [fst snd]. split; apply abs_in.
    - replace (cos 0 * (10 - 10) + sin 0 * (0 - 0)) with 0 by ring. lra.
    - replace (- sin 0 * (10 - 10) + cos 0 * (0 - 0)) with 0 by ring. lra. }
  specialize (E _ I). unfold within2, box_collision_aabb, box_aabb, rotation2, vadd, vsub in E. cbn [fst snd] in E.
  rewrite cos_0, sin_0, Ropp_0, Rabs_R0, Rabs_R1 in E. lra.
Qed.
Print Assumptions C34_box_sweep_refuted.
Theorem C34_box_end_position : forall r x0 t0 x1 t1, 0 <= fst r -> 0 <= snd r ->
  tight2 (box_collision_aabb r x0 t0 x1 t1) (in_box2 x1 t1 r).
Proof. intros r x0 t0 x1 t1. exact (box_aabb_tight r x1 t1). Qed.
Print Assumptions C34_box_end_position.

(* ---------- C35 ---------- *)
Theorem C35_exact : forall x0 r0 x1 theta r1, 0 <= r0 -> 0 < fst r1 -> 0 < snd r1 ->
  (circle_box x0 r0 x1 theta r1 <> None <-> exists z, in_box2 x1 theta r1 z /\ in_disc x0 r0 z).
Proof. exact circle_box_exact. Qed.
Print Assumptions C35_exact.
Theorem C35_contact : forall x0 r0 x1 theta r1 n p, 0 <= r0 -> 0 < fst r1 -> 0 < snd r1 ->
  circle_box x0 r0 x1 theta r1 = Some (n, p) ->
  vdot n n = 1 /\
  exists y d, outward_normal (in_box2 x1 theta r1) y n /\ x0 = vadd y (vscale d n) /\ d <= r0
    /\ p = vscale (/ 2) (vadd y (vsub x0 (vscale r0 n))).
Proof. exact circle_box_contact. Qed.
Print Assumptions C35_contact.
Theorem C35_centre_outside : forall x0 r0 x1 theta r1 n p, 0 <= r0 -> 0 < fst r1 -> 0 < snd r1 ->
  circle_box x0 r0 x1 theta r1 = Some (n, p) -> ~ in_box2 x1 theta r1 x0 ->
  exists y d, in_box2 x1 theta r1 y /\ 0 < d <= r0 /\ vsub x0 y = vscale d n
    /\ (forall z, in_box2 x1 theta r1 z -> vdot (vsub x0 y) (vsub x0 y) <= vdot (vsub x0 z) (vsub x0 z)).
Proof. exact circle_box_outside. Qed.
Print Assumptions C35_centre_outside.

(* ---------- C36 ---------- *)
(* the returned normal points from box 1 to box 0 *)
Theorem C36_box_box : forall x0 t0 r0 x1 t1 r1,
  0 <= fst r0 /\ 0 <= snd r0 -> 0 <= fst r1 /\ 0 <= snd r1 ->
  match box_box x0 t0 r0 x1 t1 r1 with
  | Ok None =>
      ~ (exists z, in_box2 x0 t0 r0 z /\ in_box2 x1 t1 r1 z)
      /\ exists u, (face_normal t0 u \/ face_normal t1 u) /\ separated_by u (in_box2 x0 t0 r0) (in_box2 x1 t1 r1)
  | Ok (Some (n, points)) =>
      (exists z, in_box2 x0 t0 r0 z /\ in_box2 x1 t1 r1 z)
      /\ vdot n n = 1
      /\ (exists d, 0 <= d /\ overlap_is (vneg n) (in_box2 x0 t0 r0) (in_box2 x1 t1 r1) d
            /\ forall u e, face_normal t0 u \/ face_normal t1 u ->
                 overlap_is u (in_box2 x0 t0 r0) (in_box2 x1 t1 r1) e -> d <= e)
      /\ points <> [] /\ (length points <= 2)%nat
      /\ ((forall q, In q points -> face_contact x0 t0 r0 x1 t1 r1 (vneg n) q)
          \/ (forall q, In q points -> face_contact x1 t1 r1 x0 t0 r0 n q))
  | Exit | UB => False
  end.
Proof. exact box_box_spec. Qed.
Print Assumptions C36_box_box.

(* ---------- C37 ---------- *)
Theorem C37_segments : forall p1 q1 p2 q2 s t x1 x2 d,
  closest_segments p1 q1 p2 q2 = (s, t, x1, x2, d) ->
  0 <= s <= 1 /\ 0 <= t <= 1 /\ x1 = along p1 q1 s /\ x2 = along p2 q2 t /\ d = dist2 x1 x2
  /\ (long_or_point (dist2 q1 p1) -> long_or_point (dist2 q2 p2) ->
      forall s' t', 0 <= s' <= 1 -> 0 <= t' <= 1 -> d <= dist2 (along p1 q1 s') (along p2 q2 t')).
Proof. exact closest_segments_spec. Qed.
Print Assumptions C37_segments.
Lemma Rltb_no : forall a b, b <= a -> Rltb a b = false.
Proof. intros a b H. destruct (Rltb_spec a b); [lra|reflexivity]. Qed.
(* a segment of length 1e-4 is taken for its first end point *)
Theorem C37_short_segments_refuted : exists p1 q1 p2 q2 s t x1 x2 d s',
  closest_segments p1 q1 p2 q2 = (s, t, x1, x2, d) /\ 0 <= s' <= 1 /\ dist2 (along p1 q1 s') p2 < d.
Proof.
  exists (V3 0 0 0), (V3 (/ 10000) 0 0), (V3 1 0 0), (V3 1 0 0).
  exists 0, 0. do 3 eexists. exists 1.
  split; [|split; [lra|]].
  - unfold closest_segments, segment_parameters.
    rewrite (Rltb_no dist_eps (dot3 (sub3 (V3 (/ 10000) 0 0) (V3 0 0 0)) (sub3 (V3 (/ 10000) 0 0) (V3 0 0 0)))).
    2:{ unfold dist_eps, dot3, sub3. cbn [c0 c1 c2]. lra. }
    rewrite (Rltb_no dist_eps (dot3 (sub3 (V3 1 0 0) (V3 1 0 0)) (sub3 (V3 1 0 0) (V3 1 0 0)))).
    2:{ unfold dist_eps, dot3, sub3. cbn [c0 c1 c2]. lra. }
    reflexivity.
  - unfold dist2, along, dot3, sub3, add3, scale3. cbn [c0 c1 c2]. lra.
Qed.
Print Assumptions C37_short_segments_refuted.
(* two staples are found in contact exactly when they share a point *)
Theorem C37_staples : forall x0 M0 w0 l0 D0 x1 M1 w1 l1 D1,
  rotation M0 -> rotation M1 -> 0 < D0 -> 0 < D1 ->
  dist_eps < (w0 - D0) * (w0 - D0) -> dist_eps < (l0 - D0) * (l0 - D0) ->
  dist_eps < (w1 - D1) * (w1 - D1) -> dist_eps < (l1 - D1) * (l1 - D1) ->
  (staple_staple x0 M0 (mk_staple w0 l0 D0) x1 M1 (mk_staple w1 l1 D1) = true
   <-> exists z, in_staple (w0 - D0) (l0 - D0) (D0 / 2) x0 M0 z /\ in_staple (w1 - D1) (l1 - D1) (D1 / 2) x1 M1 z).
Proof. exact staple_staple_exact. Qed.
Print Assumptions C37_staples.

(* ---------- C38 ---------- *)
Theorem C38_in_box : forall xb M wb p, rotation M -> 0 <= c0 wb -> 0 <= c1 wb -> 0 <= c2 wb ->
  in_box3 xb M wb (closest_point_box xb M wb p).
Proof. exact closest_in_box. Qed.
Print Assumptions C38_in_box.
Theorem C38_nearest : forall xb M wb p z, rotation M -> 0 <= c0 wb -> 0 <= c1 wb -> 0 <= c2 wb ->
  in_box3 xb M wb z -> dist2 (closest_point_box xb M wb p) p <= dist2 z p.
Proof. exact closest_is_nearest. Qed.
Print Assumptions C38_nearest.
(* the contact test built on it is exact; a centre within sqrt(1e-9) of the box ends the program *)
Theorem C38_box_sphere : forall xb M wb xs rs, rotation M -> 0 <= c0 wb -> 0 <= c1 wb -> 0 <= c2 wb ->
  match box_sphere xb M wb xs rs with
  | Ok None => ~ (exists z, in_box3 xb M wb z /\ in_ball3 xs rs z)
  | Ok (Some (p, n)) =>
      in_box3 xb M wb p /\ in_ball3 xs rs p /\ (forall z, in_box3 xb M wb z -> dist2 p xs <= dist2 z xs)
      /\ dot3 n n = 1 /\ exists d, 0 < d /\ sub3 p xs = scale3 d n
  | Exit => exists z, in_box3 xb M wb z /\ in_ball3 xs rs z /\ dist2 z xs <= / 1000000000
  | UB => False
  end.
Proof. exact box_sphere_spec. Qed.
Print Assumptions C38_box_sphere.

(* ---------- cases ---------- *)
Lemma quarter : rotation (angle_axis (PI / 2) (V3 0 0 1)).
Proof.
  unfold angle_axis. rewrite sin_PI2, cos_PI2. m3u. split; [m3u; f_equal; f_equal; ring|]. unfold det3. m3u. ring.
Qed.
Example C34_case : Forall body2_valid [Body2 (1, 2) (PI / 3) (Box2 (1, 2)); Body2 (5, 0) 0 (Circle2 1)]
  /\ rb2_bounding_box [Body2 (1, 2) (PI / 3) (Box2 (1, 2)); Body2 (5, 0) 0 (Circle2 1)] <> None
  /\ Forall body3_valid [Body3 (V3 1 2 3) (angle_axis (PI / 2) (V3 0 0 1)) (Box3 (V3 1 2 3)); Body3 zero3 id3 (Sphere3 2);
                         Body3 zero3 id3 (Mesh3 [V3 0 0 0; V3 1 0 0; V3 0 1 0])].
Proof.
  split; [|split].
  - repeat constructor; cbn [b2_shape fst snd]; lra.
  - cbn [rb2_bounding_box fold_left grow2]. discriminate.
  - repeat apply Forall_cons; try apply Forall_nil; (split; [first [exact quarter|apply rotation_id]|]); cbn [b3_shape b3_R c0 c1 c2]; try lra; exact I.
Qed.
(* a unit circle at distance 1/2 from the face of a box turned by a quarter *)
Example C35_case : circle_box (0, 7 / 2) 1 (0, 0) (PI / 2) (3, 1) <> None.
Proof.
  apply C35_exact; cbn [fst snd]; try lra. exists (0, 3). split.
  - unfold in_box2, vdot, vsub, axis_x, axis_y. rewrite sin_PI2, cos_PI2. cbn [fst snd]. split; apply abs_in; lra.
  - unfold in_disc, vdot, vsub. cbn [fst snd]. lra.
Qed.
Example C35_case_apart : circle_box (0, 9 / 2) 1 (0, 0) (PI / 2) (3, 1) = None.
Proof.
  destruct (circle_box (0, 9 / 2) 1 (0, 0) (PI / 2) (3, 1)) as [c|] eqn:E; [exfalso|reflexivity].
  assert (H : circle_box (0, 9 / 2) 1 (0, 0) (PI / 2) (3, 1) <> None) by (rewrite E; discriminate).
  apply C35_exact in H; cbn [fst snd]; try lra. destruct H as ([zx zy] & [A _] & D).
  unfold vdot, vsub, axis_x in A. rewrite sin_PI2, cos_PI2 in A. cbn [fst snd] in A. apply abs_inv in A.
  unfold in_disc, vdot, vsub in D. cbn [fst snd] in D.
  pose proof (sq_nn (zx - 0)). pose proof (sq_bound (zy - 9 / 2) 1 ltac:(lra) ltac:(lra)). lra.
Qed.
Example C36_case : exists n points, box_box (0, 0) 0 (1, 1) (3 / 2, 1 / 2) 0 (1, 1) = Ok (Some (n, points)) /\ points <> [].
Proof.
  pose proof (C36_box_box (0, 0) 0 (1, 1) (3 / 2, 1 / 2) 0 (1, 1)) as K. cbn [fst snd] in K. specialize (K ltac:(lra) ltac:(lra)).
  destruct (box_box (0, 0) 0 (1, 1) (3 / 2, 1 / 2) 0 (1, 1)) as [[[n ps]|]| |]; try contradiction.
  - exists n, ps. split; [reflexivity|apply K].
  - exfalso. apply (proj1 K). exists (1, 0). unfold in_box2, vdot, vsub, axis_x, axis_y. rewrite cos_0, sin_0. cbn [fst snd].
    repeat split; apply abs_in; lra.
Qed.
Example C36_case_apart : box_box (0, 0) 0 (1, 1) (3, 0) 0 (1, 1) = Ok None.
Proof.
  pose proof (C36_box_box (0, 0) 0 (1, 1) (3, 0) 0 (1, 1)) as K. cbn [fst snd] in K. specialize (K ltac:(lra) ltac:(lra)).
  destruct (box_box (0, 0) 0 (1, 1) (3, 0) 0 (1, 1)) as [[[n ps]|]| |]; try contradiction; [exfalso|reflexivity].
  destruct K as (([zx zy] & [A _] & [B _]) & _). unfold vdot, vsub, axis_x in A, B. rewrite cos_0, sin_0 in A, B. cbn [fst snd] in A, B.
  apply abs_inv in A. apply abs_inv in B. lra.
Qed.
(* two skew segments, both longer than the threshold *)
Example C37_case : exists s t x1 x2 d,
  closest_segments (V3 0 0 0) (V3 2 0 0) (V3 1 1 1) (V3 1 (-1) 1) = (s, t, x1, x2, d) /\ d <= 1
  /\ long_or_point (dist2 (V3 2 0 0) (V3 0 0 0)) /\ long_or_point (dist2 (V3 1 (-1) 1) (V3 1 1 1)).
Proof.
  assert (A : long_or_point (dist2 (V3 2 0 0) (V3 0 0 0))).
  { right. unfold dist_eps, dist2, dot3, sub3. cbn [c0 c1 c2]. lra. }
  assert (B : long_or_point (dist2 (V3 1 (-1) 1) (V3 1 1 1))).
  { right. unfold dist_eps, dist2, dot3, sub3. cbn [c0 c1 c2]. lra. }
  destruct (closest_segments (V3 0 0 0) (V3 2 0 0) (V3 1 1 1) (V3 1 (-1) 1)) as [[[[s t] x1] x2] d] eqn:E.
  exists s, t, x1, x2, d. split; [reflexivity|]. split; [|split; assumption].
  apply C37_segments in E. destruct E as (_ & _ & _ & _ & _ & N). specialize (N A B (/ 2) (/ 2) ltac:(lra) ltac:(lra)).
  revert N. unfold dist2, along, dot3, sub3, add3, scale3. cbn [c0 c1 c2]. lra.
Qed.
Example C37_staples_case : staple_staple zero3 id3 (mk_staple 2 2 (/ 2)) (V3 0 0 (/ 4)) (angle_axis (PI / 2) (V3 0 0 1)) (mk_staple 2 2 (/ 2)) = true.
Proof.
  apply C37_staples; try exact quarter; try apply rotation_id; try (unfold dist_eps; lra).
  exists (V3 (1 / 2) (- (1 / 2)) (/ 4)). unfold in_staple, in_capsule, in_ball3.
  split; exists 1%nat; (split; [lia|]); cbn [staple_corner]; unfold angle_axis; rewrite ?sin_PI2, ?cos_PI2; m3u.
  - exists (5 / 6). split; [lra|]. unfold along, zero3, dot3, sub3, add3, scale3. cbn [c0 c1 c2]. lra.
  - exists (1 / 6). split; [lra|]. unfold along, zero3, dot3, sub3, add3, scale3. cbn [c0 c1 c2]. lra.
Qed.
Example C38_case : exists p n, box_sphere zero3 (angle_axis (PI / 2) (V3 0 0 1)) (V3 1 2 3) (V3 3 0 0) 2 = Ok (Some (p, n)).
Proof.
  pose proof (C38_box_sphere zero3 (angle_axis (PI / 2) (V3 0 0 1)) (V3 1 2 3) (V3 3 0 0) 2 quarter) as K. cbn [c0 c1 c2] in K.
  specialize (K ltac:(lra) ltac:(lra) ltac:(lra)).
  assert (In : forall z, in_box3 zero3 (angle_axis (PI / 2) (V3 0 0 1)) (V3 1 2 3) z -> c0 z <= 2).
  { intros [x y z] (_ & A & _). unfold angle_axis in A. rewrite sin_PI2, cos_PI2 in A. unfold zero3 in A. m3u.
    apply abs_inv in A. lra. }
  destruct (box_sphere zero3 (angle_axis (PI / 2) (V3 0 0 1)) (V3 1 2 3) (V3 3 0 0) 2) as [[[p n]|]| |].
  - exists p, n. reflexivity.
  - exfalso. apply K. exists (V3 2 0 0). split.
    + unfold in_box3, angle_axis. rewrite sin_PI2, cos_PI2. unfold zero3. m3u. repeat split; apply abs_in; lra.
    + unfold in_ball3, dot3, sub3. cbn [c0 c1 c2]. lra.
  - exfalso. destruct K as (z & Iz & _ & D). specialize (In z Iz). unfold dist2, dot3, sub3 in D. cbn [c0 c1 c2] in D.
    pose proof (sq_nn (c1 z - 0)). pose proof (sq_nn (c2 z - 0)).
    assert (1 * 1 <= (3 - c0 z) * (3 - c0 z)) by (apply Rmult_le_compat; lra). lra.
  - contradiction.
Qed.
