(* C18, C19 and C49: what contact impulses do to the momenta of a system, and what contact Jacobians measure. *)
From Coq Require Import List Reals Arith Bool Lia Lra.
From Verif Require Import Outcome Ccd_Model Lin_Model ContactBall_Model ContactRb2_Model ContactRb3_Model Lin_Proofs Contact_Spec
  Contact_Proofs Contact3_Proofs Jac_Proofs.
Import ListNotations.
Open Scope R_scope.

(* ---------- C18: linear momentum ---------- *)
Theorem C18_ball : forall n m v imps,
  mass2_ok n m ->
  Forall (fun ci => exists c, in_range n (b_bodies c) /\ b_conserves_p c = true /\ b_column c (fst ci)) imps ->
  b_momentum n m (vplus v (diag_minv m (impulse imps))) = b_momentum n m v.
Proof. exact b_momentum_kept. Qed.
Print Assumptions C18_ball.

Theorem C18_rb2 : forall n M q v imps,
  mass_rb2_ok n M ->
  Forall (fun ci => exists c, in_range n (rb2_bodies c) /\ rb2_conserves_p c = true /\ rb2_column q c (fst ci)) imps ->
  rb2_momentum n M (vplus v (diag_minv M (impulse imps))) = rb2_momentum n M v.
Proof. exact rb2_momentum_kept. Qed.
Print Assumptions C18_rb2.

Theorem C18_rb3 : forall nb m I Iinv q v imps,
  mass_rb3_ok nb m I Iinv ->
  Forall (fun ci => exists c, in_range nb (rb3_bodies c) /\ rb3_conserves_p c = true /\ rb3_column nb q c (fst ci)) imps ->
  rb3_momentum nb m (vplus v (rb3_minv nb m Iinv (impulse imps))) = rb3_momentum nb m v.
Proof. exact rb3_momentum_kept. Qed.
Print Assumptions C18_rb3.

(* every contact between two simulated bodies reports that it conserves momentum, and no other contact does *)
Theorem C18_flag : forall (b : ball_contact) (c : rb2_contact) (d : rb3_contact),
  (b_conserves_p b = true <-> snd (b_bodies b) <> None)
  /\ (rb2_conserves_p c = true <-> snd (rb2_bodies c) <> None)
  /\ (rb3_conserves_p d = true <-> snd (rb3_bodies d) <> None).
Proof.
  intros b c d. destruct b, c, d; cbn; repeat split; intros H; try reflexivity; try discriminate; try (exfalso; apply H; reflexivity).
Qed.
Print Assumptions C18_flag.

(* ---------- C19: angular momentum ---------- *)
Theorem C19_ball_impact : forall n m q v imps,
  mass2_ok n m ->
  Forall (fun ci => exists c, in_range n (b_bodies c) /\ b_made_at q c /\ b_conserves_L_impact c = true /\ b_normal_column c (fst ci)) imps ->
  b_angular n m q (vplus v (diag_minv m (impulse imps))) = b_angular n m q v.
Proof. exact b_angular_kept. Qed.
Print Assumptions C19_ball_impact.

Theorem C19_rb2_impact : forall n M q v imps,
  mass_rb2_ok n M ->
  Forall (fun ci => exists c, in_range n (rb2_bodies c) /\ rb2_made_at q c /\ rb2_conserves_L_impact c = true /\ rb2_normal_column q c (fst ci)) imps ->
  rb2_angular n M q (vplus v (diag_minv M (impulse imps))) = rb2_angular n M q v.
Proof.
  intros n M q v imps HM HF. apply rb2_angular_gen; [exact HM|].
  eapply Forall_impl; [|exact HF]. intros ci [c [H1 [H2 [H3 H4]]]]. exact (rb2_column_L n q c (fst ci) H1 H2 H3 H4).
Qed.
Print Assumptions C19_rb2_impact.

Theorem C19_rb2_friction : forall n M q v imps,
  mass_rb2_ok n M ->
  Forall (fun ci => exists c, in_range n (rb2_bodies c) /\ rb2_made_at q c /\ rb2_conserves_L_friction c = true /\ rb2_contact_column q c (fst ci)) imps ->
  rb2_angular n M q (vplus v (diag_minv M (impulse imps))) = rb2_angular n M q v.
Proof.
  intros n M q v imps HM HF. apply rb2_angular_gen; [exact HM|].
  eapply Forall_impl; [|exact HF]. intros ci [c [H1 [H2 [H3 H4]]]]. exact (rb2_column_Lf n q c (fst ci) H1 H2 H3 H4).
Qed.
Print Assumptions C19_rb2_friction.

Theorem C19_rb3_impact : forall nb m I Iinv q v imps,
  mass_rb3_ok nb m I Iinv ->
  Forall (fun ci => exists c, in_range nb (rb3_bodies c) /\ rb3_made_at q c /\ rb3_conserves_L_impact c = true /\ rb3_normal_column nb q c (fst ci)) imps ->
  rb3_angular nb m I q (vplus v (rb3_minv nb m Iinv (impulse imps))) = rb3_angular nb m I q v.
Proof.
  intros nb m I Iinv q v imps HM HF. apply rb3_angular_gen; [exact HM|]. intros d Hd.
  eapply Forall_impl; [|exact HF]. intros ci [c [H1 [H2 [H3 H4]]]]. exact (rb3_normal_L nb q c (fst ci) d Hd H1 H2 H3 H4).
Qed.
Print Assumptions C19_rb3_impact.

Theorem C19_rb3_friction : forall nb m I Iinv q v imps,
  mass_rb3_ok nb m I Iinv ->
  Forall (fun ci => exists c, in_range nb (rb3_bodies c) /\ rb3_made_at q c /\ rb3_conserves_L_friction c = true /\ rb3_contact_column nb q c (fst ci)) imps ->
  rb3_angular nb m I q (vplus v (rb3_minv nb m Iinv (impulse imps))) = rb3_angular nb m I q v.
Proof.
  intros nb m I Iinv q v imps HM HF. apply rb3_angular_gen; [exact HM|]. intros d Hd.
  eapply Forall_impl; [|exact HF]. intros ci [c [H1 [H2 [H3 H4]]]]. exact (rb3_contact_L nb q c (fst ci) d Hd H1 H2 H3 H4).
Qed.
Print Assumptions C19_rb3_friction.

(* which contacts advertise it: a ball-ball contact that does not pass through a portal (impact only), and in the
   rigid body simulators every direct contact of two simulated bodies (impact and friction) *)
Theorem C19_flag : forall q b c d,
  b_made_at q b -> rb2_made_at q c -> rb3_made_at q d ->
  (b_conserves_L_impact b = true <-> exists i j r0 r1, b = mk_ball_ball i j (seg2 q (2 * i)) (seg2 q (2 * j)) r0 r1 false)
  /\ b_conserves_L_friction b = false
  /\ (rb2_conserves_L_impact c = true <->
       (exists i j ra rb, c = mk_circle_circle i j q ra rb) \/ (exists i j p n, c = mk_body_body2 i j p n q))
  /\ rb2_conserves_L_friction c = rb2_conserves_L_impact c
  /\ (rb3_conserves_L_impact d = true <->
       (exists i j ra rb, d = mk_sphere_sphere i j q ra rb) \/ (exists i j p n, d = mk_body_body3 i j p n q)
       \/ (exists i j p n, d = mk_sphere_body i j p n q))
  /\ rb3_conserves_L_friction d = rb3_conserves_L_impact d.
Proof.
  intros q b c d Hb Hc Hd. repeat split.
  - destruct Hb; cbn; try discriminate. intros _. exists i, j, r0, r1. reflexivity.
  - intros [i [j [r0 [r1 ->]]]]. reflexivity.
  - destruct Hc; cbn; try discriminate; intros _.
    + left. exists i, j, ra, rb. reflexivity.
    + right. exists i, j, p, n. reflexivity.
  - intros [[i [j [ra [rb ->]]]]|[i [j [p [n ->]]]]]; reflexivity.
  - destruct Hd; cbn; try discriminate; intros _.
    + left. exists i, j, ra, rb. reflexivity.
    + right. left. exists i, j, p, n. reflexivity.
    + right. right. exists s, b0, p, n. reflexivity.
  - intros [[i [j [ra [rb ->]]]]|[[i [j [p [n ->]]]]|[i [j [p [n ->]]]]]]; reflexivity.
Qed.
Print Assumptions C19_flag.

(* ---------- C49: Jacobians ---------- *)
Theorem C49_ball : forall c v,
  b_relvel c v = b_true_relvel c v
  /\ b_evalNdotV c v = vdot (b_normal c) (b_true_relvel c v)
  /\ col_dot (b_gradg c) v + b_gdotN c = vdot (b_normal c) (b_true_relvel c v)
  /\ (forall t, col_dot (b_friction c t) v - vdot t (b_kinvel c) = vdot t (b_true_relvel c v))
  /\ (forall n t, col_dot (fst (b_hcols c (n, t))) v - vdot n (b_kinvel c) = vdot n (b_true_relvel c v)
               /\ col_dot (snd (b_hcols c (n, t))) v - vdot t (b_kinvel c) = vdot t (b_true_relvel c v)).
Proof.
  intros c v. repeat split.
  - apply b_relvel_true.
  - apply b_ndotv_relvel.
  - apply b_gradg_relvel.
  - intros t. apply b_friction_relvel.
  - apply b_h_relvel.
  - apply b_h_relvel.
Qed.
Print Assumptions C49_ball.

Theorem C49_rb2 : forall q c v, rb2_made_at q c -> rb2_unmodelled_obstacle_at_rest c ->
  let n := rb2_normal c in
  let t := vperp n in
  let u := rb2_true_relvel q c v (rb2_contact_point q c) in
  rb2_relvel q c v = u
  /\ rb2_evalNdotV q c v = vdot n u
  /\ (forall g k, rb2_gradg c = Ok g -> rb2_gdotN q c = Ok k -> col_dot g v + k = vdot n u)
  /\ (forall s g, rb2_friction q c s = Ok g -> col_dot g v - vdot s (rb2_kinvel q c) = vdot s u)
  /\ col_dot (fst (rb2_hcols q c (rb2_basis c))) v - vdot n (rb2_kinvel q c) = vdot n u
  /\ col_dot (snd (rb2_hcols q c (rb2_basis c))) v - vdot t (rb2_kinvel q c) = vdot t u.
Proof.
  intros q c v Hm Hr n t u. subst n t u. rewrite <- (rb2_relvel_true q c v Hm Hr). repeat split.
  - apply rb2_ndotv_relvel; assumption.
  - intros g k Hg Hk. rewrite (rb2_gradg_ndotv q c v g k Hg Hk). apply rb2_ndotv_relvel; assumption.
  - intros s g Hg. apply rb2_friction_relvel. exact Hg.
  - apply rb2_h_relvel. exact Hm.
  - apply rb2_h_relvel. exact Hm.
Qed.
Print Assumptions C49_rb2.

Theorem C49_rb3 : forall nb planes q c v p x y k, rb3_made_at q c -> rb3_touching q c ->
  rb3_unmodelled_obstacle_at_rest nb planes c v ->
  rb3_contact_point q c = Ok p -> rb3_relvel nb q c v = Ok x -> rb3_evalNdotV nb q c v = Some y -> rb3_kinvel q c = Ok k ->
  let n := rb3_normal q c in
  let u := rb3_true_relvel nb planes q c v p in
  x = u
  /\ y = dot3 n u
  /\ (forall g r, rb3_gradg nb q c = Ok g -> rb3_gdotN q c = Ok r -> col_dot g v + r = dot3 n u)
  /\ (forall t g, rb3_friction nb q c t = Ok g -> col_dot g v - dot3 t k = dot3 t u)
  /\ (forall s t l, rb3_hcols nb q c n s t = Ok l -> Forall2 (fun d g => col_dot g v - dot3 d k = dot3 d u) [n; s; t] l).
Proof.
  intros nb planes q c v p x y k Hm Ht Hr Hp Hx Hy Hk n u. subst n u.
  rewrite <- (rb3_relvel_true nb planes q c v p x Hm Ht Hr Hp Hx). repeat split.
  - apply (rb3_ndotv_relvel nb q c v x y Hm Hy Hx).
  - intros g r Hg Hrr. rewrite (rb3_gradg_ndotv nb q c v g r y Hg Hrr Hy). apply (rb3_ndotv_relvel nb q c v x y Hm Hy Hx).
  - intros t g Hg. apply (rb3_friction_relvel nb q c t v g k x Hg Hk Hx).
  - intros s t l Hl. apply (rb3_h_relvel nb q c s t v l k x Hm Hl Hk Hx).
Qed.
Print Assumptions C49_rb3.

(* every function answers for every contact kind except SphereBody and CylBody *)
Theorem C49_rb3_total : forall nb q c v s t, rb3_made_at q c ->
  (exists p x y k l, rb3_contact_point q c = Ok p /\ rb3_relvel nb q c v = Ok x /\ rb3_evalNdotV nb q c v = Some y
     /\ rb3_kinvel q c = Ok k /\ rb3_hcols nb q c (rb3_normal q c) s t = Ok l
     /\ exists g r h, rb3_gradg nb q c = Ok g /\ rb3_gdotN q c = Ok r /\ rb3_friction nb q c t = Ok h)
  \/ (exists a b p n, c = mk_sphere_body a b p n q) \/ (exists i p cy, c = mk_cyl_body i p cy q).
Proof.
  intros nb q c v s t Hm.
  destruct Hm; try (right; left; repeat eexists; fail); try (right; right; repeat eexists; fail);
    left; repeat eexists.
Qed.
Print Assumptions C49_rb3_total.

(* moving obstacles are ignored by: kinematic bodies of the 3D simulator, planes against bodies (2D and 3D) *)
Theorem C49_rb3_moving_kinematic_refuted : exists nb planes q c v p x,
  rb3_made_at q c /\ rb3_contact_point q c = Ok p /\ rb3_relvel nb q c v = Ok x /\ x <> rb3_true_relvel nb planes q c v p.
Proof.
  set (v := fun k : nat => if Nat.eqb k 3 then 1 else 0).
  exists 2%nat, (fun _ => Rb3Plane zero3 zero3 zero3 zero3), (fun _ => 0), (KinSphere 0 1 (V3 1 0 0) 1), v.
  eexists. eexists. split; [constructor|]. split; [reflexivity|]. split; [reflexivity|].
  intros H. apply (f_equal c0) in H.
  unfold rb3_true_relvel, body_rigid3, rigid3, point_velocity3, sub3, add3, cross3, scale3, zero3, seg3 in H. cbn in H. lra.
Qed.
Print Assumptions C49_rb3_moving_kinematic_refuted.

Theorem C49_rb3_moving_plane_refuted : exists nb planes q c v p x,
  rb3_made_at q c /\ rb3_contact_point q c = Ok p /\ rb3_relvel nb q c v = Ok x /\ x <> rb3_true_relvel nb planes q c v p.
Proof.
  exists 1%nat, (fun _ => Rb3Plane zero3 (V3 1 0 0) (V3 1 0 0) zero3), (fun _ => 0), (mk_plane_body3 0 zero3 (V3 1 0 0) (fun _ => 0) 0), (fun _ => 0).
  eexists. eexists. split; [constructor|]. split; [reflexivity|]. split; [reflexivity|].
  intros H. apply (f_equal c0) in H.
  unfold rb3_true_relvel, mk_plane_body3, body_rigid3, rigid3, point_velocity3, sub3, add3, cross3, scale3, zero3, seg3 in H. cbn in H. lra.
Qed.
Print Assumptions C49_rb3_moving_plane_refuted.

Theorem C49_rb2_moving_plane_refuted : exists q c v,
  rb2_made_at q c /\ rb2_relvel q c v <> rb2_true_relvel q c v (rb2_contact_point q c).
Proof.
  exists (fun _ => 0), (PlaneBody2 0 (0, 0) (Rb2Plane (0, 0) (1, 0) (1, 0) 0)), (fun _ => 0).
  split; [constructor|]. intros H. apply (f_equal fst) in H.
  unfold rb2_relvel, rb2_true_relvel, body_rigid2, rigid2, point_velocity2, rb2_contact_point, vsub, vadd, vscale, vperp, vzero, seg2 in H.
  cbn in H. lra.
Qed.
Print Assumptions C49_rb2_moving_plane_refuted.

(* ---------- the hypotheses are met by non-trivial systems ---------- *)
(* balls at (0,0) and (-2,0) of masses 1 and 2: an impulse 3 along the normal and 5 along a tangent *)
Definition ex_m : dvec := fun k => if Nat.ltb k 2 then 1 else 2.
Definition ex_q : dvec := fun k => if Nat.eqb k 2 then -2 else 0.
Definition ex_c : ball_contact := mk_ball_ball 0 1 (seg2 ex_q (2 * 0)) (seg2 ex_q (2 * 1)) 1 1 false.
Example C18_ball_example :
  mass2_ok 2 ex_m
  /\ Forall (fun ci => exists c, in_range 2 (b_bodies c) /\ b_conserves_p c = true /\ b_column c (fst ci))
       [(b_gradg ex_c, 3); (b_friction ex_c (0, 1), 5)]
  /\ impulse [(b_gradg ex_c, 3); (b_friction ex_c (0, 1), 5)] 3%nat = -5.
Proof.
  split; [|split].
  - intros i Hi. unfold ex_m. destruct i as [|[|i]]; [| |lia]; cbn; split; try lra; reflexivity.
  - repeat constructor; exists ex_c; (split; [split; cbn; lia|]); (split; [reflexivity|]); constructor.
  - assert (E : vnormalized (vsub (seg2 ex_q (2 * 0)) (seg2 ex_q (2 * 1))) = vscale (/ sqrt (2 * 2)) (2, 0)).
    { unfold vnormalized, vsub, seg2, ex_q, vdot. cbn [fst snd Nat.eqb Nat.add Nat.mul].
      replace (0 - -2) with 2 by lra. replace (0 - 0) with 0 by lra. replace (2 * 2 + 0 * 0) with (2 * 2) by lra.
      destruct (Rlt_dec 0 (2 * 2)); [reflexivity|lra]. }
    unfold impulse, ex_c, mk_ball_ball, b_gradg, b_friction. rewrite E.
    unfold entry, ins2, vneg, vscale. cbn [fold_right fst snd app Nat.eqb Nat.mul Nat.add]. lra.
Qed.
Example C19_ball_example :
  Forall (fun ci => exists c, in_range 2 (b_bodies c) /\ b_made_at ex_q c /\ b_conserves_L_impact c = true /\ b_normal_column c (fst ci))
    [(b_gradg ex_c, 3); (b_gradg ex_c, 4)].
Proof. repeat constructor; exists ex_c; (split; [split; cbn; lia|]); (split; [constructor|]); (split; [reflexivity|]); constructor. Qed.

Definition ex3_q : dvec := fun k => if Nat.eqb k 3 then -2 else 0.
Definition ex3_M : dvec := fun k => if Nat.ltb k 3 then 1 else 2.
Definition ex3_c : rb2_contact := mk_circle_circle 0 1 ex3_q 1 1.
Definition ex3_b : rb2_contact := mk_body_body2 0 1 (3, 4) (0, 1) ex3_q.
Example C19_rb2_example :
  mass_rb2_ok 2 ex3_M
  /\ Forall (fun ci => exists c, in_range 2 (rb2_bodies c) /\ rb2_made_at ex3_q c /\ rb2_conserves_L_friction c = true /\ rb2_contact_column ex3_q c (fst ci))
       [(snd (rb2_hcols ex3_q ex3_c (rb2_basis ex3_c)), 3); (fst (rb2_hcols ex3_q ex3_b (rb2_basis ex3_b)), 4); (snd (rb2_hcols ex3_q ex3_b (rb2_basis ex3_b)), 4)]
  /\ impulse [(snd (rb2_hcols ex3_q ex3_b (rb2_basis ex3_b)), 4)] 2%nat = 16.
Proof.
  split; [|split].
  - intros i Hi. unfold ex3_M. destruct i as [|[|i]]; [| |lia]; cbn; repeat split; try lra; reflexivity.
  - repeat constructor.
    + exists ex3_c. split; [split; cbn; lia|]. split; [constructor|]. split; [reflexivity|]. apply r2cc_h_tangent.
    + exists ex3_b. split; [split; cbn; lia|]. split; [constructor|]. split; [reflexivity|]. apply r2cc_normal, r2ncol_h.
    + exists ex3_b. split; [split; cbn; lia|]. split; [constructor|]. split; [reflexivity|]. apply r2cc_h_tangent.
  - unfold impulse, ex3_b, mk_body_body2, rb2_hcols, rb2_basis, rb2_normal, rb2_bodies, rb2_H0, rb2_H1, entry, hrow2, neg_row2, ins2, ins1, vneg, vperp, vcross, vsub, seg2, ex3_q.
    cbn [fold_right fst snd app Nat.eqb Nat.mul Nat.add]. lra.
Qed.

Definition id3 : m3 := M3 (V3 1 0 0) (V3 0 1 0) (V3 0 0 1).
Definition ex4_q : dvec := fun k => if Nat.eqb k 3 then -2 else 0.
Definition ex4_m : dvec := fun k => if Nat.ltb k 3 then 1 else 2.
Definition ex4_b : rb3_contact := mk_body_body3 0 1 (V3 3 4 5) (V3 0 1 0) ex4_q.
Definition ex4_c : rb3_contact := mk_sphere_sphere 0 1 ex4_q 1 1.
Definition ex4_col : col := two_body_column 2 0 1 (sub3 (V3 3 4 5) (seg3 ex4_q (3 * 0))) (sub3 (V3 3 4 5) (seg3 ex4_q (3 * 1))) (V3 0 0 1).
Example C19_rb3_example :
  mass_rb3_ok 2 ex4_m (fun _ => id3) (fun _ => id3)
  /\ rb3_friction 2 ex4_q ex4_b (V3 0 0 1) = Ok ex4_col
  /\ Forall (fun ci => exists c, in_range 2 (rb3_bodies c) /\ rb3_made_at ex4_q c /\ rb3_conserves_L_friction c = true /\ rb3_contact_column 2 ex4_q c (fst ci))
       [(ex4_col, 3); (ins3 (3 * 0) (rb3_normal ex4_q ex4_c) ++ ins3 (3 * 1) (neg3 (rb3_normal ex4_q ex4_c)), 7)]
  /\ impulse [(ex4_col, 3)] 6%nat = 12.
Proof.
  split; [|split; [reflexivity|split]].
  - intros i Hi. unfold ex4_m. destruct i as [|[|i]]; [| |lia]; cbn [Nat.ltb Nat.leb Nat.mul Nat.add];
      (split; [lra|]); (split; [reflexivity|]); (split; [reflexivity|]);
      intros x; apply v3_eq; unfold mul3, dot3, id3; cbn [row0 row1 row2_ c0 c1 c2]; ring.
  - repeat constructor.
    + exists ex4_b. split; [split; cbn; lia|]. split; [constructor|]. split; [reflexivity|]. eapply r3cc_friction. reflexivity.
    + exists ex4_c. split; [split; cbn; lia|]. split; [constructor|]. split; [reflexivity|]. apply r3cc_normal, r3ncol_gradg. reflexivity.
  - unfold impulse, ex4_col, two_body_column, entry, ins3, neg3, cross3, sub3, seg3, ex4_q.
    cbn [fold_right fst snd app Nat.eqb Nat.mul Nat.add c0 c1 c2]. lra.
Qed.

(* C49: a rotating sphere touching a moving plane, and a rotating cylinder *)
Example C49_rb3_example : exists q c, rb3_made_at q c /\ rb3_touching q c
  /\ rb3_unmodelled_obstacle_at_rest 1 (fun _ => Rb3Plane zero3 zero3 zero3 zero3) c (fun _ => 1)
  /\ rb3_kinvel q c = Ok (V3 5 1 0).
Proof.
  exists (fun k => if Nat.eqb k 1 then 1 else 0), (PlaneSphere 0 1 (Rb3Plane zero3 (V3 0 1 0) (V3 5 1 0) (V3 0 7 0))).
  split; [constructor|]. split; [|split; [exact I|]].
  - cbn. unfold dot3, sub3, seg3, zero3. cbn. lra.
  - unfold rb3_kinvel, plane_point_velocity3, dot3, add3, cross3, sub3, scale3, seg3, zero3. cbn. f_equal. apply v3_eq; cbn; lra.
Qed.
