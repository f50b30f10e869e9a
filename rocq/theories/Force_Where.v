(* Where the exported contact points are. *)
From Coq Require Import String List Reals Arith Bool ZArith Lra.
Import ListNotations.
From Verif Require Import Outcome Ccd_Model Lin_Model ContactBall_Model ContactRb2_Model ContactRb3_Model Contact_Spec Geom_Spec Geom_Circle Rot_Alg Wall_Spec Sob_Model Hdf_Model Hdf_Spec Force_Model Force_Spec Force_Mom.
Local Open Scope list_scope. Local Open Scope R_scope.

(* p is the point of the disc or ball furthest against n *)
Definition lowest2 (x : vec) (r : R) (n p : vec) : Prop := in_disc x r p /\ forall y, in_disc x r y -> 0 <= vdot n (vsub y p).
Definition lowest3 (x : v3) (r : R) (n p : v3) : Prop := in_ball3 x r p /\ forall y, in_ball3 x r y -> 0 <= dot3 n (sub3 y p).
(* a ball contact with unit normal n is at the point of the first ball furthest against n *)
Definition ball_where (q : dvec) (c : ball_contact) (p : vec) : Prop :=
  match c with
  | BallBall i _ n r _ _ | KickBallBall i _ n r _ _ _ | BallDrum i n r => vdot n n = 1 -> 0 <= r -> lowest2 (seg2 q (2 * i)) r n p
  | BallPlane i r pl => vdot (bp_n pl) (bp_n pl) = 1 -> 0 <= r -> lowest2 (seg2 q (2 * i)) r (bp_n pl) p
  end.
(* Two discs: at the point that divides the line of centres like the radii. Two bodies: where both arms end. Through a
   portal: where the arm of the first body ends. A disc against a scripted body or a plane: at its point furthest against
   the normal. Another body against a plane: where the vertex is that was found *)
Definition rb2_where (q : dvec) (c : rb2_contact) (p : vec) : Prop :=
  match c with
  | CircleCircle i j _ _ r s => r + s <> 0 -> divides2 (seg2 q (3 * i)) (seg2 q (3 * j)) r s p
  | BodyBody2 i j _ a b => vsub p (seg2 q (3 * i)) = a /\ vsub p (seg2 q (3 * j)) = b
  | TeleCircleCircle i _ _ a _ | KickCircleCircle i _ _ a _ _ => vsub p (seg2 q (3 * i)) = a
  | KinCircle i r n _ _ _ _ => vdot n n = 1 -> 0 <= r -> lowest2 (seg2 q (3 * i)) r n p
  | PlaneCircle i r pl => vdot (rp_n pl) (rp_n pl) = 1 -> 0 <= r -> lowest2 (seg2 q (3 * i)) r (rp_n pl) p
  | PlaneBody2 i a _ =>
      let t := q (3 * i + 2)%nat in
      vdot (vsub p (seg2 q (3 * i))) (cos t, sin t) = fst a /\ vdot (vsub p (seg2 q (3 * i))) (- sin t, cos t) = snd a
  end.
Definition rb3_where (q : dvec) (c : rb3_contact) (p : v3) : Prop :=
  match c with
  | SphereSphere i j _ _ r s => r + s <> 0 -> divides3 (seg3 q (3 * i)) (seg3 q (3 * j)) r s p
  | BodyBody3 i j _ a b => sub3 p (seg3 q (3 * i)) = a /\ sub3 p (seg3 q (3 * j)) = b
  | TeleSphereSphere i _ _ a _ | KinBody i _ _ a | PlaneBody3 i _ a _ => sub3 p (seg3 q (3 * i)) = a
  | KinSphere i r n _ => dot3 n n = 1 -> 0 <= r -> lowest3 (seg3 q (3 * i)) r n p
  | PlaneSphere i r pl => dot3 (tp_n pl) (tp_n pl) = 1 -> 0 <= r -> lowest3 (seg3 q (3 * i)) r (tp_n pl) p
  | CylSphere i r cy => dot3 (cyl_n q i cy) (cyl_n q i cy) = 1 -> 0 <= r -> lowest3 (seg3 q (3 * i)) r (cyl_n q i cy) p
  | SphereBody _ _ _ _ _ | CylBody _ _ _ => False
  end.

Lemma lowest_disc x r n : vdot n n = 1 -> 0 <= r -> lowest2 x r n (vsub x (vscale r n)).
Proof.
  destruct x as [x0 x1], n as [n0 n1]. intros U R0. unfold lowest2, in_disc, vdot, vsub, vscale in *. cbn [fst snd] in *. split.
  - replace ((x0 - r * n0 - x0) * (x0 - r * n0 - x0) + (x1 - r * n1 - x1) * (x1 - r * n1 - x1)) with (r * r * (n0 * n0 + n1 * n1)) by ring. rewrite U. lra.
  - intros [y0 y1]. cbn [fst snd]. intros H. set (a := y0 - x0) in *. set (b := y1 - x1) in *.
    replace (n0 * (y0 - (x0 - r * n0)) + n1 * (y1 - (x1 - r * n1))) with (n0 * a + n1 * b + r * (n0 * n0 + n1 * n1)) by (unfold a, b; ring). rewrite U.
    apply Rnot_lt_le. intros L. assert (Q : r * r < (- (n0 * a + n1 * b)) * (- (n0 * a + n1 * b))) by (apply Rmult_le_0_lt_compat; lra).
    assert (S : 0 <= (n0 * b - n1 * a) * (n0 * b - n1 * a)) by apply sq_nn.
    assert (E : (n0 * a + n1 * b) * (n0 * a + n1 * b) + (n0 * b - n1 * a) * (n0 * b - n1 * a) = (n0 * n0 + n1 * n1) * (a * a + b * b)) by ring.
    rewrite U in E. lra.
Qed.
Lemma lowest_ball x r n : dot3 n n = 1 -> 0 <= r -> lowest3 x r n (sub3 x (scale3 r n)).
Proof.
  destruct x as [x0 x1 x2], n as [n0 n1 n2]. intros U R0. unfold lowest3, in_ball3, dot3, sub3, scale3 in *. cbn [c0 c1 c2] in *. split.
  - replace ((x0 - r * n0 - x0) * (x0 - r * n0 - x0) + (x1 - r * n1 - x1) * (x1 - r * n1 - x1) + (x2 - r * n2 - x2) * (x2 - r * n2 - x2)) with (r * r * (n0 * n0 + n1 * n1 + n2 * n2)) by ring. rewrite U. lra.
  - intros [y0 y1 y2]. cbn [c0 c1 c2]. intros H. set (a := y0 - x0) in *. set (b := y1 - x1) in *. set (c := y2 - x2) in *.
    replace (n0 * (y0 - (x0 - r * n0)) + n1 * (y1 - (x1 - r * n1)) + n2 * (y2 - (x2 - r * n2))) with (n0 * a + n1 * b + n2 * c + r * (n0 * n0 + n1 * n1 + n2 * n2)) by (unfold a, b, c; ring). rewrite U.
    apply Rnot_lt_le. intros L. assert (Q : r * r < (- (n0 * a + n1 * b + n2 * c)) * (- (n0 * a + n1 * b + n2 * c))) by (apply Rmult_le_0_lt_compat; lra).
    pose proof (sq_nn (n0 * b - n1 * a)) as S0. pose proof (sq_nn (n0 * c - n2 * a)) as S1. pose proof (sq_nn (n1 * c - n2 * b)) as S2.
    assert (E : (n0 * a + n1 * b + n2 * c) * (n0 * a + n1 * b + n2 * c) + (n0 * b - n1 * a) * (n0 * b - n1 * a) + (n0 * c - n2 * a) * (n0 * c - n2 * a) + (n1 * c - n2 * b) * (n1 * c - n2 * b)
      = (n0 * n0 + n1 * n1 + n2 * n2) * (a * a + b * b + c * c)) by ring.
    rewrite U in E. lra.
Qed.
Lemma arm2 x a : vsub (vadd x a) x = a.
Proof. destruct x, a. unfold vsub, vadd. cbn [fst snd]. f_equal; ring. Qed.
Lemma arm3 x a : sub3 (add3 x a) x = a.
Proof. destruct x as [x0 x1 x2], a as [a0 a1 a2]. unfold sub3, add3. cbn [c0 c1 c2]. f_equal; ring. Qed.
Lemma ball_is_where q c : ball_where q c (b_contact_point q c).
Proof. destruct c; cbn [ball_where b_contact_point]; intros; apply lowest_disc; assumption. Qed.
Lemma rb2_is_where q c : rb2_made_at q c -> rb2_where q c (rb2_contact_point q c).
Proof.
  intros H. destruct H; unfold mk_circle_circle, mk_body_body2, mk_tele_circle_circle, mk_kick_circle_circle; cbn [rb2_where rb2_contact_point];
    try (apply arm2); try (intros; apply lowest_disc; assumption).
  - intros H. unfold divides2, vscale, vsub, vadd. destruct (seg2 q (3 * i)), (seg2 q (3 * j)). cbn [fst snd]. f_equal; field; exact H.
  - rewrite arm2. split; [reflexivity|]. destruct (seg2 q (3 * i)), (seg2 q (3 * j)), p. unfold vsub, vadd. cbn [fst snd]. f_equal; ring.
  - rewrite arm2. unfold rot2, vdot. destruct a as [a b]. cbn [fst snd]. pose proof (sin2_cos2 (q (3 * i + 2)%nat)) as S. unfold Rsqr in S.
    set (s := sin (q (3 * i + 2)%nat)) in *. set (k := cos (q (3 * i + 2)%nat)) in *. clearbody s k. split.
    + replace ((k * a - s * b) * k + (s * a + k * b) * s) with (a * (s * s + k * k)) by ring. rewrite S. ring.
    + replace ((k * a - s * b) * - s + (s * a + k * b) * k) with (b * (s * s + k * k)) by ring. rewrite S. ring.
Qed.
Lemma rb3_is_where q c p : rb3_made_at q c -> rb3_contact_point q c = Ok p -> rb3_where q c p.
Proof.
  intros H E. destruct H; unfold mk_sphere_sphere, mk_body_body3, mk_tele_sphere_sphere, mk_sphere_body, mk_kin_body, mk_plane_body3, mk_cyl_body in *; cbn [rb3_where rb3_contact_point] in *;
    try discriminate E; (match type of E with Ok ?x = Ok _ => assert (X : p = x) by congruence; subst p end);
    try (apply arm3); try (intros; apply lowest_ball; assumption).
  - intros H. unfold divides3, scale3, sub3, add3. destruct (seg3 q (3 * i)) as [x y z], (seg3 q (3 * j)) as [x' y' z']. cbn [c0 c1 c2]. f_equal; field; exact H.
  - rewrite arm3. split; [reflexivity|]. destruct (seg3 q (3 * i)) as [x y z], (seg3 q (3 * j)) as [x' y' z'], p0 as [a b d]. unfold sub3, add3. cbn [c0 c1 c2]. f_equal; ring.
Qed.
