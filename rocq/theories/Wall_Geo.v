(* Each static test against the sets of points of body and obstacle. *)
From Coq Require Import List Reals Arith Bool Lra Lia.
From Verif Require Import Outcome Ccd_Model ContactBall_Model ContactRb2_Model ContactRb3_Model Rot_Model Rot_Spec Rot_Alg Lin_Model Lin_Proofs
  Geom_Model Geom_Spec Geom_Sets Geom_Circle Geom_Space Geom_Aabb Frame_Proofs Wall_Model Wall_Spec.
From Verif Require Cache_Thms Frame_Model.
Import ListNotations.
Open Scope R_scope.

Lemma Rleb_true : forall a b, Rleb a b = true <-> a <= b.
Proof. intros a b. unfold Rleb. destruct (Rltb_spec b a); cbn [negb]; split; intros; try discriminate; try reflexivity; lra. Qed.
Lemma Rleb_false : forall a b, Rleb a b = false <-> b < a.
Proof. intros a b. unfold Rleb. destruct (Rltb_spec b a); cbn [negb]; split; intros; try discriminate; try reflexivity; lra. Qed.
Lemma sq_le : forall a b, 0 <= a -> 0 <= b -> (a <= b <-> a * a <= b * b).
Proof.
  intros a b A B. split; intros H; [apply Rmult_le_compat; assumption|].
  destruct (Rle_or_lt a b) as [L|L]; [exact L|]. exfalso. assert (b * b < a * a) by (apply Rmult_le_0_lt_compat; lra). lra.
Qed.
Lemma sq_up : forall a b, 0 <= a -> a <= b -> a * a <= b * b.
Proof. intros a b A H. apply Rmult_le_compat; assumption. Qed.
(* the planar Cauchy-Schwarz inequality *)
Lemma vdot_le : forall u v r s, 0 <= r -> 0 <= s -> vdot u u <= r * r -> vdot v v <= s * s -> Rabs (vdot u v) <= r * s.
Proof.
  intros u v r s Hr Hs U V. apply abs_in. apply sq_bound; [apply Rmult_le_pos; assumption|].
  assert (C : vdot u v * vdot u v <= vdot u u * vdot v v).
  { pose proof (sq_nn (vcross u v)) as K. destruct u as [a b], v as [c d]. unfold vdot, vcross in *. cbn [fst snd] in *. lra. }
  assert (vdot u u * vdot v v <= (r * r) * (s * s)) by (apply Rmult_le_compat; try assumption; apply vdot_nn). lra.
Qed.
Lemma dot3_abs_le : forall u v r s, 0 <= r -> 0 <= s -> dot3 u u <= r * r -> dot3 v v <= s * s -> Rabs (dot3 u v) <= r * s.
Proof.
  intros u v r s Hr Hs U V. apply abs_in. split; [|apply dot_le; assumption].
  assert (K : dot3 (scale3 (-1) u) v <= r * s) by (apply dot_le; try assumption; rewrite dot_scale_sq; lra).
  rewrite dot3_scale_l in K. lra.
Qed.

(* ---------- planes ---------- *)
Lemma disc_plane_reach : forall x r xp n, 0 <= r -> vdot n n = 1 ->
  (exists p, in_disc x r p /\ vdot n (vsub p xp) = disc_plane_gap x r xp n)
  /\ forall p, in_disc x r p -> disc_plane_gap x r xp n <= vdot n (vsub p xp).
Proof.
  intros x r xp n Hr Hn. unfold disc_plane_gap. split.
  - exists (vsub x (vscale r n)). split.
    + unfold in_disc. replace (vdot _ _) with (r * r * vdot n n); [rewrite Hn; lra|].
      destruct x, n. unfold vdot, vsub, vscale. cbn [fst snd]. ring.
    + transitivity (vdot n (vsub x xp) - r * vdot n n); [|rewrite Hn; ring].
      destruct x, n, xp. unfold vdot, vsub, vscale. cbn [fst snd]. ring.
  - intros p Hp. unfold in_disc in Hp.
    assert (K : Rabs (vdot n (vsub p x)) <= 1 * r) by (apply vdot_le; try assumption; lra). apply abs_inv in K.
    replace (vdot n (vsub p xp)) with (vdot n (vsub x xp) + vdot n (vsub p x)); [lra|].
    destruct x, n, xp, p. unfold vdot, vsub. cbn [fst snd]. ring.
Qed.
Theorem disc_plane_exact : forall x r xp n, 0 <= r -> vdot n n = 1 ->
  (disc_plane_active x r xp n = true <-> meets (in_disc x r) (half_plane xp n)).
Proof.
  intros x r xp n Hr Hn. destruct (disc_plane_reach x r xp n Hr Hn) as [(p & Dp & Ep) Lo].
  unfold disc_plane_active. rewrite Rleb_true. unfold meets, half_plane. unfold disc_plane_gap in *. split.
  - intros H. exists p. split; [exact Dp|lra].
  - intros (z & Dz & Hz). specialize (Lo z Dz). lra.
Qed.
Lemma ball_plane_reach : forall x r xp n, 0 <= r -> dot3 n n = 1 ->
  (exists p, in_ball3 x r p /\ dot3 n (sub3 p xp) = ball_plane_gap x r xp n)
  /\ forall p, in_ball3 x r p -> ball_plane_gap x r xp n <= dot3 n (sub3 p xp).
Proof.
  intros x r xp n Hr Hn. unfold ball_plane_gap. split.
  - exists (add3 x (scale3 (- r) n)). split.
    + unfold in_ball3. rewrite sub_add3, dot_scale_sq, Hn. lra.
    + transitivity (dot3 n (sub3 x xp) - r * dot3 n n); [|rewrite Hn; ring].
      unfold dot3, sub3, add3, scale3. cbn [c0 c1 c2]. ring.
  - intros p Hp. unfold in_ball3 in Hp.
    assert (K : Rabs (dot3 n (sub3 p x)) <= 1 * r) by (apply dot3_abs_le; try assumption; lra). apply abs_inv in K.
    replace (dot3 n (sub3 p xp)) with (dot3 n (sub3 x xp) + dot3 n (sub3 p x)); [lra|].
    unfold dot3, sub3. cbn [c0 c1 c2]. ring.
Qed.
Theorem ball_plane_exact : forall x r xp n, 0 <= r -> dot3 n n = 1 ->
  (ball_plane_active3 x r xp n = true <-> meets (in_ball3 x r) (half_space xp n)).
Proof.
  intros x r xp n Hr Hn. destruct (ball_plane_reach x r xp n Hr Hn) as [(p & Dp & Ep) Lo].
  unfold ball_plane_active3. rewrite Rleb_true. unfold meets, half_space. unfold ball_plane_gap in *. split.
  - intros H. exists p. split; [exact Dp|lra].
  - intros (z & Dz & Hz). specialize (Lo z Dz). lra.
Qed.

(* ---------- boxes against planes ---------- *)
Lemma corners2_are : forall r a, In a (corners2 r) <-> is_corner2 r a.
Proof.
  intros r [a b]. unfold corners2, is_corner2. cbn [flat_map map app In fst snd]. split.
  - intros H. repeat (destruct H as [H|H]; [injection H as <- <-; split; lra|]). destruct H.
  - intros [[-> | ->] [-> | ->]].
    + right; right; right; left. f_equal; lra.
    + right; right; left. f_equal; lra.
    + right; left. f_equal; lra.
    + left. f_equal; lra.
Qed.
Lemma rot2_mapply : forall t a, rot2 t a = mapply (rotation2 t) a.
Proof. intros t [a b]. unfold rot2, mapply, rotation2, vadd, vscale. cbn [fst snd]. f_equal; ring. Qed.
Lemma corner2_in_box : forall x t r a, 0 <= fst r -> 0 <= snd r -> is_corner2 r a -> in_box2 x t r (vadd x (rot2 t a)).
Proof.
  intros x t r a R0 R1 [A B]. apply in_box2_local. rewrite rot2_mapply.
  replace (vsub (vadd x (mapply (rotation2 t) a)) x) with (mapply (rotation2 t) a).
  - rewrite mapply_t_back. split; apply abs_in; [destruct A as [->| ->]|destruct B as [->| ->]]; lra.
  - generalize (mapply (rotation2 t) a). destruct x as [x y]. intros [u v]. unfold vsub, vadd. cbn [fst snd]. f_equal; ring.
Qed.
Lemma low_end : forall u w, 0 <= w -> exists s, (s = w \/ s = - w) /\ forall y, - w <= y <= w -> u * s <= u * y.
Proof.
  intros u w W. destruct (Rle_or_lt 0 u) as [U|U].
  - exists (- w). split; [right; reflexivity|]. intros y Y. apply Rmult_le_compat_l; lra.
  - exists w. split; [left; reflexivity|]. intros y Y. apply Rmult_le_compat_neg_l; lra.
Qed.
Theorem box2_plane_exact : forall x t r xp n, 0 <= fst r -> 0 <= snd r ->
  ((exists a, is_corner2 r a /\ half_plane xp n (vadd x (rot2 t a))) <-> meets (in_box2 x t r) (half_plane xp n)).
Proof.
  intros x t r xp n R0 R1. split.
  - intros (a & Ca & Ha). exists (vadd x (rot2 t a)). split; [apply corner2_in_box; assumption|exact Ha].
  - intros (p & Bp & Hp). apply in_box2_local in Bp. destruct Bp as [B0 B1].
    set (y := mapply_t (rotation2 t) (vsub p x)) in *. set (u := mapply_t (rotation2 t) n).
    destruct (low_end (fst u) (fst r) R0) as (a0 & A0 & L0). destruct (low_end (snd u) (snd r) R1) as (a1 & A1 & L1).
    exists (a0, a1). split; [split; [exact A0|exact A1]|]. unfold half_plane in *.
    assert (Ev : forall z, vdot n (vsub (vadd x (mapply (rotation2 t) z)) xp) = vdot n (vsub x xp) + vdot u z).
    { intros z. unfold u.
      assert (E : vdot (mapply_t (rotation2 t) n) z = vdot n (mapply (rotation2 t) z)).
      { rewrite <- (mapply_t_back t z) at 1. apply mapply_t_dot. }
      rewrite E. generalize (mapply (rotation2 t) z). intros [w0 w1]. destruct x, n, xp. unfold vdot, vsub, vadd. cbn [fst snd]. ring. }
    rewrite rot2_mapply, Ev.
    assert (Ep : p = vadd x (mapply (rotation2 t) y)).
    { unfold y. rewrite mapply_back. destruct p, x. unfold vadd, vsub. cbn [fst snd]. f_equal; ring. }
    rewrite Ep, Ev in Hp. pose proof (L0 (fst y) (abs_inv _ _ B0)). pose proof (L1 (snd y) (abs_inv _ _ B1)).
    change (vdot u (a0, a1)) with (fst u * a0 + snd u * a1). change (vdot u y) with (fst u * fst y + snd u * snd y) in Hp. lra.
Qed.

Lemma corner3_are : forall w a, (exists k, (k < 8)%nat /\ a = corner3 w k) <-> is_corner3 w a.
Proof.
  intros w a. split.
  - intros (k & Hk & ->). unfold is_corner3, corner3, sign_bit. cbn [c0 c1 c2].
    split; [|split]; match goal with |- context [if ?b then _ else _] => destruct b end; lra.
  - intros (A & B & C).
    assert (K : exists k, (k < 8)%nat /\ c0 a = c0 w * sign_bit k /\ c1 a = c1 w * sign_bit (k / 2) /\ c2 a = c2 w * sign_bit (k / 4)).
    { destruct A as [A|A], B as [B|B], C as [C|C]; rewrite A, B, C.
      - exists 7%nat. unfold sign_bit. cbn. lra || (repeat split; [lia|lra..]).
      - exists 3%nat. unfold sign_bit. cbn. repeat split; [lia|lra..].
      - exists 5%nat. unfold sign_bit. cbn. repeat split; [lia|lra..].
      - exists 1%nat. unfold sign_bit. cbn. repeat split; [lia|lra..].
      - exists 6%nat. unfold sign_bit. cbn. repeat split; [lia|lra..].
      - exists 2%nat. unfold sign_bit. cbn. repeat split; [lia|lra..].
      - exists 4%nat. unfold sign_bit. cbn. repeat split; [lia|lra..].
      - exists 0%nat. unfold sign_bit. cbn. repeat split; [lia|lra..]. }
    destruct K as (k & Hk & E0 & E1 & E2). exists k. split; [exact Hk|]. apply v3_ext; unfold corner3; cbn [c0 c1 c2]; assumption.
Qed.
Lemma corner3_fits : forall w a, 0 <= c0 w -> 0 <= c1 w -> 0 <= c2 w -> is_corner3 w a -> fits w a.
Proof. intros w a W0 W1 W2 (A & B & C). unfold fits. lra. Qed.
Lemma placed_dot : forall M x xp n v, dot3 n (sub3 (add3 (mul3 M v) x) xp) = dot3 n (sub3 x xp) + dot3 (mul3 (tr M) n) v.
Proof.
  intros M x xp n v. assert (E : dot3 (mul3 (tr M) n) v = dot3 n (mul3 M v)).
  { symmetry. apply dot_mul3. }
  rewrite E. generalize (mul3 M v). intros w. unfold dot3, sub3, add3. cbn [c0 c1 c2]. ring.
Qed.
Lemma add3_comm : forall a b, add3 a b = add3 b a.
Proof. intros. apply v3_ext; unfold add3; cbn [c0 c1 c2]; ring. Qed.
Theorem box3_plane_exact : forall x M w xp n, rotation M -> 0 <= c0 w -> 0 <= c1 w -> 0 <= c2 w ->
  (box_plane_active xp n x M w <> [] <-> meets (in_box3 x M w) (half_space xp n)).
Proof.
  intros x M w xp n HM W0 W1 W2. split.
  - intros H. destruct (box_plane_active xp n x M w) as [|k l] eqn:E; [congruence|].
    assert (I : In k (box_plane_active xp n x M w)) by (rewrite E; left; reflexivity).
    unfold box_plane_active in I. apply filter_In in I. destruct I as [Ik Hk]. apply Rleb_true in Hk. apply in_seq in Ik.
    exists (add3 (mul3 M (corner3 w k)) x). split; [|exact Hk]. rewrite add3_comm. apply in_box3_fits; [exact HM|].
    apply corner3_fits; try assumption. apply corner3_are. exists k. split; [lia|reflexivity].
  - intros (p & Bp & Hp).
    assert (Ep : p = add3 (mul3 M (mul3 (tr M) (sub3 p x))) x) by (rewrite rot_back by exact HM; rewrite add3_comm, add_sub3; reflexivity).
    set (y := mul3 (tr M) (sub3 p x)) in *. rewrite Ep, add3_comm in Bp. apply in_box3_fits in Bp; [|exact HM]. destruct Bp as (B0 & B1 & B2).
    set (u := mul3 (tr M) n).
    destruct (low_end (c0 u) (c0 w) W0) as (a0 & A0 & L0). destruct (low_end (c1 u) (c1 w) W1) as (a1 & A1 & L1).
    destruct (low_end (c2 u) (c2 w) W2) as (a2 & A2 & L2).
    assert (Ck : exists k, (k < 8)%nat /\ V3 a0 a1 a2 = corner3 w k) by (apply corner3_are; split; [exact A0|split; [exact A1|exact A2]]).
    destruct Ck as (k & Hk & Ek).
    assert (I : In k (box_plane_active xp n x M w)).
    { unfold box_plane_active. apply filter_In. split; [apply in_seq; lia|]. apply Rleb_true. rewrite <- Ek, placed_dot. fold u.
      unfold half_space in Hp. rewrite Ep, placed_dot in Hp. fold u in Hp.
      pose proof (L0 (c0 y) B0). pose proof (L1 (c1 y) B1). pose proof (L2 (c2 y) B2).
      unfold dot3 at 2. unfold dot3 at 2 in Hp. cbn [c0 c1 c2]. lra. }
    intros E. rewrite E in I. destruct I.
Qed.

(* ---------- meshes ---------- *)
Lemma hull_outside : forall vs (P : v3 -> Prop), (forall a b s, P a -> P b -> 0 <= s <= 1 -> P (along a b s)) ->
  (forall v, In v vs -> P v) -> forall v, hull vs v -> P v.
Proof. intros vs P C V v H. induction H as [vs v I|vs a b s A IA B IB S]; [apply V; exact I|apply C; auto]. Qed.
Lemma filter_nil : forall {A} (f : A -> bool) l, filter f l = [] -> forall x, In x l -> f x = false.
Proof.
  intros A f l E x I. destruct (f x) eqn:F; [|reflexivity]. exfalso. assert (K : In x (filter f l)) by (apply filter_In; split; assumption).
  rewrite E in K. destruct K.
Qed.
Lemma filter_some : forall {A} (f : A -> bool) l, filter f l <> [] -> exists x, In x l /\ f x = true.
Proof.
  intros A f l H. destruct (filter f l) as [|x l'] eqn:E; [congruence|]. exists x. apply filter_In. rewrite E. left. reflexivity.
Qed.
Theorem mesh_plane_exact : forall x M vs xp n,
  mesh_plane_active x M vs xp n <> [] <-> meets (placed x M (hull vs)) (half_space xp n).
Proof.
  intros x M vs xp n. split.
  - intros H. apply filter_some in H. destruct H as (v & I & F). apply Rleb_true in F. exists (add3 x (mul3 M v)). split.
    + exists v. split; [apply hull_vertex; exact I|reflexivity].
    + unfold half_space. rewrite add3_comm. exact F.
  - intros (p & (v & Hv & ->) & Hp) E. unfold half_space in Hp. rewrite add3_comm in Hp.
    assert (K : 0 < dot3 n (sub3 (add3 (mul3 M v) x) xp)); [|lra]. clear Hp. revert v Hv.
    apply (hull_outside vs (fun v => 0 < dot3 n (sub3 (add3 (mul3 M v) x) xp))).
    + intros a b s A B S. rewrite placed_dot in *. set (u := mul3 (tr M) n) in *.
      replace (dot3 u (along a b s)) with ((1 - s) * dot3 u a + s * dot3 u b) by (unfold along, dot3, add3, scale3, sub3; cbn [c0 c1 c2]; ring).
      set (k := dot3 n (sub3 x xp)) in *. replace (k + _) with ((1 - s) * (k + dot3 u a) + s * (k + dot3 u b)) by ring.
      destruct (Rle_or_lt s 0) as [Z|Z].
      * assert (s = 0) by lra. subst s. lra.
      * assert (0 <= (1 - s) * (k + dot3 u a)) by (apply Rmult_le_pos; lra). assert (0 < s * (k + dot3 u b)) by (apply Rmult_lt_0_compat; lra). lra.
    + intros v I. pose proof (filter_nil _ _ E v I) as F. apply Rleb_false in F. exact F.
Qed.

(* ---------- cylinders and drums ---------- *)
Lemma axis_dist : forall x0 axis x s, dot3 axis axis = 1 ->
  dist2 x (add3 x0 (scale3 s axis)) = dot3 (radial x0 axis x) (radial x0 axis x) + (dot3 axis (sub3 x x0) - s) * (dot3 axis (sub3 x x0) - s).
Proof.
  intros x0 axis x s H. set (d := sub3 x x0). unfold radial. fold d. unfold dist2.
  replace (sub3 x (add3 x0 (scale3 s axis))) with (sub3 d (scale3 s axis)) by (unfold d; apply v3_ext; unfold sub3, add3, scale3; cbn [c0 c1 c2]; ring).
  transitivity (dot3 d d - 2 * s * dot3 axis d + s * s * dot3 axis axis); [unfold dot3, sub3, scale3; cbn [c0 c1 c2]; ring|].
  transitivity (dot3 d d - 2 * dot3 axis d * dot3 axis d + dot3 axis d * dot3 axis d * dot3 axis axis + (dot3 axis d - s) * (dot3 axis d - s)).
  - rewrite H. ring.
  - unfold dot3, sub3, scale3. cbn [c0 c1 c2]. ring.
Qed.
Lemma outside_cylinder_radial : forall x0 axis Rc x, dot3 axis axis = 1 ->
  (outside_cylinder x0 axis Rc x <-> Rc * Rc <= dot3 (radial x0 axis x) (radial x0 axis x)).
Proof.
  intros x0 axis Rc x H. unfold outside_cylinder. split.
  - intros K. specialize (K (dot3 axis (sub3 x x0))). rewrite axis_dist in K by exact H. lra.
  - intros K s. rewrite axis_dist by exact H. pose proof (sq_nn (dot3 axis (sub3 x x0) - s)). lra.
Qed.
Lemma radial_add : forall x0 axis x y, radial x0 axis (add3 x y) = add3 (radial x0 axis x) (sub3 y (scale3 (dot3 axis y) axis)).
Proof. intros. unfold radial. apply v3_ext; unfold sub3, add3, scale3, dot3; cbn [c0 c1 c2]; ring. Qed.
Lemma radial_perp : forall x0 axis x, dot3 axis axis = 1 -> dot3 axis (radial x0 axis x) = 0.
Proof.
  intros x0 axis x H. unfold radial. set (d := sub3 x x0).
  transitivity (dot3 axis d - dot3 axis d * dot3 axis axis); [unfold dot3, sub3, scale3; cbn [c0 c1 c2]; ring|rewrite H; ring].
Qed.
Lemma part_le : forall axis y, dot3 axis axis = 1 ->
  dot3 (sub3 y (scale3 (dot3 axis y) axis)) (sub3 y (scale3 (dot3 axis y) axis)) <= dot3 y y.
Proof.
  intros axis y H. replace (dot3 (sub3 y _) _) with (dot3 y y - 2 * (dot3 axis y * dot3 axis y) + dot3 axis y * dot3 axis y * dot3 axis axis).
  - rewrite H. pose proof (sq_nn (dot3 axis y)). lra.
  - unfold dot3, sub3, scale3. cbn [c0 c1 c2]. ring.
Qed.
(* how far the ball reaches from the axis *)
Lemma ball_cylinder_reach : forall x0 axis x r, 0 <= r -> dot3 axis axis = 1 ->
  let L := sqrt (dot3 (radial x0 axis x) (radial x0 axis x)) in
  (exists p, in_ball3 x r p /\ dot3 (radial x0 axis p) (radial x0 axis p) = (L + r) * (L + r))
  /\ forall p, in_ball3 x r p -> dot3 (radial x0 axis p) (radial x0 axis p) <= (L + r) * (L + r).
Proof.
  intros x0 axis x r Hr H L.
  assert (Ls : L * L = dot3 (radial x0 axis x) (radial x0 axis x)) by (apply sqrt_sqrt, dot3_nn).
  assert (Lp : 0 <= L) by apply sqrt_pos. split.
  - assert (E : exists e, dot3 e e = 1 /\ dot3 axis e = 0 /\ radial x0 axis x = scale3 L e).
    { destruct (Req_dec L 0) as [Z|Z].
      - destruct (orthogonal_vector_ok axis H) as [A B]. exists (Frame_Model.orthogonal_vector axis). split; [exact A|]. split; [exact B|].
        rewrite Z. idtac.
        assert (Zd : dot3 (radial x0 axis x) (radial x0 axis x) = 0) by (rewrite <- Ls, Z; ring).
        rewrite (Cache_Thms.dot3_zero _ Zd). apply v3_ext; unfold scale3, zero3; cbn [c0 c1 c2]; ring.
      - exists (scale3 (/ L) (radial x0 axis x)). split; [|split].
        + rewrite dot_scale_sq, <- Ls. field. exact Z.
        + rewrite dot3_scale_r, radial_perp by exact H. ring.
        + apply v3_ext; unfold scale3; cbn [c0 c1 c2]; field; exact Z. }
    destruct E as (e & Ee & Pe & Er). exists (add3 x (scale3 r e)). split; [apply ball_pole; exact Ee|].
    rewrite radial_add, dot3_scale_r, Pe, Er.
    replace (add3 (scale3 L e) (sub3 (scale3 r e) (scale3 (r * 0) axis))) with (scale3 (L + r) e).
    + rewrite dot_scale_sq, Ee. ring.
    + apply v3_ext; unfold scale3, add3, sub3; cbn [c0 c1 c2]; ring.
  - intros p Hp. unfold in_ball3 in Hp. rewrite <- (add_sub3 x p). set (y := sub3 p x) in *. rewrite radial_add.
    set (z := sub3 y (scale3 (dot3 axis y) axis)). assert (Hz : dot3 z z <= r * r) by (eapply Rle_trans; [apply part_le; exact H|exact Hp]).
    assert (C : Rabs (dot3 (radial x0 axis x) z) <= L * r) by (apply dot3_abs_le; try assumption; lra). apply abs_inv in C.
    replace (dot3 (add3 (radial x0 axis x) z) (add3 (radial x0 axis x) z))
      with (dot3 (radial x0 axis x) (radial x0 axis x) + 2 * dot3 (radial x0 axis x) z + dot3 z z).
    + rewrite <- Ls. lra.
    + unfold dot3, add3. cbn [c0 c1 c2]. ring.
Qed.
Theorem ball_cylinder_exact : forall x0 axis Rc x r, 0 <= r <= Rc -> dot3 axis axis = 1 ->
  (ball_cylinder_active x0 axis Rc x r = true <-> meets (in_ball3 x r) (outside_cylinder x0 axis Rc)).
Proof.
  intros x0 axis Rc x r Hr H. destruct (ball_cylinder_reach x0 axis x r ltac:(lra) H) as [(p & Bp & Ep) Hi].
  set (L := sqrt (dot3 (radial x0 axis x) (radial x0 axis x))) in *.
  assert (Ls : L * L = dot3 (radial x0 axis x) (radial x0 axis x)) by (apply sqrt_sqrt, dot3_nn).
  assert (Lp : 0 <= L) by apply sqrt_pos. unfold ball_cylinder_active. rewrite Rleb_true, <- Ls. split.
  - intros K. apply sq_le in K; [|lra|exact Lp]. exists p. split; [exact Bp|]. apply outside_cylinder_radial; [exact H|]. rewrite Ep.
    apply sq_up; lra.
  - intros (z & Bz & Hz). apply outside_cylinder_radial in Hz; [|exact H]. specialize (Hi z Bz).
    assert (K : Rc * Rc <= (L + r) * (L + r)) by lra. apply sq_le in K; [|lra|lra]. apply sq_up; lra.
Qed.
(* a ball wider than the cylinder is not noticed when it sits on the axis *)
Theorem large_ball_missed : forall x0 axis Rc r, 0 <= Rc < r -> dot3 axis axis = 1 ->
  ball_cylinder_active x0 axis Rc x0 r = false /\ meets (in_ball3 x0 r) (outside_cylinder x0 axis Rc).
Proof.
  intros x0 axis Rc r Hr H.
  assert (Z : dot3 (radial x0 axis x0) (radial x0 axis x0) = 0) by (unfold radial, dot3, sub3, scale3; cbn [c0 c1 c2]; ring).
  split.
  - unfold ball_cylinder_active. apply Rleb_false. rewrite Z. apply sq_pos. lra.
  - destruct (ball_cylinder_reach x0 axis x0 r ltac:(lra) H) as [(p & Bp & Ep) _]. exists p. split; [exact Bp|].
    apply outside_cylinder_radial; [exact H|]. rewrite Ep, Z, sqrt_0. apply sq_up; lra.
Qed.
Theorem mesh_cylinder_exact : forall x M vs x0 axis Rc, 0 <= Rc -> dot3 axis axis = 1 ->
  (mesh_cylinder_active x M vs x0 axis Rc <> [] <-> meets (placed x M (hull vs)) (outside_cylinder x0 axis Rc)).
Proof.
  intros x M vs x0 axis Rc HR H. split.
  - intros K. apply filter_some in K. destruct K as (v & I & F). cbv zeta in F. apply Rleb_true in F. exists (add3 x (mul3 M v)). split.
    + exists v. split; [apply hull_vertex; exact I|reflexivity].
    + apply outside_cylinder_radial; [exact H|]. rewrite add3_comm. exact F.
  - intros (p & (v & Hv & ->) & Hp) E. apply outside_cylinder_radial in Hp; [|exact H]. rewrite add3_comm in Hp.
    set (f := fun v => radial x0 axis (add3 (mul3 M v) x)). change (Rc * Rc <= dot3 (f v) (f v)) in Hp.
    assert (K : dot3 (f v) (f v) < Rc * Rc); [|lra]. clear Hp. revert v Hv. apply (hull_outside vs (fun v => dot3 (f v) (f v) < Rc * Rc)).
    + intros a b s A B S.
      assert (Ef : f (along a b s) = add3 (scale3 (1 - s) (f a)) (scale3 s (f b))).
      { unfold f. rewrite (add3_comm _ x), placed_along, (add3_comm x), (add3_comm x). generalize (add3 (mul3 M a) x) (add3 (mul3 M b) x).
        intros u v. unfold radial, along. apply v3_ext; unfold add3, sub3, scale3, dot3; cbn [c0 c1 c2]; ring. }
      rewrite Ef. set (u := f a) in *. set (v := f b) in *.
      replace (dot3 (add3 (scale3 (1 - s) u) (scale3 s v)) (add3 (scale3 (1 - s) u) (scale3 s v)))
        with ((1 - s) * dot3 u u + s * dot3 v v - (1 - s) * s * dot3 (sub3 u v) (sub3 u v)) by (unfold dot3, add3, scale3, sub3; cbn [c0 c1 c2]; ring).
      assert (0 <= (1 - s) * s * dot3 (sub3 u v) (sub3 u v)) by (apply Rmult_le_pos; [apply Rmult_le_pos; lra|apply dot3_nn]).
      assert (C : (1 - s) * (Rc * Rc - dot3 u u) + s * (Rc * Rc - dot3 v v) > 0).
      { destruct (Rle_or_lt s 0) as [Z|Z].
        - assert (s = 0) by lra. subst s. lra.
        - assert (0 <= (1 - s) * (Rc * Rc - dot3 u u)) by (apply Rmult_le_pos; lra).
          assert (0 < s * (Rc * Rc - dot3 v v)) by (apply Rmult_lt_0_compat; lra). lra. }
      lra.
    + intros v I. pose proof (filter_nil _ _ E v I) as F. cbv zeta in F. apply Rleb_false in F. exact F.
Qed.

Lemma disc_drum_reach : forall X x r, 0 <= r ->
  let L := sqrt (vdot (vsub X x) (vsub X x)) in
  (exists p, in_disc x r p /\ vdot (vsub p X) (vsub p X) = (L + r) * (L + r))
  /\ forall p, in_disc x r p -> vdot (vsub p X) (vsub p X) <= (L + r) * (L + r).
Proof.
  intros X x r Hr L. assert (Ls : L * L = vdot (vsub X x) (vsub X x)) by (apply sqrt_sqrt, vdot_nn).
  assert (Lp : 0 <= L) by apply sqrt_pos. clearbody L. destruct X as [X Y], x as [x y]. unfold in_disc, vdot, vsub in *. cbn [fst snd] in *. split.
  - destruct (Req_dec L 0) as [Z|Z].
    + exists (x + r, y). cbn [fst snd]. subst L. pose proof (sq_nn (X - x)). pose proof (sq_nn (Y - y)).
      assert (Ex : X - x = 0) by (apply Rsqr_0_uniq; unfold Rsqr; lra). assert (Ey : Y - y = 0) by (apply Rsqr_0_uniq; unfold Rsqr; lra).
      replace (x + r - X) with (r - (X - x)) by ring. replace (y - Y) with (- (Y - y)) by ring. rewrite Ex, Ey. split; [|ring].
      replace (x + r - x) with r by ring. replace (y - y) with 0 by ring. lra.
    + exists (x + r * ((x - X) / L), y + r * ((y - Y) / L)). cbn [fst snd]. split.
      * replace (_ + _) with (r * r * ((X - x) * (X - x) + (Y - y) * (Y - y)) / (L * L)) by (field; exact Z). rewrite <- Ls.
        replace (r * r * (L * L) / (L * L)) with (r * r) by (field; exact Z). lra.
      * replace (_ + _) with (((X - x) * (X - x) + (Y - y) * (Y - y)) * ((L + r) * (L + r)) / (L * L)) by (field; exact Z). rewrite <- Ls. field. exact Z.
  - intros [p q] Hp. cbn [fst snd] in *.
    assert (C : Rabs (vdot (x - X, y - Y) (p - x, q - y)) <= L * r).
    { apply vdot_le; try assumption; unfold vdot; cbn [fst snd]; lra. }
    apply abs_inv in C. unfold vdot in C. cbn [fst snd] in C.
    replace ((p - X) * (p - X) + (q - Y) * (q - Y)) with
      (((X - x) * (X - x) + (Y - y) * (Y - y)) + 2 * ((x - X) * (p - x) + (y - Y) * (q - y)) + ((p - x) * (p - x) + (q - y) * (q - y))) by ring.
    rewrite <- Ls. lra.
Qed.
Theorem disc_drum_exact : forall X Rd x r, 0 <= r <= Rd ->
  (disc_drum_active x r X Rd = true <-> meets (in_disc x r) (outside_drum X Rd)).
Proof.
  intros X Rd x r Hr. destruct (disc_drum_reach X x r ltac:(lra)) as [(p & Bp & Ep) Hi].
  set (L := sqrt (vdot (vsub X x) (vsub X x))) in *.
  assert (Ls : L * L = vdot (vsub X x) (vsub X x)) by (apply sqrt_sqrt, vdot_nn).
  assert (Lp : 0 <= L) by apply sqrt_pos. unfold disc_drum_active. rewrite Rleb_true, <- Ls. unfold outside_drum. split.
  - intros K. apply sq_le in K; [|lra|exact Lp]. exists p. split; [exact Bp|]. rewrite Ep. apply sq_up; lra.
  - intros (z & Bz & Hz). specialize (Hi z Bz).
    assert (K : Rd * Rd <= (L + r) * (L + r)) by lra. apply sq_le in K; [|lra|lra]. apply sq_up; lra.
Qed.
Theorem large_disc_missed : forall X Rd r, 0 <= Rd < r ->
  disc_drum_active X r X Rd = false /\ meets (in_disc X r) (outside_drum X Rd).
Proof.
  intros X Rd r Hr. assert (Z : vdot (vsub X X) (vsub X X) = 0) by (destruct X; unfold vdot, vsub; cbn [fst snd]; ring). split.
  - unfold disc_drum_active. apply Rleb_false. rewrite Z. apply sq_pos. lra.
  - destruct (disc_drum_reach X X r ltac:(lra)) as [(p & Bp & Ep) _]. exists p. split; [exact Bp|].
    unfold outside_drum. rewrite Ep, Z, sqrt_0. apply sq_up; lra.
Qed.
