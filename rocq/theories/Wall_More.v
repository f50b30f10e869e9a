(* Round bodies against each other, gap functions, contact points, the simulation boundary and the bounding sphere. *)
From Coq Require Import List Reals Arith Bool Lra Lia.
From Verif Require Import Outcome Ccd_Model ContactBall_Model ContactRb2_Model ContactRb3_Model Rot_Model Rot_Spec Rot_Alg Lin_Model Lin_Proofs
  Geom_Model Geom_Spec Geom_Sets Geom_Circle Geom_Space Geom_Aabb Frame_Proofs Wall_Model Wall_Spec Wall_Geo.
From Verif Require Cache_Thms.
Import ListNotations.
Open Scope R_scope.

(* ---------- two discs, two balls ---------- *)
Definition flat (v : vec) : v3 := V3 (fst v) (snd v) 0.
Lemma discs_meet : forall a b r s, 0 <= r -> 0 <= s -> 0 < r + s ->
  (vdot (vsub a b) (vsub a b) <= (r + s) * (r + s) <-> meets (in_disc a r) (in_disc b s)).
Proof.
  intros [a0 a1] [b0 b1] r s Hr Hs Hp. pose proof (balls_meet (flat (a0, a1)) (flat (b0, b1)) r s Hr Hs Hp) as B.
  unfold dist2, in_ball3, flat, dot3, sub3 in B. cbn [fst snd c0 c1 c2] in B. unfold meets, in_disc, vdot, vsub. cbn [fst snd]. split.
  - intros L. destruct (proj1 B) as ([z0 z1 z2] & Z0 & Z1); [lra|]. cbn [c0 c1 c2] in Z0, Z1. exists (z0, z1). cbn [fst snd].
    pose proof (sq_nn (z2 - 0)). split; lra.
  - intros ([z0 z1] & Z0 & Z1). cbn [fst snd] in Z0, Z1. enough ((a0 - b0) * (a0 - b0) + (a1 - b1) * (a1 - b1) + (0 - 0) * (0 - 0) <= (r + s) * (r + s)) by lra.
    apply B. exists (V3 z0 z1 0). cbn [c0 c1 c2]. split; lra.
Qed.
Theorem discs_active_exact : forall a b r s, 0 <= r -> 0 <= s -> 0 < r + s ->
  (discs_active a b r s = true <-> meets (in_disc a r) (in_disc b s)).
Proof. intros a b r s Hr Hs Hp. unfold discs_active. rewrite Rleb_true. apply discs_meet; assumption. Qed.
Theorem balls_active_exact : forall a b r s, 0 <= r -> 0 <= s -> 0 < r + s ->
  (balls_active a b r s = true <-> meets (in_ball3 a r) (in_ball3 b s)).
Proof. intros a b r s Hr Hs Hp. unfold balls_active. rewrite Rleb_true. apply balls_meet; assumption. Qed.

Lemma sqrt_le_iff : forall a b, 0 <= a -> 0 <= b -> (sqrt a <= b <-> a <= b * b).
Proof.
  intros a b Ha Hb. pose proof (sqrt_pos a) as P. pose proof (sqrt_sqrt a Ha) as S. rewrite <- S at 2. apply sq_le; assumption.
Qed.
Lemma le_sqrt_iff : forall a b, 0 <= a -> 0 <= b -> (b <= sqrt a <-> b * b <= a).
Proof.
  intros a b Ha Hb. pose proof (sqrt_pos a) as P. pose proof (sqrt_sqrt a Ha) as S. rewrite <- S at 2. apply sq_le; assumption.
Qed.
Lemma sqrt_sq_abs : forall k, 0 <= k -> sqrt (k * k) = k.
Proof. intros k H. apply sqrt_square. exact H. Qed.

(* moving the first body by t along the normal leaves them in contact exactly while t is at most minus the gap *)
Lemma normalized3_len : forall a, 0 < dot3 a a -> a = scale3 (sqrt (dot3 a a)) (normalized3 a).
Proof.
  intros a H. rewrite (normalized3_scale a H). destruct (sqrt_pos_sq _ H) as [Sp Ss]. set (s := sqrt (dot3 a a)) in *. clearbody s.
  destruct a as [a0 a1 a2]. unfold scale3. cbn [c0 c1 c2]. f_equal; field; lra.
Qed.
Lemma vnormalized_len : forall a, 0 < vdot a a -> a = vscale (sqrt (vdot a a)) (vnormalized a).
Proof.
  intros [x y] H. unfold vnormalized. destruct (Rlt_dec 0 (vdot (x, y) (x, y))) as [P|P]; [|contradiction].
  destruct (sqrt_pos_sq _ H) as [Sp Ss]. set (s := sqrt (vdot (x, y) (x, y))) in *. clearbody s.
  unfold vscale. cbn [fst snd]. f_equal; field; lra.
Qed.
Lemma vnorm_unit : forall a, 0 < vdot a a -> vdot (vnormalized a) (vnormalized a) = 1.
Proof. intros a H. apply vnormalized_unit. intros ->. unfold vdot in H. cbn [fst snd] in H. lra. Qed.

Theorem balls_gap_ok : forall a b r s t, 0 <= r -> 0 <= s -> 0 < r + s -> 0 < dist2 a b ->
  0 <= sqrt (dist2 a b) + t ->
  (meets (in_ball3 (add3 a (scale3 t (normalized3 (sub3 a b)))) r) (in_ball3 b s) <-> balls_gap a b r s + t <= 0).
Proof.
  intros a b r s t Hr Hs Hp D T. pose proof (normalized3_unit (sub3 a b) D) as U. pose proof (normalized3_len (sub3 a b) D) as L.
  unfold balls_gap. fold (dist2 a b). unfold dist2 in T, L. fold (dist2 a b) in T, L. set (n := normalized3 (sub3 a b)) in *. set (d := sqrt (dist2 a b)) in *.
  clearbody n d. unfold meets. rewrite <- (balls_meet _ b r s Hr Hs Hp).
  replace (dist2 (add3 a (scale3 t n)) b) with ((d + t) * (d + t)).
  2:{ unfold dist2. replace (sub3 (add3 a (scale3 t n)) b) with (scale3 (d + t) n); [rewrite dot_scale_sq, U; ring|].
      transitivity (add3 (scale3 d n) (scale3 t n)); [unfold add3, scale3; cbn [c0 c1 c2]; f_equal; ring|]. change (dot3 (sub3 a b) (sub3 a b)) with (dist2 a b) in L.
      rewrite <- L. unfold add3, sub3, scale3. cbn [c0 c1 c2]. f_equal; ring. }
  rewrite <- sq_le; lra.
Qed.
Theorem discs_gap_ok : forall a b r s t, 0 <= r -> 0 <= s -> 0 < r + s -> 0 < vdot (vsub a b) (vsub a b) ->
  0 <= sqrt (vdot (vsub a b) (vsub a b)) + t ->
  (meets (in_disc (vadd a (vscale t (vnormalized (vsub a b)))) r) (in_disc b s) <-> discs_gap a b r s + t <= 0).
Proof.
  intros a b r s t Hr Hs Hp D T. pose proof (vnorm_unit (vsub a b) D) as U. pose proof (vnormalized_len (vsub a b) D) as L.
  unfold discs_gap. set (n := vnormalized (vsub a b)) in *. set (d := sqrt (vdot (vsub a b) (vsub a b))) in *.
  clearbody n d. rewrite <- (discs_meet _ b r s Hr Hs Hp).
  replace (vsub (vadd a (vscale t n)) b) with (vscale (d + t) n).
  2:{ destruct a as [a0 a1], b as [b0 b1], n as [n0 n1]. unfold vsub, vadd, vscale in *. cbn [fst snd] in *. injection L as L0 L1. f_equal; lra. }
  replace (vdot (vscale (d + t) n) (vscale (d + t) n)) with ((d + t) * (d + t) * vdot n n) by (unfold vdot, vscale; cbn [fst snd]; ring).
  rewrite U, Rmult_1_r. rewrite <- sq_le; lra.
Qed.
(* the gap is the least of n . ( p - xp ) over the points p of the body *)
Theorem disc_plane_gap_ok : forall x r xp n, 0 <= r -> vdot n n = 1 ->
  is_least (in_disc x r) (fun p => vdot n (vsub p xp)) (disc_plane_gap x r xp n).
Proof. intros x r xp n Hr Hn. exact (disc_plane_reach x r xp n Hr Hn). Qed.
Theorem ball_plane_gap_ok : forall x r xp n, 0 <= r -> dot3 n n = 1 ->
  is_least (in_ball3 x r) (fun p => dot3 n (sub3 p xp)) (ball_plane_gap x r xp n).
Proof. intros x r xp n Hr Hn. exact (ball_plane_reach x r xp n Hr Hn). Qed.
Lemma from_axis_radial : forall x0 axis p d, dot3 axis axis = 1 ->
  (from_axis x0 axis p d <-> 0 <= d /\ d * d = dot3 (radial x0 axis p) (radial x0 axis p)).
Proof.
  intros x0 axis p d H. unfold from_axis. split.
  - intros (D & (s & Es) & Lo). split; [exact D|]. specialize (Lo (dot3 axis (sub3 p x0))). rewrite axis_dist in Es, Lo by exact H.
    pose proof (sq_nn (dot3 axis (sub3 p x0) - s)). replace (dot3 axis (sub3 p x0) - dot3 axis (sub3 p x0)) with 0 in Lo by ring. lra.
  - intros [D E]. split; [exact D|]. split.
    + exists (dot3 axis (sub3 p x0)). rewrite axis_dist by exact H. replace (dot3 axis (sub3 p x0) - dot3 axis (sub3 p x0)) with 0 by ring. lra.
    + intros s. rewrite axis_dist by exact H. pose proof (sq_nn (dot3 axis (sub3 p x0) - s)). lra.
Qed.
Theorem ball_cylinder_gap_ok : forall x0 axis Rc x r, 0 <= r -> dot3 axis axis = 1 ->
  (exists p d, in_ball3 x r p /\ from_axis x0 axis p d /\ Rc - d = ball_cylinder_gap x0 axis Rc x r)
  /\ forall p d, in_ball3 x r p -> from_axis x0 axis p d -> ball_cylinder_gap x0 axis Rc x r <= Rc - d.
Proof.
  intros x0 axis Rc x r Hr H. destruct (ball_cylinder_reach x0 axis x r Hr H) as [(p & Bp & Ep) Up]. unfold ball_cylinder_gap.
  pose proof (sqrt_pos (dot3 (radial x0 axis x) (radial x0 axis x))) as Lp. set (L := sqrt (dot3 (radial x0 axis x) (radial x0 axis x))) in *. clearbody L. split.
  - exists p, (L + r). split; [exact Bp|]. split; [apply from_axis_radial; [exact H|]; split; lra|ring].
  - intros z d Bz Fz. apply from_axis_radial in Fz; [|exact H]. destruct Fz as [D E]. specialize (Up z Bz). rewrite <- E in Up.
    apply (proj2 (sq_le d (L + r) D ltac:(lra))) in Up. lra.
Qed.

(* penetration depths *)
Lemma depth_pos : forall g t, 0 < t -> (g + t <= 0 <-> t <= - depth_of g).
Proof. intros g t Ht. unfold depth_of, Rmin. destruct (Rle_dec 0 g); split; intros; lra. Qed.
Theorem discs_depth_ok : forall a b r s t, 0 <= r -> 0 <= s -> 0 < r + s -> 0 < vdot (vsub a b) (vsub a b) -> 0 < t ->
  (meets (in_disc (vadd a (vscale t (vnormalized (vsub a b)))) r) (in_disc b s) <-> t <= - depth_of (discs_gap a b r s)).
Proof.
  intros a b r s t Hr Hs Hrs Hd Ht. rewrite <- (depth_pos _ _ Ht). apply discs_gap_ok; try assumption.
  pose proof (sqrt_pos (vdot (vsub a b) (vsub a b))). lra.
Qed.
Theorem balls_depth_ok : forall a b r s t, 0 <= r -> 0 <= s -> 0 < r + s -> 0 < dist2 a b -> 0 < t ->
  (meets (in_ball3 (add3 a (scale3 t (normalized3 (sub3 a b)))) r) (in_ball3 b s) <-> t <= - depth_of (balls_gap a b r s)).
Proof.
  intros a b r s t Hr Hs Hrs Hd Ht. rewrite <- (depth_pos _ _ Ht). apply balls_gap_ok; try assumption.
  pose proof (sqrt_pos (dist2 a b)). lra.
Qed.
Lemma least_depth : forall (A : Type) (S : A -> Prop) f m, is_least S f m -> is_least S (fun p => Rmin 0 (f p)) (depth_of m).
Proof.
  intros A S f m [(p & Sp & Fp) L]. split; [exists p; split; [exact Sp|]; unfold depth_of; rewrite Fp; reflexivity|].
  intros p' Sp'. specialize (L p' Sp'). unfold depth_of, Rmin. destruct (Rle_dec 0 m), (Rle_dec 0 (f p')); lra.
Qed.

(* ---------- contact points and normals ---------- *)
Lemma points_from3_norm : forall a b, 0 < dist2 a b -> points_from3 b a (normalized3 (sub3 a b)).
Proof.
  intros a b D. split; [apply normalized3_unit; exact D|]. exists (sqrt (dot3 (sub3 a b) (sub3 a b))). split; [apply sqrt_lt_R0; exact D|].
  apply normalized3_len. exact D.
Qed.
Lemma points_from2_norm : forall a b, 0 < vdot (vsub a b) (vsub a b) -> points_from2 b a (vnormalized (vsub a b)).
Proof.
  intros a b D. split; [apply vnorm_unit; exact D|]. exists (sqrt (vdot (vsub a b) (vsub a b))). split; [apply sqrt_lt_R0; exact D|].
  apply vnormalized_len. exact D.
Qed.
Lemma divides3_mid : forall a b r s, 0 < r + s -> divides3 a b r s (add3 a (scale3 (r / (r + s)) (sub3 b a))).
Proof. intros a b r s H. unfold divides3. apply v3_ext; unfold scale3, sub3, add3; cbn [c0 c1 c2]; field; lra. Qed.
Lemma divides2_mid : forall a b r s, 0 < r + s -> divides2 a b r s (vadd a (vscale (r / (r + s)) (vsub b a))).
Proof. intros a b r s H. unfold divides2, vscale, vsub, vadd. cbn [fst snd]. f_equal; field; lra. Qed.
(* the dividing point lies in both when they overlap *)
Lemma divides3_in : forall a b r s p, 0 <= r -> 0 <= s -> 0 < r + s -> divides3 a b r s p ->
  meets (in_ball3 a r) (in_ball3 b s) -> in_ball3 a r p /\ in_ball3 b s p.
Proof.
  intros a b r s p Hr Hs Hp Dv M. apply balls_meet in M; try assumption.
  assert (E1 : scale3 (r + s) (sub3 p a) = scale3 r (sub3 b a)).
  { unfold divides3 in Dv. assert (K : forall f : v3 -> R, f (scale3 s (sub3 p a)) = f (scale3 r (sub3 b p))) by (intros f; rewrite Dv; reflexivity).
    pose proof (K c0). pose proof (K c1). pose proof (K c2). unfold scale3, sub3 in *. cbn [c0 c1 c2] in *. f_equal; lra. }
  assert (E2 : scale3 (r + s) (sub3 p b) = scale3 (- s) (sub3 b a)).
  { assert (K : forall f : v3 -> R, f (scale3 (r + s) (sub3 p a)) = f (scale3 r (sub3 b a))) by (intros f; rewrite E1; reflexivity).
    pose proof (K c0). pose proof (K c1). pose proof (K c2). unfold scale3, sub3 in *. cbn [c0 c1 c2] in *. f_equal; lra. }
  assert (P : 0 < (r + s) * (r + s)) by (apply Rmult_lt_0_compat; assumption).
  unfold in_ball3. split; apply (Rmult_le_reg_l ((r + s) * (r + s)) _ _ P); rewrite <- dot_scale_sq.
  - rewrite E1, dot_scale_sq. change (dot3 (sub3 b a) (sub3 b a)) with (dist2 b a). rewrite dist2_sym. rewrite (Rmult_comm ((r + s) * (r + s))).
    apply Rmult_le_compat_l; [apply sq_nn|exact M].
  - rewrite E2, dot_scale_sq. change (dot3 (sub3 b a) (sub3 b a)) with (dist2 b a). rewrite dist2_sym. rewrite (Rmult_comm ((r + s) * (r + s))).
    replace (- s * - s) with (s * s) by ring. apply Rmult_le_compat_l; [apply sq_nn|exact M].
Qed.
Lemma divides2_in : forall a b r s p, 0 <= r -> 0 <= s -> 0 < r + s -> divides2 a b r s p ->
  meets (in_disc a r) (in_disc b s) -> in_disc a r p /\ in_disc b s p.
Proof.
  intros [a0 a1] [b0 b1] r s [p0 p1] Hr Hs Hp Dv (z & Z0 & Z1). destruct (divides3_in (flat (a0, a1)) (flat (b0, b1)) r s (flat (p0, p1)) Hr Hs Hp) as [A B].
  - unfold divides3, flat, divides2, vscale, vsub, scale3, sub3 in *. cbn [fst snd c0 c1 c2] in *. injection Dv as D0 D1. f_equal; lra.
  - exists (flat z). destruct z as [z0 z1]. unfold in_ball3, in_disc, flat, dot3, vdot, sub3, vsub in *. cbn [fst snd c0 c1 c2] in *. split; lra.
  - unfold in_ball3, in_disc, flat, dot3, vdot, sub3, vsub in *. cbn [fst snd c0 c1 c2] in *. split; lra.
Qed.

Theorem sphere_sphere_narrow_ok : forall i j r0 r1 fixed1 q0 q1, 0 <= r0 -> 0 <= r1 -> 0 < r0 + r1 ->
  let a := pos3 q0 i in let b := pos3 q0 j in
  (forall c, In c (sphere_sphere_narrow i j r0 r1 fixed1 q0 q1) <->
     meets (in_ball3 (pos3 q1 i) r0) (in_ball3 (pos3 q1 j) r1)
     /\ c = if fixed1 then KinSphere i r0 (normalized3 (sub3 a b)) j
            else SphereSphere i j (normalized3 (sub3 a b)) (add3 a (scale3 (r0 / (r0 + r1)) (sub3 b a))) r0 r1)
  /\ (length (sphere_sphere_narrow i j r0 r1 fixed1 q0 q1) <= 1)%nat.
Proof.
  intros i j r0 r1 fixed1 q0 q1 H0 H1 Hp a b. unfold sphere_sphere_narrow. split; [|destruct (balls_active _ _ _ _); cbn [length]; lia].
  intros c. rewrite <- (balls_active_exact _ _ _ _ H0 H1 Hp). unfold pos3. destruct (balls_active _ _ _ _); cbn [In].
  - split; [intros [<-|[]]; split; [reflexivity|]|intros [_ ->]; left]; destruct fixed1; reflexivity.
  - split; [intros []|intros [K _]; discriminate].
Qed.

(* where the contact of two round bodies is placed *)
Theorem sphere_contact_place : forall i j q0 r0 r1 n p s0 s1, 0 <= r0 -> 0 <= r1 -> 0 < r0 + r1 -> mk_sphere_sphere i j q0 r0 r1 = SphereSphere i j n p s0 s1 ->
  divides3 (seg3 q0 (3 * i)) (seg3 q0 (3 * j)) r0 r1 p
  /\ (meets (in_ball3 (seg3 q0 (3 * i)) r0) (in_ball3 (seg3 q0 (3 * j)) r1) -> in_ball3 (seg3 q0 (3 * i)) r0 p /\ in_ball3 (seg3 q0 (3 * j)) r1 p)
  /\ (0 < dist2 (seg3 q0 (3 * i)) (seg3 q0 (3 * j)) -> points_from3 (seg3 q0 (3 * j)) (seg3 q0 (3 * i)) n).
Proof.
  intros i j q0 r0 r1 n p s0 s1 H0 H1 Hp E. unfold mk_sphere_sphere in E. generalize dependent (seg3 q0 (3 * i)). generalize (seg3 q0 (3 * j)). intros b a E.
  assert (En : n = normalized3 (sub3 a b)) by (inversion E; reflexivity). assert (Ep : p = add3 a (scale3 (r0 / (r0 + r1)) (sub3 b a))) by (inversion E; reflexivity).
  assert (Dv : divides3 a b r0 r1 p) by (rewrite Ep; apply divides3_mid; exact Hp).
  split; [exact Dv|]. split; [intros M; apply (divides3_in a b r0 r1 p H0 H1 Hp Dv M)|]. intros D. rewrite En. apply points_from3_norm. exact D.
Qed.
Theorem circle_contact_place : forall i j q0 r0 r1 n p s0 s1, 0 <= r0 -> 0 <= r1 -> 0 < r0 + r1 -> mk_circle_circle i j q0 r0 r1 = CircleCircle i j n p s0 s1 ->
  divides2 (seg2 q0 (3 * i)) (seg2 q0 (3 * j)) r0 r1 p
  /\ (meets (in_disc (seg2 q0 (3 * i)) r0) (in_disc (seg2 q0 (3 * j)) r1) -> in_disc (seg2 q0 (3 * i)) r0 p /\ in_disc (seg2 q0 (3 * j)) r1 p)
  /\ (seg2 q0 (3 * i) <> seg2 q0 (3 * j) -> points_from2 (seg2 q0 (3 * j)) (seg2 q0 (3 * i)) n).
Proof.
  intros i j q0 r0 r1 n p s0 s1 H0 H1 Hp E. unfold mk_circle_circle in E. generalize dependent (seg2 q0 (3 * i)). generalize (seg2 q0 (3 * j)). intros b a E.
  assert (En : n = vnormalized (vsub a b)) by (inversion E; reflexivity). assert (Ep : p = vadd a (vscale (r0 / (r0 + r1)) (vsub b a))) by (inversion E; reflexivity).
  assert (Dv : divides2 a b r0 r1 p) by (rewrite Ep; apply divides2_mid; exact Hp).
  split; [exact Dv|]. split; [intros M; apply (divides2_in a b r0 r1 p H0 H1 Hp Dv M)|]. intros D. rewrite En. apply points_from2_norm.
  destruct a as [a0 a1], b as [b0 b1]. unfold vdot, vsub. cbn [fst snd]. pose proof (sq_nn (a0 - b0)). pose proof (sq_nn (a1 - b1)).
  destruct (Req_dec (a0 - b0) 0) as [Z|Z]; [|pose proof (sq_pos _ Z); lra]. destruct (Req_dec (a1 - b1) 0) as [Z'|Z']; [|pose proof (sq_pos _ Z'); lra].
  exfalso. apply D. f_equal; lra.
Qed.
(* through a portal the two arms end in the same dividing point *)
Theorem tele_sphere_place : forall i j x0 x1 r0 r1 n a0 a1, 0 < r0 + r1 -> mk_tele_sphere_sphere i j x0 x1 r0 r1 = TeleSphereSphere i j n a0 a1 ->
  add3 x0 a0 = add3 x1 a1 /\ divides3 x0 x1 r0 r1 (add3 x0 a0) /\ (0 < dist2 x0 x1 -> points_from3 x1 x0 n).
Proof.
  intros i j x0 x1 r0 r1 n a0 a1 Hp E. unfold mk_tele_sphere_sphere in E.
  assert (En : n = normalized3 (sub3 x0 x1)) by (inversion E; reflexivity). assert (E0 : a0 = scale3 (r0 / (r0 + r1)) (sub3 x1 x0)) by (inversion E; reflexivity).
  assert (E1 : a1 = scale3 (r0 / (r0 + r1) - 1) (sub3 x1 x0)) by (inversion E; reflexivity). clear E. subst.
  split; [apply v3_ext; unfold add3, scale3, sub3; cbn [c0 c1 c2]; ring|]. split; [apply divides3_mid; exact Hp|]. apply points_from3_norm.
Qed.
Theorem tele_circle_place : forall i j x0 x1 r0 r1 n a0 a1, 0 < r0 + r1 -> mk_tele_circle_circle i j x0 x1 r0 r1 = TeleCircleCircle i j n a0 a1 ->
  vadd x0 a0 = vadd x1 a1 /\ divides2 x0 x1 r0 r1 (vadd x0 a0) /\ (0 < vdot (vsub x0 x1) (vsub x0 x1) -> points_from2 x1 x0 n).
Proof.
  intros i j x0 x1 r0 r1 n a0 a1 Hp E. unfold mk_tele_circle_circle in E.
  assert (En : n = vnormalized (vsub x0 x1)) by (inversion E; reflexivity). assert (E0 : a0 = vscale (r0 / (r0 + r1)) (vsub x1 x0)) by (inversion E; reflexivity).
  assert (E1 : a1 = vscale (r0 / (r0 + r1) - 1) (vsub x1 x0)) by (inversion E; reflexivity). clear E. subst.
  split; [unfold vadd, vscale, vsub; cbn [fst snd]; f_equal; ring|]. split; [apply divides2_mid; exact Hp|]. apply points_from2_norm.
Qed.
(* the normal of a cylinder contact *)
Theorem cyl_n_ok : forall q i c, dot3 (cy_axis c) (cy_axis c) = 1 -> ~ (exists s, pos3 q i = add3 (cy_x c) (scale3 s (cy_axis c))) ->
  towards_axis (cy_x c) (cy_axis c) (pos3 q i) (cyl_n q i c).
Proof.
  intros q i c H N. unfold cyl_n, pos3 in *. set (x := seg3 q (3 * i)) in *. clearbody x. fold (radial (cy_x c) (cy_axis c) x).
  set (x0 := cy_x c) in *. set (ax := cy_axis c) in *. clearbody x0 ax. set (y := radial x0 ax x) in *.
  assert (P : 0 < dot3 (neg3 y) (neg3 y)).
  { replace (dot3 (neg3 y) (neg3 y)) with (dot3 y y) by (unfold dot3, neg3; cbn [c0 c1 c2]; ring).
    destruct (Rle_lt_or_eq_dec _ _ (dot3_nn y)) as [K|K]; [exact K|]. exfalso. apply N. exists (dot3 ax (sub3 x x0)).
    pose proof (Cache_Thms.dot3_zero _ (eq_sym K)) as Z. unfold y, radial in Z.
    generalize dependent (dot3 ax (sub3 x x0)). intros t Z.
    assert (F : forall f : v3 -> R, f (sub3 (sub3 x x0) (scale3 t ax)) = f zero3) by (intros f; rewrite Z; reflexivity).
    pose proof (F c0) as F0. pose proof (F c1) as F1. pose proof (F c2) as F2. unfold scale3, sub3, zero3 in F0, F1, F2. cbn [c0 c1 c2] in F0, F1, F2.
    apply v3_ext; unfold add3, scale3; cbn [c0 c1 c2]; lra. }
  unfold towards_axis. split; [apply normalized3_unit; exact P|].
  pose proof (normalized3_len _ P) as L. pose proof (normalized3_scale _ P) as Sc. set (k := sqrt (dot3 (neg3 y) (neg3 y))) in *.
  assert (Kp : 0 < k) by (apply sqrt_lt_R0; exact P). clearbody k. split.
  - rewrite Sc, dot3_scale_r. replace (dot3 ax (neg3 y)) with (- dot3 ax y) by (unfold dot3, neg3; cbn [c0 c1 c2]; ring).
    unfold y. rewrite radial_perp by exact H. ring.
  - exists k, (dot3 ax (sub3 x x0)). split; [exact Kp|]. rewrite <- L. unfold y, radial. apply v3_ext; unfold add3, neg3, sub3, scale3; cbn [c0 c1 c2]; ring.
Qed.

(* ---------- boundary and bounding sphere ---------- *)
Lemma body3_aabb_covers : forall b, body3_valid b -> covers3 (body3_aabb b) (body3_points b).
Proof.
  intros b V. unfold body3_valid, body3_aabb, body3_points in *. destruct V as [Rt V]. destruct (b3_shape b) as [w|r|s|vs].
  - cbn [covers3]. apply box3_aabb_tight; tauto.
  - cbn [covers3]. apply sphere_aabb_tight. exact V.
  - destruct V.
  - apply vertices_aabb_tight.
Qed.
Lemma any_lt3_spec : forall a b, any_lt3 a b = true <-> c0 a < c0 b \/ c1 a < c1 b \/ c2 a < c2 b.
Proof.
  intros a b. unfold any_lt3. destruct (Rltb_spec (c0 a) (c0 b)); destruct (Rltb_spec (c1 a) (c1 b)); destruct (Rltb_spec (c2 a) (c2 b)); cbn [orb]; split; intros; try tauto; try discriminate; reflexivity.
Qed.
Theorem boundary_exit_ok : forall lo hi bodies, Forall body3_valid bodies ->
  (boundary_exit lo hi bodies = Ok tt <-> forall b p, In b bodies -> body3_points b p -> within3 (lo, hi) p)
  /\ (boundary_exit lo hi bodies = Ok tt \/ boundary_exit lo hi bodies = Exit).
Proof.
  intros lo hi bodies V. induction V as [|b bodies Vb V [IH1 IH2]]; cbn [boundary_exit].
  - split; [|left; reflexivity]. split; [intros _ b p []|reflexivity].
  - pose proof (body3_aabb_covers b Vb) as Cv. destruct (body3_aabb b) as [bx|]; cbn [covers3] in Cv.
    + destruct Cv as [En Ti].
      assert (Out : forall P : Prop, (any_lt3 (fst bx) lo = true \/ any_lt3 hi (snd bx) = true) ->
        (forall b' p, In b' (b :: bodies) -> body3_points b' p -> within3 (lo, hi) p) -> P).
      { intros P K A. exfalso. specialize (Ti (lo, hi) (fun p Hp => A b p (or_introl eq_refl) Hp)). cbn [fst snd] in Ti. rewrite !any_lt3_spec in K.
        destruct Ti as (T0 & T1 & T2 & T3 & T4 & T5). destruct K as [[?|[?|?]]|[?|[?|?]]]; lra. }
      destruct (any_lt3 (fst bx) lo) eqn:A1.
      { split; [|right; reflexivity]. split; [discriminate|]. intros A. apply (Out _ (or_introl eq_refl) A). }
      destruct (any_lt3 hi (snd bx)) eqn:A2.
      { split; [|right; reflexivity]. split; [discriminate|]. intros A. apply (Out _ (or_intror eq_refl) A). }
      split; [|exact IH2]. rewrite IH1. split.
      * intros A b' p [<-|I] Hp; [|apply (A b' p I Hp)]. specialize (En p Hp). unfold within3 in *. cbn [fst snd].
        assert (N1 : ~ (c0 (fst bx) < c0 lo \/ c1 (fst bx) < c1 lo \/ c2 (fst bx) < c2 lo)) by (rewrite <- any_lt3_spec, A1; discriminate).
        assert (N2 : ~ (c0 hi < c0 (snd bx) \/ c1 hi < c1 (snd bx) \/ c2 hi < c2 (snd bx))) by (rewrite <- any_lt3_spec, A2; discriminate). lra.
      * intros A b' p I Hp. apply (A b' p (or_intror I) Hp).
    + split; [|exact IH2]. rewrite IH1. split.
      * intros A b' p [<-|I] Hp; [destruct (Cv p Hp)|apply (A b' p I Hp)].
      * intros A b' p I Hp. apply (A b' p (or_intror I) Hp).
Qed.
Lemma sq_within : forall lo hi p, lo <= p <= hi -> (p - / 2 * (lo + hi)) * (p - / 2 * (lo + hi)) <= (/ 2 * (lo + hi) - hi) * (/ 2 * (lo + hi) - hi).
Proof.
  intros lo hi p H. assert (0 <= (p - lo) * (hi - p)) by (apply Rmult_le_pos; lra).
  replace ((/ 2 * (lo + hi) - hi) * (/ 2 * (lo + hi) - hi)) with ((p - / 2 * (lo + hi)) * (p - / 2 * (lo + hi)) + (p - lo) * (hi - p)) by field. lra.
Qed.
Theorem bounding_sphere_ok : forall bodies bx, Forall body3_valid bodies -> rb3_bounding_box bodies = Some bx ->
  forall b p, In b bodies -> body3_points b p -> in_ball3 (fst (bounding_sphere bx)) (snd (bounding_sphere bx)) p.
Proof.
  intros bodies bx V E b p I Hp. pose proof (rb3_bounding_box_tight bodies V) as Cv. rewrite E in Cv. destruct Cv as [En _].
  specialize (En p (ex_intro _ b (conj I Hp))). destruct En as (W0 & W1 & W2). unfold bounding_sphere. cbv zeta. cbn [fst snd]. unfold in_ball3.
  rewrite sqrt_sqrt by apply dot3_nn. unfold dot3, sub3, scale3, add3. cbn [c0 c1 c2].
  pose proof (sq_within _ _ _ W0). pose proof (sq_within _ _ _ W1). pose proof (sq_within _ _ _ W2). lra.
Qed.
