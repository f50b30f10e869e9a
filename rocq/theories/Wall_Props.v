(* C51: contacts with planes, drums and cylinders, and between round bodies; gap functions and contact points.
   C52: the simulation boundary.  C53: overlap volumes.  C34 (bounding sphere). *)
From Coq Require Import List Reals Arith Bool Lra Lia.
From Verif Require Import Outcome Ccd_Model ContactBall_Model ContactRb2_Model ContactRb3_Model Rot_Model Rot_Spec Rot_Alg Lin_Model Lin_Proofs
  Geom_Model Geom_Spec Geom_Sets Geom_Circle Geom_Space Geom_Aabb Frame_Proofs Wall_Model Wall_Spec Wall_Geo Wall_Thms Wall_More
  Vol_Model Vol_Spec Vol_Proofs.
Import ListNotations.
Open Scope R_scope.

(* balls against planes: a contact exactly for each ball and plane that meet, once *)
Theorem C51_ball_planes : forall q1 r balls planes,
  (forall i, (i < balls)%nat -> 0 <= r i) -> (forall p, In p planes -> vdot (bp_n p) (bp_n p) = 1) ->
  (forall k c, In (k, c) (ball_plane_set q1 r balls planes) <->
     exists p i, nth_error planes k = Some p /\ (i < balls)%nat /\ c = BallPlane i (r i) p
       /\ meets (in_disc (seg2 q1 (2 * i)) (r i)) (half_plane (bp_x p) (bp_n p)))
  /\ NoDup (map (fun kc => (fst kc, fst (b_bodies (snd kc)))) (ball_plane_set q1 r balls planes)).
Proof. exact ball_plane_set_ok. Qed.
Print Assumptions C51_ball_planes.
(* balls inside drums, none of them wider than the drum *)
Theorem C51_ball_drums : forall q0 q1 r balls drums,
  (forall i d, (i < balls)%nat -> In d drums -> 0 <= r i <= snd d) ->
  (forall k c, In (k, c) (ball_drum_set q0 q1 r balls drums) <->
     exists X Rd i, nth_error drums k = Some (X, Rd) /\ (i < balls)%nat
       /\ c = BallDrum i (vnormalized (vsub X (seg2 q0 (2 * i)))) (r i)
       /\ meets (in_disc (seg2 q1 (2 * i)) (r i)) (outside_drum X Rd))
  /\ NoDup (map (fun kc => (fst kc, fst (b_bodies (snd kc)))) (ball_drum_set q0 q1 r balls drums)).
Proof. exact ball_drum_set_ok. Qed.
Print Assumptions C51_ball_drums.
(* finding: a ball wider than the drum, in its middle, is not noticed *)
Theorem C51_ball_drum_large_refuted : forall X Rd r, 0 <= Rd < r ->
  disc_drum_active X r X Rd = false /\ meets (in_disc X r) (outside_drum X Rd).
Proof. exact large_disc_missed. Qed.
Print Assumptions C51_ball_drum_large_refuted.
(* planar rigid bodies against planes: a contact exactly for each free body and plane that meet; for a box at the corners below the plane *)
Theorem C51_rb2_planes : forall q1 fixed shape bodies planes,
  (forall i, (i < bodies)%nat -> body2_valid (rb2_body q1 shape i)) -> (forall p, In p planes -> vdot (rp_n p) (rp_n p) = 1) ->
  (forall k i, reported (fun c => fst (rb2_bodies c)) (rb2_plane_set q1 fixed shape bodies planes) k i <->
     exists p, nth_error planes k = Some p /\ (i < bodies)%nat /\ fixed i = false
       /\ meets (body2_points (rb2_body q1 shape i)) (half_plane (rp_x p) (rp_n p)))
  /\ (forall k c, In (k, c) (rb2_plane_set q1 fixed shape bodies planes) <->
     exists p i, nth_error planes k = Some p /\ (i < bodies)%nat /\ fixed i = false
       /\ match shape i with
          | Circle2 r => c = PlaneCircle i r p /\ meets (in_disc (seg2 q1 (3 * i)) r) (half_plane (rp_x p) (rp_n p))
          | Box2 r => exists a, is_corner2 r a /\ c = PlaneBody2 i a p
              /\ half_plane (rp_x p) (rp_n p) (vadd (seg2 q1 (3 * i)) (rot2 (q1 (3 * i + 2)%nat) a))
          end).
Proof. exact rb2_plane_set_ok. Qed.
Print Assumptions C51_rb2_planes.
(* rigid bodies against planes *)
Theorem C51_rb3_planes : forall nb q0 q1 fixed shape planes,
  (forall i, (i < nb)%nat -> fixed i = false -> body3_valid (rb3_body nb q1 shape i)) -> (forall p, In p planes -> dot3 (tp_n p) (tp_n p) = 1) ->
  exists set, rb3_plane_set nb q0 q1 fixed shape planes = Ok set
  /\ (forall k i, reported (fun c => fst (rb3_bodies c)) set k i <->
     exists p, nth_error planes k = Some p /\ (i < nb)%nat /\ fixed i = false
       /\ meets (body3_points (rb3_body nb q1 shape i)) (half_space (tp_x p) (tp_n p)))
  /\ (forall k c, In (k, c) set <->
     exists p i, nth_error planes k = Some p /\ (i < nb)%nat /\ fixed i = false
       /\ match shape i with
          | Box3 w => exists a, is_corner3 w a /\ c = PlaneBody3 i (tp_n p) (mul3 (ori3 nb q0 i) a) k
              /\ half_space (tp_x p) (tp_n p) (add3 (pos3 q1 i) (mul3 (ori3 nb q1 i) a))
          | Sphere3 r => c = PlaneSphere i r p /\ meets (in_ball3 (pos3 q1 i) r) (half_space (tp_x p) (tp_n p))
          | Staple3 _ => False
          | Mesh3 vs => exists v, In v vs /\ c = PlaneBody3 i (tp_n p) (mul3 (ori3 nb q0 i) v) k
              /\ half_space (tp_x p) (tp_n p) (add3 (pos3 q1 i) (mul3 (ori3 nb q1 i) v))
          end).
Proof. exact rb3_plane_set_ok. Qed.
Print Assumptions C51_rb3_planes.
(* rigid bodies inside cylinders, no sphere wider than the cylinder *)
Theorem C51_rb3_cylinders : forall nb q0 q1 fixed shape cyls,
  (forall i, (i < nb)%nat -> fixed i = false -> is_box (shape i) = false /\ is_staple (shape i) = false) ->
  (forall i r c, (i < nb)%nat -> shape i = Sphere3 r -> In c cyls -> 0 <= r <= cy_r c) ->
  (forall c, In c cyls -> dot3 (cy_axis c) (cy_axis c) = 1 /\ 0 <= cy_r c) ->
  exists set, rb3_cylinder_set nb q0 q1 fixed shape cyls = Ok set
  /\ (forall k i, reported (fun c => fst (rb3_bodies c)) set k i <->
     exists cy, nth_error cyls k = Some cy /\ (i < nb)%nat /\ fixed i = false
       /\ meets (body3_points (rb3_body nb q1 shape i)) (outside_cylinder (cy_x cy) (cy_axis cy) (cy_r cy)))
  /\ (forall k c, In (k, c) set <->
     exists cy i, nth_error cyls k = Some cy /\ (i < nb)%nat /\ fixed i = false
       /\ match shape i with
          | Sphere3 r => c = CylSphere i r cy /\ meets (in_ball3 (pos3 q1 i) r) (outside_cylinder (cy_x cy) (cy_axis cy) (cy_r cy))
          | Mesh3 vs => exists v, In v vs /\ c = CylBody i (mul3 (ori3 nb q0 i) v) cy
              /\ outside_cylinder (cy_x cy) (cy_axis cy) (cy_r cy) (add3 (pos3 q1 i) (mul3 (ori3 nb q1 i) v))
          | _ => False
          end).
Proof. exact rb3_cylinder_set_ok. Qed.
Print Assumptions C51_rb3_cylinders.
(* finding: with a free staple and a plane in the scene the program ends *)
Theorem C51_rb3_planes_staple_refuted : forall nb q0 q1 fixed shape planes i, planes <> [] -> (i < nb)%nat -> fixed i = false ->
  is_staple (shape i) = true -> rb3_plane_set nb q0 q1 fixed shape planes = Exit.
Proof. exact rb3_plane_set_exits. Qed.
Print Assumptions C51_rb3_planes_staple_refuted.
(* finding: with a free box or staple and a cylinder in the scene the program ends *)
Theorem C51_rb3_cylinders_box_refuted : forall nb q0 q1 fixed shape cyls i, cyls <> [] -> (i < nb)%nat -> fixed i = false ->
  is_staple (shape i) = true \/ is_box (shape i) = true -> rb3_cylinder_set nb q0 q1 fixed shape cyls = Exit.
Proof. exact rb3_cylinder_set_exits. Qed.
Print Assumptions C51_rb3_cylinders_box_refuted.
(* finding: a sphere wider than the cylinder, on its axis, is not noticed *)
Theorem C51_sphere_cylinder_large_refuted : forall x0 axis Rc r, 0 <= Rc < r -> dot3 axis axis = 1 ->
  ball_cylinder_active x0 axis Rc x0 r = false /\ meets (in_ball3 x0 r) (outside_cylinder x0 axis Rc).
Proof. exact large_ball_missed. Qed.
Print Assumptions C51_sphere_cylinder_large_refuted.
(* two round bodies are active exactly when they share a point *)
Theorem C51_discs : forall a b r s, 0 <= r -> 0 <= s -> 0 < r + s ->
  (discs_active a b r s = true <-> meets (in_disc a r) (in_disc b s)).
Proof. exact discs_active_exact. Qed.
Print Assumptions C51_discs.
Theorem C51_balls : forall a b r s, 0 <= r -> 0 <= s -> 0 < r + s ->
  (balls_active a b r s = true <-> meets (in_ball3 a r) (in_ball3 b s)).
Proof. exact balls_active_exact. Qed.
Print Assumptions C51_balls.
Theorem C51_sphere_sphere : forall i j r0 r1 fixed1 q0 q1, 0 <= r0 -> 0 <= r1 -> 0 < r0 + r1 ->
  let a := pos3 q0 i in let b := pos3 q0 j in
  (forall c, In c (sphere_sphere_narrow i j r0 r1 fixed1 q0 q1) <->
     meets (in_ball3 (pos3 q1 i) r0) (in_ball3 (pos3 q1 j) r1)
     /\ c = if fixed1 then KinSphere i r0 (normalized3 (sub3 a b)) j
            else SphereSphere i j (normalized3 (sub3 a b)) (add3 a (scale3 (r0 / (r0 + r1)) (sub3 b a))) r0 r1)
  /\ (length (sphere_sphere_narrow i j r0 r1 fixed1 q0 q1) <= 1)%nat.
Proof. exact sphere_sphere_narrow_ok. Qed.
Print Assumptions C51_sphere_sphere.
(* moved by t along the contact normal, they touch exactly while gap + t <= 0 *)
Theorem C51_discs_gap : forall a b r s t, 0 <= r -> 0 <= s -> 0 < r + s -> 0 < vdot (vsub a b) (vsub a b) ->
  0 <= sqrt (vdot (vsub a b) (vsub a b)) + t ->
  (meets (in_disc (vadd a (vscale t (vnormalized (vsub a b)))) r) (in_disc b s) <-> discs_gap a b r s + t <= 0).
Proof. exact discs_gap_ok. Qed.
Print Assumptions C51_discs_gap.
Theorem C51_balls_gap : forall a b r s t, 0 <= r -> 0 <= s -> 0 < r + s -> 0 < dist2 a b ->
  0 <= sqrt (dist2 a b) + t ->
  (meets (in_ball3 (add3 a (scale3 t (normalized3 (sub3 a b)))) r) (in_ball3 b s) <-> balls_gap a b r s + t <= 0).
Proof. exact balls_gap_ok. Qed.
Print Assumptions C51_balls_gap.
(* the gap to a plane is the height of the lowest point of the body over it *)
Theorem C51_disc_plane_gap : forall x r xp n, 0 <= r -> vdot n n = 1 ->
  is_least (in_disc x r) (fun p => vdot n (vsub p xp)) (disc_plane_gap x r xp n).
Proof. exact disc_plane_gap_ok. Qed.
Print Assumptions C51_disc_plane_gap.
Theorem C51_ball_plane_gap : forall x r xp n, 0 <= r -> dot3 n n = 1 ->
  is_least (in_ball3 x r) (fun p => dot3 n (sub3 p xp)) (ball_plane_gap x r xp n).
Proof. exact ball_plane_gap_ok. Qed.
Print Assumptions C51_ball_plane_gap.
(* the gap to a cylinder is the least room left to it *)
Theorem C51_ball_cylinder_gap : forall x0 axis Rc x r, 0 <= r -> dot3 axis axis = 1 ->
  (exists p d, in_ball3 x r p /\ from_axis x0 axis p d /\ Rc - d = ball_cylinder_gap x0 axis Rc x r)
  /\ forall p d, in_ball3 x r p -> from_axis x0 axis p d -> ball_cylinder_gap x0 axis Rc x r <= Rc - d.
Proof. exact ball_cylinder_gap_ok. Qed.
Print Assumptions C51_ball_cylinder_gap.
(* penetration depths are never positive; round bodies have to be moved apart by exactly the depth to come free, and the
   depth under a plane is that of the lowest point of the body, or zero when it is above *)
Theorem C51_discs_depth : forall a b r s t, 0 <= r -> 0 <= s -> 0 < r + s -> 0 < vdot (vsub a b) (vsub a b) -> 0 < t ->
  (meets (in_disc (vadd a (vscale t (vnormalized (vsub a b)))) r) (in_disc b s) <-> t <= - depth_of (discs_gap a b r s)).
Proof. exact discs_depth_ok. Qed.
Print Assumptions C51_discs_depth.
Theorem C51_balls_depth : forall a b r s t, 0 <= r -> 0 <= s -> 0 < r + s -> 0 < dist2 a b -> 0 < t ->
  (meets (in_ball3 (add3 a (scale3 t (normalized3 (sub3 a b)))) r) (in_ball3 b s) <-> t <= - depth_of (balls_gap a b r s)).
Proof. exact balls_depth_ok. Qed.
Print Assumptions C51_balls_depth.
Theorem C51_plane_depth :
  (forall x r xp n, 0 <= r -> vdot n n = 1 ->
     is_least (in_disc x r) (fun p => Rmin 0 (vdot n (vsub p xp))) (depth_of (disc_plane_gap x r xp n))) /\
  (forall x r xp n, 0 <= r -> dot3 n n = 1 ->
     is_least (in_ball3 x r) (fun p => Rmin 0 (dot3 n (sub3 p xp))) (depth_of (ball_plane_gap x r xp n))).
Proof.
  split; intros x r xp n Hr Hn; [exact (least_depth _ _ _ _ (disc_plane_gap_ok x r xp n Hr Hn))|exact (least_depth _ _ _ _ (ball_plane_gap_ok x r xp n Hr Hn))].
Qed.
Print Assumptions C51_plane_depth.
(* where contacts of round bodies are placed *)
Theorem C51_circle_contact : forall i j q0 r0 r1 n p s0 s1, 0 <= r0 -> 0 <= r1 -> 0 < r0 + r1 -> mk_circle_circle i j q0 r0 r1 = CircleCircle i j n p s0 s1 ->
  divides2 (seg2 q0 (3 * i)) (seg2 q0 (3 * j)) r0 r1 p
  /\ (meets (in_disc (seg2 q0 (3 * i)) r0) (in_disc (seg2 q0 (3 * j)) r1) -> in_disc (seg2 q0 (3 * i)) r0 p /\ in_disc (seg2 q0 (3 * j)) r1 p)
  /\ (seg2 q0 (3 * i) <> seg2 q0 (3 * j) -> points_from2 (seg2 q0 (3 * j)) (seg2 q0 (3 * i)) n).
Proof. exact circle_contact_place. Qed.
Print Assumptions C51_circle_contact.
Theorem C51_sphere_contact : forall i j q0 r0 r1 n p s0 s1, 0 <= r0 -> 0 <= r1 -> 0 < r0 + r1 -> mk_sphere_sphere i j q0 r0 r1 = SphereSphere i j n p s0 s1 ->
  divides3 (seg3 q0 (3 * i)) (seg3 q0 (3 * j)) r0 r1 p
  /\ (meets (in_ball3 (seg3 q0 (3 * i)) r0) (in_ball3 (seg3 q0 (3 * j)) r1) -> in_ball3 (seg3 q0 (3 * i)) r0 p /\ in_ball3 (seg3 q0 (3 * j)) r1 p)
  /\ (0 < dist2 (seg3 q0 (3 * i)) (seg3 q0 (3 * j)) -> points_from3 (seg3 q0 (3 * j)) (seg3 q0 (3 * i)) n).
Proof. exact sphere_contact_place. Qed.
Print Assumptions C51_sphere_contact.
Theorem C51_tele_circle_contact : forall i j x0 x1 r0 r1 n a0 a1, 0 < r0 + r1 -> mk_tele_circle_circle i j x0 x1 r0 r1 = TeleCircleCircle i j n a0 a1 ->
  vadd x0 a0 = vadd x1 a1 /\ divides2 x0 x1 r0 r1 (vadd x0 a0) /\ (0 < vdot (vsub x0 x1) (vsub x0 x1) -> points_from2 x1 x0 n).
Proof. exact tele_circle_place. Qed.
Print Assumptions C51_tele_circle_contact.
Theorem C51_tele_sphere_contact : forall i j x0 x1 r0 r1 n a0 a1, 0 < r0 + r1 -> mk_tele_sphere_sphere i j x0 x1 r0 r1 = TeleSphereSphere i j n a0 a1 ->
  add3 x0 a0 = add3 x1 a1 /\ divides3 x0 x1 r0 r1 (add3 x0 a0) /\ (0 < dist2 x0 x1 -> points_from3 x1 x0 n).
Proof. exact tele_sphere_place. Qed.
Print Assumptions C51_tele_sphere_contact.
(* the normal of a cylinder contact points straight to the axis *)
Theorem C51_cylinder_normal : forall q i c, dot3 (cy_axis c) (cy_axis c) = 1 -> ~ (exists s, pos3 q i = add3 (cy_x c) (scale3 s (cy_axis c))) ->
  towards_axis (cy_x c) (cy_axis c) (pos3 q i) (cyl_n q i c).
Proof. exact cyl_n_ok. Qed.
Print Assumptions C51_cylinder_normal.
(* the program goes on exactly when every body lies within the boundary *)
Theorem C52_boundary : forall lo hi bodies, Forall body3_valid bodies ->
  (boundary_exit lo hi bodies = Ok tt <-> forall b p, In b bodies -> body3_points b p -> within3 (lo, hi) p)
  /\ (boundary_exit lo hi bodies = Ok tt \/ boundary_exit lo hi bodies = Exit).
Proof. exact boundary_exit_ok. Qed.
Print Assumptions C52_boundary.
(* every body lies in the bounding sphere *)
Theorem C34_bounding_sphere : forall bodies bx, Forall body3_valid bodies -> rb3_bounding_box bodies = Some bx ->
  forall b p, In b bodies -> body3_points b p -> in_ball3 (fst (bounding_sphere bx)) (snd (bounding_sphere bx)) p.
Proof. exact bounding_sphere_ok. Qed.
Print Assumptions C34_bounding_sphere.
(* the volume of the points common to both balls *)
Theorem C53_overlap_volume : forall x0 x1 r0 r1, 0 <= r0 -> 0 <= r1 ->
  volume_by_slices (fun p => in_ball3 x0 r0 p /\ in_ball3 x1 r1 p) (overlap_volume x0 x1 r0 r1).
Proof. exact overlap_volume_ok. Qed.
Print Assumptions C53_overlap_volume.

(* finding: part of a staple can lie outside the boundary *)
Theorem C52_staple_refuted : forall w l D x M, 0 < D -> exists lo hi z,
  boundary_exit lo hi [Body3 x M (Staple3 (mk_staple w l D))] = Ok tt
  /\ body3_points (Body3 x M (Staple3 (mk_staple w l D))) z /\ ~ within3 (lo, hi) z.
Proof.
  intros w l D x M HD. destruct (staple_box_misses w l D x M HD) as (b & z & E & I & G). exists (fst b), (snd b), z. split; [|split].
  - unfold boundary_exit. cbn [body3_aabb b3_shape b3_x b3_R]. unfold body3_aabb. cbn [b3_shape b3_x b3_R]. rewrite E.
    assert (N : forall a, any_lt3 a a = false) by (intros a; unfold any_lt3; destruct (Rltb_spec (c0 a) (c0 a)), (Rltb_spec (c1 a) (c1 a)), (Rltb_spec (c2 a) (c2 a)); try lra; reflexivity).
    rewrite !N. reflexivity.
  - unfold body3_points, mk_staple. cbn [b3_shape b3_x b3_R st_w st_l st_r]. replace (/ 2 * D) with (D / 2) by (unfold Rdiv; ring). exact I.
  - intros [W _]. cbn [fst snd] in W. lra.
Qed.
Print Assumptions C52_staple_refuted.

(* ---------- the hypotheses are met ---------- *)
(* two balls over a floor: the first touches it, the second does not *)
Definition ex_q : dvec := fun k => nth k [0; 1; 5; 7] 0.
Definition ex_floor : ball_plane := BallPlaneGeo (0, 0) (0, 1) (0, 0).
Example C51_ball_planes_case : In (0%nat, BallPlane 0 1 ex_floor) (ball_plane_set ex_q (fun _ => 1) 2 [ex_floor])
  /\ forall c, ~ In (0%nat, c) (ball_plane_set ex_q (fun _ => 1) 2 [ex_floor]) \/ fst (b_bodies c) = 0%nat.
Proof.
  assert (Hr : forall i, (i < 2)%nat -> 0 <= 1) by (intros; lra).
  assert (Hn : forall p, In p [ex_floor] -> vdot (bp_n p) (bp_n p) = 1) by (intros p [<-|[]]; unfold vdot; cbn [ex_floor bp_n fst snd]; ring).
  destruct (C51_ball_planes ex_q (fun _ => 1) 2 [ex_floor] Hr Hn) as [M _]. split.
  - apply M. exists ex_floor, 0%nat. split; [reflexivity|]. split; [lia|]. split; [reflexivity|]. exists (0, 0).
    unfold in_disc, half_plane, vdot, vsub, seg2, ex_q. cbn [nth ex_floor bp_x bp_n fst snd Nat.mul Nat.add]. split; lra.
  - intros c. destruct (Nat.eq_dec (fst (b_bodies c)) 0) as [K|K].
    + right. exact K.
    + left. intros I. apply M in I. destruct I as (p & i & E & Hi & -> & (z & Z1 & Z2)). injection E as <-.
      destruct i as [|[|i]]; [apply K; reflexivity| |lia]. unfold in_disc, half_plane, vdot, vsub, seg2, ex_q in Z1, Z2.
      cbn [nth ex_floor bp_x bp_n fst snd Nat.mul Nat.add] in Z1, Z2. pose proof (sq_nn (fst z - 5)).
      assert (Q : 7 * 7 <= (snd z - 7) * (snd z - 7)) by (apply sq_out; lra). lra.
Qed.
(* a drum of radius 4 about ( 0, -2 ) *)
Example C51_ball_drums_met : (forall i d, (i < 2)%nat -> In d [((0, -2), 4)] -> 0 <= (fun _ : nat => 1) i <= snd d)
  /\ meets (in_disc (seg2 ex_q (2 * 0)) 1) (outside_drum (0, -2) 4).
Proof.
  split; [intros i d _ [<-|[]]; cbn [snd]; lra|]. exists (0, 2). unfold in_disc, outside_drum, vdot, vsub, seg2, ex_q. cbn [nth fst snd Nat.mul Nat.add]. split; lra.
Qed.
(* a box with a corner in a floor, and a fixed body *)
Definition ex_q2 : dvec := fun k => nth k [0; /2; 0; 9; 9; 0] 0.
Definition ex_shape2 (i : nat) : shape2 := if Nat.eqb i 0 then Box2 (1, 1) else Circle2 3.
Definition ex_floor2 : rb2_plane := Rb2Plane (0, 0) (0, 1) (0, 0) 0.
Example C51_rb2_planes_case : reported (fun c => fst (rb2_bodies c)) (rb2_plane_set ex_q2 (Nat.eqb 1) ex_shape2 2 [ex_floor2]) 0 0.
Proof.
  assert (V : forall i, (i < 2)%nat -> body2_valid (rb2_body ex_q2 ex_shape2 i)).
  { intros [|[|i]] H; [| |lia]; unfold body2_valid, rb2_body, ex_shape2; cbn [b2_shape Nat.eqb fst snd]; try split; lra. }
  assert (Hn : forall p, In p [ex_floor2] -> vdot (rp_n p) (rp_n p) = 1) by (intros p [<-|[]]; unfold vdot; cbn [ex_floor2 rp_n fst snd]; ring).
  apply (C51_rb2_planes ex_q2 (Nat.eqb 1) ex_shape2 2 [ex_floor2] V Hn). exists ex_floor2. split; [reflexivity|]. split; [lia|]. split; [reflexivity|].
  exists (0, 0). unfold body2_points, rb2_body, ex_shape2, in_box2, half_plane, axis_x, axis_y, vdot, vsub, seg2, ex_q2.
  cbn [b2_shape b2_x b2_theta Nat.eqb nth ex_floor2 rp_x rp_n fst snd Nat.mul Nat.add]. rewrite cos_0, sin_0. split; [split; apply abs_in; lra|lra].
Qed.
(* a box and a sphere over a floor in space; a sphere in a cylinder *)
Definition ex_q3 : dvec := fun k => nth k [0; /2; 0; 9; /2; 0; 1;0;0;0;1;0;0;0;1; 1;0;0;0;1;0;0;0;1] 0.
Definition ex_shape3 (i : nat) : shape3 := if Nat.eqb i 0 then Box3 (V3 1 1 1) else Sphere3 1.
Definition ex_floor3 : rb3_plane := Rb3Plane zero3 (V3 0 1 0) zero3 zero3.
Example C51_rb3_planes_case : exists set, rb3_plane_set 2 ex_q3 ex_q3 (fun _ => false) ex_shape3 [ex_floor3] = Ok set
  /\ reported (fun c => fst (rb3_bodies c)) set 0 0 /\ reported (fun c => fst (rb3_bodies c)) set 0 1.
Proof.
  assert (Id : forall i, (i < 2)%nat -> ori3 2 ex_q3 i = id3) by (intros [|[|i]] H; [reflexivity|reflexivity|lia]).
  assert (V : forall i, (i < 2)%nat -> false = false -> body3_valid (rb3_body 2 ex_q3 ex_shape3 i)).
  { intros i H _. unfold body3_valid, rb3_body. cbn [b3_R b3_shape]. rewrite (Id i H). split; [apply rotation_id|].
    destruct i as [|[|i]]; unfold ex_shape3; cbn [Nat.eqb c0 c1 c2]; lra. }
  assert (Hn : forall p, In p [ex_floor3] -> dot3 (tp_n p) (tp_n p) = 1) by (intros p [<-|[]]; unfold dot3; cbn [ex_floor3 tp_n c0 c1 c2]; ring).
  destruct (C51_rb3_planes 2 ex_q3 ex_q3 (fun _ => false) ex_shape3 [ex_floor3] V Hn) as (set & E & M & _). exists set. split; [exact E|].
  split; apply M; exists ex_floor3; (split; [reflexivity|]); (split; [lia|]); (split; [reflexivity|]).
  - exists (V3 0 0 0). split.
    + unfold body3_points, rb3_body, ex_shape3. cbn [b3_shape b3_x b3_R Nat.eqb]. rewrite (Id 0%nat) by lia.
      unfold in_box3, pos3, seg3, ex_q3, tr, id3, diag3, dot3, sub3. cbn [row0 row1 row2_ c0 c1 c2 nth Nat.mul Nat.add]. repeat split; apply abs_in; lra.
    + unfold half_space, dot3, sub3, ex_floor3, zero3. cbn [tp_x tp_n c0 c1 c2]. lra.
  - exists (V3 9 0 0). split.
    + unfold body3_points, rb3_body, ex_shape3. cbn [b3_shape b3_x b3_R Nat.eqb]. unfold in_ball3, pos3, seg3, ex_q3, dot3, sub3. cbn [c0 c1 c2 nth Nat.mul Nat.add]. lra.
    + unfold half_space, dot3, sub3, ex_floor3, zero3. cbn [tp_x tp_n c0 c1 c2]. lra.
Qed.
Definition ex_cyl : rb3_cyl := Rb3Cyl (V3 9 0 0) (V3 0 0 1) 1.25 zero3 zero3.
Example C51_rb3_cylinders_case : exists set, rb3_cylinder_set 2 ex_q3 ex_q3 (Nat.eqb 0) ex_shape3 [ex_cyl] = Ok set
  /\ reported (fun c => fst (rb3_bodies c)) set 0 1.
Proof.
  assert (V : forall i, (i < 2)%nat -> Nat.eqb 0 i = false -> is_box (ex_shape3 i) = false /\ is_staple (ex_shape3 i) = false).
  { intros [|[|i]] H F; [discriminate|split; reflexivity|lia]. }
  assert (Hr : forall i r c, (i < 2)%nat -> ex_shape3 i = Sphere3 r -> In c [ex_cyl] -> 0 <= r <= cy_r c).
  { intros [|i] r c H E [<-|[]]; [discriminate|]. unfold ex_shape3 in E. cbn [Nat.eqb] in E. injection E as <-. cbn [ex_cyl cy_r]. lra. }
  assert (Hc : forall c, In c [ex_cyl] -> dot3 (cy_axis c) (cy_axis c) = 1 /\ 0 <= cy_r c).
  { intros c [<-|[]]. unfold dot3, ex_cyl. cbn [cy_axis cy_r c0 c1 c2]. lra. }
  destruct (C51_rb3_cylinders 2 ex_q3 ex_q3 (Nat.eqb 0) ex_shape3 [ex_cyl] V Hr Hc) as (set & E & M & _). exists set. split; [exact E|].
  apply M. exists ex_cyl. split; [reflexivity|]. split; [lia|]. split; [reflexivity|]. exists (V3 9 1.5 0). split.
  - unfold body3_points, rb3_body, ex_shape3. cbn [b3_shape b3_x b3_R Nat.eqb]. unfold in_ball3, pos3, seg3, ex_q3, dot3, sub3. cbn [c0 c1 c2 nth Nat.mul Nat.add]. lra.
  - intros s. unfold ex_cyl, dist2, dot3, sub3, add3, scale3. cbn [cy_x cy_axis cy_r c0 c1 c2]. pose proof (sq_nn s). lra.
Qed.
(* a sphere off the axis, and the boundary: a box inside and a box outside *)
Example C51_cylinder_normal_met : ~ (exists s, pos3 ex_q3 1 = add3 (cy_x ex_cyl) (scale3 s (cy_axis ex_cyl))).
Proof. intros (s & E). apply (f_equal c1) in E. unfold pos3, seg3, ex_q3, ex_cyl, add3, scale3 in E. cbn [nth Nat.mul Nat.add cy_x cy_axis c0 c1 c2] in E. lra. Qed.
Example C52_boundary_case : boundary_exit (V3 (-2) (-2) (-2)) (V3 2 2 2) [Body3 zero3 id3 (Box3 (V3 1 1 1))] = Ok tt
  /\ boundary_exit (V3 (-2) (-2) (-2)) (V3 2 2 2) [Body3 zero3 id3 (Box3 (V3 1 1 1)); Body3 (V3 0 0 1.5) id3 (Sphere3 1)] = Exit.
Proof.
  assert (Vb : body3_valid (Body3 zero3 id3 (Box3 (V3 1 1 1)))) by (split; [apply rotation_id|cbn [b3_shape c0 c1 c2]; lra]).
  assert (Vs : body3_valid (Body3 (V3 0 0 1.5) id3 (Sphere3 1))) by (split; [apply rotation_id|cbn [b3_shape]; lra]). split.
  - apply C52_boundary; [constructor; [exact Vb|constructor]|]. intros b p [<-|[]] H. unfold body3_points in H. cbn [b3_shape b3_x b3_R] in H.
    unfold in_box3, tr, id3, diag3, zero3, dot3, sub3 in H. cbn [row0 row1 row2_ c0 c1 c2] in H. destruct H as (A & B & C). apply abs_inv in A, B, C.
    unfold within3. cbn [fst snd c0 c1 c2]. lra.
  - destruct (C52_boundary (V3 (-2) (-2) (-2)) (V3 2 2 2) [Body3 zero3 id3 (Box3 (V3 1 1 1)); Body3 (V3 0 0 1.5) id3 (Sphere3 1)]) as [M [K|K]].
    + constructor; [exact Vb|constructor; [exact Vs|constructor]].
    + exfalso. pose proof (proj1 M K (Body3 (V3 0 0 1.5) id3 (Sphere3 1)) (V3 0 0 2.5) (or_intror (or_introl eq_refl))) as W.
      assert (I : body3_points (Body3 (V3 0 0 1.5) id3 (Sphere3 1)) (V3 0 0 2.5)) by (unfold body3_points, in_ball3, dot3, sub3; cbn [b3_shape b3_x c0 c1 c2]; lra).
      apply W in I. destruct I as (_ & _ & I). cbn [fst snd c0 c1 c2] in I. lra.
    + exact K.
Qed.
(* two unit spheres one apart share 5 pi / 12 *)
Example C53_case : overlap_volume zero3 (V3 1 0 0) 1 1 = 5 * PI / 12.
Proof.
  assert (E : sqrt (dot3 (sub3 zero3 (V3 1 0 0)) (sub3 zero3 (V3 1 0 0))) = 1).
  { transitivity (sqrt (1 * 1)); [f_equal; unfold dot3, sub3, zero3; cbn [c0 c1 c2]; ring|apply sqrt_square; lra]. }
  unfold overlap_volume. rewrite E, Rmin_left, Rmax_left by lra. cbv zeta.
  destruct (Rltb_spec (1 + 1) 1); [lra|]. destruct (Rltb_spec 1 (1 + 1)); [|lra]. cbn [negb]. unfold lens_volume. field.
Qed.
