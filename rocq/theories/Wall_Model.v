(* Contacts with fixed geometry (planes, drums, cylinders), the round-round tests, gap functions and penetration
   depths, the simulation boundary and the bounding sphere, over the reals.
   Models isActive, evaluateGapFunction and computePenetrationDepth of the constraint classes, the static parts of the
   active sets of /repo/ball2d/Ball2DSim.cpp, /repo/rigidbody2d/RigidBody2DSim.cpp and /repo/rigidbody3d/RigidBody3DSim.cpp,
   and the two static geometry functions of /repo/rigidbody3d/Constraints/MeshMeshUtilities.cpp.
   A contact is paired with the index of the obstacle. *)
From Coq Require Import List Reals Arith Bool.
From Verif Require Import Outcome Ccd_Model ContactBall_Model ContactRb2_Model ContactRb3_Model Rot_Model Lin_Model Geom_Model.
Import ListNotations.
Open Scope R_scope.

Definition Rleb (a b : R) : bool := negb (Rltb b a).
(* the two nested loops over obstacles and bodies shared by all five functions *)
Definition numbered {A} (l : list A) : list (nat * A) := combine (seq 0 (length l)) l.
Definition all_pairs {A B} (obstacles : list A) (bodies : nat) (f : nat -> A -> nat -> list B) : list B :=
  flat_map (fun ka => flat_map (fun i => f (fst ka) (snd ka) i) (seq 0 bodies)) (numbered obstacles).

(* ---------- balls ---------- *)
(* BallBallConstraint::isActive, BallBallConstraint.cpp:17-21; CircleCircleConstraint.cpp:10-13 *)
Definition discs_active (x0 x1 : vec) (r0 r1 : R) : bool := Rleb (vdot (vsub x0 x1) (vsub x0 x1)) ((r0 + r1) * (r0 + r1)).
(* StaticPlaneConstraint::isActive, BallStaticPlaneConstraint.cpp:10-15; StaticPlaneCircleConstraint.cpp:13-17 *)
Definition disc_plane_active (x : vec) (r : R) (xp n : vec) : bool := Rleb (vdot n (vsub x xp)) r.
(* StaticDrumConstraint::isActive, BallStaticDrumConstraint.cpp:8-16 *)
Definition disc_drum_active (x : vec) (r : R) (X : vec) (Rd : R) : bool :=
  Rleb ((Rd - r) * (Rd - r)) (vdot (vsub X x) (vsub X x)).
(* Ball2DSim::computeBallDrumActiveSetAllPairs, Ball2DSim.cpp:730-745: tested at q1, built at q0 *)
Definition ball_drum_set (q0 q1 : dvec) (r : nat -> R) (balls : nat) (drums : list (vec * R)) : list (nat * ball_contact) :=
  all_pairs drums balls (fun k d i =>
    if disc_drum_active (seg2 q1 (2 * i)) (r i) (fst d) (snd d) then [(k, mk_ball_drum i q0 (r i) (fst d))] else []).
(* Ball2DSim::computeBallPlaneActiveSetAllPairs, Ball2DSim.cpp:747-762 *)
Definition ball_plane_set (q1 : dvec) (r : nat -> R) (balls : nat) (planes : list ball_plane) : list (nat * ball_contact) :=
  all_pairs planes balls (fun k p i =>
    if disc_plane_active (seg2 q1 (2 * i)) (r i) (bp_x p) (bp_n p) then [(k, BallPlane i (r i) p)] else []).

(* ---------- planar rigid bodies ---------- *)
(* the four body-space corners in the order of the loops, RigidBody2DSim.cpp:675-679 *)
Definition corners2 (r : vec) : list vec :=
  flat_map (fun i => map (fun j => (i * fst r, j * snd r)) [-1; 1]) [-1; 1].
(* RigidBody2DSim::computeBodyPlaneActiveSetAllPairs, RigidBody2DSim.cpp:638-694 *)
Definition rb2_plane_set (q1 : dvec) (fixed : nat -> bool) (shape : nat -> shape2) (bodies : nat) (planes : list rb2_plane)
  : list (nat * rb2_contact) :=
  all_pairs planes bodies (fun k p i =>
    if fixed i then []
    else match shape i with
         | Circle2 r => if disc_plane_active (seg2 q1 (3 * i)) r (rp_x p) (rp_n p) then [(k, PlaneCircle i r p)] else []
         | Box2 r =>
             flat_map (fun arm =>
               let vertex := vadd (seg2 q1 (3 * i)) (rot2 (q1 (3 * i + 2)%nat) arm) in
               if Rleb (vdot (rp_n p) (vsub vertex (rp_x p))) 0 then [(k, PlaneBody2 i arm p)] else []) (corners2 r)
         end).

(* ---------- rigid bodies in space ---------- *)
(* SphereSphereConstraint::isActive, SphereSphereConstraint.cpp:8-12 *)
Definition balls_active (x0 x1 : v3) (r0 r1 : R) : bool := Rleb (dot3 (sub3 x0 x1) (sub3 x0 x1)) ((r0 + r1) * (r0 + r1)).
(* StaticPlaneSphereConstraint::isActive, StaticPlaneSphereConstraint.cpp:13-17 *)
Definition ball_plane_active3 (x : v3) (r : R) (xp n : v3) : bool := Rleb (dot3 n (sub3 x xp)) r.
(* x - center - axis.dot( x - center ) * axis *)
Definition radial (x0 axis x : v3) : v3 := sub3 (sub3 x x0) (scale3 (dot3 axis (sub3 x x0)) axis).
(* StaticCylinderSphereConstraint::isActive, StaticCylinderSphereConstraint.cpp:10-19 *)
Definition ball_cylinder_active (x0 axis : v3) (Rc : R) (x : v3) (r : R) : bool :=
  Rleb ((Rc - r) * (Rc - r)) (dot3 (radial x0 axis x) (radial x0 axis x)).
(* getBodySpaceCorner, StaticPlaneBoxConstraint.cpp:13-20: bits 0, 1, 2 of i choose the signs *)
Definition sign_bit (i : nat) : R := if Nat.eqb (Nat.modulo i 2) 1 then 1 else -1.
Definition corner3 (w : v3) (i : nat) : v3 :=
  V3 (c0 w * sign_bit i) (c1 w * sign_bit (Nat.div i 2)) (c2 w * sign_bit (Nat.div i 4)).
(* StaticPlaneBoxConstraint::isActive, StaticPlaneBoxConstraint.cpp:22-36: the active corners *)
Definition box_plane_active (xp n x : v3) (M : m3) (w : v3) : list nat :=
  filter (fun k => Rleb (dot3 n (sub3 (add3 (mul3 M (corner3 w k)) x) xp)) 0) (seq 0 8).
(* MeshMeshUtilities::computeMeshHalfPlaneActiveSet and computeMeshCylinderActiveSet, MeshMeshUtilities.cpp:67-109;
   the vertices of the convex hull take the place of their indices *)
Definition mesh_plane_active (x : v3) (M : m3) (verts : list v3) (xp n : v3) : list v3 :=
  filter (fun v => Rleb (dot3 n (sub3 (add3 (mul3 M v) x) xp)) 0) verts.
Definition mesh_cylinder_active (x : v3) (M : m3) (verts : list v3) (x0 axis : v3) (Rc : R) : list v3 :=
  filter (fun v => let d := radial x0 axis (add3 (mul3 M v) x) in Rleb (Rc * Rc) (dot3 d d)) verts.

Definition pos3 (q : dvec) (i : nat) : v3 := seg3 q (3 * i).
Definition ori3 (nb : nat) (q : dvec) (i : nat) : m3 := mat_at q (3 * nb + 9 * i).
(* one body against one plane, RigidBody3DSim.cpp:1424-1500. A staple ends the program (1455), whether or not it touches *)
Definition rb3_plane_one (nb : nat) (q0 q1 : dvec) (shape : shape3) (k : nat) (p : rb3_plane) (i : nat) : outcome (list (nat * rb3_contact)) :=
  match shape with
  | Box3 w => Ok (map (fun c => (k, PlaneBody3 i (tp_n p) (mul3 (ori3 nb q0 i) (corner3 w c)) k))
                      (box_plane_active (tp_x p) (tp_n p) (pos3 q1 i) (ori3 nb q1 i) w))
  | Sphere3 r => Ok (if ball_plane_active3 (pos3 q1 i) r (tp_x p) (tp_n p) then [(k, PlaneSphere i r p)] else [])
  | Staple3 _ => Exit
  | Mesh3 vs => Ok (map (fun v => (k, mk_plane_body3 i (add3 (pos3 q0 i) (mul3 (ori3 nb q0 i) v)) (tp_n p) q0 k))
                        (mesh_plane_active (pos3 q1 i) (ori3 nb q1 i) vs (tp_x p) (tp_n p)))
  end.
(* one body against one cylinder, RigidBody3DSim.cpp:1514-1555. A box or a staple ends the program (1552) *)
Definition rb3_cylinder_one (nb : nat) (q0 q1 : dvec) (shape : shape3) (k : nat) (c : rb3_cyl) (i : nat) : outcome (list (nat * rb3_contact)) :=
  match shape with
  | Sphere3 r => Ok (if ball_cylinder_active (cy_x c) (cy_axis c) (cy_r c) (pos3 q1 i) r then [(k, CylSphere i r c)] else [])
  | Mesh3 vs => Ok (map (fun v => (k, mk_cyl_body i (add3 (pos3 q0 i) (mul3 (ori3 nb q0 i) v)) c q0))
                        (mesh_cylinder_active (pos3 q1 i) (ori3 nb q1 i) vs (cy_x c) (cy_axis c) (cy_r c)))
  | Box3 _ | Staple3 _ => Exit
  end.
(* RigidBody3DSim::computeBodyPlaneActiveSetAllPairs, RigidBody3DSim.cpp:1413-1502, and
   computeBodyCylinderActiveSetAllPairs, 1504-1557 *)
Fixpoint gather {A} (l : list (outcome (list A))) : outcome (list A) :=
  match l with
  | [] => Ok []
  | x :: l => let! a := x in let! b := gather l in Ok (a ++ b)
  end.
Definition rb3_plane_set (nb : nat) (q0 q1 : dvec) (fixed : nat -> bool) (shape : nat -> shape3) (planes : list rb3_plane)
  : outcome (list (nat * rb3_contact)) :=
  gather (all_pairs planes nb (fun k p i => [if fixed i then Ok [] else rb3_plane_one nb q0 q1 (shape i) k p i])).
Definition rb3_cylinder_set (nb : nat) (q0 q1 : dvec) (fixed : nat -> bool) (shape : nat -> shape3) (cyls : list rb3_cyl)
  : outcome (list (nat * rb3_contact)) :=
  gather (all_pairs cyls nb (fun k c i => [if fixed i then Ok [] else rb3_cylinder_one nb q0 q1 (shape i) k c i])).
(* sphereSphereNarrowPhaseCollision, RigidBody3DSim.cpp:793-819: tested at q1, built at q0 *)
Definition sphere_sphere_narrow (i j : nat) (r0 r1 : R) (fixed1 : bool) (q0 q1 : dvec) : list rb3_contact :=
  if balls_active (seg3 q1 (3 * i)) (seg3 q1 (3 * j)) r0 r1
  then [if fixed1 then KinSphere i r0 (normalized3 (sub3 (seg3 q0 (3 * i)) (seg3 q0 (3 * j)))) j else mk_sphere_sphere i j q0 r0 r1]
  else [].

(* ---------- gap functions and penetration depths ---------- *)
(* BallBall 76-86, 270-280; SphereSphere 28-33, 351-354; CircleCircle 205-208; KinematicObjectSphere 256-264 *)
Definition discs_gap (x0 x1 : vec) (r0 r1 : R) : R := sqrt (vdot (vsub x0 x1) (vsub x0 x1)) - r0 - r1.
Definition balls_gap (x0 x1 : v3) (r0 r1 : R) : R := sqrt (dot3 (sub3 x0 x1) (sub3 x0 x1)) - r0 - r1.
(* BallStaticPlane 58-63, 220-223; StaticPlaneCircle 154-158; StaticPlaneSphere 31-35, 303-307 *)
Definition disc_plane_gap (x : vec) (r : R) (xp n : vec) : R := vdot n (vsub x xp) - r.
Definition ball_plane_gap (x : v3) (r : R) (xp n : v3) : R := dot3 n (sub3 x xp) - r.
(* StaticCylinderSphere 30-36, 311-317 *)
Definition ball_cylinder_gap (x0 axis : v3) (Rc : R) (x : v3) (r : R) : R :=
  Rc - sqrt (dot3 (radial x0 axis x) (radial x0 axis x)) - r.
(* std::min( 0.0, gap ) *)
Definition depth_of (gap : R) : R := Rmin 0 gap.

(* ---------- the simulation boundary and the bounding sphere ---------- *)
Definition any_lt3 (a b : v3) : bool := (Rltb (c0 a) (c0 b) || Rltb (c1 a) (c1 b) || Rltb (c2 a) (c2 b))%bool.
(* RigidBody3DSim::runBoundaryExitTreatment, RigidBody3DSim.cpp:364-389; a body with no vertices has the box ( inf, -inf ),
   for which neither comparison holds *)
Fixpoint boundary_exit (lo hi : v3) (bodies : list body3) : outcome unit :=
  match bodies with
  | [] => Ok tt
  | b :: bodies =>
      match body3_aabb b with
      | None => boundary_exit lo hi bodies
      | Some bx => if any_lt3 (fst bx) lo then Exit else if any_lt3 hi (snd bx) then Exit else boundary_exit lo hi bodies
      end
  end.
(* RigidBody3DSim::computeBoundingSphere, RigidBody3DSim.cpp:74-85, from the bounding box *)
Definition bounding_sphere (b : box3) : v3 * R :=
  let center := scale3 (/ 2) (add3 (fst b) (snd b)) in
  (center, sqrt (dot3 (sub3 center (snd b)) (sub3 center (snd b)))).
