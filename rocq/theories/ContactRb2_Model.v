(* The contact constraints of the 2D rigid body simulator (three coordinates per body: x, y, theta).
   Models /repo/rigidbody2d/{CircleCircleConstraint,BodyBodyConstraint,TeleportedCircleCircleConstraint,
   KinematicKickCircleCircleConstraint,KinematicObjectCircleConstraint,StaticPlaneBodyConstraint,
   StaticPlaneCircleConstraint}.cpp over the reals. *)
From Coq Require Import List Reals Arith Bool.
From Verif Require Import Outcome Ccd_Model Lin_Model.
Import ListNotations.
Open Scope R_scope.

(* /repo/rigidbody2d/RigidBody2DStaticPlane.cpp: point, normal, velocity, angular velocity *)
Record rb2_plane := Rb2Plane { rp_x : vec; rp_n : vec; rp_v : vec; rp_omega : R }.

Inductive rb2_contact :=
| CircleCircle (i j : nat) (n p : vec) (r0 r1 : R)
| BodyBody2 (i j : nat) (n arm0 arm1 : vec)
| TeleCircleCircle (i j : nat) (n arm0 arm1 : vec)
| KickCircleCircle (i j : nat) (n arm0 arm1 kick : vec)
| KinCircle (i : nat) (r : R) (n : vec) (k : nat) (kx kv : vec) (komega : R)
| PlaneBody2 (i : nat) (body_arm : vec) (plane : rb2_plane)
| PlaneCircle (i : nat) (r : R) (plane : rb2_plane).

(* how the narrow phase makes them.
   circle-circle: /repo/rigidbody2d/RigidBody2DSim.cpp:298-303 with CircleCircleConstraint.cpp:15-27 *)
Definition mk_circle_circle (i j : nat) (q0 : dvec) (ra rb : R) : rb2_contact :=
  let q0a := seg2 q0 (3 * i) in
  let q0b := seg2 q0 (3 * j) in
  CircleCircle i j (vnormalized (vsub q0a q0b)) (vadd q0a (vscale (ra / (ra + rb)) (vsub q0b q0a))) ra rb.
(* BodyBodyConstraint.cpp:10-20 *)
Definition mk_body_body2 (i j : nat) (p n : vec) (q : dvec) : rb2_contact :=
  BodyBody2 i j n (vsub p (seg2 q (3 * i))) (vsub p (seg2 q (3 * j))).
(* TeleportedCircleCircleConstraint.cpp:10-27 *)
Definition mk_tele_circle_circle (i j : nat) (x0 x1 : vec) (r0 r1 : R) : rb2_contact :=
  TeleCircleCircle i j (vnormalized (vsub x0 x1))
    (vscale (r0 / (r0 + r1)) (vsub x1 x0)) (vscale (r0 / (r0 + r1) - 1) (vsub x1 x0)).
(* KinematicKickCircleCircleConstraint.cpp:13-16 *)
Definition mk_kick_circle_circle (i j : nat) (x0 x1 : vec) (r0 r1 : R) (kick : vec) : rb2_contact :=
  KickCircleCircle i j (vnormalized (vsub x0 x1))
    (vscale (r0 / (r0 + r1)) (vsub x1 x0)) (vscale (r0 / (r0 + r1) - 1) (vsub x1 x0)) kick.

(* Eigen::Rotation2D *)
Definition rot2 (theta : R) (a : vec) : vec :=
  (cos theta * fst a - sin theta * snd a, sin theta * fst a + cos theta * snd a).

Definition rb2_normal (c : rb2_contact) : vec :=
  match c with
  | CircleCircle _ _ n _ _ _ | BodyBody2 _ _ n _ _ | TeleCircleCircle _ _ n _ _
  | KickCircleCircle _ _ n _ _ _ | KinCircle _ _ n _ _ _ _ => n
  | PlaneBody2 _ _ p | PlaneCircle _ _ p => rp_n p
  end.

(* getWorldSpaceContactPoint: KinematicObjectCircle 158-161, StaticPlaneCircle 165-168 *)
Definition kin_contact_point (q : dvec) (i : nat) (r : R) (n : vec) : vec := vsub (seg2 q (3 * i)) (vscale r n).
(* computeKinematicCollisionPointVelocity, KinematicObjectCircle 122-130 *)
Definition kin_point_velocity (q : dvec) (i : nat) (r : R) (n kx kv : vec) (komega : R) : vec :=
  let arm := vsub (kin_contact_point q i r n) kx in
  vadd kv (vscale komega (vperp arm)).
(* computePlaneCollisionPointVelocity, StaticPlaneCircle 112-120 *)
Definition plane_point_velocity2 (q : dvec) (i : nat) (r : R) (p : rb2_plane) : vec :=
  let arm := vsub (kin_contact_point q i r (rp_n p)) (rp_x p) in
  vadd (rp_v p) (vscale (rp_omega p) (vperp arm)).

(* velocity of the point of body i at arm r: v.segment<2>( 3 * i ) + v( 3 * i + 2 ) * r^perp *)
Definition point_velocity2 (v : dvec) (i : nat) (arm : vec) : vec :=
  vadd (seg2 v (3 * i)) (vscale (v (3 * i + 2)%nat) (vperp arm)).

(* computeRelativeVelocity: CircleCircle 173-193, BodyBody 103-114, Teleported 137-153, KinematicKick 39-55,
   KinematicObject 132-146, PlaneBody 110-120 (plane velocity zero, 91-97), PlaneCircle 134-147 *)
Definition rb2_relvel (q : dvec) (c : rb2_contact) (v : dvec) : vec :=
  match c with
  | CircleCircle i j _ p _ _ =>
      vsub (point_velocity2 v i (vsub p (seg2 q (3 * i)))) (point_velocity2 v j (vsub p (seg2 q (3 * j))))
  | BodyBody2 i j _ a0 a1 => vsub (point_velocity2 v i a0) (point_velocity2 v j a1)
  | TeleCircleCircle i j _ a0 a1 => vsub (point_velocity2 v i a0) (point_velocity2 v j a1)
  | KickCircleCircle i j _ a0 a1 kick => vsub (vsub (point_velocity2 v i a0) (point_velocity2 v j a1)) kick
  | KinCircle i r n _ kx kv ko => vsub (point_velocity2 v i (vscale (- r) n)) (kin_point_velocity q i r n kx kv ko)
  | PlaneBody2 i a p => vsub (point_velocity2 v i (rot2 (q (3 * i + 2)%nat) a)) vzero
  | PlaneCircle i r p => vsub (point_velocity2 v i (vscale (- r) (rp_n p))) (plane_point_velocity2 q i r p)
  end.

(* computeKinematicRelativeVelocity: CircleCircle 210-214, BodyBody 126-130, Teleported 184-188,
   KinematicKick 57-60, KinematicObject 153-156, PlaneBody 127-130, PlaneCircle 160-163 *)
Definition rb2_kinvel (q : dvec) (c : rb2_contact) : vec :=
  match c with
  | CircleCircle _ _ _ _ _ _ | BodyBody2 _ _ _ _ _ | TeleCircleCircle _ _ _ _ _ | PlaneBody2 _ _ _ => vzero
  | KickCircleCircle _ _ _ _ _ kick => kick
  | KinCircle i r n _ kx kv ko => kin_point_velocity q i r n kx kv ko
  | PlaneCircle i r p => plane_point_velocity2 q i r p
  end.

(* evalNdotV: CircleCircle 29-34, BodyBody 22-25, Teleported 32-37, KinematicKick 21-26, KinematicObject 23-27,
   PlaneBody 19-22, PlaneCircle 28-32 *)
Definition rb2_evalNdotV (q : dvec) (c : rb2_contact) (v : dvec) : R :=
  match c with
  | CircleCircle i j n _ _ _ => vdot n (vsub (seg2 v (3 * i)) (seg2 v (3 * j)))
  | BodyBody2 _ _ n _ _ => vdot n (rb2_relvel q c v)
  | TeleCircleCircle i j n _ _ => vdot n (vsub (seg2 v (3 * i)) (seg2 v (3 * j)))
  | KickCircleCircle i j n _ _ kick => vdot n (vsub (vsub (seg2 v (3 * i)) (seg2 v (3 * j))) kick)
  | KinCircle i r n _ kx kv ko => vdot n (vsub (seg2 v (3 * i)) (kin_point_velocity q i r n kx kv ko))
  | PlaneBody2 _ _ p => vdot (rp_n p) (rb2_relvel q c v)
  | PlaneCircle i r p => vdot (rp_n p) (vsub (seg2 v (3 * i)) (plane_point_velocity2 q i r p))
  end.

(* evalgradg: CircleCircle 36-48, Teleported 39-51 (inherited by the kick), KinematicObject 29-38, PlaneCircle 34-44.
   BodyBody and PlaneBody do not override it: Constraint::evalgradg ends the program. *)
Definition rb2_gradg (c : rb2_contact) : outcome col :=
  match c with
  | CircleCircle i j n _ _ _ | TeleCircleCircle i j n _ _ | KickCircleCircle i j n _ _ _ =>
      Ok (ins2 (3 * i) n ++ ins2 (3 * j) (vneg n))
  | KinCircle i _ n _ _ _ _ => Ok (ins2 (3 * i) n)
  | PlaneCircle i _ p => Ok (ins2 (3 * i) (rp_n p))
  | BodyBody2 _ _ _ _ _ | PlaneBody2 _ _ _ => Exit
  end.

(* computeGeneralizedFrictionGivenTangentSample: only CircleCircle 50-78 overrides it *)
Definition rb2_friction (q : dvec) (c : rb2_contact) (t : vec) : outcome col :=
  match c with
  | CircleCircle i j _ p _ _ =>
      Ok (ins2 (3 * i) t ++ ins1 (3 * i + 2) (vcross (vsub p (seg2 q (3 * i))) t)
          ++ ins2 (3 * j) (vneg t) ++ ins1 (3 * j + 2) (- vcross (vsub p (seg2 q (3 * j))) t))
  | _ => Exit
  end.

(* evalKinematicNormalRelVel: CircleCircle 102-106, Teleported 70-74, KinematicKick 28-32, KinematicObject 57-61,
   PlaneCircle 63-67; BodyBody and PlaneBody fall back to the base class, which ends the program *)
Definition rb2_gdotN (q : dvec) (c : rb2_contact) : outcome R :=
  match c with
  | CircleCircle _ _ _ _ _ _ | TeleCircleCircle _ _ _ _ _ => Ok 0
  | KickCircleCircle _ _ n _ _ kick => Ok (- vdot n kick)
  | KinCircle i r n _ kx kv ko => Ok (- vdot n (kin_point_velocity q i r n kx kv ko))
  | PlaneCircle i r p => Ok (- vdot (rp_n p) (plane_point_velocity2 q i r p))
  | BodyBody2 _ _ _ _ _ | PlaneBody2 _ _ _ => Exit
  end.

(* a row of H0 or H1: two linear entries and one angular entry *)
Definition row2 := (vec * R)%type.
(* evalH: CircleCircle 108-141, BodyBody 44-71, Teleported 96-125, KinematicObject 63-90, PlaneBody 46-69,
   PlaneCircle 69-90; rows for normal and tangent. H1 of one-body contacts is not set and never read. *)
Definition rb2_H0 (q : dvec) (c : rb2_contact) (basis : vec * vec) : row2 * row2 :=
  let '(n, t) := basis in
  match c with
  | CircleCircle i _ _ p _ _ => ((n, 0), (t, vcross (vsub p (seg2 q (3 * i))) t))
  | BodyBody2 _ _ _ a0 _ => ((n, vcross a0 n), (t, vcross a0 t))
  | TeleCircleCircle _ _ _ a0 _ | KickCircleCircle _ _ _ a0 _ _ => ((n, 0), (t, vcross a0 t))
  | KinCircle _ r _ _ _ _ _ => ((n, 0), (t, vcross (vscale (- r) n) t))
  | PlaneBody2 i a _ => let arm := rot2 (q (3 * i + 2)%nat) a in ((n, vcross arm n), (t, vcross arm t))
  | PlaneCircle _ r _ => ((n, 0), (t, vcross (vscale (- r) n) t))
  end.
Definition rb2_H1 (q : dvec) (c : rb2_contact) (basis : vec * vec) : option (row2 * row2) :=
  let '(n, t) := basis in
  match c with
  | CircleCircle _ j _ p _ _ => Some ((n, 0), (t, vcross (vsub p (seg2 q (3 * j))) t))
  | BodyBody2 _ _ _ _ a1 => Some ((n, vcross a1 n), (t, vcross a1 t))
  | TeleCircleCircle _ _ _ _ a1 | KickCircleCircle _ _ _ _ a1 _ => Some ((n, 0), (t, vcross a1 t))
  | _ => None
  end.

(* getSimulatedBodyIndices *)
Definition rb2_bodies (c : rb2_contact) : nat * option nat :=
  match c with
  | CircleCircle i j _ _ _ _ | BodyBody2 i j _ _ _ | TeleCircleCircle i j _ _ _ | KickCircleCircle i j _ _ _ _ => (i, Some j)
  | KinCircle i _ _ _ _ _ _ | PlaneBody2 i _ _ | PlaneCircle i _ _ => (i, None)
  end.

(* getWorldSpaceContactPoint: BodyBody 132-138, CircleCircle 216-219, KinematicObject 158-161, PlaneBody 132-135,
   PlaneCircle 165-168, Teleported 155-158 (inherited by the kick) *)
Definition rb2_contact_point (q : dvec) (c : rb2_contact) : vec :=
  match c with
  | CircleCircle _ _ _ p _ _ => p
  | BodyBody2 i _ _ a _ | TeleCircleCircle i _ _ a _ | KickCircleCircle i _ _ a _ _ => vadd (seg2 q (3 * i)) a
  | KinCircle i r n _ _ _ _ => kin_contact_point q i r n
  | PlaneBody2 i a _ => vadd (seg2 q (3 * i)) (rot2 (q (3 * i + 2)%nat) a)
  | PlaneCircle i r p => kin_contact_point q i r (rp_n p)
  end.

(* the columns of H^T assembled for one contact: + H0 for the first simulated body, - H1 for the second,
   /repo/scisim/ConstrainedMaps/bogus/RigidBody2DSobogusInterface.cpp:66-84 *)
Definition hrow2 (i : nat) (r : row2) : col := ins2 (3 * i) (fst r) ++ ins1 (3 * i + 2) (snd r).
Definition neg_row2 (r : row2) : row2 := (vneg (fst r), - snd r).
Definition rb2_hcols (q : dvec) (c : rb2_contact) (basis : vec * vec) : col * col :=
  let '(i, oj) := rb2_bodies c in
  let '(n0, t0) := rb2_H0 q c basis in
  match oj, rb2_H1 q c basis with
  | Some j, Some (n1, t1) => (hrow2 i n0 ++ hrow2 j (neg_row2 n1), hrow2 i t0 ++ hrow2 j (neg_row2 t1))
  | _, _ => (hrow2 i n0, hrow2 i t0)
  end.

(* computeContactBasis: CircleCircle 143-151, BodyBody 73-81, Teleported 127-135, KinematicObject 92-100,
   PlaneBody 99-108, PlaneCircle 122-132 *)
Definition rb2_basis (c : rb2_contact) : vec * vec := (rb2_normal c, vperp (rb2_normal c)).

(* CircleCircle 153-166, BodyBody 83-96, Teleported 76-89, KinematicObject 102-115, PlaneBody 71-84, PlaneCircle 92-105 *)
Definition rb2_conserves_p (c : rb2_contact) : bool :=
  match c with
  | CircleCircle _ _ _ _ _ _ | BodyBody2 _ _ _ _ _ | TeleCircleCircle _ _ _ _ _ | KickCircleCircle _ _ _ _ _ _ => true
  | _ => false
  end.
Definition rb2_conserves_L_impact (c : rb2_contact) : bool :=
  match c with CircleCircle _ _ _ _ _ _ | BodyBody2 _ _ _ _ _ => true | _ => false end.
Definition rb2_conserves_L_friction (c : rb2_contact) : bool :=
  match c with CircleCircle _ _ _ _ _ _ | BodyBody2 _ _ _ _ _ => true | _ => false end.

(* computeMomentum, computeAngularMomentum: /repo/rigidbody2d/RigidBody2DSim.cpp:151-177.
   M is the diagonal mass matrix: m( i ) = M(3i,3i), I( i ) = M(3i+2,3i+2), RigidBody2DState.cpp:165-178 *)
Definition rb2_momentum (n : nat) (M v : dvec) : vec :=
  (rsum n (fun i => M (3 * i)%nat * fst (seg2 v (3 * i))), rsum n (fun i => M (3 * i)%nat * snd (seg2 v (3 * i)))).
Definition rb2_angular (n : nat) (M q v : dvec) : R :=
  rsum n (fun i => M (3 * i)%nat * vcross (seg2 q (3 * i)) (seg2 v (3 * i)))
  + rsum n (fun i => M (3 * i + 2)%nat * v (3 * i + 2)%nat).
