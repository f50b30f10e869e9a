(* The contact constraints of the 3D rigid body simulator. Velocities hold the 3 * nb linear entries first and
   then the 3 * nb angular ones; configurations hold the 3 * nb positions first (orientations are not read here).
   Models /repo/rigidbody3d/Constraints/{SphereSphereConstraint,TeleportedSphereSphereConstraint,BodyBodyConstraint,
   SphereBodyConstraint,KinematicObjectBodyConstraint,KinematicObjectSphereConstraint,StaticPlaneBodyConstraint,
   StaticPlaneBoxConstraint,StaticPlaneSphereConstraint,StaticCylinderSphereConstraint,
   StaticCylinderBodyConstraint}.cpp over the reals. *)
From Coq Require Import List Reals Arith Bool.
From Verif Require Import Outcome Ccd_Model Lin_Model.
Import ListNotations.
Open Scope R_scope.

(* /repo/rigidbody3d/StaticGeometry: point, normal or axis, radius, velocity, angular velocity *)
Record rb3_plane := Rb3Plane { tp_x : v3; tp_n : v3; tp_v : v3; tp_omega : v3 }.
Record rb3_cyl := Rb3Cyl { cy_x : v3; cy_axis : v3; cy_r : R; cy_v : v3; cy_omega : v3 }.

Inductive rb3_contact :=
| SphereSphere (i j : nat) (n p : v3) (r0 r1 : R)
| TeleSphereSphere (i j : nat) (n arm0 arm1 : v3)
| BodyBody3 (i j : nat) (n arm0 arm1 : v3)
| SphereBody (sphere body : nat) (n arm_sphere arm_body : v3)
| KinBody (i k : nat) (n arm : v3)
| KinSphere (i : nat) (r : R) (n : v3) (k : nat)
| PlaneBody3 (i : nat) (n arm : v3) (plane : nat)
| PlaneSphere (i : nat) (r : R) (plane : rb3_plane)
| CylSphere (i : nat) (r : R) (cyl : rb3_cyl)
| CylBody (i : nat) (arm : v3) (cyl : rb3_cyl).

(* /repo/rigidbody3d/RigidBody3DSim.cpp:803-810 with SphereSphereConstraint.cpp:14-26 *)
Definition mk_sphere_sphere (i j : nat) (q0 : dvec) (ra rb : R) : rb3_contact :=
  let q0a := seg3 q0 (3 * i) in
  let q0b := seg3 q0 (3 * j) in
  SphereSphere i j (normalized3 (sub3 q0a q0b)) (add3 q0a (scale3 (ra / (ra + rb)) (sub3 q0b q0a))) ra rb.
(* TeleportedSphereSphereConstraint.cpp:14-27 *)
Definition mk_tele_sphere_sphere (i j : nat) (x0 x1 : v3) (r0 r1 : R) : rb3_contact :=
  TeleSphereSphere i j (normalized3 (sub3 x0 x1))
    (scale3 (r0 / (r0 + r1)) (sub3 x1 x0)) (scale3 (r0 / (r0 + r1) - 1) (sub3 x1 x0)).
(* BodyBodyConstraint.cpp:14-24 *)
Definition mk_body_body3 (i j : nat) (p n : v3) (q : dvec) : rb3_contact :=
  BodyBody3 i j n (sub3 p (seg3 q (3 * i))) (sub3 p (seg3 q (3 * j))).
(* SphereBodyConstraint.cpp:10-26 *)
Definition mk_sphere_body (s b : nat) (p n : v3) (q : dvec) : rb3_contact :=
  SphereBody s b n (sub3 p (seg3 q (3 * s))) (sub3 p (seg3 q (3 * b))).
(* KinematicObjectBodyConstraint.cpp:14-21, StaticPlaneBodyConstraint.cpp, StaticCylinderBodyConstraint.cpp:14-18 *)
Definition mk_kin_body (i k : nat) (p n : v3) (q : dvec) : rb3_contact := KinBody i k n (sub3 p (seg3 q (3 * i))).
Definition mk_plane_body3 (i : nat) (p n : v3) (q : dvec) (plane : nat) : rb3_contact :=
  PlaneBody3 i n (sub3 p (seg3 q (3 * i))) plane.
Definition mk_cyl_body (i : nat) (p : v3) (cyl : rb3_cyl) (q : dvec) : rb3_contact := CylBody i (sub3 p (seg3 q (3 * i))) cyl.

(* computeN of the cylinder constraints: StaticCylinderSphere 237-244, StaticCylinderBody 84-91 *)
Definition cyl_n (q : dvec) (i : nat) (c : rb3_cyl) : v3 :=
  let d := sub3 (seg3 q (3 * i)) (cy_x c) in
  normalized3 (neg3 (sub3 d (scale3 (dot3 (cy_axis c) d) (cy_axis c)))).

Definition rb3_normal (q : dvec) (c : rb3_contact) : v3 :=
  match c with
  | SphereSphere _ _ n _ _ _ | TeleSphereSphere _ _ n _ _ | BodyBody3 _ _ n _ _ | SphereBody _ _ n _ _
  | KinBody _ _ n _ | KinSphere _ _ n _ | PlaneBody3 _ n _ _ => n
  | PlaneSphere _ _ p => tp_n p
  | CylSphere i _ cy | CylBody i _ cy => cyl_n q i cy
  end.

(* computePlaneCollisionPointVelocity, StaticPlaneSphereConstraint.cpp:244-252 *)
Definition plane_point_velocity3 (q : dvec) (i : nat) (p : rb3_plane) : v3 :=
  let d := sub3 (seg3 q (3 * i)) (tp_x p) in
  add3 (tp_v p) (cross3 (tp_omega p) (sub3 d (scale3 (dot3 (tp_n p) d) (tp_n p)))).
(* computeCylinderCollisionPointVelocity, StaticCylinderSphereConstraint.cpp:246-261 *)
Definition cyl_point_velocity (q : dvec) (i : nat) (c : rb3_cyl) : v3 :=
  let n := neg3 (cyl_n q i c) in
  let d := sub3 (seg3 q (3 * i)) (cy_x c) in
  let p := sub3 d (scale3 (dot3 n d) n) in
  add3 (cy_v c) (cross3 (cy_omega c) (add3 p (scale3 (cy_r c) n))).

(* v + omega x r of body i *)
Definition point_velocity3 (nb : nat) (v : dvec) (i : nat) (arm : v3) : v3 :=
  add3 (seg3 v (3 * i)) (cross3 (seg3 v (3 * (nb + i))) arm).

(* computeKinematicRelativeVelocity: SphereSphere 386-390, Teleported 328-332, BodyBody 306-310, KinematicBody 199-203,
   KinematicSphere 229-234, PlaneBody (last function), PlaneBox, PlaneSphere 313-316, CylinderSphere 319-322,
   CylinderBody 93-100. SphereBody ends the program (131-135). *)
Definition rb3_kinvel (q : dvec) (c : rb3_contact) : outcome v3 :=
  match c with
  | SphereSphere _ _ _ _ _ _ | TeleSphereSphere _ _ _ _ _ | BodyBody3 _ _ _ _ _ | KinBody _ _ _ _
  | KinSphere _ _ _ _ | PlaneBody3 _ _ _ _ | CylBody _ _ _ => Ok zero3
  | PlaneSphere i _ p => Ok (plane_point_velocity3 q i p)
  | CylSphere i _ cy => Ok (cyl_point_velocity q i cy)
  | SphereBody _ _ _ _ _ => Exit
  end.

(* computeRelativeVelocity: SphereSphere 323-339, Teleported 296-306, BodyBody 284-294, KinematicBody 183-192,
   KinematicSphere 210-222, PlaneBody, PlaneBox, PlaneSphere 287-299, CylinderSphere 292-303, CylinderBody 134-143.
   SphereBody does not override it and ends the program. *)
Definition rb3_relvel (nb : nat) (q : dvec) (c : rb3_contact) (v : dvec) : outcome v3 :=
  match c with
  | SphereSphere i j _ p _ _ =>
      Ok (sub3 (point_velocity3 nb v i (sub3 p (seg3 q (3 * i)))) (point_velocity3 nb v j (sub3 p (seg3 q (3 * j)))))
  | TeleSphereSphere i j _ a0 a1 | BodyBody3 i j _ a0 a1 =>
      Ok (sub3 (point_velocity3 nb v i a0) (point_velocity3 nb v j a1))
  | SphereBody _ _ _ _ _ => Exit
  | KinBody i _ _ a => Ok (point_velocity3 nb v i a)
  | KinSphere i r n _ => Ok (sub3 (point_velocity3 nb v i (scale3 (- r) n)) zero3)
  | PlaneBody3 i _ a _ => Ok (point_velocity3 nb v i a)
  | PlaneSphere i r p => Ok (sub3 (point_velocity3 nb v i (scale3 (- r) (tp_n p))) (plane_point_velocity3 q i p))
  | CylSphere i r cy => Ok (sub3 (point_velocity3 nb v i (scale3 (- r) (cyl_n q i cy))) (cyl_point_velocity q i cy))
  | CylBody i a _ => Ok (point_velocity3 nb v i a)
  end.

(* evalNdotV: SphereSphere 33-40, Teleported 42-49, BodyBody 26-29, KinematicBody 26-29, KinematicSphere 21-25, PlaneBody,
   PlaneBox 54-57, PlaneSphere 37-41, CylinderSphere 38-43, CylinderBody 20-26; SphereBody 31-36 returns NaN: None *)
Definition rb3_evalNdotV (nb : nat) (q : dvec) (c : rb3_contact) (v : dvec) : option R :=
  match c with
  | SphereSphere i j n _ _ _ | TeleSphereSphere i j n _ _ => Some (dot3 n (sub3 (seg3 v (3 * i)) (seg3 v (3 * j))))
  | BodyBody3 i j n a0 a1 => Some (dot3 n (sub3 (point_velocity3 nb v i a0) (point_velocity3 nb v j a1)))
  | SphereBody _ _ _ _ _ => None
  | KinBody i _ n a => Some (dot3 n (point_velocity3 nb v i a))
  | KinSphere i _ n _ => Some (dot3 n (sub3 (seg3 v (3 * i)) zero3))
  | PlaneBody3 i n a _ => Some (dot3 n (point_velocity3 nb v i a))
  | PlaneSphere i _ p => Some (dot3 (tp_n p) (sub3 (seg3 v (3 * i)) (plane_point_velocity3 q i p)))
  | CylSphere i _ cy => Some (dot3 (cyl_n q i cy) (sub3 (seg3 v (3 * i)) (cyl_point_velocity q i cy)))
  | CylBody i a cy => Some (dot3 (cyl_n q i cy) (point_velocity3 nb v i a))
  end.

(* evalgradg: SphereSphere 71-86, Teleported 51-66, BodyBody 31-61, SphereBody 38-79, KinematicBody 31-48,
   KinematicSphere 27-38, PlaneBody, PlaneBox, PlaneSphere, CylinderSphere 45-61; CylinderBody does not override it.
   The two branches of SphereBody insert the same entries in a different order; the row order is not modelled. *)
Definition rb3_gradg (nb : nat) (q : dvec) (c : rb3_contact) : outcome col :=
  match c with
  | SphereSphere i j n _ _ _ | TeleSphereSphere i j n _ _ => Ok (ins3 (3 * i) n ++ ins3 (3 * j) (neg3 n))
  | BodyBody3 i j n a0 a1 =>
      Ok (ins3 (3 * i) n ++ ins3 (3 * (i + nb)) (cross3 a0 n) ++ ins3 (3 * j) (neg3 n) ++ ins3 (3 * (j + nb)) (neg3 (cross3 a1 n)))
  | SphereBody s b n _ ab => Ok (ins3 (3 * b) n ++ ins3 (3 * (b + nb)) (cross3 ab n) ++ ins3 (3 * s) (neg3 n))
  | KinBody i _ n a | PlaneBody3 i n a _ => Ok (ins3 (3 * i) n ++ ins3 (3 * (i + nb)) (cross3 a n))
  | KinSphere i _ n _ => Ok (ins3 (3 * i) n)
  | PlaneSphere i _ p => Ok (ins3 (3 * i) (tp_n p))
  | CylSphere i _ cy => Ok (ins3 (3 * i) (cyl_n q i cy))
  | CylBody _ _ _ => Exit
  end.

(* computeGeneralizedFrictionGivenTangentSample: SphereSphere 162-200, Teleported 139-177, BodyBody 130-164,
   KinematicBody 50-71, KinematicSphere 40-63, PlaneBody, PlaneBox, PlaneSphere, CylinderSphere 126-154;
   the columns of computeGeneralizedFrictionDisk have the same entries. *)
Definition two_body_column (nb i j : nat) (a0 a1 t : v3) : col :=
  ins3 (3 * i) t ++ ins3 (3 * (i + nb)) (cross3 a0 t) ++ ins3 (3 * j) (neg3 t) ++ ins3 (3 * (j + nb)) (neg3 (cross3 a1 t)).
Definition one_body_column (nb i : nat) (a t : v3) : col := ins3 (3 * i) t ++ ins3 (3 * (i + nb)) (cross3 a t).
Definition rb3_friction (nb : nat) (q : dvec) (c : rb3_contact) (t : v3) : outcome col :=
  match c with
  | SphereSphere i j _ p _ _ => Ok (two_body_column nb i j (sub3 p (seg3 q (3 * i))) (sub3 p (seg3 q (3 * j))) t)
  | TeleSphereSphere i j _ a0 a1 | BodyBody3 i j _ a0 a1 => Ok (two_body_column nb i j a0 a1 t)
  | KinBody i _ _ a | PlaneBody3 i _ a _ => Ok (one_body_column nb i a t)
  | KinSphere i r n _ => Ok (one_body_column nb i (scale3 (- r) n) t)
  | PlaneSphere i r p => Ok (one_body_column nb i (scale3 (- r) (tp_n p)) t)
  | CylSphere i r cy => Ok (one_body_column nb i (scale3 (- r) (cyl_n q i cy)) t)
  | SphereBody _ _ _ _ _ | CylBody _ _ _ => Exit
  end.

(* evalKinematicNormalRelVel: zero except PlaneSphere and CylinderSphere 177-187; CylinderBody does not override it *)
Definition rb3_gdotN (q : dvec) (c : rb3_contact) : outcome R :=
  match c with
  | PlaneSphere i _ p => Ok (- dot3 (tp_n p) (plane_point_velocity3 q i p))
  | CylSphere i _ cy => Ok (- dot3 (cyl_n q i cy) (cyl_point_velocity q i cy))
  | CylBody _ _ _ => Exit
  | _ => Ok 0
  end.

(* a row of H0 or H1: three linear entries, three angular entries *)
Definition row3 := (v3 * v3)%type.
Definition arm_rows (a n s t : v3) : list row3 := [(n, cross3 a n); (s, cross3 a s); (t, cross3 a t)].
(* spheres: no angular entry for the normal *)
Definition sphere_rows (a n s t : v3) : list row3 := [(n, zero3); (s, cross3 a s); (t, cross3 a t)].
(* evalH: SphereSphere 229-271, Teleported 227-265, BodyBody 191-228, KinematicBody 98-126, KinematicSphere 99-125,
   PlaneBody, PlaneBox, PlaneSphere 195-222, CylinderSphere 189-215, CylinderBody 40-62; SphereBody does not override it *)
Definition rb3_H0 (q : dvec) (c : rb3_contact) (n s t : v3) : outcome (list row3) :=
  match c with
  | SphereSphere i _ _ p _ _ => Ok (sphere_rows (sub3 p (seg3 q (3 * i))) n s t)
  | TeleSphereSphere _ _ _ a0 _ => Ok (sphere_rows a0 n s t)
  | BodyBody3 _ _ _ a0 _ => Ok (arm_rows a0 n s t)
  | SphereBody _ _ _ _ _ => Exit
  | KinBody _ _ _ a | PlaneBody3 _ _ a _ | CylBody _ a _ => Ok (arm_rows a n s t)
  | KinSphere _ r _ _ | PlaneSphere _ r _ | CylSphere _ r _ => Ok (sphere_rows (scale3 (- r) n) n s t)
  end.
Definition rb3_H1 (q : dvec) (c : rb3_contact) (n s t : v3) : outcome (option (list row3)) :=
  match c with
  | SphereSphere _ j _ p _ _ => Ok (Some (sphere_rows (sub3 p (seg3 q (3 * j))) n s t))
  | TeleSphereSphere _ _ _ _ a1 => Ok (Some (sphere_rows a1 n s t))
  | BodyBody3 _ _ _ _ a1 => Ok (Some (arm_rows a1 n s t))
  | SphereBody _ _ _ _ _ => Exit
  | _ => Ok None
  end.

(* getSimulatedBodyIndices; SphereBody ends the program there, its two bodies are listed for bounds only *)
Definition rb3_bodies (c : rb3_contact) : nat * option nat :=
  match c with
  | SphereSphere i j _ _ _ _ | TeleSphereSphere i j _ _ _ | BodyBody3 i j _ _ _ | SphereBody i j _ _ _ => (i, Some j)
  | KinBody i _ _ _ | KinSphere i _ _ _ | PlaneBody3 i _ _ _ | PlaneSphere i _ _ | CylSphere i _ _ | CylBody i _ _ => (i, None)
  end.

(* getWorldSpaceContactPoint: BodyBody 312-320, KinematicBody 205-208, KinematicSphere 171-174, SphereSphere 392-395,
   CylinderSphere 324-327, PlaneBody 226-229, PlaneBox 302-305, PlaneSphere 314-317, Teleported 318-321. SphereBody and
   CylinderBody do not override it. *)
Definition rb3_contact_point (q : dvec) (c : rb3_contact) : outcome v3 :=
  match c with
  | SphereSphere _ _ _ p _ _ => Ok p
  | TeleSphereSphere i _ _ a _ | BodyBody3 i _ _ a _ | KinBody i _ _ a | PlaneBody3 i _ a _ => Ok (add3 (seg3 q (3 * i)) a)
  | KinSphere i r n _ => Ok (sub3 (seg3 q (3 * i)) (scale3 r n))
  | PlaneSphere i r p => Ok (sub3 (seg3 q (3 * i)) (scale3 r (tp_n p)))
  | CylSphere i r cy => Ok (sub3 (seg3 q (3 * i)) (scale3 r (cyl_n q i cy)))
  | SphereBody _ _ _ _ _ | CylBody _ _ _ => Exit
  end.

(* the columns of H^T assembled for one contact: + H0 for the first simulated body, - H1 for the second,
   /repo/scisim/ConstrainedMaps/bogus/RigidBody3DSobogusInterface.cpp:66-84. The solver keeps the six coordinates of
   a body together; here they stand at their rows in v. *)
Definition hrow3 (nb i : nat) (r : row3) : col := ins3 (3 * i) (fst r) ++ ins3 (3 * (nb + i)) (snd r).
Definition neg_row3 (r : row3) : row3 := (neg3 (fst r), neg3 (snd r)).
Definition rb3_hcols (nb : nat) (q : dvec) (c : rb3_contact) (n s t : v3) : outcome (list col) :=
  let! h0 := rb3_H0 q c n s t in
  let! oh1 := rb3_H1 q c n s t in
  let '(i, oj) := rb3_bodies c in
  match oj, oh1 with
  | Some j, Some h1 => Ok (map (fun ab => hrow3 nb i (fst ab) ++ hrow3 nb j (neg_row3 (snd ab))) (combine h0 h1))
  | _, _ => Ok (map (hrow3 nb i) h0)
  end.

(* conserves...: SphereSphere 303-316, Teleported 207-220, BodyBody 235-248, SphereBody 111-124, KinematicBody 134-147,
   KinematicSphere 127-140, PlaneSphere, CylinderSphere 217-230, CylinderBody 64-77 *)
Definition rb3_conserves_p (c : rb3_contact) : bool :=
  match c with
  | SphereSphere _ _ _ _ _ _ | TeleSphereSphere _ _ _ _ _ | BodyBody3 _ _ _ _ _ | SphereBody _ _ _ _ _ => true
  | _ => false
  end.
Definition rb3_conserves_L_impact (c : rb3_contact) : bool :=
  match c with SphereSphere _ _ _ _ _ _ | BodyBody3 _ _ _ _ _ | SphereBody _ _ _ _ _ => true | _ => false end.
Definition rb3_conserves_L_friction (c : rb3_contact) : bool :=
  match c with SphereSphere _ _ _ _ _ _ | BodyBody3 _ _ _ _ _ | SphereBody _ _ _ _ _ => true | _ => false end.

(* resolveImpact: SphereSphere 42-69, PlaneSphere (alpha = -(1+CoR) ndotv m; v += -(1+CoR) ndotv n); m i is the mass entry
   m( 3 * i ). The other classes end the program. *)
Definition rb3_resolveImpact (CoR : R) (m : dvec) (ndotv : R) (c : rb3_contact) (v : dvec) : outcome (dvec * R) :=
  match c with
  | SphereSphere i j n _ _ _ =>
      let m0 := m (3 * i)%nat in
      let m1 := m (3 * j)%nat in
      let alpha := - (1 + CoR) * ndotv * m0 * m1 / (m0 + m1) in
      let v1 := add_seg3 v (3 * i) (scale3 (/ m0) (scale3 alpha n)) in
      Ok (add_seg3 v1 (3 * j) (neg3 (scale3 (/ m1) (scale3 alpha n))), alpha)
  | PlaneSphere i _ p =>
      let mi := m (3 * i)%nat in
      Ok (add_seg3 v (3 * i) (scale3 (- (1 + CoR) * ndotv) (tp_n p)), - (1 + CoR) * ndotv * mi)
  | _ => Exit
  end.

(* ---------- 3x3 inertia blocks ---------- *)
Record m3 := M3 { row0 : v3; row1 : v3; row2_ : v3 }.
Definition mul3 (A : m3) (x : v3) : v3 := V3 (dot3 (row0 A) x) (dot3 (row1 A) x) (dot3 (row2_ A) x).

(* M and Minv of the state: m( 3 * i + k ) on the linear part, a 3x3 block per body on the angular part
   (/repo/rigidbody3d/RigidBody3DState.cpp:140-240) *)
Definition rb3_minv (nb : nat) (m : dvec) (Iinv : nat -> m3) (f : dvec) : dvec :=
  fun k =>
    if Nat.ltb k (3 * nb) then 1 / m k * f k
    else
      let i := ((k - 3 * nb) / 3)%nat in
      let w := mul3 (Iinv i) (seg3 f (3 * (nb + i))) in
      match ((k - 3 * nb) mod 3)%nat with
      | O => c0 w
      | S O => c1 w
      | _ => c2 w
      end.

(* computeMomentum, computeAngularMomentum: /repo/rigidbody3d/RigidBody3DSim.cpp:221-243; getTotalMass and getInertia are
   RigidBody3DState.cpp:413-426 *)
Definition sum3 (n : nat) (f : nat -> v3) : v3 :=
  V3 (rsum n (fun i => c0 (f i))) (rsum n (fun i => c1 (f i))) (rsum n (fun i => c2 (f i))).
Definition rb3_momentum (nb : nat) (m v : dvec) : v3 := sum3 nb (fun i => scale3 (m (3 * i)%nat) (seg3 v (3 * i))).
Definition rb3_angular (nb : nat) (m : dvec) (I : nat -> m3) (q v : dvec) : v3 :=
  add3 (sum3 nb (fun i => cross3 (scale3 (m (3 * i)%nat) (seg3 q (3 * i))) (seg3 v (3 * i))))
       (sum3 nb (fun i => mul3 (I i) (seg3 v (3 * (nb + i))))).
