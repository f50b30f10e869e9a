(* Contact frames and friction directions, over the reals.
   Models computeContactBasis of every constraint class, /repo/rigidbody3d/Constraints/FrictionUtilities.cpp,
   the computeContactBases functions of the simulators and Constraint::computeForcingTerm. *)
From Coq Require Import List Reals Arith Bool.
From Verif Require Import Outcome Ccd_Model ContactBall_Model ContactRb2_Model ContactRb3_Model Rot_Model Lin_Model.
Import ListNotations.
Open Scope R_scope.

(* FrictionUtilities::orthogonalVector, FrictionUtilities.cpp:19-29 *)
Definition orthogonal_vector (n : v3) : v3 :=
  let o := if (negb (Rltb (Rabs (c1 n)) (Rabs (c0 n))) && negb (Rltb (Rabs (c2 n)) (Rabs (c0 n))))%bool then V3 1 0 0
           else if negb (Rltb (Rabs (c2 n)) (Rabs (c1 n))) then V3 0 1 0 else V3 0 0 1 in
  normalized3 (sub3 o (scale3 (dot3 n o) n)).

Definition slip_eps : R := / 1000000000.
(* computeContactBasis given the normal and the relative velocity: BodyBody 255-281, KinematicObjectBody 154-181,
   KinematicObjectSphere 181-208, SphereSphere 273-300, StaticCylinderBody 102-132, StaticCylinderSphere 263-290,
   StaticPlaneBody 241-268, StaticPlaneBox 250-277, StaticPlaneSphere 255-283, TeleportedSphereSphere 267-294 *)
Definition contact_basis (n u : v3) : v3 * v3 * v3 :=
  let s := if Rltb (dot3 (cross3 n u) (cross3 n u)) slip_eps then orthogonal_vector n
           else normalized3 (sub3 u (scale3 (dot3 u n) n)) in
  let s := scale3 (-1) s in
  (n, s, normalized3 (cross3 n s)).
(* the basis of a contact at configuration q and velocity v; SphereBody ends the program in computeRelativeVelocity *)
Definition rb3_basis (nb : nat) (q : dvec) (v : dvec) (c : rb3_contact) : outcome (v3 * v3 * v3) :=
  let! u := rb3_relvel nb q c v in Ok (contact_basis (rb3_normal q c) u).
(* RigidBody3DSim::computeContactBases, RigidBody3DSim.cpp:264-290: three columns per contact *)
Fixpoint rb3_contact_bases (nb : nat) (q v : dvec) (cs : list rb3_contact) : outcome (list v3) :=
  match cs with
  | [] => Ok []
  | c :: cs =>
      let! b := rb3_basis nb q v c in
      let! rest := rb3_contact_bases nb q v cs in
      let '(n, s, t) := b in Ok (n :: s :: t :: rest)
  end.
(* Ball2DSim::computeContactBases, Ball2DSim.cpp:175-201, RigidBody2DSim.cpp:716-742: two columns per contact *)
Definition ball_contact_bases (cs : list ball_contact) : list vec := flat_map (fun c => [fst (b_basis c); snd (b_basis c)]) cs.
Definition rb2_contact_bases (cs : list rb2_contact) : list vec := flat_map (fun c => [fst (rb2_basis c); snd (rb2_basis c)]) cs.

(* generateOrthogonalVectors, FrictionUtilities.cpp:31-64 *)
Definition orthogonal_vectors (n : v3) (count : nat) (suggested : v3) : list v3 :=
  let v0 := normalized3 (sub3 suggested (scale3 (dot3 n suggested) n)) in
  let dtheta := 2 * PI / INR count in
  map (fun i => match i with O => v0 | _ => mul3 (angle_axis (INR i * dtheta) n) v0 end) (seq 0 count).
(* computeGeneralizedFrictionDisk, first part: SphereSphere 99-113, BodyBody, StaticCylinderSphere 79-90, StaticPlane*,
   Teleported: the directions of the linearised friction cone *)
Definition friction_disk (n u : v3) (count : nat) : list v3 :=
  let t := if Rltb (dot3 (cross3 u n) (cross3 u n)) slip_eps then orthogonal_vector n else u in
  orthogonal_vectors n count (scale3 (-1) t).

(* Constraint::computeForcingTerm, Constraint.cpp:18-34, in three dimensions *)
Definition forcing_term (b : v3 * v3 * v3) (CoR ndotv nrel drel0 drel1 : R) : v3 :=
  let '(n, s, t) := b in
  add3 (add3 (add3 zero3 (scale3 (CoR * ndotv + nrel) n)) (scale3 drel0 s)) (scale3 drel1 t).
(* Constraint::evalKinematicRelVelGivenBases, Constraint.cpp:92-126, for one contact *)
Definition kin_rel_vel (b : v3 * v3 * v3) (kin : v3) : R * R * R :=
  let '(n, s, t) := b in (- dot3 kin n, - dot3 kin s, - dot3 kin t).
