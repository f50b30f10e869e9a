(* The contact constraints of the 2D ball simulator.
   Models /repo/ball2d/Constraints/{BallBallConstraint,KinematicKickBallBallConstraint,
   BallStaticPlaneConstraint,BallStaticDrumConstraint}.cpp over the reals. *)
From Coq Require Import List Reals Arith Bool.
From Verif Require Import Outcome Ccd_Model Lin_Model.
Import ListNotations.
Open Scope R_scope.

(* /repo/ball2d/StaticGeometry/StaticPlane.cpp: point, normal, velocity; t = (-n.y, n.x), line 14 *)
Record ball_plane := BallPlaneGeo { bp_x : vec; bp_n : vec; bp_v : vec }.
Definition bp_t (p : ball_plane) : vec := vperp (bp_n p).

(* the data members of the four constraint classes *)
Inductive ball_contact :=
| BallBall (i j : nat) (n : vec) (r0 r1 : R) (teleported : bool)
| KickBallBall (i j : nat) (n : vec) (r0 r1 : R) (kick : vec) (teleported : bool)
| BallPlane (i : nat) (r : R) (plane : ball_plane)
| BallDrum (i : nat) (n : vec) (r : R).

(* BallBallConstraint.cpp:22-37 *)
Definition mk_ball_ball (i j : nat) (x0 x1 : vec) (r0 r1 : R) (teleported : bool) : ball_contact :=
  BallBall i j (vnormalized (vsub x0 x1)) r0 r1 teleported.
(* KinematicKickBallBallConstraint.cpp:8-11 *)
Definition mk_kick_ball_ball (i j : nat) (x0 x1 : vec) (r0 r1 : R) (kick : vec) (teleported : bool) : ball_contact :=
  KickBallBall i j (vnormalized (vsub x0 x1)) r0 r1 kick teleported.
(* BallStaticDrumConstraint.cpp:18-26 *)
Definition mk_ball_drum (i : nat) (q : dvec) (r : R) (X : vec) : ball_contact :=
  BallDrum i (vnormalized (vsub X (seg2 q (2 * i)))) r.

(* m_n: the normal the constraint uses *)
Definition b_normal (c : ball_contact) : vec :=
  match c with
  | BallBall _ _ n _ _ _ | KickBallBall _ _ n _ _ _ _ | BallDrum _ n _ => n
  | BallPlane _ _ p => bp_n p
  end.

(* evalNdotV: BallBall 39-43, KinematicKick 16-20, Plane 32-36, Drum 31-36 *)
Definition b_evalNdotV (c : ball_contact) (v : dvec) : R :=
  match c with
  | BallBall i j n _ _ _ => vdot n (vsub (seg2 v (2 * i)) (seg2 v (2 * j)))
  | KickBallBall i j n _ _ kick _ => vdot n (vsub (vsub (seg2 v (2 * i)) (seg2 v (2 * j))) kick)
  | BallPlane i _ p => vdot (bp_n p) (vsub (seg2 v (2 * i)) (bp_v p))
  | BallDrum i n _ => vdot n (seg2 v (2 * i))
  end.

(* evalgradg: BallBall 88-100 (inherited by the kick), Plane 65-73, Drum 59-66 *)
Definition b_gradg (c : ball_contact) : col :=
  match c with
  | BallBall i j n _ _ _ | KickBallBall i j n _ _ _ _ => ins2 (2 * i) n ++ ins2 (2 * j) (vneg n)
  | BallPlane i _ p => ins2 (2 * i) (bp_n p)
  | BallDrum i n _ => ins2 (2 * i) n
  end.

(* computeGeneralizedFrictionGivenTangentSample: BallBall 126-139, Plane 89-97, Drum 89-98 *)
Definition b_friction (c : ball_contact) (t : vec) : col :=
  match c with
  | BallBall i j _ _ _ _ | KickBallBall i j _ _ _ _ _ => ins2 (2 * i) t ++ ins2 (2 * j) (vneg t)
  | BallPlane i _ _ | BallDrum i _ _ => ins2 (2 * i) t
  end.

(* evalKinematicNormalRelVel: BallBall 162-167, KinematicKick 22-26, Plane 120-124, Drum 121-127 *)
Definition b_gdotN (c : ball_contact) : R :=
  match c with
  | BallBall _ _ _ _ _ _ | BallDrum _ _ _ => 0
  | KickBallBall _ _ n _ _ kick _ => - vdot n kick
  | BallPlane _ _ p => - vdot (bp_n p) (bp_v p)
  end.

(* computeRelativeVelocity: BallBall 254-258, KinematicKick 40-44, Plane 208-213, Drum 204-208 *)
Definition b_relvel (c : ball_contact) (v : dvec) : vec :=
  match c with
  | BallBall i j _ _ _ _ => vsub (seg2 v (2 * i)) (seg2 v (2 * j))
  | KickBallBall i j _ _ _ kick _ => vsub (vsub (seg2 v (2 * i)) (seg2 v (2 * j))) kick
  | BallPlane i _ p => vsub (seg2 v (2 * i)) (bp_v p)
  | BallDrum i _ _ => seg2 v (2 * i)
  end.

(* computeKinematicRelativeVelocity: BallBall 282-286, KinematicKick 58-61, Plane 225-228, Drum 215-219 *)
Definition b_kinvel (c : ball_contact) : vec :=
  match c with
  | BallBall _ _ _ _ _ _ | BallDrum _ _ _ => vzero
  | KickBallBall _ _ _ _ _ kick _ => kick
  | BallPlane _ _ p => bp_v p
  end.

(* computeContactBasis: BallBall 244-252, Plane 196-206, Drum 193-202 *)
Definition b_basis (c : ball_contact) : vec * vec :=
  match c with
  | BallBall _ _ n _ _ _ | KickBallBall _ _ n _ _ _ _ | BallDrum _ n _ => (n, vperp n)
  | BallPlane _ _ p => (bp_n p, bp_t p)
  end.

(* evalH: BallBall 169-188, Plane 126-143, Drum 129-146; rows of H0 and H1 for the basis given.
   H1 of the one-body contacts is left unset by the code and never read. *)
Definition b_H0 (c : ball_contact) (basis : vec * vec) : vec * vec := basis.
Definition b_H1 (c : ball_contact) (basis : vec * vec) : option (vec * vec) :=
  match c with
  | BallBall _ _ _ _ _ _ | KickBallBall _ _ _ _ _ _ _ => Some basis
  | BallPlane _ _ _ | BallDrum _ _ _ => None
  end.

(* getSimulatedBodyIndices: second = -1 for plane and drum *)
Definition b_bodies (c : ball_contact) : nat * option nat :=
  match c with
  | BallBall i j _ _ _ _ | KickBallBall i j _ _ _ _ _ => (i, Some j)
  | BallPlane i _ _ | BallDrum i _ _ => (i, None)
  end.

(* the columns of H^T that the So-bogus interface assembles for one contact: + H0 for the first simulated body,
   - H1 for the second, /repo/scisim/ConstrainedMaps/bogus/Ball2DSobogusInterface.cpp:66-88 *)
Definition b_hcols (c : ball_contact) (basis : vec * vec) : col * col :=
  let '(i, oj) := b_bodies c in
  let '(n0, t0) := b_H0 c basis in
  match oj, b_H1 c basis with
  | Some j, Some (n1, t1) => (ins2 (2 * i) n0 ++ ins2 (2 * j) (vneg n1), ins2 (2 * i) t0 ++ ins2 (2 * j) (vneg t1))
  | _, _ => (ins2 (2 * i) n0, ins2 (2 * i) t0)
  end.

(* conservesTranslationalMomentum, conservesAngularMomentumUnderImpact,
   conservesAngularMomentumUnderImpactAndFriction: BallBall 190-205, Plane 151-164, Drum 148-161 *)
Definition b_conserves_p (c : ball_contact) : bool :=
  match c with BallBall _ _ _ _ _ _ | KickBallBall _ _ _ _ _ _ _ => true | _ => false end.
Definition b_conserves_L_impact (c : ball_contact) : bool :=
  match c with
  | BallBall _ _ _ _ _ tele | KickBallBall _ _ _ _ _ _ tele => negb tele
  | _ => false
  end.
Definition b_conserves_L_friction (c : ball_contact) : bool := false.

(* resolveImpact, BallBallConstraint.cpp:45-63 (inherited by the kick); the other classes fall back to
   Constraint::resolveImpact, which ends the program (/repo/scisim/Constraints/Constraint.cpp:131-231).
   m is the diagonal of M. Result: new velocity and alpha. *)
Definition b_resolveImpact (CoR : R) (m : dvec) (ndotv : R) (c : ball_contact) (v : dvec) : outcome (dvec * R) :=
  match c with
  | BallBall i j n _ _ _ | KickBallBall i j n _ _ _ _ =>
      let m0 := m (2 * i)%nat in
      let m1 := m (2 * j)%nat in
      let alpha := - (1 + CoR) * ndotv / (1 / m0 + 1 / m1) in
      let v1 := add_seg2 v (2 * i) (vscale (alpha / m0) n) in
      Ok (add_seg2 v1 (2 * j) (vneg (vscale (alpha / m1) n)), alpha)
  | BallPlane _ _ _ | BallDrum _ _ _ => Exit
  end.

(* computeMomentum, computeAngularMomentum: /repo/ball2d/Ball2DSim.cpp:122-144; n is the number of balls,
   m the diagonal of M, q the configuration *)
Definition b_momentum (n : nat) (m v : dvec) : vec :=
  (rsum n (fun i => m (2 * i)%nat * fst (seg2 v (2 * i))), rsum n (fun i => m (2 * i)%nat * snd (seg2 v (2 * i)))).
Definition b_angular (n : nat) (m q v : dvec) : R :=
  rsum n (fun i => m (2 * i)%nat * vcross (seg2 q (2 * i)) (seg2 v (2 * i))).
(* computeKineticEnergy: 0.5 * v.dot( M * v ), /repo/ball2d/Ball2DState.cpp:169-172 *)
Definition b_kinetic (n : nat) (m v : dvec) : R := / 2 * rsum (2 * n) (fun k => v k * (m k * v k)).
(* Minv, createMinv /repo/ball2d/Ball2DState.cpp:54-66 *)
Definition diag_minv (m f : dvec) : dvec := fun k => 1 / m k * f k.
