(* Portals: planes glued together in pairs, fixed or sliding (Lees-Edwards), and the contacts
   detected across them.

   Sources: /repo/ball2d/Portals/PlanarPortal.cpp, /repo/rigidbody2d/PlanarPortal.cpp,
   /repo/rigidbody3d/Portals/PlanarPortal.cpp, the plane classes of the three programs,
   /repo/ball2d/Ball2DSim.cpp:328-550, 610-728, /repo/rigidbody2d/RigidBody2DSim.cpp:833-875,
   /repo/rigidbody3d/RigidBody3DSim.cpp:642-663.

   Coordinates are reals.  The conversion of a double to int is a parameter [conv]: on a double
   outside the range of int (or infinite, or not a number) C++ leaves it undefined, while the
   hardware returns some int; the theorems say which of the two they assume. *)
From Coq Require Import List NArith ZArith Reals Bool.
From Verif Require Import Outcome Grid_Model Ccd_Model Lin_Model Cache_Model ContactBall_Model.
Import ListNotations.
Open Scope R_scope.

(* a double: finite, or infinity / not a number *)
Definition dbl := option R.
(* x / y *)
Definition ddiv (x y : R) : dbl := if Req_EM_T y 0 then None else Some (x / y).
(* int( floor( d ) ): undefined out of range *)
Definition int_floor := dbl -> outcome Z.
Definition in_int (k : Z) : bool := ((- 2147483648 <=? k) && (k <=? 2147483647))%Z.
Definition strict : int_floor := fun d =>
  match d with
  | Some x => if in_int (Int_part x) then Ok (Int_part x) else UB
  | None => UB
  end.
(* what cvttsd2si gives *)
Definition hardware : int_floor := fun d =>
  match d with
  | Some x => if in_int (Int_part x) then Ok (Int_part x) else Ok (-2147483648)%Z
  | None => Ok (-2147483648)%Z
  end.

(* ---------------- planes ---------------- *)
Record plane2 := mkPlane2 { p_x : vec; p_n : vec; p_t : vec }.
(* ball2d/StaticGeometry/StaticPlane.cpp:10-20 *)
Definition mk_ball_plane (x n : vec) : plane2 := mkPlane2 x (vnormalized n) (vperp (vnormalized n)).
(* rigidbody2d/RigidBody2DStaticPlane.cpp:10-21 *)
Definition mk_rb2_plane (x n : vec) : plane2 := mkPlane2 x n (vperp n).
(* distanceToPoint: RigidBody2DStaticPlane.cpp:88-91; distanceLessThanZero (:83-86, StaticPlane.cpp:71-74)
   and distanceLessThanOrEqualZero( x, r ) (StaticPlane.cpp:76-79) compare it *)
Definition depth2 (p : plane2) (x : vec) : R := vdot (p_n p) (vsub x (p_x p)).
Definition behind2 (p : plane2) (x : vec) : bool := Rltb (depth2 p x) 0.
Definition within2 (p : plane2) (x : vec) (r : R) : bool := Rleb (depth2 p x) r.

(* ---------------- 2D portals ---------------- *)
(* ball2d/Portals/PlanarPortal.h and rigidbody2d/PlanarPortal.h *)
Record portal2 := mkPortal2 { po_a : plane2; po_b : plane2; po_v : R; po_bounds : R; po_dx : R }.

(* constructors: ball2d PlanarPortal.cpp:58-66, rigidbody2d PlanarPortal.cpp:83-100; a plain
   planar_portal gets velocity 0 and bounds 0 (Ball2DSceneParser.cpp:430-441) *)
Definition fixed_portal2 (a b : plane2) : portal2 := mkPortal2 a b 0 0 0.
Definition sliding_portal2 (a b : plane2) (v bounds : R) : portal2 := mkPortal2 a b v bounds 0.

Section Conv.
Variable conv : int_floor.

(* the body of teleportPointThroughPlaneA (from = A, to = B) and teleportPointThroughPlaneB
   (from = B, to = A): ball2d PlanarPortal.cpp:190-220, rigidbody2d PlanarPortal.cpp:298-328 *)
Definition through2 (from to : plane2) (bounds dx : R) (xin : vec) : outcome vec :=
  let n := vdot (p_n from) (vsub (p_x from) xin) in
  let t := vdot (p_t from) (vsub (vadd (vscale dx (p_t from)) (p_x from)) xin) in
  let! repeat_x := conv (ddiv (t + bounds) (2 * bounds)) in
  let t' := t - 2 * IZR repeat_x * bounds in
  Ok (vadd (vadd (p_x to) (vscale n (p_n to))) (vscale t' (p_t to))).
Definition through2_a (p : portal2) (x : vec) : outcome vec := through2 (po_a p) (po_b p) (po_bounds p) (po_dx p) x.
Definition through2_b (p : portal2) (x : vec) : outcome vec := through2 (po_b p) (po_a p) (po_bounds p) (po_dx p) x.

(* pointInsidePortal: ball2d :103-106, rigidbody2d :146-149 *)
Definition in_portal2 (p : portal2) (x : vec) : bool := behind2 (po_a p) x || behind2 (po_b p) x.

(* teleportPointInsidePortal: ball2d :130-144, rigidbody2d :196-210 *)
Definition teleport_inside2 (p : portal2) (x : vec) : outcome vec :=
  if behind2 (po_a p) x then through2_a p x else through2_b p x.

(* ballTouchesPortal: ball2d :108-128; Some false / true is plane A / B *)
Definition ball_touches (p : portal2) (x : vec) (r : R) : outcome (option bool) :=
  let ta := within2 (po_a p) x r in
  let tb := within2 (po_b p) x r in
  if ta && tb then Exit
  else if ta then Ok (Some false) else if tb then Ok (Some true) else Ok None.

(* teleportBall: ball2d :146-160 *)
Definition teleport_ball (p : portal2) (x : vec) (r : R) : outcome vec :=
  if within2 (po_a p) x r then through2_a p x else through2_b p x.

(* getKinematicVelocityOfPoint: ball2d :176-188, rigidbody2d :240-252 *)
Definition kick_of_point (p : portal2) (x : vec) : vec :=
  if behind2 (po_a p) x then vscale (- po_v p) (p_t (po_a p)) else vscale (- po_v p) (p_t (po_b p)).
(* getKinematicVelocityOfBall: ball2d :162-174 *)
Definition kick_of_ball (p : portal2) (x : vec) (r : R) : vec :=
  if within2 (po_a p) x r then vscale (- po_v p) (p_t (po_a p)) else vscale (- po_v p) (p_t (po_b p)).

(* isLeesEdwards: ball2d :239-242, rigidbody2d :347-350 *)
Definition lees_edwards (p : portal2) : bool := negb (Reqb (po_v p) 0).

(* updateMovingPortals: ball2d :232-237, rigidbody2d :340-345 *)
Definition update_portal (p : portal2) (t : R) : outcome portal2 :=
  let! repeat_x := conv (ddiv (po_v p * t + po_bounds p) (2 * po_bounds p)) in
  Ok (mkPortal2 (po_a p) (po_b p) (po_v p) (po_bounds p) (po_v p * t - 2 * IZR repeat_x * po_bounds p)).

(* updatePeriodicBoundaryConditionsStartOfStep: Ball2DSim.cpp:328-335, RigidBody2DSim.cpp:833-840 *)
Definition update_portals (ps : list portal2) (next_iteration : nat) (dt : R) : outcome (list portal2) :=
  omapM (fun p => update_portal p (INR next_iteration * dt)) ps.

(* enforcePeriodicBoundaryConditions, one portal and one body: Ball2DSim.cpp:346-363,
   RigidBody2DSim.cpp:855-872; a body is its position and velocity *)
Definition enforce2_body (p : portal2) (xv : vec * vec) : outcome (vec * vec) :=
  if in_portal2 p (fst xv) then
    let! x := teleport_inside2 p (fst xv) in
    Ok (x, if lees_edwards p then vadd (snd xv) (kick_of_point p (fst xv)) else snd xv)
  else Ok xv.
(* the loops: portals outside, bodies inside; Ball2DSim.cpp:337-366, RigidBody2DSim.cpp:842-875 *)
Definition enforce2 (ps : list portal2) (bodies : list (vec * vec)) : outcome (list (vec * vec)) :=
  ofold (fun bs p => omapM (enforce2_body p) bs) ps bodies.

(* ---------------- boxes against portals (2D rigid bodies) ---------------- *)
(* aabbInHalfPlane: rigidbody2d :151-171; aabbInPlaneA/B (:254-296) are the same tests *)
Definition aabb_in2 (lo up : vec) (p : plane2) : bool :=
  Rleb (depth2 p (fst lo, snd lo)) 0 || Rleb (depth2 p (fst lo, snd up)) 0 ||
  Rleb (depth2 p (fst up, snd lo)) 0 || Rleb (depth2 p (fst up, snd up)) 0.
(* aabbTouchesPortal: rigidbody2d :173-194 (release build) *)
Definition aabb_touches2 (po : portal2) (lo up : vec) : option bool :=
  if aabb_in2 lo up (po_a po) then Some false
  else if aabb_in2 lo up (po_b po) then Some true else None.
End Conv.

(* ---------------- 3D portals ---------------- *)
(* rigidbody3d/StaticGeometry/StaticPlane.cpp:10-15, 51-66: the frame is FromTwoVectors( UnitY, n )
   applied to the axes *)
Record plane3 := mkPlane3 { q_x : v3; q_n : v3 }.
Definition plane3_of (x n : v3) : plane3 := mkPlane3 x (normalized3 n).
Definition q_t0 (p : plane3) : v3 := from_two_vectors (V3 0 1 0) (q_n p) (V3 1 0 0).
Definition q_t1 (p : plane3) : v3 := from_two_vectors (V3 0 1 0) (q_n p) (V3 0 0 1).
(* distanceToPoint, StaticPlane.cpp:24-27 *)
Definition depth3 (p : plane3) (x : v3) : R := dot3 (q_n p) (sub3 x (q_x p)).

(* rigidbody3d/Portals/PlanarPortal.h: two planes and a multiplier of +1 / -1 per axis *)
Record portal3 := mkPortal3 { pt_a : plane3; pt_b : plane3; pt_mult : Z * Z * Z }.

(* teleportPointThroughPlaneA / B: :182-200 *)
Definition through3 (from to : plane3) (m : Z * Z * Z) (xin : v3) : v3 :=
  let '(m0, m1, m2) := m in
  let n := IZR m0 * dot3 (q_n from) (sub3 (q_x from) xin) in
  let t0 := IZR m1 * dot3 (q_t0 from) (sub3 (q_x from) xin) in
  let t1 := IZR m2 * dot3 (q_t1 from) (sub3 (q_x from) xin) in
  add3 (add3 (add3 (q_x to) (scale3 n (q_n to))) (scale3 t0 (q_t0 to))) (scale3 t1 (q_t1 to)).
Definition through3_a (p : portal3) (x : v3) : v3 := through3 (pt_a p) (pt_b p) (pt_mult p) x.
Definition through3_b (p : portal3) (x : v3) : v3 := through3 (pt_b p) (pt_a p) (pt_mult p) x.
(* pointInsidePortal :109-112, teleportPointInsidePortal :151-166 *)
Definition in_portal3 (p : portal3) (x : v3) : bool := Rltb (depth3 (pt_a p) x) 0 || Rltb (depth3 (pt_b p) x) 0.
Definition teleport_inside3 (p : portal3) (x : v3) : v3 :=
  if Rltb (depth3 (pt_a p) x) 0 then through3_a p x else through3_b p x.
(* enforcePeriodicBoundaryConditions: RigidBody3DSim.cpp:642-663 (positions only) *)
Definition enforce3 (ps : list portal3) (bodies : list v3) : list v3 :=
  fold_left (fun bs p => map (fun x => if in_portal3 p x then teleport_inside3 p x else x) bs) ps bodies.

(* aabbInHalfPlane, rigidbody3d :114-126; aabbTouchesPortal :128-149 (release build) *)
Definition aabb_in3 (lo up : v3) (p : plane3) : bool :=
  Rleb (depth3 p (V3 (c0 lo) (c1 lo) (c2 lo))) 0 || Rleb (depth3 p (V3 (c0 lo) (c1 lo) (c2 up))) 0 ||
  Rleb (depth3 p (V3 (c0 lo) (c1 up) (c2 lo))) 0 || Rleb (depth3 p (V3 (c0 lo) (c1 up) (c2 up))) 0 ||
  Rleb (depth3 p (V3 (c0 up) (c1 lo) (c2 lo))) 0 || Rleb (depth3 p (V3 (c0 up) (c1 lo) (c2 up))) 0 ||
  Rleb (depth3 p (V3 (c0 up) (c1 up) (c2 lo))) 0 || Rleb (depth3 p (V3 (c0 up) (c1 up) (c2 up))) 0.
Definition aabb_touches3 (po : portal3) (lo up : v3) : option bool :=
  if aabb_in3 lo up (pt_a po) then Some false
  else if aabb_in3 lo up (pt_b po) then Some true else None.

(* ---------------- collisions across portals ---------------- *)
(* TeleportedCollision; a portal index is None for std::numeric_limits<unsigned>::max() *)
Record tcoll := mkT { t_b0 : N; t_b1 : N; t_p0 : option N; t_p1 : option N; t_s0 : bool; t_s1 : bool }.
(* constructor: ball2d PlanarPortal.cpp:33-48 *)
Definition ball_tcoll (b0 b1 : N) (p0 p1 : option N) (s0 s1 : bool) : tcoll :=
  if (b1 <? b0)%N then mkT b1 b0 p1 p0 s1 s0 else mkT b0 b1 p0 p1 s0 s1.
(* constructor: rigidbody2d PlanarPortal.cpp:35-44, rigidbody3d PlanarPortal.cpp:35-44 *)
Definition rb_tcoll (b0 b1 : N) (p0 p1 : option N) (s0 s1 : bool) : tcoll :=
  mkT (if (b0 <? b1)%N then b0 else b1) (if (b0 <? b1)%N then b1 else b0)
      (if (b0 <? b1)%N then p0 else p1) (if (b0 <? b1)%N then p1 else p0)
      (if (b0 <? b1)%N then s0 else s1) (if (b0 <? b1)%N then s1 else s0).
(* operator<: std::tie of the body indices; ball2d :50-54, rigidbody2d :46-50, rigidbody3d :46-50 *)
Definition tcoll_ltb (a b : tcoll) : bool :=
  ((t_b0 a <? t_b0 b) || ((t_b0 a =? t_b0 b) && (t_b1 a <? t_b1 b)))%N.
(* std::set<TeleportedCollision>::insert *)
Fixpoint tinsert (c : tcoll) (s : list tcoll) : list tcoll :=
  match s with
  | [] => [c]
  | d :: s' => if tcoll_ltb c d then c :: s else if tcoll_ltb d c then d :: tinsert c s' else s
  end.

(* ---------------- the ball-ball contacts with portals ---------------- *)
Section ActiveSet.
Variable conv : int_floor.

(* the box of a ball at x, Ball2DSim.cpp:386-389 *)
Definition ball_box (x : vec) (r : R) : box2 real :=
  Box2 (ar := real) (fst x - r, snd x - r) (fst x + r, snd x + r).

(* BallBallConstraint::isActive, BallBallConstraint.cpp:16-20 *)
Definition balls_overlap (x0 x1 : vec) (r0 r1 : R) : bool :=
  Rleb (vdot (vsub x0 x1) (vsub x0 x1)) ((r0 + r1) * (r0 + r1)).

(* one image: body, portal, plane, teleported centre *)
Record image := mkImage { im_body : N; im_portal : N; im_plane : bool; im_x : vec; im_r : R }.

(* Ball2DSim.cpp:392-414: for each portal, for each ball that touches it *)
Fixpoint images_of (pi : N) (p : portal2) (bi : N) (bs : list (vec * R)) : outcome (list image) :=
  match bs with
  | [] => Ok []
  | (x, r) :: rest =>
      let! touch := ball_touches p x r in
      let! here := match touch with
                   | Some plane => let! y := teleport_ball conv p x r in Ok [mkImage bi pi plane y r]
                   | None => Ok []
                   end in
      let! more := images_of pi p (bi + 1) rest in
      Ok (here ++ more)
  end.
Fixpoint all_images (pi : N) (ps : list portal2) (bs : list (vec * R)) : outcome (list image) :=
  match ps with
  | [] => Ok []
  | p :: rest =>
      let! here := images_of pi p 0 bs in
      let! more := all_images (pi + 1) rest bs in
      Ok (here ++ more)
  end.

(* teleported_aabb_body_indices.find: the ball, portal and plane behind a box index *)
Definition owner (nb : N) (ims : list image) (i : N) : option (N * option N * bool) :=
  if (i <? nb)%N then Some (i, None, false)
  else match nth_error ims (N.to_nat (i - nb)) with
       | Some im => Some (im_body im, Some (im_portal im), im_plane im)
       | None => None
       end.

(* getTeleportedBallBallCenters, Ball2DSim.cpp:610-643, one of the two balls *)
Definition centre (ps : list portal2) (x : vec) (portal : option N) (plane : bool) : outcome vec :=
  match portal with
  | None => Ok x
  | Some k => match nth_error ps (N.to_nat k) with
              | Some p => if plane then through2_b conv p x else through2_a conv p x
              | None => UB
              end
  end.
Definition ball_of (bs : list (vec * R)) (i : N) : outcome (vec * R) :=
  match nth_error bs (N.to_nat i) with Some b => Ok b | None => UB end.

(* teleportedBallBallCollisionHappens, Ball2DSim.cpp:645-652 *)
Definition tcoll_happens (ps : list portal2) (bs : list (vec * R)) (c : tcoll) : outcome bool :=
  let! a := ball_of bs (t_b0 c) in
  let! b := ball_of bs (t_b1 c) in
  let! x0 := centre ps (fst a) (t_p0 c) (t_s0 c) in
  let! x1 := centre ps (fst b) (t_p1 c) (t_s1 c) in
  Ok (balls_overlap x0 x1 (snd a) (snd b)).

(* the narrow phase loop, Ball2DSim.cpp:427-493: direct contacts and the set of teleported ones *)
Definition narrow_portal (nb : N) (ps : list portal2) (bs : list (vec * R)) (ims : list image)
           (acc : list (N * N) * list tcoll) (pr : N * N) : outcome (list (N * N) * list tcoll) :=
  let '(direct, set) := acc in
  let '(i, j) := pr in
  if (i <? nb)%N && (j <? nb)%N then
    let! a := ball_of bs i in
    let! b := ball_of bs j in
    if balls_overlap (fst a) (fst b) (snd a) (snd b) then Ok (direct ++ [(i, j)], set) else Ok (direct, set)
  else
    match owner nb ims i, owner nb ims j with
    | Some (b0, p0, s0), Some (b1, p1, s1) =>
        let! a := ball_of bs b0 in
        let! b := ball_of bs b1 in
        if negb (i <? nb)%N && negb (j <? nb)%N && balls_overlap (fst a) (fst b) (snd a) (snd b)
        then Ok (direct, set)
        else
          let c := ball_tcoll b0 b1 p0 p1 s0 s1 in
          let! yes := tcoll_happens ps bs c in
          Ok (direct, if yes then tinsert c set else set)
    | _, _ => UB
    end.

(* computeBallBallActiveSetSpatialGridWithPortals, Ball2DSim.cpp:368-550 (release build): the pairs
   in direct contact and the contacts across portals.  bs are the balls at the end of the step. *)
Definition active_with_portals (ps : list portal2) (bs : list (vec * R)) : outcome (list (N * N) * list tcoll) :=
  let nb := N.of_nat (length bs) in
  let! ims := all_images 0 ps bs in
  let! possible := getPotentialOverlaps2 real
                     (map (fun b => ball_box (fst b) (snd b)) bs ++ map (fun im => ball_box (im_x im) (im_r im)) ims) [] in
  ofold (narrow_portal nb ps bs ims) possible ([], []).

(* generateTeleportedBallBallCollision, Ball2DSim.cpp:654-728 (release build): q0 the positions at
   the start of the step, q1 at the end *)
Definition lees_edwards_index (ps : list portal2) (k : option N) : outcome bool :=
  match k with
  | None => Ok false
  | Some k => match nth_error ps (N.to_nat k) with Some p => Ok (lees_edwards p) | None => UB end
  end.
Definition portal_kick (ps : list portal2) (k : option N) (x : vec) (r : R) : outcome vec :=
  match k with
  | None => UB
  | Some k => match nth_error ps (N.to_nat k) with Some p => Ok (kick_of_ball p x r) | None => UB end
  end.
Definition tele_contact (ps : list portal2) (bs0 bs1 : list (vec * R)) (c : tcoll) : outcome ball_contact :=
  let! a := ball_of bs0 (t_b0 c) in
  let! b := ball_of bs0 (t_b1 c) in
  let! x0 := centre ps (fst a) (t_p0 c) (t_s0 c) in
  let! x1 := centre ps (fst b) (t_p1 c) (t_s1 c) in
  let! le0 := lees_edwards_index ps (t_p0 c) in
  let! le1 := lees_edwards_index ps (t_p1 c) in
  let! a1 := ball_of bs1 (t_b0 c) in
  let! b1 := ball_of bs1 (t_b1 c) in
  if negb le0 && negb le1 then
    Ok (mk_ball_ball (N.to_nat (t_b0 c)) (N.to_nat (t_b1 c)) x0 x1 (snd a) (snd b) true)
  else if le1 then
    let! kick := portal_kick ps (t_p1 c) (fst b1) (snd b) in
    Ok (mk_kick_ball_ball (N.to_nat (t_b0 c)) (N.to_nat (t_b1 c)) x0 x1 (snd a) (snd b) kick true)
  else
    let! kick := portal_kick ps (t_p0 c) (fst a1) (snd a) in
    Ok (mk_kick_ball_ball (N.to_nat (t_b0 c)) (N.to_nat (t_b1 c)) x0 x1 (snd a) (snd b) (vneg kick) true).
End ActiveSet.
