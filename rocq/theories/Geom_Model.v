(* Bounding boxes, the planar narrow-phase tests and the closest-point routines, over the reals.
   Models /repo/rigidbody2d/{CircleBoxTools,BoxBoxTools,BoxGeometry,CircleGeometry,RigidBody2DState}.cpp,
   /repo/rigidbody3d/Constraints/CollisionUtilities.cpp, the computeAABB functions of
   /repo/rigidbody3d/Geometry, and the computeBoundingBox functions of the three simulators. *)
From Coq Require Import List Reals Arith Bool.
From Verif Require Import Outcome Ccd_Model Lin_Model ContactRb3_Model Rot_Model.
Import ListNotations.
Open Scope R_scope.

(* ---------- planar helpers ---------- *)
(* A Matrix22sc by its two columns; Eigen::Rotation2D{ theta }.matrix() has the columns
   ( cos theta, sin theta ) and ( - sin theta, cos theta ) *)
Definition m2 := (vec * vec)%type.
Definition rotation2 (theta : R) : m2 := ((cos theta, sin theta), (- sin theta, cos theta)).
(* M.col( i ), v( i ) for i = 0, 1 *)
Definition mcol (M : m2) (i : nat) : vec := match i with O => fst M | _ => snd M end.
Definition at2 (v : vec) (i : nat) : R := match i with O => fst v | _ => snd v end.
(* R * v and R.transpose() * v *)
Definition mapply (M : m2) (v : vec) : vec := vadd (vscale (fst v) (fst M)) (vscale (snd v) (snd M)).
Definition mapply_t (M : m2) (v : vec) : vec := (vdot (fst M) v, vdot (snd M) v).

(* ---------- circle against box, CircleBoxTools.cpp:8-114 ---------- *)
(* lines 27-48 and 57-86: inside the first quadrant of the box frame, the normal and the penetration depth *)
Definition quadrant_test (xc : vec) (r0 : R) (r1 : vec) : option (vec * R) :=
  let corner :=
    let n := vsub xc r1 in
    let d2 := vdot n n in
    if Rltb (r0 * r0) d2 then None
    else Some (vscale (/ sqrt d2) n, sqrt d2 - r0) in
  if Rltb (fst r1 * snd xc) (snd r1 * fst xc) then
    if Rltb (snd r1) (snd xc) then corner
    else
      let pen := fst xc - r0 - fst r1 in
      if Rltb 0 pen then None else Some ((1, 0), pen)
  else
    if Rltb (fst r1) (fst xc) then corner
    else
      let pen := snd xc - r0 - snd r1 in
      if Rltb 0 pen then None else Some ((0, 1), pen).

(* v.x() *= -1 and v.y() *= -1 when the flags are set *)
Definition mirror (fx fy : bool) (v : vec) : vec :=
  (if fx then fst v * -1 else fst v, if fy then snd v * -1 else snd v).

(* isActive, lines 8-114: Some ( n, p ) when the pair is active *)
Definition circle_box (x0 : vec) (r0 : R) (x1 : vec) (theta1 : R) (r1 : vec) : option (vec * vec) :=
  let M := rotation2 theta1 in
  let x := mapply_t M (vsub x0 x1) in
  let fx := Rltb (fst x) 0 in
  let fy := Rltb (snd x) 0 in
  let xc := mirror fx fy x in
  match quadrant_test xc r0 r1 with
  | None => None
  | Some (n, pen) =>
      let p := vsub xc (vscale (r0 + / 2 * pen) n) in
      Some (mapply M (mirror fx fy n), vadd (mapply M (mirror fx fy p)) x1)
  end.

(* ---------- box against box, BoxBoxTools.cpp ---------- *)
(* The best axis so far: penetration depth (minus infinity is None), invert_normal, feature 0-3 *)
Definition best := option (R * bool * nat).

(* axisAlignedSeperatingTest, 20-36; None is the early return (separated) *)
Definition axis_test (dist widths : R) (feature : nat) (b : best) : option best :=
  let pen := Rabs dist - widths in
  if Rltb 0 pen then None
  else
    match b with
    | None => Some (Some (pen, Rltb dist 0, feature))
    | Some (sm, _, _) => if Rltb sm pen then Some (Some (pen, Rltb dist 0, feature)) else Some b
    end.

(* lines 65-111: the four tests. Q = | R0^T R1 | entry by entry *)
Definition axis_tests (x0 : vec) (R0 : m2) (r0 x1 : vec) (R1 : m2) (r1 : vec) : option best :=
  let q i j := Rabs (vdot (mcol R0 i) (mcol R1 j)) in
  let p := vsub x1 x0 in
  match axis_test (vdot (mcol R0 0) p) (q 0%nat 0%nat * fst r1 + q 0%nat 1%nat * snd r1 + fst r0) 0 None with
  | None => None
  | Some b =>
  match axis_test (vdot (mcol R0 1) p) (q 1%nat 0%nat * fst r1 + q 1%nat 1%nat * snd r1 + snd r0) 1 b with
  | None => None
  | Some b =>
  match axis_test (vdot (mcol R1 0) p) (q 0%nat 0%nat * fst r0 + q 1%nat 0%nat * snd r0 + fst r1) 2 b with
  | None => None
  | Some b => axis_test (vdot (mcol R1 1) p) (q 0%nat 1%nat * fst r0 + q 1%nat 1%nat * snd r0 + snd r1) 3 b
  end end end.

(* lines 137-193: clip the incident face of box b against the slab of the reference face of box a.
   ia is a_nrml_idx and n2 is normal2 *)
Definition clip (xa : vec) (Ra : m2) (ra xb : vec) (Rb : m2) (rb : vec) (ia : nat) (n2 : vec) : list vec :=
  let n_in_b := mapply_t Rb n2 in
  let ib := if Rltb (Rabs (fst n_in_b)) (Rabs (snd n_in_b)) then 1%nat else 0%nat in
  let jb := (1 - ib)%nat in
  let ja := (1 - ia)%nat in
  let fc := vadd (vsub xb xa) (vscale ((if Rltb (at2 n_in_b ib) 0 then 1 else -1) * at2 rb ib) (mcol Rb ib)) in
  let c_on_a := vdot fc (mcol Ra ja) in
  let ct := vdot (mcol Ra ja) (mcol Rb jb) in
  let e0 := c_on_a - ct * at2 rb jb in
  let e1 := c_on_a + ct * at2 rb jb in
  let lo := if Rltb e1 e0 then e1 else e0 in
  let hi := if Rltb e1 e0 then e0 else e1 in
  let lo := Rmin lo (at2 ra ja) in
  let hi := Rmax hi (- at2 ra ja) in
  let i0 := Rmax (- at2 ra ja) lo in
  let i1 := Rmin (at2 ra ja) hi in
  let contact s :=
    let point := vadd fc (vscale ((s - c_on_a) / ct) (mcol Rb jb)) in
    let depth := at2 ra ia - vdot n2 point in
    if Rltb depth 0 then [] else [vadd (vadd xa point) (vscale (/ 2 * depth) n2)] in
  if Req_EM_T i0 i1 then contact i0 else contact i0 ++ contact i1.

(* isActive, 50-196. Ok None: returned by a separating axis, n is not written. Exit: lines 113-117 *)
Definition box_box (x0 : vec) (theta0 : R) (r0 x1 : vec) (theta1 : R) (r1 : vec)
    : outcome (option (vec * list vec)) :=
  let R0 := rotation2 theta0 in
  let R1 := rotation2 theta1 in
  match axis_tests x0 R0 r0 x1 R1 r1 with
  | None => Ok None
  | Some None => Exit
  | Some (Some (_, inv, feature)) =>
      let first := Nat.leb feature 1 in
      let n := if first then mcol R0 feature else mcol R1 (feature - 2) in
      let n := if inv then vscale (-1) n else n in
      let points :=
        if first then clip x0 R0 r0 x1 R1 r1 feature n
        else clip x1 R1 r1 x0 R0 r0 (feature - 2) (vneg n) in
      Ok (Some (vscale (-1) n, points))
  end.

(* ---------- planar bounding boxes: ( min, max ) ---------- *)
Definition box2 := (vec * vec)%type.
(* BoxGeometry::computeAABB, BoxGeometry.cpp:37-42 *)
Definition box_aabb (r : vec) (x : vec) (theta : R) : box2 :=
  let M := rotation2 theta in
  let e : vec := (Rabs (fst (fst M)) * fst r + Rabs (fst (snd M)) * snd r,
            Rabs (snd (fst M)) * fst r + Rabs (snd (snd M)) * snd r) in
  (vsub x e, vadd x e).
(* BoxGeometry::computeCollisionAABB, 32-35 *)
Definition box_collision_aabb (r : vec) (x0 : vec) (theta0 : R) (x1 : vec) (theta1 : R) : box2 :=
  box_aabb r x1 theta1.
(* CircleGeometry::computeAABB, CircleGeometry.cpp:39-44 *)
Definition circle_aabb (r : R) (x : vec) (theta : R) : box2 := (vsub x (r, r), vadd x (r, r)).
(* CircleGeometry::computeCollisionAABB, 32-37 *)
Definition circle_collision_aabb (r : R) (x0 : vec) (theta0 : R) (x1 : vec) (theta1 : R) : box2 :=
  ((Rmin (fst x0) (fst x1) - r, Rmin (snd x0) (snd x1) - r),
   (Rmax (fst x0) (fst x1) + r, Rmax (snd x0) (snd x1) + r)).

(* bounds.min( body_min ), bounds.max( body_max ); None is the initial ( inf, inf, -inf, -inf ) *)
Definition grow2 (acc : option box2) (b : box2) : option box2 :=
  match acc with
  | None => Some b
  | Some a => Some ((Rmin (fst (fst a)) (fst (fst b)), Rmin (snd (fst a)) (snd (fst b))),
                    (Rmax (fst (snd a)) (fst (snd b)), Rmax (snd (snd a)) (snd (snd b))))
  end.
Inductive shape2 := Circle2 (r : R) | Box2 (r : vec).
Record body2 := Body2 { b2_x : vec; b2_theta : R; b2_shape : shape2 }.
Definition body2_aabb (b : body2) : box2 :=
  match b2_shape b with
  | Circle2 r => circle_aabb r (b2_x b) (b2_theta b)
  | Box2 r => box_aabb r (b2_x b) (b2_theta b)
  end.
(* RigidBody2DState::computeBoundingBox, RigidBody2DState.cpp:461-483; the bodies as a list *)
Definition rb2_bounding_box (bodies : list body2) : option box2 :=
  fold_left (fun acc b => grow2 acc (body2_aabb b)) bodies None.
(* Ball2DState::computeBoundingBox, Ball2DState.cpp:217-249: balls, then drums, as ( centre, radius ) *)
Definition ball_bounding_box (balls drums : list (vec * R)) : option box2 :=
  let step acc (b : vec * R) := grow2 acc (circle_aabb (snd b) (fst b) 0) in
  fold_left step drums (fold_left step balls None).

(* ---------- bounding boxes in space ---------- *)
Definition box3 := (v3 * v3)%type.
Definition min3 (a b : v3) : v3 := V3 (Rmin (c0 a) (c0 b)) (Rmin (c1 a) (c1 b)) (Rmin (c2 a) (c2 b)).
Definition max3 (a b : v3) : v3 := V3 (Rmax (c0 a) (c0 b)) (Rmax (c1 a) (c1 b)) (Rmax (c2 a) (c2 b)).
Definition abs3 (a : v3) : v3 := V3 (Rabs (c0 a)) (Rabs (c1 a)) (Rabs (c2 a)).
Definition grow3 (acc : option box3) (b : box3) : option box3 :=
  match acc with
  | None => Some b
  | Some a => Some (min3 (fst a) (fst b), max3 (snd a) (snd b))
  end.
(* RigidBodyBox::computeAABB, RigidBodyBox.cpp:45-51 *)
Definition box3_aabb (w cm : v3) (M : m3) : box3 :=
  let e := V3 (dot3 (abs3 (row0 M)) w) (dot3 (abs3 (row1 M)) w) (dot3 (abs3 (row2_ M)) w) in
  (sub3 cm e, add3 cm e).
(* RigidBodySphere::computeAABB, RigidBodySphere.cpp:45-49 *)
Definition sphere_aabb (r : R) (cm : v3) (M : m3) : box3 := (sub3 cm (V3 r r r), add3 cm (V3 r r r)).
(* the vertex loops of RigidBodyStaple.cpp:98-112 and RigidBodyTriangleMesh.cpp:187-200 *)
Definition vertices_aabb (vs : list v3) (cm : v3) (M : m3) : option box3 :=
  fold_left (fun acc v => let p := add3 (mul3 M v) cm in grow3 acc (p, p)) vs None.
(* RigidBodyStaple: constructor 62-79 with computeCenterOfMassY 12-15 *)
Record staple := Staple { st_w : R; st_l : R; st_r : R; st_p : list v3 }.
Definition mk_staple (w l D : R) : staple :=
  let mw := w - D in
  let ml := l - D in
  let ycm := ml * ml / (2 * ml + mw) in
  Staple mw ml (/ 2 * D)
    [V3 (- / 2 * mw) (ml - ycm) 0; V3 (- / 2 * mw) (- ycm) 0; V3 (/ 2 * mw) (- ycm) 0; V3 (/ 2 * mw) (ml - ycm) 0].
Inductive shape3 := Box3 (w : v3) | Sphere3 (r : R) | Staple3 (s : staple) | Mesh3 (verts : list v3).
Record body3 := Body3 { b3_x : v3; b3_R : m3; b3_shape : shape3 }.
(* None: no vertices, the box stays ( inf, -inf ) *)
Definition body3_aabb (b : body3) : option box3 :=
  match b3_shape b with
  | Box3 w => Some (box3_aabb w (b3_x b) (b3_R b))
  | Sphere3 r => Some (sphere_aabb r (b3_x b) (b3_R b))
  | Staple3 s => vertices_aabb (st_p s) (b3_x b) (b3_R b)
  | Mesh3 vs => vertices_aabb vs (b3_x b) (b3_R b)
  end.
(* RigidBody3DSim::computeBoundingBox, RigidBody3DSim.cpp:49-72 *)
Definition rb3_bounding_box (bodies : list body3) : option box3 :=
  fold_left (fun acc b => match body3_aabb b with None => acc | Some x => grow3 acc x end) bodies None.

(* ---------- closest points, CollisionUtilities.cpp ---------- *)
(* clamp, 10-21 *)
Definition clamp (val lo hi : R) : R := if Rltb val lo then lo else if Rltb hi val then hi else val.
(* Rb.col( i ) for Rb = M *)
Definition mcol3 (M : m3) (i : nat) : v3 :=
  match i with O => row0 (tr M) | 1%nat => row1 (tr M) | _ => row2_ (tr M) end.
(* computeClosestPointToBox, 28-41 *)
Definition closest_point_box (xb : v3) (Rb : m3) (wb p : v3) : v3 :=
  let step acc i w := add3 acc (scale3 (clamp (dot3 (mcol3 Rb i) (sub3 p xb)) (- w) w) (mcol3 Rb i)) in
  step (step (step xb 0%nat (c0 wb)) 1%nat (c1 wb)) 2%nat (c2 wb).

Definition dist_eps : R := / 100000000.

(* closestPointSegmentSegment, 43-119: ( s, t, c1, c2, squared distance ) *)
Definition segment_parameters (p1 q1 p2 q2 : v3) : R * R :=
  let d1 := sub3 q1 p1 in
  let d2 := sub3 q2 p2 in
  let r := sub3 p1 p2 in
  let a := dot3 d1 d1 in
  let e := dot3 d2 d2 in
  let f := dot3 d2 r in
  if Rltb dist_eps a then
    let c := dot3 d1 r in
    if Rltb dist_eps e then
      let b := dot3 d1 d2 in
      let denom := a * e - b * b in
      let s := if Req_EM_T denom 0 then 0 else clamp ((b * f - c * e) / denom) 0 1 in
      let t := (b * s + f) / e in
      if Rltb t 0 then (clamp (- c / a) 0 1, 0)
      else if Rltb 1 t then (clamp ((b - c) / a) 0 1, 1)
      else (s, t)
    else (clamp (- c / a) 0 1, 0)
  else if Rltb dist_eps e then (0, clamp (f / e) 0 1)
  else (0, 0).
Definition closest_segments (p1 q1 p2 q2 : v3) : R * R * v3 * v3 * R :=
  let (s, t) := segment_parameters p1 q1 p2 q2 in
  let c1 := add3 p1 (scale3 s (sub3 q1 p1)) in
  let c2 := add3 p2 (scale3 t (sub3 q2 p2)) in
  (s, t, c1, c2, dot3 (sub3 c1 c2) (sub3 c1 c2)).

(* computeBoxSphereActiveSet, 121-153: Ok None no contact, Ok ( Some ( p, n ) ) one contact *)
Definition box_sphere (xb : v3) (Rb : m3) (wb xs : v3) (rs : R) : outcome (option (v3 * v3)) :=
  let cp := closest_point_box xb Rb wb xs in
  let d2 := dot3 (sub3 cp xs) (sub3 cp xs) in
  if Rltb (rs * rs) d2 then Ok None
  else if Rltb (/ 1000000000) d2 then Ok (Some (cp, scale3 (/ sqrt d2) (sub3 cp xs)))
  else Exit.

(* StapleStapleUtilities::isActive, StapleStapleUtilities.cpp:26-58: some pair of edges within the two radii *)
Definition staple_edges (s : staple) (cm : v3) (M : m3) : list (v3 * v3) :=
  let w i := add3 (mul3 M (nth i (st_p s) zero3)) cm in
  [(w 0%nat, w 1%nat); (w 1%nat, w 2%nat); (w 2%nat, w 3%nat)].
Definition staple_staple (cm0 : v3) (M0 : m3) (s0 : staple) (cm1 : v3) (M1 : m3) (s1 : staple) : bool :=
  let rr := (st_r s0 + st_r s1) * (st_r s0 + st_r s1) in
  existsb (fun a => existsb (fun b => negb (Rltb rr (snd (closest_segments (fst a) (snd a) (fst b) (snd b)))))
                            (staple_edges s1 cm1 M1))
          (staple_edges s0 cm0 M0).
