(* The contacts between bodies of the planar and the spatial rigid body simulator without portals: candidate pairs from
   the grid, then the narrow phase that knows which shapes and which scripted bodies it can handle.
   Models /repo/rigidbody2d/RigidBody2DSim.cpp:184-348, 696-714, 1066-1099 and
   /repo/rigidbody3d/RigidBody3DSim.cpp:250-262, 665-694, 821-962, 1057-1097 over the reals. *)
From Coq Require Import List Reals Arith NArith Bool.
From Verif Require Import Outcome Grid_Model Ccd_Model Lin_Model ContactRb2_Model ContactRb3_Model Rot_Model Geom_Model Wall_Model.
Import ListNotations.
Local Open Scope nat_scope.

(* ---------- the plane ---------- *)
(* boxBoxNarrowPhaseCollision, RigidBody2DSim.cpp:184-206: tested at q1, built at q0.
   A scripted body ends the program (186-190). When isActive finds a separating axis it adds no points *)
Definition box_box_narrow2 (fixed : nat -> bool) (i j : nat) (ri rj : vec) (q0 q1 : dvec) : outcome (list rb2_contact) :=
  if fixed i || fixed j then Exit
  else
    let! r := box_box (seg2 q1 (3 * i)) (q1 (3 * i + 2)) ri (seg2 q1 (3 * j)) (q1 (3 * j + 2)) rj in
    match r with
    | None => Ok []
    | Some (n, points) => Ok (map (fun p => mk_body_body2 i j p n q0) points)
    end.
(* boxCircleNarrowPhaseCollision, 208-246 *)
Definition box_circle_narrow2 (fixed : nat -> bool) (ic ib : nat) (r : R) (w : vec) (q0 q1 v : dvec) : outcome (list rb2_contact) :=
  if fixed ic then Exit
  else
    match circle_box (seg2 q1 (3 * ic)) r (seg2 q1 (3 * ib)) (q1 (3 * ib + 2)) w with
    | None => Ok []
    | Some (n, p) =>
        if negb (fixed ib) then
          if Nat.ltb ic ib then Ok [mk_body_body2 ic ib p n q0] else Ok [mk_body_body2 ib ic p (vneg n) q0]
        else Ok [KinCircle ic r n ib (seg2 q0 (3 * ib)) (seg2 v (3 * ib)) (v (3 * ib + 2))]
    end.
(* the circle-circle case of the dispatcher, 276-317 *)
Definition circle_circle_narrow2 (fixed : nat -> bool) (i j : nat) (ra rb : R) (q0 q1 v : dvec) : list rb2_contact :=
  match ccd (seg2 q0 (3 * i)) (seg2 q1 (3 * i)) ra (seg2 q0 (3 * j)) (seg2 q1 (3 * j)) rb with
  | None => []
  | Some _ =>
      if negb (fixed j) then [mk_circle_circle i j q0 ra rb]
      else [KinCircle i ra (vnormalized (vsub (seg2 q0 (3 * i)) (seg2 q0 (3 * j)))) j (seg2 q0 (3 * j))
                      (seg2 v (3 * j)) (v (3 * j + 2))]
  end.
(* dispatchNarrowPhaseCollision, 248-348 *)
Definition dispatch2 (fixed : nat -> bool) (shape : nat -> shape2) (q0 q1 v : dvec) (idx0 idx1 : nat) : outcome (list rb2_contact) :=
  if fixed idx0 && fixed idx1 then Ok []
  else
    let i := if fixed idx0 then idx1 else idx0 in
    let j := if fixed idx0 then idx0 else idx1 in
    match shape i, shape j with
    | Circle2 ra, Circle2 rb => Ok (circle_circle_narrow2 fixed i j ra rb q0 q1 v)
    | Circle2 r, Box2 w => box_circle_narrow2 fixed i j r w q0 q1 v
    | Box2 w, Circle2 r => box_circle_narrow2 fixed j i r w q0 q1 v
    | Box2 wi, Box2 wj => box_box_narrow2 fixed i j wi wj q0 q1
    end.
(* computeCollisionAABB of body i as a box of the grid, 1076-1083 *)
Definition collision_box2 (shape : nat -> shape2) (q0 q1 : dvec) (i : nat) : Grid_Model.box2 real :=
  let b := match shape i with
           | Circle2 r => circle_collision_aabb r (seg2 q0 (3 * i)) (q0 (3 * i + 2)) (seg2 q1 (3 * i)) (q1 (3 * i + 2))
           | Box2 w => box_collision_aabb w (seg2 q0 (3 * i)) (q0 (3 * i + 2)) (seg2 q1 (3 * i)) (q1 (3 * i + 2))
           end in
  Grid_Model.Box2 (ar := real) (fst b) (snd b).
(* computeBodyBodyActiveSetSpatialGrid, 1066-1099. The loop over std::set is in increasing order *)
Definition body_body_set2 (nb : nat) (fixed : nat -> bool) (shape : nat -> shape2) (q0 q1 v : dvec) : outcome (list rb2_contact) :=
  let! possible := getPotentialOverlaps2 real (map (collision_box2 shape q0 q1) (seq 0 nb)) [] in
  gather (map (fun p => dispatch2 fixed shape q0 q1 v (N.to_nat (fst p)) (N.to_nat (snd p))) possible).
(* computeActiveSet without portals, 696-714 *)
Definition rb2_active_set (nb : nat) (fixed : nat -> bool) (shape : nat -> shape2) (planes : list rb2_plane) (q0 q1 v : dvec)
  : outcome (list rb2_contact) :=
  let! bodies := body_body_set2 nb fixed shape q0 q1 v in
  Ok (bodies ++ map snd (rb2_plane_set q1 fixed shape nb planes)).

(* ---------- space ---------- *)
(* What BoxBoxUtilities::isActive and MeshMeshUtilities::computeActiveSet return at q1: contact points with normals.
   Neither is modelled here. *)
Record narrow3 := Narrow3 {
  n3_box_box : v3 -> m3 -> v3 -> v3 -> m3 -> v3 -> list (v3 * v3);
  n3_mesh_mesh : v3 -> m3 -> list v3 -> v3 -> m3 -> list v3 -> list (v3 * v3) }.
(* boxBoxNarrowPhaseCollision, RigidBody3DSim.cpp:679-693, and meshMeshNarrowPhaseCollision, 863-875: the contacts of body i
   with body j, which may be scripted *)
Definition contacts3 (fixed : nat -> bool) (i j : nat) (q0 : dvec) (points : list (v3 * v3)) : list rb3_contact :=
  map (fun pn => if negb (fixed j) then mk_body_body3 i j (fst pn) (snd pn) q0 else mk_kin_body i j (fst pn) (snd pn) q0) points.
(* dispatchNarrowPhaseCollision, 879-962. stapleStapleNarrowPhaseCollision, 821-842, ends the program in
   StapleStapleUtilities::computeConstraints as soon as the staples touch *)
Definition dispatch3 (o : narrow3) (nb : nat) (fixed : nat -> bool) (shape : nat -> shape3) (q0 q1 : dvec) (first second : nat)
  : outcome (list rb3_contact) :=
  if fixed first && fixed second then Ok []
  else
    let i := if fixed first then second else first in
    let j := if fixed first then first else second in
    match shape i, shape j with
    | Box3 wi, Box3 wj => Ok (contacts3 fixed i j q0 (n3_box_box o (pos3 q1 i) (ori3 nb q1 i) wi (pos3 q1 j) (ori3 nb q1 j) wj))
    | Sphere3 ri, Sphere3 rj => Ok (sphere_sphere_narrow i j ri rj (fixed j) q0 q1)
    | Staple3 si, Staple3 sj =>
        if staple_staple (pos3 q1 i) (ori3 nb q1 i) si (pos3 q1 j) (ori3 nb q1 j) sj then Exit else Ok []
    | Mesh3 mi, Mesh3 mj => Ok (contacts3 fixed i j q0 (n3_mesh_mesh o (pos3 q1 i) (ori3 nb q1 i) mi (pos3 q1 j) (ori3 nb q1 j) mj))
    | _, _ => Exit
    end.
(* generateAABBs, 1057-1069. A mesh without vertices has the box ( inf, -inf ) in the code, here the origin *)
Definition aabb3 (nb : nat) (shape : nat -> shape3) (q : dvec) (i : nat) : Grid_Model.box3 real :=
  match body3_aabb (Body3 (pos3 q i) (ori3 nb q i) (shape i)) with
  | Some (lo, up) => Grid_Model.Box3 (ar := real) (c0 lo, c1 lo, c2 lo) (c0 up, c1 up, c2 up)
  | None => Grid_Model.Box3 (ar := real) (0, 0, 0)%R (0, 0, 0)%R
  end.
(* computeActiveSetBodyBodySpatialGrid, 1072-1260, when there are no portals *)
Definition body_body_set3 (o : narrow3) (nb : nat) (fixed : nat -> bool) (shape : nat -> shape3) (q0 q1 : dvec) : outcome (list rb3_contact) :=
  let! possible := getPotentialOverlaps3 real (map (aabb3 nb shape q1) (seq 0 nb)) [] in
  gather (map (fun p => dispatch3 o nb fixed shape q0 q1 (N.to_nat (fst p)) (N.to_nat (snd p))) possible).
(* computeActiveSet, 250-262 *)
Definition rb3_active_set (o : narrow3) (nb : nat) (fixed : nat -> bool) (shape : nat -> shape3) (planes : list rb3_plane) (cyls : list rb3_cyl)
    (q0 q1 : dvec) : outcome (list rb3_contact) :=
  let! bodies := body_body_set3 o nb fixed shape q0 q1 in
  let! on_planes := rb3_plane_set nb q0 q1 fixed shape planes in
  let! on_cyls := rb3_cylinder_set nb q0 q1 fixed shape cyls in
  Ok (bodies ++ map snd on_planes ++ map snd on_cyls).
