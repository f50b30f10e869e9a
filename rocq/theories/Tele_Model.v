(* The contacts between rigid bodies when the scene has portals, in the plane and in space: bodies whose box reaches a plane
   of a portal get a second box where they are seen through it, the grid compares all boxes, and pairs with such an image
   are tested and built with the centres moved through the portals.
   Models /repo/rigidbody2d/RigidBody2DSim.cpp:350-636, 696-714, 877-1064, /repo/rigidbody2d/PlanarPortal.cpp:212-238 and
   /repo/rigidbody3d/RigidBody3DSim.cpp:250-262, 965-1398, /repo/rigidbody3d/Portals/PlanarPortal.cpp:168-180 over the reals
   (release build: the asserts and the debug search for duplicates are not there). *)
From Coq Require Import List Reals Arith NArith Bool.
From Verif Require Import Outcome Portal_Model Grid_Model Ccd_Model Lin_Model ContactRb2_Model ContactRb3_Model Rot_Model Geom_Model Wall_Model Narrow_Model.
Import ListNotations.
Local Open Scope nat_scope.

(* TeleportedBody: the body, the portal and the plane behind an additional box *)
Record shown := Shown { sh_body : nat; sh_portal : nat; sh_plane : bool }.

(* What computeBodyBodyActiveSetSpatialGridWithPortals (RigidBody2DSim.cpp:877-1064) and computeActiveSetBodyBodySpatialGrid
   (RigidBody3DSim.cpp:1072-1260) have in common. They differ in the types and in the functions they call:
   portals [Po], points [Pt], boxes [Bx] and contacts [C] *)
Section Search.
  Context {Po Pt Bx C : Type}.
  Variable touches : Po -> Bx -> option bool.      (* aabbTouchesPortal *)
  Variable through : Po -> bool -> Pt -> outcome Pt. (* teleportPoint *)
  Variable box : nat -> Pt -> Bx.                  (* computeAABB of a body moved to a point *)
  Variable grid : list Bx -> outcome (list (N * N)). (* getPotentialOverlaps *)
  Variable nb : nat.
  Variable fixed : nat -> bool.                    (* isKinematicallyScripted *)
  Variable ps : list Po.
  Variable at1 : nat -> Pt.                        (* the centres in q1 *)
  Variable direct : nat -> nat -> outcome (list C). (* dispatchNarrowPhaseCollision *)
  Variable in_place : nat -> nat -> outcome bool.  (* collisionIsActive *)
  Variable happens : tcoll -> outcome bool.        (* teleportedCollisionIsActive / teleportedCollisionHappens *)
  Variable make : tcoll -> outcome (list C).       (* dispatchTeleportedNarrowPhaseCollision / generateTeleportedCollision *)

  (* 2D :899-928, 3D :1093-1118: one portal and one body *)
  Definition body_image (k : nat) (p : Po) (i : nat) : outcome (list (shown * Bx)) :=
    match touches p (box i (at1 i)) with
    | Some s => let! y := through p s (at1 i) in Ok [(Shown i k s, box i y)]
    | None => Ok []
    end.
  (* the two loops *)
  Definition body_images : outcome (list (shown * Bx)) :=
    gather (flat_map (fun kp => map (body_image (fst kp) (snd kp)) (seq 0 nb)) (combine (seq 0 (length ps)) ps)).
  (* the body, portal and plane behind a box: 2D :955-984, 3D :1151-1180. Every index at or above nb is in the map *)
  Definition behind (ims : list (shown * Bx)) (i : N) : option (nat * option N * bool) :=
    if (i <? N.of_nat nb)%N then Some (N.to_nat i, None, false)
    else match nth_error ims (N.to_nat i - nb) with
         | Some (s, _) => Some (sh_body s, Some (N.of_nat (sh_portal s)), sh_plane s)
         | None => None
         end.
  (* the loop body over the candidates: 2D :941-1008, 3D :1131-1209 *)
  Definition consider (ims : list (shown * Bx)) (acc : list C * list tcoll) (pr : N * N) : outcome (list C * list tcoll) :=
    let '(found, set) := acc in
    let first_teleported := negb (fst pr <? N.of_nat nb)%N in
    let second_teleported := negb (snd pr <? N.of_nat nb)%N in
    if negb first_teleported && negb second_teleported then
      let! cs := direct (N.to_nat (fst pr)) (N.to_nat (snd pr)) in
      Ok (found ++ cs, set)
    else
      match behind ims (fst pr), behind ims (snd pr) with
      | Some (b0, p0, s0), Some (b1, p1, s1) =>
          let! twice := if first_teleported && second_teleported then in_place b0 b1 else Ok false in
          if twice then Ok (found, set)
          else if fixed b0 && fixed b1 then Ok (found, set)
          else
            let c := rb_tcoll (N.of_nat b0) (N.of_nat b1) p0 p1 s0 s1 in
            let! yes := happens c in
            Ok (found, if yes then tinsert c set else set)
      | _, _ => UB
      end.
  (* the whole function; the loop over the set of teleported collisions at 2D :1036-1043, 3D :1236-1243 *)
  Definition search : outcome (list C) :=
    let! ims := body_images in
    let! possible := grid (map (fun i => box i (at1 i)) (seq 0 nb) ++ map snd ims) in
    let! acc := ofold (consider ims) possible ([], []) in
    let! across := gather (map make (snd acc)) in
    Ok (fst acc ++ across).
End Search.

(* ---------- the plane ---------- *)
Section Plane.
  Variable conv : int_floor.
  Variables (nb : nat) (fixed : nat -> bool) (shape : nat -> shape2) (ps : list portal2) (q0 q1 v : dvec).

  (* computeAABB with the angle of q1: RigidBody2DSim.cpp:892-894, 913-915, 590-592 *)
  Definition end_box2 (i : nat) (x : vec) : vec * vec := body2_aabb (Body2 x (q1 (3 * i + 2)) (shape i)).
  (* PlanarPortal::teleportPoint, PlanarPortal.cpp:212-224 *)
  Definition teleport_point2 (p : portal2) (s : bool) (x : vec) : outcome vec := if s then through2_b conv p x else through2_a conv p x.
  Definition grid2 (bs : list (vec * vec)) : outcome (list (N * N)) :=
    getPotentialOverlaps2 real (map (fun b => Grid_Model.Box2 (ar := real) (fst b) (snd b)) bs) [].
  (* collisionIsActive on centres, 350-398 (the angles are not used): CircleCircleConstraint::isActive, 10-13 *)
  Definition active2 (i j : nat) (x y : vec) : outcome bool :=
    match shape i with
    | Circle2 r => match shape j with
                   | Circle2 s => Ok (balls_overlap x y r s)
                   | Box2 _ => Exit
                   end
    | Box2 _ => Exit
    end.
  (* collisionIsActive on indices, 400-411 *)
  Definition in_place2 (i j : nat) : outcome bool := active2 i j (seg2 q1 (3 * i)) (seg2 q1 (3 * j)).
  (* getTeleportedCollisionCenter, 428-440, and the part of getTeleportedCollisionCenters, 442-476, for one body *)
  Definition tele_centre2 (q : dvec) (b : N) (k : option N) (s : bool) : outcome vec :=
    let x := seg2 q (3 * N.to_nat b) in
    match k with
    | None => Ok x
    | Some k => match nth_error ps (N.to_nat k) with Some p => teleport_point2 p s x | None => UB end
    end.
  (* teleportedCollisionIsActive, 413-426 *)
  Definition happens2 (c : tcoll) : outcome bool :=
    let! x0 := tele_centre2 q1 (t_b0 c) (t_p0 c) (t_s0 c) in
    let! x1 := tele_centre2 q1 (t_b1 c) (t_p1 c) (t_s1 c) in
    active2 (N.to_nat (t_b0 c)) (N.to_nat (t_b1 c)) x0 x1.
  (* getKinematicVelocityOfAABB of the body b through portal k, PlanarPortal.cpp:226-238, called at 586-605 *)
  Definition aabb_kick2 (k : option N) (b : N) : outcome vec :=
    match k with
    | None => UB
    | Some k =>
        match nth_error ps (N.to_nat k) with
        | Some p =>
            let bx := end_box2 (N.to_nat b) (seg2 q1 (3 * N.to_nat b)) in
            Ok (vscale (- po_v p) (if aabb_in2 (fst bx) (snd bx) (po_a p) then p_t (po_a p) else p_t (po_b p)))
        | None => UB
        end
    end.
  (* dispatchTeleportedNarrowPhaseCollision, 478-636 *)
  Definition make2 (c : tcoll) : outcome (list rb2_contact) :=
    let i := N.to_nat (t_b0 c) in
    let j := N.to_nat (t_b1 c) in
    if fixed i || fixed j then Exit
    else
      let! x0 := tele_centre2 q0 (t_b0 c) (t_p0 c) (t_s0 c) in
      let! x1 := tele_centre2 q0 (t_b1 c) (t_p1 c) (t_s1 c) in
      let! y0 := tele_centre2 q1 (t_b0 c) (t_p0 c) (t_s0 c) in
      let! y1 := tele_centre2 q1 (t_b1 c) (t_p1 c) (t_s1 c) in
      let! le0 := lees_edwards_index ps (t_p0 c) in
      let! le1 := lees_edwards_index ps (t_p1 c) in
      let! kick := if negb le0 && negb le1 then Ok None
                   else if le1 then let! u := aabb_kick2 (t_p1 c) (t_b1 c) in Ok (Some u)
                   else let! u := aabb_kick2 (t_p0 c) (t_b0 c) in Ok (Some (vneg u)) in
      match shape i, shape j with
      | Circle2 r, Circle2 s =>
          if balls_overlap y0 y1 r s then
            Ok [match kick with
                | None => mk_tele_circle_circle i j x0 x1 r s
                | Some u => mk_kick_circle_circle i j x0 x1 r s u
                end]
          else Ok []
      | _, _ => Exit
      end.
  (* computeBodyBodyActiveSetSpatialGridWithPortals, 877-1064 *)
  Definition portal_set2 : outcome (list rb2_contact) :=
    search (fun p b => aabb_touches2 p (fst b) (snd b)) teleport_point2 end_box2 grid2 nb fixed ps (fun i => seg2 q1 (3 * i))
      (dispatch2 fixed shape q0 q1 v) in_place2 happens2 make2.
  (* computeActiveSet, 696-714 *)
  Definition rb2_active_set_portals (planes : list rb2_plane) : outcome (list rb2_contact) :=
    let! bodies := match ps with [] => body_body_set2 nb fixed shape q0 q1 v | _ :: _ => portal_set2 end in
    Ok (bodies ++ map snd (rb2_plane_set q1 fixed shape nb planes)).
End Plane.

(* ---------- space ---------- *)
Section Space.
  Variable o : narrow3.
  Variables (nb : nat) (fixed : nat -> bool) (shape : nat -> shape3) (ps : list portal3) (q0 q1 : dvec).

  (* computeAABB with the orientation of q1, RigidBody3DSim.cpp:1057-1069, 1110-1114. A mesh without vertices has the box
     ( inf, -inf ) in the code, here the origin *)
  Definition end_box3 (i : nat) (x : v3) : v3 * v3 :=
    match body3_aabb (Body3 x (ori3 nb q1 i) (shape i)) with Some b => b | None => (zero3, zero3) end.
  (* PlanarPortal::teleportPoint, rigidbody3d/Portals/PlanarPortal.cpp:168-180 *)
  Definition teleport_point3 (p : portal3) (s : bool) (x : v3) : outcome v3 := Ok (if s then through3_b p x else through3_a p x).
  Definition grid3 (bs : list (v3 * v3)) : outcome (list (N * N)) :=
    getPotentialOverlaps3 real (map (fun b => Grid_Model.Box3 (ar := real) (c0 (fst b), c1 (fst b), c2 (fst b)) (c0 (snd b), c1 (snd b), c2 (snd b))) bs) [].
  (* 1137-1144: pairs of scripted bodies are left out before dispatchNarrowPhaseCollision, which would also leave them out *)
  Definition direct3 (i j : nat) : outcome (list rb3_contact) :=
    if fixed i && fixed j then Ok [] else dispatch3 o nb fixed shape q0 q1 i j.
  (* collisionIsActive, 965-1054: the case distinction of dispatchNarrowPhaseCollision once more, into a temporary set *)
  Definition in_place3 (i j : nat) : outcome bool :=
    let! cs := dispatch3 o nb fixed shape q0 q1 i j in
    Ok (match cs with [] => false | _ :: _ => true end).
  (* getTeleportedCollisionCenters, 1296-1341, one body *)
  Definition tele_centre3 (q : dvec) (b : N) (k : option N) (s : bool) : outcome v3 :=
    let x := pos3 q (N.to_nat b) in
    match k with
    | None => Ok x
    | Some k => match nth_error ps (N.to_nat k) with Some p => teleport_point3 p s x | None => UB end
    end.
  (* teleportedCollisionHappens, 1262-1294 *)
  Definition happens3 (c : tcoll) : outcome bool :=
    let! x0 := tele_centre3 q1 (t_b0 c) (t_p0 c) (t_s0 c) in
    let! x1 := tele_centre3 q1 (t_b1 c) (t_p1 c) (t_s1 c) in
    match shape (N.to_nat (t_b0 c)), shape (N.to_nat (t_b1 c)) with
    | Sphere3 r, Sphere3 s => Ok (balls_active x0 x1 r s)
    | _, _ => Exit
    end.
  (* generateTeleportedCollision, 1343-1398 *)
  Definition make3 (c : tcoll) : outcome (list rb3_contact) :=
    let i := N.to_nat (t_b0 c) in
    let j := N.to_nat (t_b1 c) in
    match shape i, shape j with
    | Sphere3 r, Sphere3 s =>
        let! x0 := tele_centre3 q0 (t_b0 c) (t_p0 c) (t_s0 c) in
        let! x1 := tele_centre3 q0 (t_b1 c) (t_p1 c) (t_s1 c) in
        if fixed i && negb (fixed j) then Ok [KinSphere j s (normalized3 (sub3 x1 x0)) i]
        else if negb (fixed i) && fixed j then Ok [KinSphere i r (normalized3 (sub3 x0 x1)) j]
        else if negb (fixed i) && negb (fixed j) then Ok [mk_tele_sphere_sphere i j x0 x1 r s]
        else Exit
    | _, _ => Exit
    end.
  (* computeActiveSetBodyBodySpatialGrid, 1072-1260 *)
  Definition portal_set3 : outcome (list rb3_contact) :=
    search (fun p b => aabb_touches3 p (fst b) (snd b)) teleport_point3 end_box3 grid3 nb fixed ps (pos3 q1) direct3 in_place3 happens3 make3.
  (* computeActiveSet, 250-262 *)
  Definition rb3_active_set_portals (planes : list rb3_plane) (cyls : list rb3_cyl) : outcome (list rb3_contact) :=
    let! bodies := portal_set3 in
    let! on_planes := rb3_plane_set nb q0 q1 fixed shape planes in
    let! on_cyls := rb3_cylinder_set nb q0 q1 fixed shape cyls in
    Ok (bodies ++ map snd on_planes ++ map snd on_cyls).
End Space.
