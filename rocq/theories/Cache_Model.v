(* The impulse caches used to warm start the contact solvers, and the code that fills and reads
   them.

   Sources: /repo/ball2d/ConstraintCache.cpp, /repo/rigidbody2d/ConstraintCache.cpp,
   /repo/rigidbody3d/ConstraintCache.cpp,
   /repo/scisim/ConstrainedMaps/ImpactMaps/ImpactMap.cpp,
   /repo/scisim/ConstrainedMaps/GeometricImpactFrictionMap.cpp,
   /repo/scisim/ConstrainedMaps/SymplecticEulerImpactFrictionMap.cpp.

   A contact is what Constraint::name() and the body/plane indices of the constraint object say;
   the cached vector is a list of scalars of any type A (Codec_Model's kmap is std::map over pairs
   of unsigned).  Release build: the asserts that a constraint is not met twice are off, so
   std::map::insert silently keeps the first vector. *)
From Coq Require Import List NArith Reals.
From Verif Require Import Outcome Codec_Model Lin_Model.
Import ListNotations.
Open Scope N_scope.

Section Caches.
Variable A : Type.
Variable zero : A.

(* r = map_iterator->second when found, r.setZero() (r keeps its n entries) otherwise *)
Definition found_or_zero (n : nat) (o : option (list A)) : list A :=
  match o with
  | Some r => r
  | None => repeat zero n
  end.

(* ---------------- 2D balls ---------------- *)
(* the constraint classes of /repo/ball2d/Constraints: BallBallConstraint, TeleportedBallBall...,
   KinematicKickBallBall..., TeleportedKinematicKick..., StaticPlaneConstraint,
   StaticDrumConstraint *)
Inductive ball_contact :=
| BallBall (i j : N)
| TeleportedBallBall (i j : N)
| KickBallBall (i j : N)
| TeleportedKickBallBall (i j : N)
| BallPlane (plane ball : N)
| BallDrum (drum ball : N).

(* ball2d/ConstraintCache.h *)
Record ball_cache := mkBallCache {
  bc_ball_ball : kmap (list A); bc_plane_ball : kmap (list A); bc_drum_ball : kmap (list A) }.

(* ball2d/ConstraintCache.cpp:20-57 *)
Definition ball_cache_put (c : ball_contact) (r : list A) (t : ball_cache) : outcome ball_cache :=
  match c with
  | BallBall i j => Ok (mkBallCache (kinsert (i, j) r (bc_ball_ball t)) (bc_plane_ball t) (bc_drum_ball t))
  | BallPlane p b => Ok (mkBallCache (bc_ball_ball t) (kinsert (p, b) r (bc_plane_ball t)) (bc_drum_ball t))
  | BallDrum d b => Ok (mkBallCache (bc_ball_ball t) (bc_plane_ball t) (kinsert (d, b) r (bc_drum_ball t)))
  | _ => Exit
  end.

(* ball2d/ConstraintCache.cpp:59-64 *)
Definition ball_cache_clear (t : ball_cache) : ball_cache := mkBallCache [] [] [].

(* ball2d/ConstraintCache.cpp:66-69 *)
Definition ball_cache_empty (t : ball_cache) : bool :=
  match bc_ball_ball t, bc_plane_ball t, bc_drum_ball t with
  | [], [], [] => true
  | _, _, _ => false
  end.

(* ball2d/ConstraintCache.cpp:71-123; n is the size of the vector r passed in *)
Definition ball_cache_get (c : ball_contact) (n : nat) (t : ball_cache) : outcome (list A) :=
  match c with
  | BallBall i j => Ok (found_or_zero n (kfind (i, j) (bc_ball_ball t)))
  | BallPlane p b => Ok (found_or_zero n (kfind (p, b) (bc_plane_ball t)))
  | BallDrum d b => Ok (found_or_zero n (kfind (d, b) (bc_drum_ball t)))
  | _ => Exit
  end.

(* ---------------- 2D rigid bodies ---------------- *)
(* the constraint classes of /repo/rigidbody2d: CircleCircle, TeleportedCircleCircle,
   KinematicKickCircleCircle, BodyBody, KinematicObjectCircle, StaticPlaneCircle,
   StaticPlaneBody *)
Inductive rb2_contact :=
| CircleCircle (i j : N)
| TeleportedCircleCircle (i j : N)
| KickCircleCircle (i j : N)
| BodyBody2 (i j : N)
| KinCircle (circle kinematic : N)
| PlaneCircle (plane circle : N)
| PlaneBody2 (plane body : N).

(* rigidbody2d/ConstraintCache.h *)
Record rb2_cache := mkRb2Cache {
  rc2_circle_circle : kmap (list A); rc2_body_body : kmap (list A);
  rc2_kin_circle : kmap (list A); rc2_plane_circle : kmap (list A) }.

(* rigidbody2d/ConstraintCache.cpp:14-61; simulatedBody0/1, body0/1 and getStaticObjectIndex are
   the indices the constraint was built with *)
Definition rb2_cache_put (c : rb2_contact) (r : list A) (t : rb2_cache) : outcome rb2_cache :=
  match c with
  | CircleCircle i j =>
      Ok (mkRb2Cache (kinsert (i, j) r (rc2_circle_circle t)) (rc2_body_body t) (rc2_kin_circle t) (rc2_plane_circle t))
  | BodyBody2 i j =>
      Ok (mkRb2Cache (rc2_circle_circle t) (kinsert (i, j) r (rc2_body_body t)) (rc2_kin_circle t) (rc2_plane_circle t))
  | KinCircle b k =>
      Ok (mkRb2Cache (rc2_circle_circle t) (rc2_body_body t)
                     (kinsert (N.min b k, N.max b k) r (rc2_kin_circle t)) (rc2_plane_circle t))
  | PlaneCircle p b =>
      Ok (mkRb2Cache (rc2_circle_circle t) (rc2_body_body t) (rc2_kin_circle t) (kinsert (p, b) r (rc2_plane_circle t)))
  | _ => Exit
  end.

(* rigidbody2d/ConstraintCache.cpp:63-69 *)
Definition rb2_cache_clear (t : rb2_cache) : rb2_cache := mkRb2Cache [] [] [] [].

(* rigidbody2d/ConstraintCache.cpp:71-74 *)
Definition rb2_cache_empty (t : rb2_cache) : bool :=
  match rc2_circle_circle t, rc2_body_body t, rc2_kin_circle t, rc2_plane_circle t with
  | [], [], [], [] => true
  | _, _, _, _ => false
  end.

(* rigidbody2d/ConstraintCache.cpp:76-138 *)
Definition rb2_cache_get (c : rb2_contact) (n : nat) (t : rb2_cache) : outcome (list A) :=
  match c with
  | CircleCircle i j => Ok (found_or_zero n (kfind (i, j) (rc2_circle_circle t)))
  | BodyBody2 i j => Ok (found_or_zero n (kfind (i, j) (rc2_body_body t)))
  | KinCircle b k => Ok (found_or_zero n (kfind (N.min b k, N.max b k) (rc2_kin_circle t)))
  | PlaneCircle p b => Ok (found_or_zero n (kfind (p, b) (rc2_plane_circle t)))
  | _ => Exit
  end.

(* ---------------- 3D rigid bodies ---------------- *)
(* the constraint classes of /repo/rigidbody3d/Constraints *)
Inductive rb3_contact :=
| SphereSphere (i j : N)
| TeleportedSphereSphere (i j : N)
| SphereBody (sphere body : N)
| BodyBody3 (i j : N)
| KinSphereSphere (kinematic sphere : N)
| KinObjectSphere (kinematic sphere : N)
| KinObjectBody (kinematic body : N)
| PlaneSphere (plane sphere : N)
| PlaneBody3 (plane body : N)
| PlaneBox (plane box : N)
| CylinderSphere (cylinder sphere : N)
| CylinderBody (cylinder body : N).

(* rigidbody3d/ConstraintCache.h *)
Record rb3_cache := mkRb3Cache {
  rc3_sphere_sphere : kmap (list A); rc3_plane_sphere : kmap (list A);
  rc3_cylinder_sphere : kmap (list A); rc3_kin_sphere : kmap (list A) }.

(* rigidbody3d/ConstraintCache.cpp:14-72 *)
Definition rb3_cache_put (c : rb3_contact) (r : list A) (t : rb3_cache) : outcome rb3_cache :=
  match c with
  | SphereSphere i j =>
      Ok (mkRb3Cache (kinsert (i, j) r (rc3_sphere_sphere t)) (rc3_plane_sphere t) (rc3_cylinder_sphere t) (rc3_kin_sphere t))
  | PlaneSphere p s =>
      Ok (mkRb3Cache (rc3_sphere_sphere t) (kinsert (p, s) r (rc3_plane_sphere t)) (rc3_cylinder_sphere t) (rc3_kin_sphere t))
  | CylinderSphere c s =>
      Ok (mkRb3Cache (rc3_sphere_sphere t) (rc3_plane_sphere t) (kinsert (c, s) r (rc3_cylinder_sphere t)) (rc3_kin_sphere t))
  | KinSphereSphere k s =>
      Ok (mkRb3Cache (rc3_sphere_sphere t) (rc3_plane_sphere t) (rc3_cylinder_sphere t) (kinsert (k, s) r (rc3_kin_sphere t)))
  | _ => Exit
  end.

(* rigidbody3d/ConstraintCache.cpp:74-80 *)
Definition rb3_cache_clear (t : rb3_cache) : rb3_cache := mkRb3Cache [] [] [] [].

(* rigidbody3d/ConstraintCache.cpp:82-86 *)
Definition rb3_cache_empty (t : rb3_cache) : bool :=
  match rc3_sphere_sphere t, rc3_plane_sphere t, rc3_cylinder_sphere t, rc3_kin_sphere t with
  | [], [], [], [] => true
  | _, _, _, _ => false
  end.

(* rigidbody3d/ConstraintCache.cpp:88-168 *)
Definition rb3_cache_get (c : rb3_contact) (n : nat) (t : rb3_cache) : outcome (list A) :=
  match c with
  | SphereSphere i j => Ok (found_or_zero n (kfind (i, j) (rc3_sphere_sphere t)))
  | PlaneSphere p s => Ok (found_or_zero n (kfind (p, s) (rc3_plane_sphere t)))
  | CylinderSphere c s => Ok (found_or_zero n (kfind (c, s) (rc3_cylinder_sphere t)))
  | KinSphereSphere k s => Ok (found_or_zero n (kfind (k, s) (rc3_kin_sphere t)))
  | _ => Exit
  end.

(* ---------------- the interface the maps use ---------------- *)
(* ConstrainedSystem: cacheConstraint, getCachedConstraintImpulse, clearConstraintCache,
   constraintCacheEmpty.  Ball2DSim.cpp:203-221, RigidBody2DSim.cpp:744-762 and
   RigidBody3DSim.cpp:292-310 forward to the three classes above. *)
Record cache_ops (C T : Type) := mkOps {
  op_put : C -> list A -> T -> outcome T;
  op_get : C -> nat -> T -> outcome (list A);
  op_clear : T -> T;
  op_empty : T -> bool }.
Arguments op_put {C T}. Arguments op_get {C T}. Arguments op_clear {C T}. Arguments op_empty {C T}.

Definition ball_ops : cache_ops ball_contact ball_cache :=
  mkOps _ _ ball_cache_put ball_cache_get ball_cache_clear ball_cache_empty.
Definition rb2_ops : cache_ops rb2_contact rb2_cache :=
  mkOps _ _ rb2_cache_put rb2_cache_get rb2_cache_clear rb2_cache_empty.
Definition rb3_ops : cache_ops rb3_contact rb3_cache :=
  mkOps _ _ rb3_cache_put rb3_cache_get rb3_cache_clear rb3_cache_empty.

(* ---------------- warm starting ---------------- *)
Section Maps.
Context {C T : Type}.
Variable ops : cache_ops C T.

(* cached_impulse( k ): reading past the end of the vector is undefined *)
Definition coeff (k : nat) (r : list A) : outcome A :=
  match nth_error r k with
  | Some x => Ok x
  | None => UB
  end.

(* the loop of ImpactMap.cpp:83-92, and of case NORMAL in GeometricImpactFrictionMap.cpp:184-195
   and SymplecticEulerImpactFrictionMap.cpp:59-72 *)
Definition read_normal (active : list C) (t : T) : outcome (list A) :=
  omapM (fun c => let! r := op_get ops c 1 t in coeff 0 r) active.

(* case NORMAL_AND_FRICTION in two dimensions: GeometricImpactFrictionMap.cpp:198-209,
   SymplecticEulerImpactFrictionMap.cpp:75-86 *)
Definition read_planar (active : list C) (t : T) : outcome (list (A * A)) :=
  omapM (fun c => let! r := op_get ops c 2 t in
                  let! a := coeff 0 r in let! b := coeff 1 r in Ok (a, b)) active.

(* the loops of ImpactMap.cpp:159-169, GeometricImpactFrictionMap.cpp:229-240 and
   SymplecticEulerImpactFrictionMap.cpp:142-153, and their planar counterparts
   (GeometricImpactFrictionMap.cpp:243-254, SymplecticEulerImpactFrictionMap.cpp:157-169) *)
Definition write_all (l : list (C * list A)) (t : T) : outcome T :=
  ofold (fun t e => op_put ops (fst e) (snd e) t) l t.

(* ImpactMap::flow, ImpactMap.cpp:51-188, as it touches the cache: no contacts, clear and return;
   otherwise read when warm starting (zeros when not), clear, solve, and store when warm starting.
   The solver is an arbitrary function of the contacts and the initial guess.  The result is the
   initial guess, the solution and the new cache. *)
Definition impact_map_step (warm : bool) (solve : list C -> list A -> list A) (active : list C) (t : T)
  : outcome (list A * list A * T) :=
  match active with
  | [] => Ok ([], [], op_clear ops t)
  | _ =>
      let! alpha := (if warm then read_normal active t else Ok (repeat zero (length active))) in
      let t1 := op_clear ops t in
      let alpha1 := solve active alpha in
      let! t2 := (if warm then write_all (combine active (map (fun a => [a]) alpha1)) t1 else Ok t1) in
      Ok (alpha, alpha1, t2)
  end.

(* enum class ImpulsesToCache *)
Inductive cache_mode := CacheNone | CacheNormal | CacheNormalAndFriction.

(* GeometricImpactFrictionMap::flow, GeometricImpactFrictionMap.cpp:267-442, as it touches the
   cache, with initializeImpulses (:174-220) and cacheImpulses (:222-264), and
   SymplecticEulerImpactFrictionMap::flow in two dimensions (:201-408, :48-131, :133-198).
   One friction coefficient per contact (two dimensions); the three dimensional case of
   GeometricImpactFrictionMap ends the program. *)
Definition friction_map_step (mode : cache_mode) (three_d : bool)
           (solve : list C -> list (A * A) -> list (A * A)) (active : list C) (t : T)
  : outcome (list (A * A) * list (A * A) * T) :=
  match active with
  | [] => Ok ([], [], op_clear ops t)
  | _ =>
      match mode with
      | CacheNone =>
          let x := repeat (zero, zero) (length active) in Ok (x, solve active x, t)
      | CacheNormal =>
          let! alpha := read_normal active t in
          let x := map (fun a => (a, zero)) alpha in
          let y := solve active x in
          let! t2 := write_all (combine active (map (fun ab => [fst ab]) y)) (op_clear ops t) in
          Ok (x, y, t2)
      | CacheNormalAndFriction =>
          if three_d then Exit else
          let! x := read_planar active t in
          let y := solve active x in
          let! t2 := write_all (combine active (map (fun ab => [fst ab; snd ab]) y)) (op_clear ops t) in
          Ok (x, y, t2)
      end
  end.
End Maps.
End Caches.

Arguments op_put {A C T}. Arguments op_get {A C T}. Arguments op_clear {A C T}. Arguments op_empty {A C T}.

(* ---------------- warm starting with friction in three dimensions ---------------- *)
Open Scope R_scope.

(* the columns of the contact basis: normal and two tangents *)
Record frame := mkFrame { f_n : v3; f_s : v3; f_t : v3 }.

(* cached_impulse.segment<3>( k ); reading past the end is undefined *)
Definition seg3_list (k : nat) (r : list R) : outcome v3 :=
  let! a := coeff _ k r in let! b := coeff _ (k + 1) r in let! c := coeff _ (k + 2) r in Ok (V3 a b c).

Section Spatial.
Context {C T : Type}.
Variable ops : cache_ops R C T.
(* Quaternions::FromTwoVectors( a, b ) acting on a vector: Eigen's code, a parameter here *)
Variable turn : v3 -> v3 -> v3 -> v3.

(* all entries zero *)
Definition all_zero (r : list R) : bool := forallb (fun x => if Req_EM_T x 0 then true else false) r.

(* SymplecticEulerImpactFrictionMap.cpp:92-117: one contact, initial ( alpha, beta0, beta1 ) *)
Definition read_spatial1 (basis : C -> frame) (t : T) (c : C) : outcome (R * R * R) :=
  let! r := op_get ops c 6 t in
  if all_zero r then Ok (0, 0, 0) else
  let! n := seg3_list 0 r in
  let! g := seg3_list 3 r in
  let f := turn n (f_n (basis c)) g in
  Ok (dot3 f (f_n (basis c)), dot3 f (f_s (basis c)), dot3 f (f_t (basis c))).

(* alpha n + beta0 s + beta1 t *)
Definition world_force (b : frame) (x : R * R * R) : v3 :=
  let '(a, b0, b1) := x in
  add3 (add3 (scale3 a (f_n b)) (scale3 b0 (f_s b))) (scale3 b1 (f_t b)).

(* SymplecticEulerImpactFrictionMap.cpp:177-193: the stored vector, the normal then the force *)
Definition pack_spatial (b : frame) (x : R * R * R) : list R :=
  let f := world_force b x in
  [c0 (f_n b); c1 (f_n b); c2 (f_n b); c0 f; c1 f; c2 f].

(* SymplecticEulerImpactFrictionMap::flow in mode NORMAL_AND_FRICTION, three dimensions
   (:201-408, :88-121, :171-196) *)
Definition spatial_step (basis : C -> frame) (solve : list C -> list (R * R * R) -> list (R * R * R))
           (active : list C) (t : T) : outcome (list (R * R * R) * list (R * R * R) * T) :=
  match active with
  | [] => Ok ([], [], op_clear ops t)
  | _ =>
      let! x := omapM (read_spatial1 basis t) active in
      let y := solve active x in
      let! t2 := write_all R ops (combine active (map (fun cx => pack_spatial (basis (fst cx)) (snd cx))
                                                      (combine active y))) (op_clear ops t) in
      Ok (x, y, t2)
  end.
End Spatial.

(* Eigen's Quaternion::FromTwoVectors( a, b ) applied to a vector, for unit a and b: the rotation
   about a x b when a . b > -1; for opposite vectors Eigen takes some axis perpendicular to a and
   turns by pi.  Simplified: exact square roots cancel (w and the vector part of the quaternion only
   appear as products), and Eigen's cut-over at a . b < -1 + 1e-12 is taken at -1. *)
Definition perpendicular (a : v3) : v3 :=
  if Req_EM_T (c0 a * c0 a + c1 a * c1 a) 0 then V3 1 0 0
  else scale3 (/ sqrt (c0 a * c0 a + c1 a * c1 a)) (V3 (- c1 a) (c0 a) 0).
Definition from_two_vectors (a b x : v3) : v3 :=
  let c := dot3 a b in
  let k := cross3 a b in
  if Req_EM_T (1 + c) 0 then
    let u := perpendicular a in sub3 (scale3 (2 * dot3 u x) u) x
  else add3 (add3 x (cross3 k x)) (scale3 (/ (1 + c)) (cross3 k (cross3 k x))).

(* ---------------- deleting a body between steps ---------------- *)
(* rigidbody2d/PythonScripting.cpp:539-575 and RigidBody2DState.cpp:263-347: bodies above a removed
   body move down by one; the impulse cache is not touched *)
Definition after_removal (removed i : N) : N := (if N.ltb removed i then i - 1 else i)%N.
