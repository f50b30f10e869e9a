(* The script calls that name a plane, cylinder, contact or force by index:
   /repo/ball2d/PythonScripting.cpp, /repo/rigidbody2d/PythonScripting.cpp, /repo/rigidbody3d/PythonScripting.cpp. *)
From Coq Require Import ZArith List Reals Arith Bool.
From Verif Require Import Outcome Ccd_Model Lin_Model State_Model.
Import ListNotations.
Open Scope outcome_scope.

(* /repo/ball2d/StaticGeometry/StaticPlane.h; /repo/rigidbody2d/RigidBody2DStaticPlane.h;
   /repo/rigidbody3d/StaticGeometry/StaticPlane.h; /repo/rigidbody3d/StaticGeometry/StaticCylinder.h *)
Record bplane := BPlane { bp_x : vec; bp_v : vec; bp_n : vec; bp_t : vec }.
Record rplane := RPlane { rp_x : vec; rp_n : vec; rp_t : vec; rp_v : vec; rp_omega : R }.
Record plane3 := Plane3 { p3_x : v3; p3_n : v3; p3_v : v3; p3_omega : v3 }.
Record cyl := Cyl { cy_x : v3; cy_n : v3; cy_theta : R; cy_v : v3; cy_omega : v3; cy_r : R }.

(* What the calls reach: s_ball_state->staticPlanes(), s_state->planes(), s_sim_state->staticPlanes(),
   staticCylinders(), forces() and *s_active_set. Kinds of contact are numbers here instead of name() strings.
   NearEarthGravityForce is the only kind of 3D force, and is its acceleration here. *)
Record world := World { w_bp : list bplane; w_rp : list rplane; w_p3 : list plane3; w_cy : list cyl;
                        w_con : list (nat * (Z * Z)); w_grav : list v3 }.

Inductive script_call :=
| BPosition (i : Z) (x : vec) | BVelocity (i : Z) (v : vec) | BDelete (i : Z)
| RPosition (i : Z) (x : vec) | RVelocity (i : Z) (v : vec) | RNormal (i : Z) (n : vec) | ROmega (i : Z) (w : R) | RDelete (i : Z)
| PPosition (i : Z) (x : v3) | PVelocity (i : Z) (v : v3)
| COrientation (i : Z) (axis : v3) (theta : R) | COmega (i : Z) (w : v3)
| CollisionType (i : Z) | CollisionIndices (i : Z)
| ForceType (i : Z) | SetGravity (i : Z) (g : v3).

Inductive answer := Nothing | Kind (k : nat) | Bodies (a b : Z) | Gravity.

(* PyArg_ParseTuple( args, "I", &idx ) stores a Python integer in an unsigned without an overflow check *)
Definition parse_unsigned (i : Z) : nat := Z.to_nat (i mod 2 ^ 32).

(* if( idx > list.size() ) exit( EXIT_FAILURE ); list[ idx ] *)
Definition checked {A B} (l : list A) (i : Z) (f : A -> outcome B) : outcome B :=
  let k := parse_unsigned i in
  if Nat.ltb (length l) k then Exit else let! x := oget l k in f x.
Definition change {A} (l : list A) (i : Z) (f : A -> A) : outcome (list A) :=
  checked l i (fun x => oset l (parse_unsigned i) (f x)).
(* std::vector::erase( begin() + k ): moves the later elements down one place and drops the last; k must not be end() *)
Fixpoint erase_at {A} (l : list A) (k : nat) : list A :=
  match l, k with
  | [], _ => []
  | _ :: r, O => r
  | x :: r, S k => x :: erase_at r k
  end.
Definition erase {A} (l : list A) (i : Z) : outcome (list A) := checked l i (fun _ => Ok (erase_at l (parse_unsigned i))).

Definition set_bp w l := World l (w_rp w) (w_p3 w) (w_cy w) (w_con w) (w_grav w).
Definition set_rp w l := World (w_bp w) l (w_p3 w) (w_cy w) (w_con w) (w_grav w).
Definition set_p3 w l := World (w_bp w) (w_rp w) l (w_cy w) (w_con w) (w_grav w).
Definition set_cy w l := World (w_bp w) (w_rp w) (w_p3 w) l (w_con w) (w_grav w).
Definition set_grav w l := World (w_bp w) (w_rp w) (w_p3 w) (w_cy w) (w_con w) l.

Open Scope R_scope.
Definition script (w : world) (c : script_call) : outcome (world * answer) :=
  match c with
  (* ball2d: setStaticPlanePosition 408-430, setStaticPlaneVelocity 432-454, deleteStaticPlane 456-474 *)
  | BPosition i x => let! l := change (w_bp w) i (fun p => BPlane x (bp_v p) (bp_n p) (bp_t p)) in Ok (set_bp w l, Nothing)
  | BVelocity i v => let! l := change (w_bp w) i (fun p => BPlane (bp_x p) v (bp_n p) (bp_t p)) in Ok (set_bp w l, Nothing)
  | BDelete i => let! l := erase (w_bp w) i in Ok (set_bp w l, Nothing)
  (* rigidbody2d: setStaticPlanePosition 357-379, setStaticPlaneVelocity 381-403, setStaticPlaneNormal 405-427,
     setStaticPlaneAngularVelocity 429-450, deleteStaticPlane 452-470; RigidBody2DStaticPlane.cpp:61-81 *)
  | RPosition i x => let! l := change (w_rp w) i (fun p => RPlane x (rp_n p) (rp_t p) (rp_v p) (rp_omega p)) in Ok (set_rp w l, Nothing)
  | RVelocity i v => let! l := change (w_rp w) i (fun p => RPlane (rp_x p) (rp_n p) (rp_t p) v (rp_omega p)) in Ok (set_rp w l, Nothing)
  | RNormal i n =>
      let! l := change (w_rp w) i (fun p => let m := vnormalized n in RPlane (rp_x p) m (- snd m, fst m) (rp_v p) (rp_omega p)) in
      Ok (set_rp w l, Nothing)
  | ROmega i o => let! l := change (w_rp w) i (fun p => RPlane (rp_x p) (rp_n p) (rp_t p) (rp_v p) o) in Ok (set_rp w l, Nothing)
  | RDelete i => let! l := erase (w_rp w) i in Ok (set_rp w l, Nothing)
  (* rigidbody3d: setStaticPlanePosition 385-406, setStaticPlaneVelocity 408-429, setStaticCylinderOrientation 438-465
     with StaticCylinder.cpp:61-66, setStaticCylinderAngularVelocity 467-488 *)
  | PPosition i x => let! l := change (w_p3 w) i (fun p => Plane3 x (p3_n p) (p3_v p) (p3_omega p)) in Ok (set_p3 w l, Nothing)
  | PVelocity i v => let! l := change (w_p3 w) i (fun p => Plane3 (p3_x p) (p3_n p) v (p3_omega p)) in Ok (set_p3 w l, Nothing)
  | COrientation i axis theta =>
      if Nat.ltb (length (w_cy w)) (parse_unsigned i) then Exit
      else if Rlt_dec (1 / 1000000) (Rabs (sqrt (dot3 axis axis) - 1)) then Exit
      else let! l := change (w_cy w) i (fun p => Cyl (cy_x p) (normalized3 axis) theta (cy_v p) (cy_omega p) (cy_r p)) in
           Ok (set_cy w l, Nothing)
  | COmega i o => let! l := change (w_cy w) i (fun p => Cyl (cy_x p) (cy_n p) (cy_theta p) (cy_v p) o (cy_r p)) in Ok (set_cy w l, Nothing)
  (* collisionType: ball2d 505-522, rigidbody3d 519-536; collisionIndices: ball2d 524-546, rigidbody3d 538-562 *)
  | CollisionType i => checked (w_con w) i (fun p => Ok (w, Kind (fst p)))
  | CollisionIndices i => checked (w_con w) i (fun p => Ok (w, Bodies (fst (snd p)) (snd (snd p))))
  (* rigidbody3d: forceType 571-588, setGravityForce 590-612 *)
  | ForceType i => checked (w_grav w) i (fun _ => Ok (w, Gravity))
  | SetGravity i g => let! l := change (w_grav w) i (fun _ => g) in Ok (set_grav w l, Nothing)
  end.
Definition scripts (w : world) (cs : list script_call) : outcome world :=
  ofold (fun w c => let! r := script w c in Ok (fst r)) cs w.
