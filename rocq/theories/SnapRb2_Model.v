(* Byte-level model of RigidBody2DSim::serialize / deserialize. *)
From Coq Require Import ZArith NArith String List.
From Verif Require Import Outcome Codec_Model.
Import ListNotations.
Open Scope N_scope.

(* rigidbody2d/RigidBody2DStaticPlane.h *)
Record r2_plane := mkR2Plane {
  r2p_x : list scalar; r2p_n : list scalar; r2p_t : list scalar; r2p_v : list scalar; r2p_omega : scalar }.
(* RigidBody2DStaticPlane.cpp:93-101 *)
Definition enc_r2_plane (p : r2_plane) : bytes :=
  enc_fix (r2p_x p) ++ enc_fix (r2p_n p) ++ enc_fix (r2p_t p) ++ enc_fix (r2p_v p) ++ enc_u64 (r2p_omega p).
(* RigidBody2DStaticPlane.cpp:23-34 *)
Definition p_r2_plane : parser r2_plane :=
  x <-- p_fix 2 ;; n <-- p_fix 2 ;; t <-- p_fix 2 ;; v <-- p_fix 2 ;; omega <-- p_u64 ;;
  pret (mkR2Plane x n t v omega).

(* rigidbody2d/PlanarPortal.h *)
Record r2_portal := mkR2Portal {
  r2o_a : r2_plane; r2o_b : r2_plane; r2o_v : scalar; r2o_bounds : scalar; r2o_dx : scalar }.
(* PlanarPortal.cpp:330-338 *)
Definition enc_r2_portal (p : r2_portal) : bytes :=
  enc_r2_plane (r2o_a p) ++ enc_r2_plane (r2o_b p) ++
  enc_u64 (r2o_v p) ++ enc_u64 (r2o_bounds p) ++ enc_u64 (r2o_dx p).
(* PlanarPortal.cpp:101-109 *)
Definition p_r2_portal : parser r2_portal :=
  a <-- p_r2_plane ;; b <-- p_r2_plane ;; v <-- p_u64 ;; bounds <-- p_u64 ;; dx <-- p_u64 ;;
  pret (mkR2Portal a b v bounds dx).

(* CircleGeometry, BoxGeometry. RigidBody2DGeometryType: CIRCLE = 0, BOX = 1 (4-byte enum) *)
Inductive r2_geo := R2Circle (r : scalar) | R2Box (r : list scalar).
(* CircleGeometry.cpp:52-56, BoxGeometry.cpp:50-54 *)
Definition enc_r2_geo (g : r2_geo) : bytes :=
  match g with
  | R2Circle r => enc_u32 0 ++ enc_u64 r
  | R2Box r => enc_u32 1 ++ enc_fix r
  end.
(* RigidBody2DState.cpp:505-522, loop body. An unknown tag leaves a null pointer that is dereferenced later:
   undefined here already. *)
Definition p_r2_geo : parser r2_geo :=
  t <-- p_u32 ;;
  (if t =? 0 then r <-- p_u64 ;; pret (R2Circle r)
   else if t =? 1 then r <-- p_fix 2 ;; pret (R2Box r)
   else pub).

(* NearEarthGravityForce is the only force. RigidBody2DForceType: NEAR_EARTH_GRAVITY = 0 *)
Inductive r2_force := R2Gravity (g : list scalar).
(* NearEarthGravityForce.cpp:55-59 *)
Definition enc_r2_force (f : r2_force) : bytes := match f with R2Gravity g => enc_u32 0 ++ enc_fix g end.
(* RigidBody2DState.cpp:530-539, loop body *)
Definition p_r2_force : parser r2_force :=
  t <-- p_u32 ;; (if t =? 0 then g <-- p_fix 2 ;; pret (R2Gravity g) else pub).

(* rigidbody2d/RigidBody2DState.h *)
Record r2_state := mkR2State {
  r2s_q : list scalar; r2s_v : list scalar; r2s_M : sparse; r2s_Minv : sparse; r2s_fixed : list bool;
  r2s_geo_idx : list N; r2s_geo : list r2_geo; r2s_forces : list r2_force;
  r2s_planes : list r2_plane; r2s_portals : list r2_portal }.
(* RigidBody2DState.cpp:485-498 *)
Definition enc_r2_state (s : r2_state) : bytes :=
  enc_vecx (r2s_q s) ++ enc_vecx (r2s_v s) ++ enc_sparse (r2s_M s) ++ enc_sparse (r2s_Minv s) ++
  enc_vec enc_bool (r2s_fixed s) ++ enc_vecxu (r2s_geo_idx s) ++ enc_vec enc_r2_geo (r2s_geo s) ++
  enc_vec enc_r2_force (r2s_forces s) ++ enc_vec enc_r2_plane (r2s_planes s) ++ enc_vec enc_r2_portal (r2s_portals s).
(* RigidBody2DState.cpp:542-556 *)
Definition p_r2_state : parser r2_state :=
  q <-- p_vecx ;; v <-- p_vecx ;; M <-- p_sparse ;; Minv <-- p_sparse ;; fixed <-- p_vec p_bool ;;
  gi <-- p_vecxu ;; geo <-- p_vec p_r2_geo ;; forces <-- p_vec p_r2_force ;;
  planes <-- p_vec p_r2_plane ;; portals <-- p_vec p_r2_portal ;;
  pret (mkR2State q v M Minv fixed gi geo forces planes portals).

(* rigidbody2d/ConstraintCache.h: four maps *)
Record r2_cache := mkR2Cache {
  r2c_circle_circle : kmap (list scalar); r2c_body_body : kmap (list scalar);
  r2c_kin_circle : kmap (list scalar); r2c_plane_circle : kmap (list scalar) }.
(* ConstraintCache.cpp:171-178 *)
Definition enc_r2_cache (c : r2_cache) : bytes :=
  enc_cache (r2c_circle_circle c) ++ enc_cache (r2c_body_body c) ++
  enc_cache (r2c_kin_circle c) ++ enc_cache (r2c_plane_circle c).
(* ConstraintCache.cpp:180-192 *)
Definition p_r2_cache : parser r2_cache :=
  a <-- p_cache ;; b <-- p_cache ;; c <-- p_cache ;; d <-- p_cache ;; pret (mkR2Cache a b c d).

Record r2_sim := mkR2Sim { r2_st : r2_state; r2_ca : r2_cache }.
(* RigidBody2DSim.cpp:1140-1145 *)
Definition enc_r2_sim (s : r2_sim) : bytes := enc_r2_state (r2_st s) ++ enc_r2_cache (r2_ca s).
(* RigidBody2DSim.cpp:1147-1152 *)
Definition p_r2_sim : parser r2_sim := s <-- p_r2_state ;; c <-- p_r2_cache ;; pret (mkR2Sim s c).
