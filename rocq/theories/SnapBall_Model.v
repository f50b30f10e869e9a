(* Byte-level model of Ball2DSim::serialize / deserialize. Vector2s are lists of two scalars. *)
From Coq Require Import ZArith NArith String List.
From Verif Require Import Outcome Codec_Model.
Import ListNotations.
Open Scope N_scope.

(* ball2d/StaticGeometry/StaticPlane.h: members m_x, m_v, m_n, m_t *)
Record b2_plane := mkB2Plane { b2p_x : list scalar; b2p_v : list scalar; b2p_n : list scalar; b2p_t : list scalar }.
(* StaticPlane.cpp:81-88 *)
Definition enc_b2_plane (p : b2_plane) : bytes :=
  enc_fix (b2p_x p) ++ enc_fix (b2p_v p) ++ enc_fix (b2p_n p) ++ enc_fix (b2p_t p).
(* StaticPlane.cpp:22-32 *)
Definition p_b2_plane : parser b2_plane :=
  x <-- p_fix 2 ;; v <-- p_fix 2 ;; n <-- p_fix 2 ;; t <-- p_fix 2 ;; pret (mkB2Plane x v n t).

(* ball2d/StaticGeometry/StaticDrum.h *)
Record b2_drum := mkB2Drum { b2d_x : list scalar; b2d_r : scalar }.
(* StaticDrum.cpp:35-40 *)
Definition enc_b2_drum (d : b2_drum) : bytes := enc_fix (b2d_x d) ++ enc_u64 (b2d_r d).
(* StaticDrum.cpp:18-23 *)
Definition p_b2_drum : parser b2_drum := x <-- p_fix 2 ;; r <-- p_u64 ;; pret (mkB2Drum x r).

(* ball2d/Portals/PlanarPortal.h *)
Record b2_portal := mkB2Portal {
  b2o_a : b2_plane; b2o_b : b2_plane; b2o_v : scalar; b2o_bounds : scalar; b2o_dx : scalar }.
(* PlanarPortal.cpp:222-230 *)
Definition enc_b2_portal (p : b2_portal) : bytes :=
  enc_b2_plane (b2o_a p) ++ enc_b2_plane (b2o_b p) ++
  enc_u64 (b2o_v p) ++ enc_u64 (b2o_bounds p) ++ enc_u64 (b2o_dx p).
(* PlanarPortal.cpp:68-76 *)
Definition p_b2_portal : parser b2_portal :=
  a <-- p_b2_plane ;; b <-- p_b2_plane ;; v <-- p_u64 ;; bounds <-- p_u64 ;; dx <-- p_u64 ;;
  pret (mkB2Portal a b v bounds dx).

(* The two force classes of ball2d/Forces *)
Inductive b2_force :=
| B2Gravity (g : list scalar)            (* Ball2DGravityForce *)
| B2Penalty (k power : scalar).          (* PenaltyForce *)
(* Ball2DGravityForce.cpp:54-59, PenaltyForce.cpp:100-106 *)
Definition enc_b2_force (f : b2_force) : bytes :=
  match f with
  | B2Gravity g => enc_string (name_of "ball2d_gravity_force") ++ enc_fix g
  | B2Penalty k power => enc_string (name_of "hertzian_penalty") ++ enc_u64 k ++ enc_u64 power
  end.
(* Ball2DState.cpp:298-311, body of the loop *)
Definition p_b2_force : parser b2_force :=
  s <-- p_string ;;
  (if bstring_eqb s (name_of "ball2d_gravity_force") then g <-- p_fix 2 ;; pret (B2Gravity g) else pexit).

(* ball2d/Ball2DState.h *)
Record b2_state := mkB2State {
  b2s_q : list scalar; b2s_v : list scalar; b2s_r : list scalar; b2s_fixed : list bool;
  b2s_M : sparse; b2s_Minv : sparse;
  b2s_drums : list b2_drum; b2s_planes : list b2_plane; b2s_portals : list b2_portal; b2s_forces : list b2_force }.
(* Ball2DState.cpp:259-272 *)
Definition enc_b2_state (s : b2_state) : bytes :=
  enc_vecx (b2s_q s) ++ enc_vecx (b2s_v s) ++ enc_vecx (b2s_r s) ++ enc_vec enc_bool (b2s_fixed s) ++
  enc_sparse (b2s_M s) ++ enc_sparse (b2s_Minv s) ++
  enc_vec enc_b2_drum (b2s_drums s) ++ enc_vec enc_b2_plane (b2s_planes s) ++
  enc_vec enc_b2_portal (b2s_portals s) ++ enc_vec enc_b2_force (b2s_forces s).
(* Ball2DState.cpp:274-313 *)
Definition p_b2_state : parser b2_state :=
  q <-- p_vecx ;; v <-- p_vecx ;; r <-- p_vecx ;; fixed <-- p_vec p_bool ;;
  M <-- p_sparse ;; Minv <-- p_sparse ;;
  drums <-- p_vec p_b2_drum ;; planes <-- p_vec p_b2_plane ;;
  portals <-- p_vec p_b2_portal ;; forces <-- p_vec p_b2_force ;;
  pret (mkB2State q v r fixed M Minv drums planes portals forces).

(* ball2d/ConstraintCache.h: three maps *)
Record b2_cache := mkB2Cache {
  b2c_ball_ball : kmap (list scalar); b2c_plane_ball : kmap (list scalar); b2c_drum_ball : kmap (list scalar) }.
(* ConstraintCache.cpp:156-162 *)
Definition enc_b2_cache (c : b2_cache) : bytes :=
  enc_cache (b2c_ball_ball c) ++ enc_cache (b2c_plane_ball c) ++ enc_cache (b2c_drum_ball c).
(* ConstraintCache.cpp:164-174 *)
Definition p_b2_cache : parser b2_cache :=
  a <-- p_cache ;; b <-- p_cache ;; c <-- p_cache ;; pret (mkB2Cache a b c).

(* ball2d/Ball2DSim.h: m_state, m_constraint_cache *)
Record b2_sim := mkB2Sim { b2_st : b2_state; b2_ca : b2_cache }.
(* Ball2DSim.cpp:810-815 *)
Definition enc_b2_sim (s : b2_sim) : bytes := enc_b2_state (b2_st s) ++ enc_b2_cache (b2_ca s).
(* Ball2DSim.cpp:817-822 *)
Definition p_b2_sim : parser b2_sim := s <-- p_b2_state ;; c <-- p_b2_cache ;; pret (mkB2Sim s c).
