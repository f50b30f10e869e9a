(* Which in-memory states are representable: every scalar is a 64-bit pattern, fixed-size vectors have their
   size, containers fit their size type, matrices are compressed, maps are ordered. Every C++ object satisfies this. *)
From Coq Require Import ZArith NArith List.
From Verif Require Import Outcome Codec_Model Codec_Spec SnapBall_Model SnapRb2_Model SnapRb3_Model.
Import ListNotations.
Open Scope N_scope.

(* ---- balls ---- *)
Definition ok_b2_plane (p : b2_plane) : Prop :=
  ok_fix 2 (b2p_x p) /\ ok_fix 2 (b2p_v p) /\ ok_fix 2 (b2p_n p) /\ ok_fix 2 (b2p_t p).
Definition ok_b2_drum (d : b2_drum) : Prop := ok_fix 2 (b2d_x d) /\ u64 (b2d_r d).
Definition ok_b2_portal (p : b2_portal) : Prop :=
  ok_b2_plane (b2o_a p) /\ ok_b2_plane (b2o_b p) /\ u64 (b2o_v p) /\ u64 (b2o_bounds p) /\ u64 (b2o_dx p).
Definition ok_b2_force (f : b2_force) : Prop :=
  match f with B2Gravity g => ok_fix 2 g | B2Penalty k p => u64 k /\ u64 p end.
Definition ok_b2_state (s : b2_state) : Prop :=
  ok_vecx (b2s_q s) /\ ok_vecx (b2s_v s) /\ ok_vecx (b2s_r s) /\ sized (b2s_fixed s) /\
  ok_sparse (b2s_M s) /\ ok_sparse (b2s_Minv s) /\
  ok_vec ok_b2_drum (b2s_drums s) /\ ok_vec ok_b2_plane (b2s_planes s) /\
  ok_vec ok_b2_portal (b2s_portals s) /\ ok_vec ok_b2_force (b2s_forces s).
Definition ok_b2_cache (c : b2_cache) : Prop :=
  ok_cache (b2c_ball_ball c) /\ ok_cache (b2c_plane_ball c) /\ ok_cache (b2c_drum_ball c).
Definition ok_b2_sim (s : b2_sim) : Prop := ok_b2_state (b2_st s) /\ ok_b2_cache (b2_ca s).

Definition is_penalty (f : b2_force) : Prop := match f with B2Penalty _ _ => True | _ => False end.
Definition has_penalty_force (s : b2_sim) : Prop := Exists is_penalty (b2s_forces (b2_st s)).

(* ---- 2D rigid bodies ---- *)
Definition ok_r2_plane (p : r2_plane) : Prop :=
  ok_fix 2 (r2p_x p) /\ ok_fix 2 (r2p_n p) /\ ok_fix 2 (r2p_t p) /\ ok_fix 2 (r2p_v p) /\ u64 (r2p_omega p).
Definition ok_r2_portal (p : r2_portal) : Prop :=
  ok_r2_plane (r2o_a p) /\ ok_r2_plane (r2o_b p) /\ u64 (r2o_v p) /\ u64 (r2o_bounds p) /\ u64 (r2o_dx p).
Definition ok_r2_geo (g : r2_geo) : Prop := match g with R2Circle r => u64 r | R2Box r => ok_fix 2 r end.
Definition ok_r2_force (f : r2_force) : Prop := match f with R2Gravity g => ok_fix 2 g end.
Definition ok_r2_state (s : r2_state) : Prop :=
  ok_vecx (r2s_q s) /\ ok_vecx (r2s_v s) /\ ok_sparse (r2s_M s) /\ ok_sparse (r2s_Minv s) /\
  sized (r2s_fixed s) /\ ok_vecxu (r2s_geo_idx s) /\ ok_vec ok_r2_geo (r2s_geo s) /\
  ok_vec ok_r2_force (r2s_forces s) /\ ok_vec ok_r2_plane (r2s_planes s) /\ ok_vec ok_r2_portal (r2s_portals s).
Definition ok_r2_cache (c : r2_cache) : Prop :=
  ok_cache (r2c_circle_circle c) /\ ok_cache (r2c_body_body c) /\
  ok_cache (r2c_kin_circle c) /\ ok_cache (r2c_plane_circle c).
Definition ok_r2_sim (s : r2_sim) : Prop := ok_r2_state (r2_st s) /\ ok_r2_cache (r2_ca s).

(* ---- 3D rigid bodies ---- *)
Definition ok_r3_plane (p : r3_plane) : Prop :=
  ok_fix 3 (r3p_x p) /\ ok_fix 3 (r3p_n p) /\ ok_fix 3 (r3p_v p) /\ ok_fix 3 (r3p_omega p).
Definition ok_r3_cyl (c : r3_cyl) : Prop :=
  ok_fix 3 (r3y_x c) /\ ok_fix 3 (r3y_n c) /\ u64 (r3y_theta c) /\ ok_fix 3 (r3y_v c) /\
  ok_fix 3 (r3y_omega c) /\ u64 (r3y_r c).
Definition ok_r3_portal (p : r3_portal) : Prop :=
  ok_r3_plane (r3o_a p) /\ ok_r3_plane (r3o_b p) /\ ok_fix32 3 (r3o_mult p).
Definition ok_r3_mesh (m : r3_mesh) : Prop :=
  ok_string (r3m_file m) /\ ok_vec (ok_fix 3) (r3m_verts m) /\ ok_vec (ok_fix32 3) (r3m_faces m) /\
  u64 (r3m_volume m) /\ ok_fix 3 (r3m_I m) /\ ok_fix 3 (r3m_com m) /\ ok_fix 9 (r3m_R m) /\
  ok_vec (ok_fix 3) (r3m_samples m) /\ ok_vec (ok_fix 3) (r3m_hull m) /\ ok_fix 3 (r3m_delta m) /\
  ok_fix32 3 (r3m_dims m) /\ ok_fix 3 (r3m_origin m) /\ ok_vecx (r3m_sdf m) /\ ok_fix 3 (r3m_end m).
Definition ok_r3_geo (g : r3_geo) : Prop :=
  match g with R3Box h => ok_fix 3 h | R3Sphere r => u64 r | R3Staple => True | R3Mesh m => ok_r3_mesh m end.
Definition ok_r3_force (f : r3_force) : Prop := match f with R3Gravity g => ok_fix 3 g end.
Definition ok_r3_state (s : r3_state) : Prop :=
  u32 (r3s_nbodies s) /\ ok_vecx (r3s_q s) /\ ok_vecx (r3s_v s) /\
  ok_sparse (r3s_M0 s) /\ ok_sparse (r3s_Minv0 s) /\ ok_sparse (r3s_M s) /\ ok_sparse (r3s_Minv s) /\
  sized (r3s_fixed s) /\ ok_vec ok_r3_geo (r3s_geo s) /\ ok_vec u32 (r3s_geo_idx s) /\
  ok_vec ok_r3_force (r3s_forces s) /\ ok_vec ok_r3_plane (r3s_planes s) /\ ok_vec ok_r3_cyl (r3s_cyls s) /\
  ok_vec ok_r3_portal (r3s_portals s) /\ u32 (r3s_behavior s) /\ ok_fix 3 (r3s_bmin s) /\ ok_fix 3 (r3s_bmax s).
Definition ok_r3_cache (c : r3_cache) : Prop :=
  ok_cache (r3c_ss c) /\ ok_cache (r3c_ps c) /\ ok_cache (r3c_cs c) /\ ok_cache (r3c_ks c).
Definition ok_r3_sim (s : r3_sim) : Prop := ok_r3_state (r3_st s) /\ ok_r3_cache (r3_ca s).
Definition has_staple (s : r3_sim) : Prop := In R3Staple (r3s_geo (r3_st s)).
