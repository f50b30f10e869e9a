(* Byte-level model of RigidBody3DSim::serialize / deserialize. Vector3s are lists of three scalars,
   Matrix3s a list of nine, Vector3u and Array3i lists of three 32-bit words. *)
From Coq Require Import ZArith NArith String List.
From Verif Require Import Outcome Codec_Model.
Import ListNotations.
Open Scope N_scope.

(* rigidbody3d/StaticGeometry/StaticPlane.h *)
Record r3_plane := mkR3Plane { r3p_x : list scalar; r3p_n : list scalar; r3p_v : list scalar; r3p_omega : list scalar }.
(* StaticPlane.cpp:29-36 *)
Definition enc_r3_plane (p : r3_plane) : bytes :=
  enc_fix (r3p_x p) ++ enc_fix (r3p_n p) ++ enc_fix (r3p_v p) ++ enc_fix (r3p_omega p).
(* StaticPlane.cpp:17-22 *)
Definition p_r3_plane : parser r3_plane :=
  x <-- p_fix 3 ;; n <-- p_fix 3 ;; v <-- p_fix 3 ;; o <-- p_fix 3 ;; pret (mkR3Plane x n v o).

(* rigidbody3d/StaticGeometry/StaticCylinder.h *)
Record r3_cyl := mkR3Cyl {
  r3y_x : list scalar; r3y_n : list scalar; r3y_theta : scalar; r3y_v : list scalar; r3y_omega : list scalar; r3y_r : scalar }.
(* StaticCylinder.cpp:35-44 *)
Definition enc_r3_cyl (c : r3_cyl) : bytes :=
  enc_fix (r3y_x c) ++ enc_fix (r3y_n c) ++ enc_u64 (r3y_theta c) ++ enc_fix (r3y_v c) ++
  enc_fix (r3y_omega c) ++ enc_u64 (r3y_r c).
(* StaticCylinder.cpp:46-55 *)
Definition p_r3_cyl : parser r3_cyl :=
  x <-- p_fix 3 ;; n <-- p_fix 3 ;; th <-- p_u64 ;; v <-- p_fix 3 ;; o <-- p_fix 3 ;; r <-- p_u64 ;;
  pret (mkR3Cyl x n th v o r).

(* rigidbody3d/Portals/PlanarPortal.h *)
Record r3_portal := mkR3Portal { r3o_a : r3_plane; r3o_b : r3_plane; r3o_mult : list N }.
(* PlanarPortal.cpp:202-208 *)
Definition enc_r3_portal (p : r3_portal) : bytes :=
  enc_r3_plane (r3o_a p) ++ enc_r3_plane (r3o_b p) ++ enc_fix32 (r3o_mult p).
(* PlanarPortal.cpp:91-97 *)
Definition p_r3_portal : parser r3_portal :=
  a <-- p_r3_plane ;; b <-- p_r3_plane ;; m <-- p_fix32 3 ;; pret (mkR3Portal a b m).

(* rigidbody3d/Geometry/RigidBodyTriangleMesh.h *)
Record r3_mesh := mkR3Mesh {
  r3m_file : bstring; r3m_verts : list (list scalar); r3m_faces : list (list N); r3m_volume : scalar;
  r3m_I : list scalar; r3m_com : list scalar; r3m_R : list scalar; r3m_samples : list (list scalar);
  r3m_hull : list (list scalar); r3m_delta : list scalar; r3m_dims : list N; r3m_origin : list scalar;
  r3m_sdf : list scalar; r3m_end : list scalar }.
(* RigidBodyTriangleMesh.cpp:218-231, after the type tag *)
Definition enc_r3_mesh (m : r3_mesh) : bytes :=
  enc_string (r3m_file m) ++ enc_mat3x (r3m_verts m) ++ enc_mat3xu (r3m_faces m) ++ enc_u64 (r3m_volume m) ++
  enc_fix (r3m_I m) ++ enc_fix (r3m_com m) ++ enc_fix (r3m_R m) ++ enc_mat3x (r3m_samples m) ++
  enc_mat3x (r3m_hull m) ++ enc_fix (r3m_delta m) ++ enc_fix32 (r3m_dims m) ++ enc_fix (r3m_origin m) ++
  enc_vecx (r3m_sdf m) ++ enc_fix (r3m_end m).
(* RigidBodyTriangleMesh.cpp:109-124 *)
Definition p_r3_mesh : parser r3_mesh :=
  f <-- p_string ;; vs <-- p_mat3x ;; fs <-- p_mat3xu ;; vol <-- p_u64 ;; ii <-- p_fix 3 ;; com <-- p_fix 3 ;;
  r <-- p_fix 9 ;; ss <-- p_mat3x ;; hs <-- p_mat3x ;; cd <-- p_fix 3 ;; gd <-- p_fix32 3 ;; go <-- p_fix 3 ;;
  sd <-- p_vecx ;; ge <-- p_fix 3 ;; pret (mkR3Mesh f vs fs vol ii com r ss hs cd gd go sd ge).

(* RigidBodyGeometryType is a uint8: BOX = 0, SPHERE = 1, STAPLE = 2, TRIANGLE_MESH = 3 *)
Inductive r3_geo := R3Box (h : list scalar) | R3Sphere (r : scalar) | R3Staple | R3Mesh (m : r3_mesh).
(* RigidBodyBox.cpp:66-71, RigidBodySphere.cpp:56-61, RigidBodyStaple.cpp:119-123 (terminates),
   RigidBodyTriangleMesh.cpp:215-232 *)
Definition enc_r3_geo (g : r3_geo) : outcome bytes :=
  match g with
  | R3Box h => Ok (enc_u8 0 ++ enc_fix h)
  | R3Sphere r => Ok (enc_u8 1 ++ enc_u64 r)
  | R3Staple => Exit
  | R3Mesh m => Ok (enc_u8 3 ++ enc_r3_mesh m)
  end.
(* RigidBody3DState.cpp:613-633, loop body. Unknown tag: null pointer, see SnapRb2_Model. *)
Definition p_r3_geo : parser r3_geo :=
  t <-- p_u8 ;;
  (if t =? 0 then h <-- p_fix 3 ;; pret (R3Box h)
   else if t =? 1 then r <-- p_u64 ;; pret (R3Sphere r)
   else if t =? 2 then pexit
   else if t =? 3 then m <-- p_r3_mesh ;; pret (R3Mesh m)
   else pub).

Inductive r3_force := R3Gravity (g : list scalar).
(* Forces/NearEarthGravityForce.cpp:65-70 *)
Definition enc_r3_force (f : r3_force) : bytes :=
  match f with R3Gravity g => enc_string (name_of "near_earth_gravity") ++ enc_fix g end.
(* RigidBody3DState.cpp:642-655, loop body *)
Definition p_r3_force : parser r3_force :=
  s <-- p_string ;;
  (if bstring_eqb s (name_of "near_earth_gravity") then g <-- p_fix 3 ;; pret (R3Gravity g) else pexit).

(* rigidbody3d/RigidBody3DState.h *)
Record r3_state := mkR3State {
  r3s_nbodies : N; r3s_q : list scalar; r3s_v : list scalar;
  r3s_M0 : sparse; r3s_Minv0 : sparse; r3s_M : sparse; r3s_Minv : sparse; r3s_fixed : list bool;
  r3s_geo : list r3_geo; r3s_geo_idx : list N; r3s_forces : list r3_force;
  r3s_planes : list r3_plane; r3s_cyls : list r3_cyl; r3s_portals : list r3_portal;
  r3s_behavior : N; r3s_bmin : list scalar; r3s_bmax : list scalar }.
(* Utilities.h:52-66 serialize of a vector of unique_ptr, where an element may terminate the program *)
Definition enc_vec_o {A} (e : A -> outcome bytes) (l : list A) : outcome bytes :=
  omap (fun bs => enc_u64 (N.of_nat (List.length l)) ++ concat bs) (omapM e l).
(* RigidBody3DState.cpp:585-606 *)
Definition enc_r3_state (s : r3_state) : outcome bytes :=
  omap (fun geo =>
    enc_u32 (r3s_nbodies s) ++ enc_vecx (r3s_q s) ++ enc_vecx (r3s_v s) ++
    enc_sparse (r3s_M0 s) ++ enc_sparse (r3s_Minv0 s) ++ enc_sparse (r3s_M s) ++ enc_sparse (r3s_Minv s) ++
    enc_vec enc_bool (r3s_fixed s) ++ geo ++ enc_vec enc_u32 (r3s_geo_idx s) ++
    enc_vec enc_r3_force (r3s_forces s) ++ enc_vec enc_r3_plane (r3s_planes s) ++
    enc_vec enc_r3_cyl (r3s_cyls s) ++ enc_vec enc_r3_portal (r3s_portals s) ++
    enc_u32 (r3s_behavior s) ++ enc_fix (r3s_bmin s) ++ enc_fix (r3s_bmax s))
    (enc_vec_o enc_r3_geo (r3s_geo s)).
(* RigidBody3DState.cpp:659-679 *)
Definition p_r3_state : parser r3_state :=
  n <-- p_u32 ;; q <-- p_vecx ;; v <-- p_vecx ;;
  M0 <-- p_sparse ;; Minv0 <-- p_sparse ;; M <-- p_sparse ;; Minv <-- p_sparse ;;
  fixed <-- p_vec p_bool ;; geo <-- p_vec p_r3_geo ;; gi <-- p_vec p_u32 ;;
  forces <-- p_vec p_r3_force ;; planes <-- p_vec p_r3_plane ;;
  cyls <-- p_vec p_r3_cyl ;; portals <-- p_vec p_r3_portal ;;
  beh <-- p_u32 ;; bmin <-- p_fix 3 ;; bmax <-- p_fix 3 ;;
  pret (mkR3State n q v M0 Minv0 M Minv fixed geo gi forces planes cyls portals beh bmin bmax).

(* rigidbody3d/ConstraintCache.h: four maps *)
Record r3_cache := mkR3Cache {
  r3c_ss : kmap (list scalar); r3c_ps : kmap (list scalar);
  r3c_cs : kmap (list scalar); r3c_ks : kmap (list scalar) }.
(* ConstraintCache.cpp:183-190 *)
Definition enc_r3_cache (c : r3_cache) : bytes :=
  enc_cache (r3c_ss c) ++ enc_cache (r3c_ps c) ++ enc_cache (r3c_cs c) ++ enc_cache (r3c_ks c).
(* ConstraintCache.cpp:209-220 *)
Definition p_r3_cache : parser r3_cache :=
  a <-- p_cache ;; b <-- p_cache ;; c <-- p_cache ;; d <-- p_cache ;; pret (mkR3Cache a b c d).

Record r3_sim := mkR3Sim { r3_st : r3_state; r3_ca : r3_cache }.
(* RigidBody3DSim.cpp:1592-1598 *)
Definition enc_r3_sim (s : r3_sim) : outcome bytes :=
  omap (fun b => b ++ enc_r3_cache (r3_ca s)) (enc_r3_state (r3_st s)).
(* RigidBody3DSim.cpp:1600-1606 *)
Definition p_r3_sim : parser r3_sim := s <-- p_r3_state ;; c <-- p_r3_cache ;; pret (mkR3Sim s c).
