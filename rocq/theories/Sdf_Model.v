(* Contacts between triangle meshes: every mesh carries surface samples and a grid of signed distances, and samples of one
   mesh are tested against the grid of the other.
   Models /repo/rigidbody3d/Geometry/RigidBodyTriangleMesh.cpp:102, 269-335, /repo/rigidbody3d/Constraints/MeshMeshUtilities.cpp:10-65 and
   /repo/rigidbody3d/RigidBody3DSim.cpp:843-876, over the reals. Grid sizes are 32-bit unsigned numbers, kept as N. *)
From Coq Require Import List Reals NArith ZArith Bool.
From Verif Require Import Outcome Ccd_Model Lin_Model ContactRb3_Model Rot_Model Geom_Model Wall_Model Narrow_Model.
Import ListNotations.
Open Scope R_scope.

(* RigidBodyTriangleMesh.h: m_samples, m_cell_delta, m_grid_dimensions, m_grid_origin, m_signed_distance (an Eigen vector: a
   size and its entries). The members that contacts between meshes do not use are left out *)
Record mesh := Mesh {
  me_samples : list v3;
  me_delta : v3;
  me_nx : N; me_ny : N; me_nz : N;
  me_origin : v3;
  me_size : N; me_dist : N -> R }.

(* arithmetic on unsigned *)
Definition u32 (n : N) : N := (n mod 4294967296)%N.
(* a count as a scalar *)
Definition count (n : N) : R := IZR (Z.of_N n).

(* m_grid_end, RigidBodyTriangleMesh.cpp:102: the subtraction is on unsigned numbers *)
Definition grid_end (m : mesh) : v3 :=
  let last n := count (u32 (n + 4294967295)) in
  V3 (c0 (me_origin m) + last (me_nx m) * c0 (me_delta m))
     (c1 (me_origin m) + last (me_ny m) * c1 (me_delta m))
     (c2 (me_origin m) + last (me_nz m) * c2 (me_delta m)).

(* v, 269-274. Reducing once is the same as reducing every intermediate unsigned result. An index past the end of the
   vector is undefined *)
Definition dist_at (m : mesh) (i j k : N) : outcome R :=
  let index := u32 ((k * me_ny m + j) * me_nx m + i) in
  if (index <? me_size m)%N then Ok (me_dist m index) else UB.

(* the cell along one axis, 291: floor, then the conversion to unsigned. A negative number does not get here *)
Definition cell_index (o d x : R) : N := Z.to_N (Int_part ((x - o) / d)).

(* detectCollision, 276-335: None is false, Some n is true with the normal n *)
Definition detect (m : mesh) (x : v3) : outcome (option v3) :=
  let o := me_origin m in let e := grid_end m in let d := me_delta m in
  if Rlt_dec (c0 x) (c0 o) then Ok None else if Rlt_dec (c1 x) (c1 o) then Ok None else if Rlt_dec (c2 x) (c2 o) then Ok None
  else if Rlt_dec (c0 e) (c0 x) then Ok None else if Rlt_dec (c1 e) (c1 x) then Ok None else if Rlt_dec (c2 e) (c2 x) then Ok None
  else
    let i := cell_index (c0 o) (c0 d) (c0 x) in
    let j := cell_index (c1 o) (c1 d) (c1 x) in
    let k := cell_index (c2 o) (c2 d) (c2 x) in
    let bx := (c0 x - (c0 o + count i * c0 d)) / c0 d in
    let by_ := (c1 x - (c1 o + count j * c1 d)) / c1 d in
    let bz := (c2 x - (c2 o + count k * c2 d)) / c2 d in
    let ix := 1 - bx in let iy := 1 - by_ in let iz := 1 - bz in
    let i1 := u32 (i + 1) in let j1 := u32 (j + 1) in let k1 := u32 (k + 1) in
    let! v000 := dist_at m i j k in
    let! v100 := dist_at m i1 j k in
    let! v010 := dist_at m i j1 k in
    let! v110 := dist_at m i1 j1 k in
    let! v001 := dist_at m i j k1 in
    let! v101 := dist_at m i1 j k1 in
    let! v011 := dist_at m i j1 k1 in
    let! v111 := dist_at m i1 j1 k1 in
    let dist := iz * (iy * (ix * v000 + bx * v100) + by_ * (ix * v010 + bx * v110))
              + bz * (iy * (ix * v001 + bx * v101) + by_ * (ix * v011 + bx * v111)) in
    if Rlt_dec 0 dist then Ok None
    else
      let nx := iz * (iy * (v100 - v000) + by_ * (v110 - v010)) + bz * (iy * (v101 - v001) + by_ * (v111 - v011)) in
      let ny := iz * (ix * (v010 - v000) + bx * (v110 - v100)) + bz * (ix * (v011 - v001) + bx * (v111 - v101)) in
      let nz := iy * (ix * (v001 - v000) + bx * (v101 - v100)) + by_ * (ix * (v011 - v010) + bx * (v111 - v110)) in
      Ok (Some (normalized3 (V3 (nx / c0 d) (ny / c1 d) (nz / c2 d)))).

(* the contact of one sample s of a mesh at xa, Ra with the mesh mb at xb, Rb, MeshMeshUtilities.cpp:26-40, 52-62: world space
   point and normal, the latter through out *)
Definition sample_contact (xa : v3) (Ra : m3) (xb : v3) (Rb : m3) (mb : mesh) (out : v3 -> v3) (s : v3) : outcome (list (v3 * v3)) :=
  let Rab := mm (tr Rb) Ra in
  let xab := mul3 (tr Rb) (sub3 xa xb) in
  let x := add3 (mul3 Rab s) xab in
  let! r := detect mb x in
  match r with
  | Some normal => Ok [(add3 (mul3 Rb x) xb, out (mul3 Rb normal))]
  | None => Ok []
  end.
(* computeActiveSet, 10-65 *)
Definition mesh_mesh (x0 : v3) (R0 : m3) (m0 : mesh) (x1 : v3) (R1 : m3) (m1 : mesh) : outcome (list (v3 * v3)) :=
  let! a := gather (map (sample_contact x0 R0 x1 R1 m1 (fun n => n)) (me_samples m0)) in
  let! b := gather (map (sample_contact x1 R1 x0 R0 m0 neg3) (me_samples m1)) in
  Ok (a ++ b).
(* meshMeshNarrowPhaseCollision, RigidBody3DSim.cpp:843-876 *)
Definition mesh_narrow (nb : nat) (fixed : nat -> bool) (i j : nat) (mi mj : mesh) (q0 q1 : dvec) : outcome (list rb3_contact) :=
  let! points := mesh_mesh (pos3 q1 i) (ori3 nb q1 i) mi (pos3 q1 j) (ori3 nb q1 j) mj in
  Ok (contacts3 fixed i j q0 points).
