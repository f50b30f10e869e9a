(* Model of the mass, centre of mass and moments of inertia of a shape: RigidBodySphere, RigidBodyBox, RigidBodyStaple
   and RigidBodyTriangleMesh ::computeMassAndInertia and MomentTools::computeMoments. (The planar circle and box are
   State_Model.mass_and_inertia.) Scalars are real numbers, so the constants oneDiv6, oneDiv24, oneDiv60 and
   oneDiv120 of MomentTools.cpp:60-63 are exact. Release build: assertions are not executed. *)
From Coq Require Import List Reals Arith.
From Verif Require Import Outcome Ccd_Model Lin_Model ContactRb3_Model Rot_Model Rot_Spec.
Import ListNotations.
Open Scope R_scope.

(* the outputs M, CM, I and R of computeMassAndInertia *)
Record massprops := MP { mp_M : R; mp_CM : v3; mp_I : v3; mp_R : m3 }.

(* RigidBodySphere.cpp:9-17, and volume() 60-63 *)
Definition sphere_volume (r : R) : R := 4 * PI * r * r * r / 3.
Definition sphere_props (r density : R) : massprops :=
  let M := 4 * PI * r * r * r / 3 in
  let i := 2 * M * r * r / 5 in
  MP (M * density) zero3 (V3 (i * density) (i * density) (i * density)) id3.

(* RigidBodyBox.cpp:11-18, computeInertia 55-61, volume() 75-78 *)
Definition box_volume (h : v3) : R := 8 * c0 h * c1 h * c2 h.
Definition box_inertia (h : v3) (M : R) : v3 :=
  scale3 (M / 3) (V3 (c1 h * c1 h + c2 h * c2 h) (c0 h * c0 h + c2 h * c2 h) (c0 h * c0 h + c1 h * c1 h)).
Definition box_props (h : v3) (density : R) : massprops :=
  let M := density * box_volume h in
  MP M zero3 (box_inertia h M) id3.

(* RigidBodyStaple.cpp:62-66 and 78-81: the inner width and length and the radius kept by the constructor, and the four
   corners relative to the centre of mass; 140-143 computeCenterOfMassY *)
Record staple := ST { st_w : R; st_l : R; st_r : R }.
Definition make_staple (w l D : R) : staple := ST (w - D) (l - D) (/ 2 * D).
Definition staple_cm_y (s : staple) : R := (st_l s * st_l s) / (2 * st_l s + st_w s).
Definition staple_corners (s : staple) : list v3 :=
  let y := staple_cm_y s in
  [ V3 (- (/ 2) * st_w s) (st_l s - y) 0; V3 (- (/ 2) * st_w s) (- y) 0;
    V3 (/ 2 * st_w s) (- y) 0; V3 (/ 2 * st_w s) (st_l s - y) 0 ].
(* RigidBodyStaple.cpp:12-59. The cubes m_w * m_w * m_w and m_l * m_l * m_l are in the code. *)
Definition staple_props (s : staple) (density : R) : massprops :=
  let w := st_w s in let l := st_l s in let r := st_r s in
  let Mx := density * w * PI * r * r in
  let My := density * l * PI * r * r in
  let cmy := staple_cm_y s in
  let X := V3 0 (- cmy) 0 in
  let Y := V3 (- (/ 2) * w) (/ 2 * l - cmy) 0 in
  let Ix := Mx * (c1 X * c1 X + c2 X * c2 X) + 2 * My * (c1 Y * c1 Y + c2 Y * c2 Y)
            + Mx * (r * r) / 2 + 2 * My * (3 * r * r + l * l * l) / 12 in
  let Iy := Mx * (c0 X * c0 X + c2 X * c2 X) + 2 * My * (c0 Y * c0 Y + c2 Y * c2 Y)
            + Mx * (3 * r * r + w * w * w) / 12 + My * (r * r) in
  let Iz := Mx * (c0 X * c0 X + c1 X * c1 X) + 2 * My * (c0 Y * c0 Y + c1 Y * c1 Y)
            + Mx * (3 * r * r + w * w * w) / 12 + 2 * My * (3 * r * r + l * l * l) / 12 in
  MP (Mx + 2 * My) (V3 0 cmy 0) (V3 Ix Iy Iz) id3.

(* RigidBodyTriangleMesh.cpp:201-207: the stored moments scaled by the density *)
Definition mesh_props (stored : massprops) (density : R) : massprops :=
  MP (density * mp_M stored) (mp_CM stored) (scale3 density (mp_I stored)) (mp_R stored).

(* ---------- MomentTools.cpp:56-174 ---------- *)
Definition triangle := (v3 * v3 * v3)%type.
(* the ten accumulated integrals, in the order 1, x, y, z, x^2, y^2, z^2, xy, yz, zx *)
Record ten := Ten { i0 : R; i1 : R; i2 : R; i3 : R; i4 : R; i5 : R; i6 : R; i7 : R; i8 : R; i9 : R }.
Definition ten_zero : ten := Ten 0 0 0 0 0 0 0 0 0 0.

(* MomentTools.cpp:79-87 (and 89-97, 99-107): f1, f2, f3, g0, g1, g2 of one coordinate of the three corners *)
Definition sub_f1 (a b c : R) : R := a + b + c.
Definition sub_f2 (a b c : R) : R :=
  let tmp0 := a + b in let tmp1 := a * a in let tmp2 := tmp1 + b * tmp0 in tmp2 + c * sub_f1 a b c.
Definition sub_f3 (a b c : R) : R :=
  let tmp0 := a + b in let tmp1 := a * a in let tmp2 := tmp1 + b * tmp0 in a * tmp1 + b * tmp2 + c * sub_f2 a b c.
Definition sub_g (u a b c : R) : R := sub_f2 a b c + u * (sub_f1 a b c + u).

(* MomentTools.cpp:68-119: one triangle *)
Definition add_triangle (s : ten) (t : triangle) : ten :=
  let '(v0, v1, v2) := t in
  let N := cross3 (sub3 v1 v0) (sub3 v2 v0) in
  let f1 p := sub_f1 (p v0) (p v1) (p v2) in
  let f2 p := sub_f2 (p v0) (p v1) (p v2) in
  let f3 p := sub_f3 (p v0) (p v1) (p v2) in
  let g p v := sub_g (p v) (p v0) (p v1) (p v2) in
  Ten (i0 s + c0 N * f1 c0)
      (i1 s + c0 N * f2 c0) (i2 s + c1 N * f2 c1) (i3 s + c2 N * f2 c2)
      (i4 s + c0 N * f3 c0) (i5 s + c1 N * f3 c1) (i6 s + c2 N * f3 c2)
      (i7 s + c0 N * (c1 v0 * g c0 v0 + c1 v1 * g c0 v1 + c1 v2 * g c0 v2))
      (i8 s + c1 N * (c2 v0 * g c1 v0 + c2 v1 * g c1 v1 + c2 v2 * g c1 v2))
      (i9 s + c2 N * (c0 v0 * g c2 v0 + c0 v1 * g c2 v1 + c0 v2 * g c2 v2)).
(* MomentTools.cpp:121-130 *)
Definition scale_ten (s : ten) : ten :=
  Ten (i0 s * (1 / 6)) (i1 s * (1 / 24)) (i2 s * (1 / 24)) (i3 s * (1 / 24)) (i4 s * (1 / 60)) (i5 s * (1 / 60))
      (i6 s * (1 / 60)) (i7 s * (1 / 120)) (i8 s * (1 / 120)) (i9 s * (1 / 120)).
(* vertices.col( indices( k, i ) ): an index out of range reads past the end *)
Definition corner (verts : list v3) (i : nat) : outcome v3 :=
  match nth_error verts i with Some v => Ok v | None => UB end.
Definition corners (verts : list v3) (f : nat * nat * nat) : outcome triangle :=
  let '(a, b, c) := f in
  let! x := corner verts a in let! y := corner verts b in let! z := corner verts c in Ok (x, y, z).
Definition integrals (ts : list triangle) : ten := scale_ten (fold_left add_triangle ts ten_zero).
(* MomentTools.cpp:133-160: mass, centre and the inertia tensor about the centre *)
Definition mesh_mass (s : ten) : R := i0 s.
Definition mesh_center (s : ten) : v3 := V3 (i1 s / i0 s) (i2 s / i0 s) (i3 s / i0 s).
Definition mesh_tensor (s : ten) : m3 :=
  let m := mesh_mass s in let c := mesh_center s in
  let r00 := i5 s + i6 s - m * (c1 c * c1 c + c2 c * c2 c) in
  let r01 := - i7 s + m * c0 c * c1 c in
  let r02 := - i9 s + m * c2 c * c0 c in
  let r11 := i4 s + i6 s - m * (c2 c * c2 c + c0 c * c0 c) in
  let r12 := - i8 s + m * c1 c * c2 c in
  let r22 := i4 s + i5 s - m * (c0 c * c0 c + c1 c * c1 c) in
  M3 (V3 r00 r01 r02) (V3 r01 r11 r12) (V3 r02 r12 r22).
(* MomentTools.cpp:12-50 diagonalizeInertiaTensor. [eig] is Eigen::SelfAdjointEigenSolver: the eigenvalues and the
   matrix whose columns are the eigenvectors. The first column is negated when the determinant is negative. *)
Definition flip_col0 (A : m3) : m3 :=
  M3 (V3 (- c0 (row0 A)) (c1 (row0 A)) (c2 (row0 A))) (V3 (- c0 (row1 A)) (c1 (row1 A)) (c2 (row1 A)))
     (V3 (- c0 (row2_ A)) (c1 (row2_ A)) (c2 (row2_ A))).
Definition diagonalize (eig : m3 -> v3 * m3) (A : m3) : v3 * m3 :=
  let (I0, R0) := eig A in (I0, if Rlt_dec (det3 R0) 0 then flip_col0 R0 else R0).
Definition compute_moments (eig : m3 -> v3 * m3) (verts : list v3) (faces : list (nat * nat * nat)) : outcome massprops :=
  let! ts := omapM (corners verts) faces in
  let s := integrals ts in
  let (I, Rm) := diagonalize eig (mesh_tensor s) in
  Ok (MP (mesh_mass s) (mesh_center s) I Rm).
