(* The 3D rigid body state, its mass matrices and its unconstrained integrators, over the reals.
   /repo/rigidbody3d/RigidBody3DState.cpp, UnconstrainedMaps/{SplitHamMap,DMVMap,ExponentialEulerMap,IntegrationTools}.cpp,
   RigidBody3DSim.cpp, Forces/NearEarthGravityForce.cpp.
   Configurations hold 3 * n positions and then 9 * n row-major orientation entries; velocities hold 3 * n linear and then
   3 * n angular entries. *)
From Coq Require Import List Reals Arith Bool.
From Verif Require Import Ccd_Model Lin_Model ContactRb3_Model.
Import ListNotations.
Open Scope R_scope.

(* ---------- 3x3 matrices (Eigen) ---------- *)
Definition tr (A : m3) : m3 :=
  M3 (V3 (c0 (row0 A)) (c0 (row1 A)) (c0 (row2_ A)))
     (V3 (c1 (row0 A)) (c1 (row1 A)) (c1 (row2_ A)))
     (V3 (c2 (row0 A)) (c2 (row1 A)) (c2 (row2_ A))).
(* x^T B *)
Definition vmul (x : v3) (B : m3) : v3 := mul3 (tr B) x.
Definition mm (A B : m3) : m3 := M3 (vmul (row0 A) B) (vmul (row1 A) B) (vmul (row2_ A) B).
Definition diag3 (d : v3) : m3 := M3 (V3 (c0 d) 0 0) (V3 0 (c1 d) 0) (V3 0 0 (c2 d)).
Definition id3 : m3 := diag3 (V3 1 1 1).
Definition inv3 (d : v3) : v3 := V3 (/ c0 d) (/ c1 d) (/ c2 d).

(* AngleAxis::toRotationMatrix (Eigen) *)
Definition angle_axis (angle : R) (a : v3) : m3 :=
  let s := scale3 (sin angle) a in
  let c := cos angle in
  let d := scale3 (1 - c) a in
  M3 (V3 (c0 d * c0 a + c) (c0 d * c1 a - c2 s) (c0 d * c2 a + c1 s))
     (V3 (c0 d * c1 a + c2 s) (c1 d * c1 a + c) (c1 d * c2 a - c0 s))
     (V3 (c0 d * c2 a - c1 s) (c1 d * c2 a + c0 s) (c2 d * c2 a + c)).

Record quat := Quat { qw : R; qx : R; qy : R; qz : R }.
(* Quaternion::toRotationMatrix (Eigen) *)
Definition quat_mat (q : quat) : m3 :=
  let tx := 2 * qx q in let ty := 2 * qy q in let tz := 2 * qz q in
  let twx := tx * qw q in let twy := ty * qw q in let twz := tz * qw q in
  let txx := tx * qx q in let txy := ty * qx q in let txz := tz * qx q in
  let tyy := ty * qy q in let tyz := tz * qy q in let tzz := tz * qz q in
  M3 (V3 (1 - (tyy + tzz)) (txy - twz) (txz + twy))
     (V3 (txy + twz) (1 - (txx + tzz)) (tyz - twx))
     (V3 (txz - twy) (tyz + twx) (1 - (txx + tyy))).
(* Quaternion( matrix ) (Eigen) *)
Definition mat_quat (A : m3) : quat :=
  let m00 := c0 (row0 A) in let m01 := c1 (row0 A) in let m02 := c2 (row0 A) in
  let m10 := c0 (row1 A) in let m11 := c1 (row1 A) in let m12 := c2 (row1 A) in
  let m20 := c0 (row2_ A) in let m21 := c1 (row2_ A) in let m22 := c2 (row2_ A) in
  let t := m00 + m11 + m22 in
  if Rlt_dec 0 t then
    let t := sqrt (t + 1) in
    let u := / 2 / t in
    Quat (/ 2 * t) ((m21 - m12) * u) ((m02 - m20) * u) ((m10 - m01) * u)
  else if Rlt_dec m00 m11 then
    if Rlt_dec m11 m22 then
      let t := sqrt (m22 - m00 - m11 + 1) in let u := / 2 / t in
      Quat ((m10 - m01) * u) ((m02 + m20) * u) ((m12 + m21) * u) (/ 2 * t)
    else
      let t := sqrt (m11 - m22 - m00 + 1) in let u := / 2 / t in
      Quat ((m02 - m20) * u) ((m01 + m10) * u) (/ 2 * t) ((m21 + m12) * u)
  else if Rlt_dec m00 m22 then
      let t := sqrt (m22 - m00 - m11 + 1) in let u := / 2 / t in
      Quat ((m10 - m01) * u) ((m02 + m20) * u) ((m12 + m21) * u) (/ 2 * t)
    else
      let t := sqrt (m00 - m11 - m22 + 1) in let u := / 2 / t in
      Quat ((m21 - m12) * u) (/ 2 * t) ((m10 + m01) * u) ((m20 + m02) * u).
(* Quaternion::normalize (Eigen) *)
Definition quat_norm2 (q : quat) : R := qw q * qw q + qx q * qx q + qy q * qy q + qz q * qz q.
Definition quat_normalize (q : quat) : quat :=
  let n := sqrt (quat_norm2 q) in Quat (qw q / n) (qx q / n) (qy q / n) (qz q / n).

(* ---------- segments ---------- *)
Definition set_seg3 (v : dvec) (k : nat) (x : v3) : dvec :=
  fun i => if Nat.eqb i (k + 0) then c0 x else if Nat.eqb i (k + 1) then c1 x else if Nat.eqb i (k + 2) then c2 x else v i.
(* Map<Matrix33sr>( &q[ k ] ): row-major; Map<Matrix33sc> is the transpose *)
Definition mat_at (q : dvec) (k : nat) : m3 := M3 (seg3 q k) (seg3 q (k + 3)) (seg3 q (k + 6)).
Definition set_mat (q : dvec) (k : nat) (A : m3) : dvec :=
  set_seg3 (set_seg3 (set_seg3 q k (row0 A)) (k + 3) (row1 A)) (k + 6) (row2_ A).

(* for( unsigned bdy_idx = 0; bdy_idx < n; ++bdy_idx ) *)
Definition for_bodies (n : nat) (f : nat -> dvec -> dvec) (x : dvec) : dvec := fold_left (fun x i => f i x) (seq 0 n) x.

(* ---------- the state, /repo/rigidbody3d/RigidBody3DState.h ---------- *)
(* m_M0, m_Minv0, m_M, m_Minv are the arrays of stored coefficients; geometry, static geometry and portals play no role here *)
Record rb3 := Rb3 { s3_n : nat; s3_q : dvec; s3_v : dvec; s3_M0 : dvec; s3_Minv0 : dvec; s3_M : dvec; s3_Minv : dvec;
                    s3_fixed : nat -> bool; s3_g : list v3 }.

(* sparse matrix * vector, for the sparsity of m_M and m_Minv: a diagonal for the first 3 * n rows, then 3x3 blocks
   stored by columns *)
Definition mass_mul (n : nat) (V : dvec) (x : dvec) : dvec :=
  fun k =>
    if Nat.ltb k (3 * n) then V k * x k
    else
      let i := ((k - 3 * n) / 3)%nat in
      let w := mul3 (tr (mat_at V (3 * n + 9 * i))) (seg3 x (3 * n + 3 * i)) in
      match ((k - 3 * n) mod 3)%nat with O => c0 w | S O => c1 w | _ => c2 w end.

(* formBodySpaceMassMatrix 70-103, formBodySpaceInverseMassMatrix 105-138: the stored coefficients *)
Definition body_mass (n : nat) (m : nat -> R) (I0 : nat -> v3) : dvec :=
  fun k => if Nat.ltb k (3 * n) then m (k / 3)%nat
           else let I := I0 ((k - 3 * n) / 3)%nat in match ((k - 3 * n) mod 3)%nat with O => c0 I | S O => c1 I | _ => c2 I end.
Definition body_inverse_mass (n : nat) (m : nat -> R) (I0 : nat -> v3) : dvec :=
  fun k => if Nat.ltb k (3 * n) then 1 / m (k / 3)%nat
           else let I := I0 ((k - 3 * n) / 3)%nat in match ((k - 3 * n) mod 3)%nat with O => 1 / c0 I | S O => 1 / c1 I | _ => 1 / c2 I end.
(* formWorldSpaceMassMatrix 140-189, formWorldSpaceInverseMassMatrix 191-240: coefficient I( row, col ) is inserted in
   row col and column row, so the stored block, read by columns, is I read by rows *)
Definition world_mass (n : nat) (m : nat -> R) (I0 : nat -> v3) (Rm : nat -> m3) : dvec :=
  for_bodies n (fun i V => set_mat V (3 * n + 9 * i) (mm (mm (Rm i) (diag3 (I0 i))) (tr (Rm i)))) (fun k => m (k / 3)%nat).
Definition world_inverse_mass (n : nat) (m : nat -> R) (I0 : nat -> v3) (Rm : nat -> m3) : dvec :=
  for_bodies n (fun i V => set_mat V (3 * n + 9 * i) (mm (mm (Rm i) (diag3 (inv3 (I0 i)))) (tr (Rm i)))) (fun k => 1 / m (k / 3)%nat).
(* RigidBody3DState::setState 242-308 *)
Definition set_state (n : nat) (X Vl : nat -> v3) (m : nat -> R) (Rm : nat -> m3) (omega I0 : nat -> v3) (fixed : nat -> bool) (g : list v3) : rb3 :=
  let q := for_bodies n (fun i q => set_seg3 q (3 * i) (X i)) (fun _ => 0) in
  let q := for_bodies n (fun i q => set_mat q (3 * n + 9 * i) (Rm i)) q in
  let v := for_bodies n (fun i v => set_seg3 v (3 * i) (Vl i)) (fun _ => 0) in
  let v := for_bodies n (fun i v => set_seg3 v (3 * n + 3 * i) (omega i)) v in
  Rb3 n q v (body_mass n m I0) (body_inverse_mass n m I0) (world_mass n m I0 Rm) (world_inverse_mass n m I0 Rm) fixed g.

(* RigidBody3DState::updateMandMinv 428-462 *)
Definition update_mass (s : rb3) : rb3 :=
  let n := s3_n s in
  let blocks (D V : dvec) := for_bodies n (fun i V =>
      let Rm := mat_at (s3_q s) (3 * n + 9 * i) in
      set_mat V (3 * n + 9 * i) (tr (mm (mm Rm (diag3 (seg3 D (3 * n + 3 * i)))) (tr Rm)))) V in
  Rb3 n (s3_q s) (s3_v s) (s3_M0 s) (s3_Minv0 s) (blocks (s3_M0 s) (s3_M s)) (blocks (s3_Minv0 s) (s3_Minv s)) (s3_fixed s) (s3_g s).

(* RigidBody3DSim::computeForce 169-181 with NearEarthGravityForce::computeForce 38-52 *)
Definition rb3_force (s : rb3) : dvec :=
  fold_left (fun F g => for_bodies (s3_n s) (fun i F => add_seg3 F (3 * i) (scale3 (s3_M s (3 * i)%nat) g)) F) (s3_g s) (fun _ => 0).

(* ---------- SplitHamMap::flow 17-182 ---------- *)
Definition ex3 := V3 1 0 0.
Definition ey3 := V3 0 1 0.
Definition ez3 := V3 0 0 1.
(* one fifth of 102-131: R.angle() = angle; R.axis() = -e; R1 = R1 * R.inverse(); pAngB = R * pAngB; *)
Definition split_turn (angle : R) (e : v3) (s : m3 * v3) : m3 * v3 :=
  (mm (fst s) (angle_axis (- angle) (neg3 e)), mul3 (angle_axis angle (neg3 e)) (snd s)).
Definition split_rotate (dt : R) (I : v3) (R0 : m3) (L : v3) : m3 * v3 :=
  let s := (R0, mul3 (tr R0) L) in
  let s := split_turn (/ 2 * dt * c2 (snd s) / c2 I) ez3 s in
  let s := split_turn (/ 2 * dt * c1 (snd s) / c1 I) ey3 s in
  let s := split_turn (dt * c0 (snd s) / c0 I) ex3 s in
  let s := split_turn (/ 2 * dt * c1 (snd s) / c1 I) ey3 s in
  split_turn (/ 2 * dt * c2 (snd s) / c2 I) ez3 s.

(* ---------- DMVMap ---------- *)
(* solveDMV 15-60 *)
Definition dmv_pass (am fac : v3) (c : v3) : v3 :=
  let alpha := c0 c * c0 c + 1 + c1 c * c1 c + c2 c * c2 c in
  let c0' := alpha * c0 am + c0 fac * c1 c * c2 c in
  let c1' := alpha * c1 am + c1 fac * c0' * c2 c in
  let c2' := alpha * c2 am + c2 fac * c0' * c1' in
  V3 c0' c1' c2'.
Fixpoint dmv_loop (k : nat) (eps : R) (am fac : v3) (c : v3) : v3 :=
  match k with
  | O => c
  | S k =>
      let c' := dmv_pass am fac c in
      let err := Rabs (c0 c - c0 c') + Rabs (c1 c - c1 c') + Rabs (c2 c - c2 c') in
      if Rle_dec err eps then c' else dmv_loop k eps am fac c'
  end.
Definition dmv_fac (I : v3) : v3 := V3 ((c1 I - c2 I) / c0 I) ((c2 I - c0 I) / c1 I) ((c0 I - c1 I) / c2 I).
Definition dmv_start (am fac : v3) : v3 :=
  let a := c0 am + c0 fac * c1 am * c2 am in
  let b := c1 am + c1 fac * a * c2 am in
  V3 a b (c2 am + c2 fac * a * b).
Definition dmv_am (p : v3) (h : R) (I : v3) : v3 := V3 (c0 p * (h / 2) / c0 I) (c1 p * (h / 2) / c1 I) (c2 p * (h / 2) / c2 I).
Definition dmv_vector (p : v3) (h : R) (I : v3) : v3 :=
  let am := dmv_am p h I in
  dmv_loop 50 (Rabs (h * (/ 10 ^ 15))) am (dmv_fac I) (dmv_start am (dmv_fac I)).
Definition dmv_apply (c : v3) (q : quat) : quat :=
  quat_normalize
    (Quat (qw q - c0 c * qx q - c1 c * qy q - c2 c * qz q)
          (qx q + c0 c * qw q + c2 c * qy q - c1 c * qz q)
          (qy q + c1 c * qw q + c0 c * qz q - c2 c * qx q)
          (qz q + c2 c * qw q + c1 c * qx q - c0 c * qy q)).
(* DMV 70-101 *)
Definition dmv_rotate (h : R) (I : v3) (R0 : m3) (L : v3) : m3 :=
  quat_mat (dmv_apply (dmv_vector (mul3 (tr R0) L) h I) (mat_quat R0)).

(* SplitHamMap::flow and DMVMap::flow 103-207 share all but the rotation of each body *)
Definition momentum_kick (s : rb3) (dt : R) (F p : dvec) : dvec :=
  let n := s3_n s in
  for_bodies n (fun i p =>
    if s3_fixed s i then p
    else add_seg3 (add_seg3 p (3 * i) (scale3 (/ 2 * dt) (seg3 F (3 * i)))) (3 * n + 3 * i) (scale3 (/ 2 * dt) (seg3 F (3 * n + 3 * i)))) p.
Definition hamiltonian_flow (rotate : R -> v3 -> m3 -> v3 -> m3) (s : rb3) (dt : R) : dvec * dvec :=
  let n := s3_n s in
  let q0 := s3_q s in
  let v0 := s3_v s in
  let v1 := mass_mul n (s3_M s) v0 in
  let F := rb3_force s in
  let v1 := momentum_kick s dt F v1 in
  let q_update := fun k => dt * v0 k + / 2 * dt * dt * mass_mul n (s3_Minv s) F k in
  let q1 := for_bodies n (fun i q => if s3_fixed s i then q else add_seg3 q (3 * i) (seg3 q_update (3 * i))) q0 in
  let q1 := for_bodies n (fun i q =>
    if s3_fixed s i then q
    else set_mat q (3 * n + 9 * i)
           (rotate dt (seg3 (s3_M0 s) (3 * n + 3 * i)) (mat_at q0 (3 * n + 9 * i)) (seg3 v1 (3 * n + 3 * i)))) q1 in
  (* fsys.computeForce( q1, v0, ... ) reads the state's own q and v, not its arguments *)
  let F := rb3_force s in
  let v1 := momentum_kick s dt F v1 in
  let v1 := for_bodies n (fun i v =>
    if s3_fixed s i then v
    else
      let a := seg3 v (3 * i) in let m := seg3 (s3_M0 s) (3 * i) in
      let v := set_seg3 v (3 * i) (V3 (c0 a / c0 m) (c1 a / c1 m) (c2 a / c2 m)) in
      let Rm := mat_at q1 (3 * n + 9 * i) in
      set_seg3 v (3 * n + 3 * i)
        (mul3 (mm (mm Rm (diag3 (seg3 (s3_Minv0 s) (3 * n + 3 * i)))) (tr Rm)) (seg3 v (3 * n + 3 * i)))) v1 in
  (q1, v1).
Definition split_ham (s : rb3) (dt : R) : dvec * dvec := hamiltonian_flow (fun dt I R0 L => fst (split_rotate dt I R0 L)) s dt.
Definition dmv (s : rb3) (dt : R) : dvec * dvec := hamiltonian_flow dmv_rotate s dt.

(* ---------- ExponentialEulerMap::flow 34-94; the singular value decomposition is Eigen's JacobiSVD ---------- *)
Definition add_m3 (A B : m3) : m3 := M3 (add3 (row0 A) (row0 B)) (add3 (row1 A) (row1 B)) (add3 (row2_ A) (row2_ B)).
(* columns R0.col( j ) + dt * omega.cross( R0.col( j ) ) *)
Definition tangent_step (dt : R) (w : v3) (R0 : m3) : m3 :=
  let T := tr R0 in
  let f x := add3 x (scale3 dt (cross3 w x)) in
  tr (M3 (f (row0 T)) (f (row1 T)) (f (row2_ T))).
Section Svd.
Variable svd : m3 -> m3 * v3 * m3.
Definition project_orientation (A : m3) : m3 := let '(U, _, V) := svd A in mm U (tr V).
Definition exp_euler_map (s : rb3) (dt : R) : dvec * dvec :=
  let n := s3_n s in
  let q0 := s3_q s in let v0 := s3_v s in
  let q1 := for_bodies n (fun i q =>
      let q := set_seg3 q (3 * i) (add3 (seg3 q0 (3 * i)) (scale3 dt (seg3 v0 (3 * i)))) in
      set_mat q (3 * n + 9 * i) (tangent_step dt (seg3 v0 (3 * n + 3 * i)) (mat_at q0 (3 * n + 9 * i)))) (fun _ => 0) in
  let A := mass_mul n (s3_Minv s) (rb3_force s) in
  let v1 := for_bodies n (fun i v =>
      let v := set_seg3 v (3 * i) (add3 (seg3 v0 (3 * i)) (scale3 dt (seg3 A (3 * i)))) in
      set_seg3 v (3 * (n + i)) (add3 (seg3 v0 (3 * (n + i))) (scale3 dt (seg3 A (3 * (n + i)))))) (fun _ => 0) in
  let q1 := for_bodies n (fun i q => set_mat q (3 * n + 9 * i) (project_orientation (mat_at q (3 * n + 9 * i)))) q1 in
  (q1, v1).
End Svd.

(* ---------- IntegrationTools: updateOrientation 4-34, exponentialEuler 36-70 ---------- *)
Definition update_orientation (dt : R) (w : v3) (Q0 : m3) : m3 :=
  let th := sqrt (dot3 w w) in
  let axis := if Req_EM_T th 0 then w else V3 (c0 w / th) (c1 w / th) (c2 w / th) in
  mm (angle_axis (th * dt) axis) Q0.
Definition exponential_euler (n : nat) (fixed : nat -> bool) (q0 v0 : dvec) (dt : R) (q1 : dvec) : dvec :=
  let q1 := for_bodies n (fun i q =>
      if fixed i then set_seg3 q (3 * i) (seg3 q0 (3 * i))
      else set_seg3 q (3 * i) (add3 (seg3 q0 (3 * i)) (scale3 dt (seg3 v0 (3 * i))))) q1 in
  for_bodies n (fun i q =>
      set_mat q (3 * n + 9 * i)
        (if fixed i then mat_at q0 (3 * n + 9 * i)
         else update_orientation dt (seg3 v0 (3 * n + 3 * i)) (mat_at q0 (3 * n + 9 * i)))) q1.

(* ---------- RigidBody3DSim::flow 407-441: the map, then swap and updateMandMinv ---------- *)
Definition rb3_step (map : rb3 -> R -> dvec * dvec) (dt : R) (s : rb3) : rb3 :=
  let r := map s dt in
  update_mass (Rb3 (s3_n s) (fst r) (snd r) (s3_M0 s) (s3_Minv0 s) (s3_M s) (s3_Minv s) (s3_fixed s) (s3_g s)).
Fixpoint rb3_steps (map : rb3 -> R -> dvec * dvec) (dt : R) (k : nat) (s : rb3) : rb3 :=
  match k with O => s | S k => rb3_steps map dt k (rb3_step map dt s) end.

(* ---------- energies and momenta, RigidBody3DSim.cpp:87-136, NearEarthGravityForce.cpp:22-36 ---------- *)
Definition s3_kinetic (s : rb3) : R := / 2 * rsum (6 * s3_n s) (fun k => s3_v s k * mass_mul (s3_n s) (s3_M s) (s3_v s) k).
Definition s3_potential (s : rb3) (q : dvec) : R :=
  fold_left (fun U g => U + fold_left (fun U i => U + - (s3_M s (3 * i)%nat) * dot3 g (seg3 q (3 * i))) (seq 0 (s3_n s)) 0) (s3_g s) 0.
Definition s3_momentum (s : rb3) : v3 := rb3_momentum (s3_n s) (s3_M s) (s3_v s).
(* getInertia 421-426 is a row-major view of the stored block *)
Definition s3_angular (s : rb3) : v3 :=
  rb3_angular (s3_n s) (s3_M s) (fun i => mat_at (s3_M s) (3 * s3_n s + 9 * i)) (s3_q s) (s3_v s).

(* ---------- planar mass matrices: the coefficients of the diagonal ---------- *)
(* createM / createMinv, /repo/ball2d/Ball2DState.cpp:40-66; generateM / generateMinv, /repo/rigidbody2d/RigidBody2DState.cpp:16-44 *)
Definition create_M (m : list R) : list R := map (fun col => nth col m 0) (seq 0 (length m)).
Definition create_Minv (m : list R) : list R := map (fun col => 1 / nth col m 0) (seq 0 (length m)).
