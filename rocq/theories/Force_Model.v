(* The export of contact forces.
   Models /repo/scisim/ConstrainedMaps/ImpactFrictionMap.cpp:56-163 (exportConstraintForcesToBinaryFile, called by the three
   impact and friction maps), /repo/scisim/ConstrainedMaps/ImpactMaps/ImpactSolution.cpp:18-102 (setSolution, writeSolution,
   called by ImpactMap.cpp:65-71, 173-181 and the command line tools), and getBodyIndices, getStaticObjectIndex and
   getWorldSpaceContactPoint of the constraints. Numbers are reals. Release build: assertions are not checked.
   std::exit and an error thrown by the file wrapper are both the outcome Exit. *)
From Coq Require Import String Ascii List Reals Arith Bool ZArith.
Import ListNotations.
From Verif Require Import Outcome Ccd_Model Lin_Model ContactBall_Model ContactRb2_Model ContactRb3_Model Sob_Model Hdf_Model.
Local Open Scope string_scope. Local Open Scope list_scope. Local Open Scope R_scope.

(* int( unsigned ) and the assignment of an unsigned to an int *)
Definition int_of (u : N) : Z := let w := (Z.of_N u mod 4294967296)%Z in if (2147483648 <=? w)%Z then (w - 4294967296)%Z else w.
(* int arithmetic: leaving the range of int is undefined *)
Definition int_ok (z : Z) : outcome Z := if ((-2147483648 <=? z) && (z <=? 2147483647))%Z then Ok z else UB.

(* what the export asks a constraint for *)
Record asked (C : Type) := Asked {
  a_dims : nat;                                  (* ambientSpaceDimensions *)
  a_bodies : C -> outcome (Z * Z);               (* getBodyIndices *)
  a_static : C -> outcome N;                     (* getStaticObjectIndex *)
  a_point : dvec -> C -> outcome (list R) }.     (* getWorldSpaceContactPoint *)
Arguments a_dims {C}. Arguments a_bodies {C}. Arguments a_static {C}. Arguments a_point {C}.

Section Export.
Context {C : Type} (W : asked C).
Let d := a_dims W.

(* getCollisionIndices, ImpactFrictionMap.cpp:57-66, ImpactSolution.cpp:18-27 *)
Definition collision_indices (c : C) : outcome (Z * Z) :=
  let! ij := a_bodies W c in
  if (snd ij =? -1)%Z then
    let! k := a_static W c in
    let! m := int_ok (- int_of k) in
    let! j := int_ok (m - 2) in
    Ok (fst ij, j)
  else Ok ij.

(* a matrix with a column for each contact; Eigen stores it column by column *)
Definition by_column (rows : nat) (cols : list (list (elem R))) : emat R := mkMat false rows (List.length cols) (concat cols).
Definition number (e : outcome R) : outcome (elem R) := let! x := e in Ok (ENum x).
Definition index_columns (cs : list C) : outcome (list (list (elem R))) :=
  omapM (fun c => let! ij := collision_indices c in Ok [EInt (fst ij); EInt (snd ij)]) cs.
Definition point_columns (q : dvec) (cs : list C) : outcome (list (list (elem R))) :=
  omapM (fun c => let! p := a_point W q c in Ok (map ENum p)) cs.
(* contact_bases.col( ambient_space_dims * con ); [bases] row column *)
Definition normal_columns (n : nat) (bases : nat -> nat -> R) : list (list (elem R)) :=
  map (fun con => map (fun e => ENum (bases e (d * con)%nat)) (seq 0 d)) (seq 0 n).
(* the force of one contact, ImpactFrictionMap.cpp:144-158 *)
Definition contact_force (bases : nat -> nat -> R) (alpha beta : dvec) (con e : nat) : R :=
  fold_left (fun f s => f + beta ((d - 1) * con + s)%nat * bases e (d * con + s + 1)%nat) (seq 0 (d - 1)) (alpha con * bases e (d * con)%nat).
Definition force_columns (n : nat) (bases : nat -> nat -> R) (alpha beta : dvec) : list (list (elem R)) :=
  map (fun con => map (fun e => ENum (contact_force bases alpha beta con e)) (seq 0 d)) (seq 0 n).

(* a computation that may end the program in the middle of the export *)
Definition compute {B} (o : outcome B) : act R B := fun h => (h, o).
(* exportConstraintForcesToBinaryFile, 68-163; the time step is not used *)
Definition export_forces (q : dvec) (cs : list C) (bases : nat -> nat -> R) (alpha beta : dvec) : act R unit :=
  let n := List.length cs in
  bind (write_scalar "collision_count" SUnsigned (EInt (Z.of_nat n))) (fun _ =>
  if Nat.eqb n 0 then ret tt else
  bind (compute (index_columns cs)) (fun cols => bind (write_matrix "collision_indices" SInt (by_column 2 cols)) (fun _ =>
  bind (compute (point_columns q cs)) (fun cols => bind (write_matrix "collision_points" SDouble (by_column d cols)) (fun _ =>
  bind (write_matrix "collision_normals" SDouble (by_column d (normal_columns n bases))) (fun _ =>
  write_matrix "collision_forces" SDouble (by_column d (force_columns n bases alpha beta)))))))).

(* ImpactSolution: m_indices, m_points, m_normals, m_forces as columns; m_dt is never read *)
Record solution := Solution { sn_indices : list (list (elem R)); sn_points : list (list (elem R)); sn_normals : list (list (elem R));
  sn_forces : list (list (elem R)) }.
(* setSolution, ImpactSolution.cpp:29-73; [bases] has one column for each contact *)
Definition setSolution (q : dvec) (cs : list C) (bases : nat -> nat -> R) (alpha : dvec) : outcome solution :=
  let n := List.length cs in
  let! is := index_columns cs in
  let! ps := point_columns q cs in
  Ok (Solution is ps (map (fun con => map (fun e => ENum (bases e con)) (seq 0 d)) (seq 0 n))
        (map (fun con => map (fun e => ENum (alpha con * bases e con)) (seq 0 d)) (seq 0 n))).
(* writeSolution, 75-102 *)
Definition writeSolution (s : solution) : act R unit :=
  let n := List.length (sn_indices s) in
  bind (write_scalar "collision_count" SUnsigned (EInt (Z.of_nat n))) (fun _ =>
  if Nat.eqb n 0 then ret tt else
  bind (write_matrix "collision_indices" SInt (by_column 2 (sn_indices s))) (fun _ =>
  bind (write_matrix "collision_points" SDouble (by_column d (sn_points s))) (fun _ =>
  bind (write_matrix "collision_normals" SDouble (by_column d (sn_normals s))) (fun _ =>
  write_matrix "collision_forces" SDouble (by_column d (sn_forces s)))))).
End Export.

(* ---------- the three simulators ---------- *)
(* A constraint together with the number of the plane, drum or cylinder it holds (m_idx_plane, m_idx_drum, m_plane_idx,
   m_cylinder_index); the number is not read where there is none. *)
Definition sim_pair (ij : nat * option nat) : Z * Z :=
  (int_of (N.of_nat (fst ij)), match snd ij with Some j => int_of (N.of_nat j) | None => (-1)%Z end).

(* BallBall 157-160, 219-222 (inherited by the kick), Plane 115-118, 171-184, Drum 116-119, 168-181 *)
Definition b_contact_point (q : dvec) (c : ball_contact) : vec :=
  match c with
  | BallBall i _ n r _ _ | KickBallBall i _ n r _ _ _ => vsub (seg2 q (2 * i)) (vscale r n)
  | BallPlane i r p => vsub (seg2 q (2 * i)) (vscale r (bp_n p))
  | BallDrum i n r => vsub (seg2 q (2 * i)) (vscale r n)
  end.
Definition ball_asked : asked (ball_contact * N) := {|
  a_dims := 2; a_bodies := fun c => Ok (sim_pair (b_bodies (fst c)));
  a_static := fun c => match fst c with BallPlane _ _ _ | BallDrum _ _ _ => Ok (snd c) | _ => Exit end;
  a_point := fun q c => Ok (of2 (b_contact_point q (fst c))) |}.

(* /repo/rigidbody2d: CircleCircle 96, BodyBody 38, Teleported 64 (inherited by the kick), KinematicObject 51-55, PlaneBody 35-44,
   PlaneCircle 57-61, 175-178 *)
Definition rb2_asked : asked (rb2_contact * N) := {|
  a_dims := 2;
  a_bodies := fun c => Ok (match fst c with
                           | KinCircle i _ _ k _ _ _ => (int_of (N.of_nat i), int_of (N.of_nat k))
                           | c => sim_pair (rb2_bodies c)
                           end);
  a_static := fun c => match fst c with PlaneBody2 _ _ _ | PlaneCircle _ _ _ => Ok (snd c) | _ => Exit end;
  a_point := fun q c => Ok (of2 (rb2_contact_point q (fst c))) |}.

(* /repo/rigidbody3d/Constraints: SphereSphere 218, Teleported 195-199, BodyBody 230, KinematicBody 128-132, KinematicSphere 81-85,
   PlaneBody 168, 236, PlaneBox 225, 312, PlaneSphere 185, 324, CylinderSphere 172, 334. SphereBody and CylinderBody do not
   override getBodyIndices: Constraint::getBodyIndices ends the program, Constraint.cpp:173-177. *)
Definition rb3_asked : asked (rb3_contact * N) := {|
  a_dims := 3;
  a_bodies := fun c => match fst c with
                       | SphereBody _ _ _ _ _ | CylBody _ _ _ => Exit
                       | KinBody i k _ _ | KinSphere i _ _ k => Ok (int_of (N.of_nat i), int_of (N.of_nat k))
                       | c => Ok (sim_pair (rb3_bodies c))
                       end;
  a_static := fun c => match fst c with
                       | PlaneBody3 _ _ _ k => Ok (N.of_nat k)
                       | PlaneSphere _ _ _ | CylSphere _ _ _ => Ok (snd c)
                       | _ => Exit
                       end;
  a_point := fun q c => let! p := rb3_contact_point q (fst c) in Ok (of3 p) |}.
