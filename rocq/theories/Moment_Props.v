(* C63: the mass, centre of mass and moments of inertia given to a body are the integrals over its shape. *)
From Coq Require Import List Reals Lra Permutation.
From Coquelicot Require Import Coquelicot.
From Verif Require Import Outcome Ccd_Model Lin_Model ContactRb3_Model Rot_Model Rot_Spec State_Model Moment_Model Moment_Spec Moment_Int Moment_Proofs Moment_Mesh Moment_Ex.
Import List ListNotations.
Open Scope R_scope.

(* The integral of a function over a set has one value. *)
Theorem C63_integral_unique : forall S f I I', integral3 S f I -> integral3 S f I' -> I = I'.
Proof. exact integral3_unique. Qed.
Print Assumptions C63_integral_unique.

(* Planar bodies: circles and boxes. *)
Theorem C63_circle : forall r rho, 0 <= r ->
  plane_properties (disc r) rho (fst (mass_and_inertia (Circle r) rho)) (snd (mass_and_inertia (Circle r) rho)).
Proof. intros r rho H. apply plane_mass. auto. Qed.
Print Assumptions C63_circle.
Theorem C63_plane_box : forall a b rho, 0 <= a -> 0 <= b ->
  plane_properties (rectangle a b) rho (fst (mass_and_inertia (Box a b) rho)) (snd (mass_and_inertia (Box a b) rho)).
Proof. intros a b rho Ha Hb. apply plane_mass. auto. Qed.
Print Assumptions C63_plane_box.

(* Spheres and boxes in space; volume() is the integral of 1. *)
Theorem C63_sphere : forall r rho, 0 <= r ->
  mass_properties (integral3 (ball r)) rho (mp_M (sphere_props r rho)) (mp_CM (sphere_props r rho)) (mp_I (sphere_props r rho)) (mp_R (sphere_props r rho))
  /\ is_mass (integral3 (ball r)) 1 (sphere_volume r).
Proof.
  intros r rho H. split; [apply sphere_mass, H|]. replace (sphere_volume r) with (mp_M (sphere_props r 1)) by (unfold sphere_volume, sphere_props; cbn; field).
  exact (proj1 (sphere_mass r 1 H)).
Qed.
Print Assumptions C63_sphere.
Theorem C63_box : forall h rho, 0 <= c0 h -> 0 <= c1 h -> 0 <= c2 h ->
  mass_properties (integral3 (brick h)) rho (mp_M (box_props h rho)) (mp_CM (box_props h rho)) (mp_I (box_props h rho)) (mp_R (box_props h rho))
  /\ is_mass (integral3 (brick h)) 1 (box_volume h).
Proof.
  intros h rho H0 H1 H2. split; [apply box_mass; assumption|]. replace (box_volume h) with (mp_M (box_props h 1)) by (unfold box_props; cbn; field).
  exact (proj1 (box_mass h 1 H0 H1 H2)).
Qed.
Print Assumptions C63_box.

(* Triangle meshes: for every mesh that is the surface of a solid cut into tetrahedra, and every density. The
   decomposition of a symmetric matrix into principal moments and axes is Eigen's; it need only be right for the inertia
   tensor of this solid. *)
Theorem C63_mesh : forall eig verts faces mesh Ts rho,
  Forall2 (face_corners verts) faces mesh -> surface_of mesh Ts -> Forall (fun T => 0 < jacobian T) Ts -> Ts <> [] ->
  (forall c J, is_center (over_solid Ts) c -> is_inertia (over_solid Ts) 1 c J -> decomposes (eig J) J) ->
  exists stored, compute_moments eig verts faces = Ok stored
    /\ 0 < mp_M stored /\ is_mass (over_solid Ts) 1 (mp_M stored)
    /\ let mp := mesh_props stored rho in mass_properties (over_solid Ts) rho (mp_M mp) (mp_CM mp) (mp_I mp) (mp_R mp).
Proof.
  intros eig verts faces mesh Ts rho HF HS HJ HN HE. pose proof (corners_of _ _ _ HF) as HM.
  destruct (mesh_mass_properties eig verts faces mesh Ts rho HM HS HJ HN HE) as (mp & E & HP & V). exists mp. split; [exact E|]. split; [exact V|].
  destruct (mesh_mass_properties eig verts faces mesh Ts 1 HM HS HJ HN HE) as (mp' & E' & HP' & _). assert (mp' = mp) by congruence. subst mp'.
  split; [|exact HP]. destruct HP' as (HM' & _). replace (mp_M mp) with (mp_M (mesh_props mp 1)) by (unfold mesh_props; cbn; ring). exact HM'.
Qed.
Print Assumptions C63_mesh.
(* An octahedron given by six vertices and eight faces. *)
Example ex_octahedron : exists stored, compute_moments diagonal_eig oct_verts oct_faces = Ok stored
  /\ 0 < mp_M stored /\ is_mass (over_solid oct_tets) 1 (mp_M stored)
  /\ let mp := mesh_props stored 3 in mass_properties (over_solid oct_tets) 3 (mp_M mp) (mp_CM mp) (mp_I mp) (mp_R mp).
Proof. apply (C63_mesh diagonal_eig oct_verts oct_faces oct_mesh oct_tets 3 oct_corners oct_surface oct_volumes); [discriminate|exact oct_decomposes]. Qed.

(* Staples, taken as the three cylinders the code announces: mass and centre are right, ... *)
Theorem C63_staple_mass : forall s rho, 0 < st_w s -> 0 < st_l s -> 0 <= st_r s ->
  is_mass (three_rods (st_w s) (st_l s) (st_r s)) rho (mp_M (staple_props s rho))
  /\ is_center (three_rods (st_w s) (st_l s) (st_r s)) (mp_CM (staple_props s rho)).
Proof. intros s rho Hw Hl Hr. destruct (rods_mass s rho Hw Hl Hr) as (A & B & _). split; assumption. Qed.
Print Assumptions C63_staple_mass.
(* ... but the moments of inertia are wrong whenever the length between the axes of back and tip, or the width, is not
   one unit: the code cubes these lengths where the moment of a cylinder has their square. *)
Theorem C63_staple_inertia_refuted : forall s rho, 0 < st_w s -> 0 < st_l s -> 0 < st_r s -> rho <> 0 -> st_w s <> 1 \/ st_l s <> 1 ->
  let mp := staple_props s rho in
  ~ mass_properties (three_rods (st_w s) (st_l s) (st_r s)) rho (mp_M mp) (mp_CM mp) (mp_I mp) (mp_R mp).
Proof.
  intros s rho Hw Hl Hr Hrho HN mp (_ & _ & _ & HI). destruct (rods_mass s rho Hw Hl ltac:(lra)) as (_ & _ & _ & HT). fold mp in HT.
  assert (Rid : mp_R mp = id3) by reflexivity. rewrite Rid, !turned_id3 in *. unfold mp in HI at 2. rewrite staple_error in HI. fold mp in HI.
  set (T := rods_I (st_w s) (st_l s) (st_r s) rho) in *. clearbody T. unfold is_inertia, diag3, add3, scale3 in HI, HT. cbn [row0 row1 row2_ c0 c1 c2] in HI, HT. cbv zeta in HI, HT.
  destruct HI as (I0 & _ & _ & _ & I1 & _). destruct HT as (T0 & _ & _ & _ & T1 & _).
  pose proof (rods_unique _ _ _ _ _ _ I0 T0) as E0. pose proof (rods_unique _ _ _ _ _ _ I1 T1) as E1. clear I0 I1 T0 T1.
  pose proof PI_RGT_0 as HP. revert E0 E1 HP. generalize PI. intros pi E0 E1 HP. assert (K : rho * pi * st_r s * st_r s / 12 <> 0).
  { unfold Rdiv.
    repeat apply Rmult_integral_contrapositive_currified; try lra; try exact Hrho.
    }
  destruct HN as [HN|HN].
  - assert (E : rho * pi * st_r s * st_r s / 12 * (st_w s * st_w s * st_w s * (st_w s - 1)) = 0) by lra.
    revert E. repeat apply Rmult_integral_contrapositive_currified; try lra; try exact K.
  - assert (E : rho * pi * st_r s * st_r s / 12 * (2 * (st_l s * st_l s * st_l s) * (st_l s - 1)) = 0) by lra.
    revert E. repeat apply Rmult_integral_contrapositive_currified; try lra; try exact K.
Qed.
Print Assumptions C63_staple_inertia_refuted.
Example ex_staple : let s := make_staple 3 2 (1 / 2) in 0 < st_w s /\ 0 < st_l s /\ 0 < st_r s /\ (st_w s <> 1 \/ st_l s <> 1).
Proof. cbn. lra. Qed.
(* When both are one unit the moments are right. *)
Theorem C63_staple_unit : forall s rho, st_w s = 1 -> st_l s = 1 -> 0 <= st_r s -> let mp := staple_props s rho in
  mass_properties (three_rods (st_w s) (st_l s) (st_r s)) rho (mp_M mp) (mp_CM mp) (mp_I mp) (mp_R mp).
Proof.
  intros s rho Hw Hl Hr mp. assert (E : mp_I mp = rods_I (st_w s) (st_l s) (st_r s) rho).
  { unfold mp. rewrite staple_error, Hw, Hl. destruct (rods_I 1 1 (st_r s) rho) as [x y z]. unfold add3, scale3. cbn. f_equal; ring. }
  rewrite E. apply rods_mass; lra.
Qed.
Print Assumptions C63_staple_unit.
(* The corners a staple keeps for collision detection are those of its centre lines, relative to the centre of mass. *)
Theorem C63_staple_corners : forall w l D, let s := make_staple w l D in
  map (fun p => add3 p (mp_CM (staple_props s 1))) (staple_corners s)
  = [V3 (- ((w - D) / 2)) (l - D) 0; V3 (- ((w - D) / 2)) 0 0; V3 ((w - D) / 2) 0 0; V3 ((w - D) / 2) (l - D) 0].
Proof. intros w l D s. unfold staple_corners, staple_props, s, make_staple, add3. cbn -[staple_cm_y]. set (y := staple_cm_y _). repeat (apply f_equal2; [f_equal; field|]). reflexivity. Qed.
Print Assumptions C63_staple_corners.
