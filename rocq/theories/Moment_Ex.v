From Coq Require Import List Reals Lra Permutation.
From Coquelicot Require Import Coquelicot.
From Verif Require Import Outcome Ccd_Model Lin_Model ContactRb3_Model Rot_Model Rot_Spec Rot_Alg State_Model Moment_Model Moment_Spec Moment_Int Moment_Proofs Moment_Mesh.
Import List ListNotations.
Open Scope R_scope.

Lemma pieces_unique : forall L, Forall (fun over : integration => forall f I I', over f I -> over f I' -> I = I') L ->
  forall f I I', pieces L f I -> pieces L f I' -> I = I'.
Proof.
  intros L H f I I' (vs & F & ->) (vs' & F' & ->). f_equal. revert vs vs' F F'. induction H as [|o L Ho _ IH]; intros vs vs' F F'; inversion F; inversion F'; subst; [reflexivity|].
  f_equal; [eapply Ho; eassumption|apply IH; assumption].
Qed.
Lemma rods_unique : forall w l r f I I', three_rods w l r f I -> three_rods w l r f I' -> I = I'.
Proof. intros w l r. apply pieces_unique. repeat constructor; intros; eapply integral3_unique; eassumption. Qed.
Lemma solid_unique : forall Ts f I I', over_solid Ts f I -> over_solid Ts f I' -> I = I'.
Proof. intros Ts. apply pieces_unique. apply Forall_map. apply Forall_forall. intros T _ f I I'. apply integral3_unique. Qed.

Lemma corners_of : forall verts faces mesh, Forall2 (face_corners verts) faces mesh -> omapM (corners verts) faces = Ok mesh.
Proof.
  intros verts faces mesh H. induction H as [|[[i j] k] [[a b] c] fs ms Hf _ IH]; cbn [omapM]; [reflexivity|].
  destruct Hf as (E1 & E2 & E3). unfold corners at 1, corner. rewrite E1, E2, E3. cbn [obind]. rewrite IH. reflexivity.
Qed.

(* circles and rectangles *)
Lemma plane_poly : forall S E, (forall k0 k1 k2 k11 k22 k12, integral2 S (pv2 k0 k1 k2 k11 k22 k12) (E k0 k1 k2 k11 k22 k12)) ->
  forall k0 k1 k2 k11 k22 k12 f I, (forall x y, f x y = pv2 k0 k1 k2 k11 k22 k12 x y) -> I = E k0 k1 k2 k11 k22 k12 -> integral2 S f I.
Proof. intros S E H k0 k1 k2 k11 k22 k12 f I Hf ->. eapply integral2_ext; [|intros; apply Hf|apply H]. tauto. Qed.
Lemma plane_mass : forall S g, match g with Circle r => 0 <= r /\ S = disc r | Box a b => 0 <= a /\ 0 <= b /\ S = rectangle a b end ->
  forall rho, plane_properties S rho (fst (mass_and_inertia g rho)) (snd (mass_and_inertia g rho)).
Proof.
  intros S [r|a b] H rho.
  - destruct H as [Hr ->]. pose proof (plane_poly (disc r) _ (fun k0 k1 k2 k11 k22 k12 => disc_poly r k0 k1 k2 k11 k22 k12 Hr)) as P. cbn [mass_and_inertia fst snd].
    split; [|split; [|split]].
    + eapply (P rho 0 0 0 0 0); [intros; unfold pv2; ring|field].
    + eapply (P 0 rho 0 0 0 0); [intros; unfold pv2; ring|field].
    + eapply (P 0 0 rho 0 0 0); [intros; unfold pv2; ring|field].
    + eapply (P 0 0 0 rho rho 0); [intros; unfold pv2; ring|field].
  - destruct H as (Ha & Hb & ->). pose proof (plane_poly (rectangle a b) _ (fun k0 k1 k2 k11 k22 k12 => rectangle_poly a b k0 k1 k2 k11 k22 k12 Ha Hb)) as P. cbn [mass_and_inertia fst snd].
    split; [|split; [|split]].
    + eapply (P rho 0 0 0 0 0); [intros; unfold pv2; ring|field].
    + eapply (P 0 rho 0 0 0 0); [intros; unfold pv2; ring|field].
    + eapply (P 0 0 rho 0 0 0); [intros; unfold pv2; ring|field].
    + eapply (P 0 0 0 rho rho 0); [intros; unfold pv2; ring|field].
Qed.

(* an octahedron cut into four tetrahedra around its vertical axis *)
Definition oct_verts : list v3 := [V3 1 0 0; V3 0 1 0; V3 (-1) 0 0; V3 0 (-1) 0; V3 0 0 1; V3 0 0 (-1)].
Definition oct_faces : list (nat * nat * nat) :=
  [(0, 1, 4); (1, 2, 4); (2, 3, 4); (3, 0, 4); (1, 0, 5); (2, 1, 5); (3, 2, 5); (0, 3, 5)]%nat.
Definition oct_mesh : list tri :=
  let a := V3 1 0 0 in let b := V3 0 1 0 in let c := V3 (-1) 0 0 in let d := V3 0 (-1) 0 in let n := V3 0 0 1 in let s := V3 0 0 (-1) in
  [(a, b, n); (b, c, n); (c, d, n); (d, a, n); (b, a, s); (c, b, s); (d, c, s); (a, d, s)].
Definition oct_tets : list tet :=
  let a := V3 1 0 0 in let b := V3 0 1 0 in let c := V3 (-1) 0 0 in let d := V3 0 (-1) 0 in let n := V3 0 0 1 in let s := V3 0 0 (-1) in
  [Tet s a b n; Tet s b c n; Tet s c d n; Tet s d a n].
Lemma oct_corners : Forall2 (face_corners oct_verts) oct_faces oct_mesh.
Proof. repeat constructor. Qed.
Lemma oct_volumes : Forall (fun T => 0 < jacobian T) oct_tets.
Proof. repeat constructor; unfold jacobian, dot3, cross3, sub3; cbn; lra. Qed.
Lemma oct_surface : surface_of oct_mesh oct_tets.
Proof.
  set (a := V3 1 0 0). set (b := V3 0 1 0). set (c := V3 (-1) 0 0). set (d := V3 0 (-1) 0). set (n := V3 0 0 1). set (s := V3 0 0 (-1)).
  (* sides of Tet s x y n: (s,y,x) (s,x,n) (s,n,y) (x,y,n) *)
  exists [(s, a, n); (s, b, n); (s, c, n); (s, d, n)].
  exists [(b, a, s); (s, a, n); (s, n, b); (a, b, n); (c, b, s); (s, b, n); (s, n, c); (b, c, n); (d, c, s); (s, c, n); (s, n, d); (c, d, n);
          (a, d, s); (s, d, n); (s, n, a); (d, a, n)].
  split.
  - unfold oct_mesh. fold a b c d n s. cbn [app map flipped].
    generalize (a, b, n) (b, c, n) (c, d, n) (d, a, n) (b, a, s) (c, b, s) (d, c, s) (a, d, s) (s, a, n) (s, b, n) (s, c, n) (s, d, n) (s, n, a) (s, n, b) (s, n, c) (s, n, d).
    clear. intros x1 x2 x3 x4 x5 x6 x7 x8 x9 x10 x11 x12 x13 x14 x15 x16.
    apply Permutation_sym.
    Ltac pull := match goal with
      | |- Permutation [] [] => apply perm_nil
      | |- Permutation (?x :: ?l) ?r => let rec go pre post := lazymatch post with
            | x :: ?t => apply (Permutation_cons_app pre t x); cbn [app]
            | ?y :: ?t => let pre' := eval cbn [app] in (pre ++ [y]) in go pre' t end in go (@nil tri) r
      end.
    repeat pull.
  - unfold oct_tets. fold a b c d n s. cbn [map concat app tet_sides ta tb tc td].
    repeat (apply Forall2_cons; [unfold same_tri; auto|]). apply Forall2_nil.
Qed.
Lemma oct_integrals : integrals oct_mesh = Ten (4 / 3) 0 0 0 (2 / 15) (2 / 15) (2 / 15) 0 0 0.
Proof. apply ten_eq; cbv -[Rplus Rmult Rminus Ropp Rdiv Rinv IZR]; lra. Qed.
Lemma oct_value : forall p f I, over_solid oct_tets f I -> (forall x y z, f x y z = pv p x y z) ->
  I = 4 / 3 * p0 p + 2 / 15 * (pxx p + pyy p + pzz p).
Proof.
  intros p f I H Hf. pose proof (solid_integrates _ _ oct_surface oct_volumes) as HI.
  rewrite (solid_unique oct_tets f I (pair10 (integrals oct_mesh) p) H (HI p f _ Hf eq_refl)). rewrite oct_integrals. unfold pair10. cbn. field.
Qed.
(* a solver that is right on diagonal matrices *)
Definition diagonal_eig (A : m3) : v3 * m3 := (V3 (c0 (row0 A)) (c1 (row1 A)) (c2 (row2_ A)), id3).
Lemma oct_decomposes : forall c J, is_center (over_solid oct_tets) c -> is_inertia (over_solid oct_tets) 1 c J -> decomposes (diagonal_eig J) J.
Proof.
  intros c J (X & Y & Z) HI.
  assert (E0 : c0 c = 0) by (apply (oct_value (first_poly c 0)) in X; [cbn in X; lra|intros; unfold pv; cbn; ring]).
  assert (E1 : c1 c = 0) by (apply (oct_value (first_poly c 1)) in Y; [cbn in Y; lra|intros; unfold pv; cbn; ring]).
  assert (E2 : c2 c = 0) by (apply (oct_value (first_poly c 2)) in Z; [cbn in Z; lra|intros; unfold pv; cbn; ring]).
  unfold is_inertia in HI. cbv zeta in HI. destruct HI as (_ & J01 & J02 & J10 & _ & J12 & J20 & J21 & _).
  apply (oct_value (mix_poly 1 c 0)) in J01; [|intros; unfold pv; cbn; ring].
  apply (oct_value (mix_poly 1 c 2)) in J02; [|intros; unfold pv; cbn; ring].
  apply (oct_value (mix_poly 1 c 0)) in J10; [|intros; unfold pv; cbn; ring].
  apply (oct_value (mix_poly 1 c 1)) in J12; [|intros; unfold pv; cbn; ring].
  apply (oct_value (mix_poly 1 c 2)) in J20; [|intros; unfold pv; cbn; ring].
  apply (oct_value (mix_poly 1 c 1)) in J21; [|intros; unfold pv; cbn; ring].
  cbn in J01, J02, J10, J12, J20, J21. rewrite E0, E1, E2 in *.
  destruct J as [[a b c'] [d e f] [g h i]]. cbn in J01, J02, J10, J12, J20, J21. unfold decomposes, diagonal_eig. cbn [fst snd row0 row1 row2_ c0 c1 c2].
  split; [apply rotation_id3|]. rewrite turned_id3. unfold diag3. cbn [c0 c1 c2]. repeat f_equal; lra.
Qed.
