(* The surface integrals of MomentTools::computeMoments are the volume integrals over the enclosed solid. *)
From Coq Require Import List Reals Lra Permutation.
From Coquelicot Require Import Coquelicot.
From Verif Require Import Outcome Ccd_Model Lin_Model ContactRb3_Model Rot_Model Rot_Spec Rot_Alg Moment_Model Moment_Spec Moment_Int Moment_Proofs.
Import List ListNotations.
Open Scope R_scope.

(* value of a linear functional given by ten numbers on a quadratic *)
Definition pair10 (s : ten) (p : poly) : R :=
  p0 p * i0 s + px p * i1 s + py p * i2 s + pz p * i3 s + pxx p * i4 s + pyy p * i5 s + pzz p * i6 s + pxy p * i7 s + pyz p * i8 s + pzx p * i9 s.
Definition ten_add (a b : ten) : ten :=
  Ten (i0 a + i0 b) (i1 a + i1 b) (i2 a + i2 b) (i3 a + i3 b) (i4 a + i4 b) (i5 a + i5 b) (i6 a + i6 b) (i7 a + i7 b) (i8 a + i8 b) (i9 a + i9 b).
Definition ten_neg (a : ten) : ten :=
  Ten (- i0 a) (- i1 a) (- i2 a) (- i3 a) (- i4 a) (- i5 a) (- i6 a) (- i7 a) (- i8 a) (- i9 a).
Definition flux (t : tri) : ten := add_triangle ten_zero t.
Definition sum10 (l : list ten) : ten := fold_right ten_add ten_zero l.

Lemma ten_eq : forall a b, i0 a = i0 b -> i1 a = i1 b -> i2 a = i2 b -> i3 a = i3 b -> i4 a = i4 b -> i5 a = i5 b -> i6 a = i6 b -> i7 a = i7 b ->
  i8 a = i8 b -> i9 a = i9 b -> a = b.
Proof. intros [] []; cbn; intros; subst; reflexivity. Qed.
Lemma add_comm10 : forall a b, ten_add a b = ten_add b a.
Proof. intros; apply ten_eq; cbn; ring. Qed.
Lemma add_assoc10 : forall a b c, ten_add (ten_add a b) c = ten_add a (ten_add b c).
Proof. intros; apply ten_eq; cbn; ring. Qed.
Lemma add_zero10 : forall a, ten_add ten_zero a = a.
Proof. intros; apply ten_eq; cbn; ring. Qed.
Lemma add_neg10 : forall a, ten_add a (ten_neg a) = ten_zero.
Proof. intros; apply ten_eq; cbn; ring. Qed.
Lemma sum10_app : forall a b, sum10 (a ++ b) = ten_add (sum10 a) (sum10 b).
Proof. induction a as [|x a IH]; intros b; cbn [app sum10 fold_right]; [symmetry; apply add_zero10|]. fold (sum10 (a ++ b)). rewrite IH. fold (sum10 a). rewrite add_assoc10. reflexivity. Qed.
Lemma sum10_perm : forall a b, Permutation a b -> sum10 a = sum10 b.
Proof.
  induction 1 as [|x a b _ IH|x y a|a b c _ IH1 _ IH2]; cbn [sum10 fold_right]; [reflexivity| | |].
  - fold (sum10 a) (sum10 b). rewrite IH. reflexivity.
  - rewrite <- !add_assoc10. rewrite (add_comm10 y x). reflexivity.
  - etransitivity; eassumption.
Qed.
Lemma sum10_neg : forall l, sum10 (map ten_neg l) = ten_neg (sum10 l).
Proof. induction l as [|x l IH]; cbn [map sum10 fold_right]; [apply ten_eq; cbn; ring|]. fold (sum10 (map ten_neg l)) (sum10 l). rewrite IH. apply ten_eq; cbn; ring. Qed.

(* the fold of the code is the sum of the fluxes *)
Lemma add_triangle_flux : forall s t, add_triangle s t = ten_add s (flux t).
Proof. intros s [[a b] c]. apply ten_eq; cbn; ring. Qed.
Lemma fold_flux : forall ts s, fold_left add_triangle ts s = ten_add s (sum10 (map flux ts)).
Proof.
  induction ts as [|t ts IH]; intros s; cbn [fold_left map sum10 fold_right]; [rewrite add_comm10, add_zero10; reflexivity|].
  rewrite IH, add_triangle_flux, add_assoc10. reflexivity.
Qed.
Lemma integrals_flux : forall ts, integrals ts = scale_ten (sum10 (map flux ts)).
Proof. intros ts. unfold integrals. rewrite fold_flux, add_zero10. reflexivity. Qed.

(* reversing and rotating a triangle *)
Ltac tens := apply ten_eq; unfold flux, add_triangle, sub_g, sub_f3, sub_f2, sub_f1, cross3, sub3; cbn; ring.
Lemma flux_flipped : forall t, flux (flipped t) = ten_neg (flux t).
Proof. intros [[[ax ay az] [bx by_ bz]] [cx cy cz]]. tens. Qed.
Lemma flux_rotated : forall t t', same_tri t t' -> flux t' = flux t.
Proof. intros [[[ax ay az] [bx by_ bz]] [cx cy cz]] t' [-> | [-> | ->]]; [reflexivity|tens|tens]. Qed.

(* integrals over a tetrahedron *)
Definition compose (p : poly) (a u v w : v3) : poly :=
  let quad f g := pxx p * (c0 f * c0 g) + pyy p * (c1 f * c1 g) + pzz p * (c2 f * c2 g) in
  let mixd f g := pxy p * (c0 f * c1 g + c0 g * c1 f) + pyz p * (c1 f * c2 g + c1 g * c2 f) + pzx p * (c2 f * c0 g + c2 g * c0 f) in
  let lin f := px p * c0 f + py p * c1 f + pz p * c2 f in
  let dbl f := pxy p * (c0 f * c1 f) + pyz p * (c1 f * c2 f) + pzx p * (c2 f * c0 f) in
  P10 (pv p (c0 a) (c1 a) (c2 a))
      (lin u + 2 * quad a u + mixd a u) (lin v + 2 * quad a v + mixd a v) (lin w + 2 * quad a w + mixd a w)
      (quad u u + dbl u) (quad v v + dbl v) (quad w w + dbl w)
      (2 * quad u v + mixd u v) (2 * quad v w + mixd v w) (2 * quad w u + mixd w u).
Lemma compose_ok : forall p a u v w s t r,
  pv (compose p a u v w) s t r = (let q := add3 a (add3 (scale3 s u) (add3 (scale3 t v) (scale3 r w))) in pv p (c0 q) (c1 q) (c2 q)).
Proof. intros p a u v w s t r. unfold compose, pv, add3, scale3. cbn. ring. Qed.
Definition simplex_E (p : poly) : R := p0 p / 6 + (px p + py p + pz p) / 24 + (pxx p + pyy p + pzz p) / 60 + (pxy p + pyz p + pzx p) / 120.
Definition scale_poly (k : R) (p : poly) : poly :=
  P10 (k * p0 p) (k * px p) (k * py p) (k * pz p) (k * pxx p) (k * pyy p) (k * pzz p) (k * pxy p) (k * pyz p) (k * pzx p).
Definition tet_E (T : tet) (p : poly) : R :=
  Rabs (jacobian T) * simplex_E (compose p (ta T) (sub3 (tb T) (ta T)) (sub3 (tc T) (ta T)) (sub3 (td T) (ta T))).
Lemma tet_integrates : forall T, integrates (over_tet T) (tet_E T).
Proof.
  intros T p f I Hf ->. unfold over_tet.
  set (q := scale_poly (Rabs (jacobian T)) (compose p (ta T) (sub3 (tb T) (ta T)) (sub3 (tc T) (ta T)) (sub3 (td T) (ta T)))).
  replace (tet_E T p) with (simplex_E q) by (unfold q, tet_E, simplex_E, scale_poly; cbn [p0 px py pz pxx pyy pzz pxy pyz pzx]; field).
  apply (integral3_ext simplex simplex (pv q)); [tauto| |apply simplex_poly].
  intros s t r _. cbv zeta. rewrite Hf. unfold q, tet_point.
  transitivity (Rabs (jacobian T) * pv (compose p (ta T) (sub3 (tb T) (ta T)) (sub3 (tc T) (ta T)) (sub3 (td T) (ta T))) s t r).
  - rewrite compose_ok. reflexivity.
  - unfold pv, scale_poly. cbn [p0 px py pz pxx pyy pzz pxy pyz pzx]. ring.
Qed.
(* the divergence theorem on a tetrahedron *)
Definition side_sum (T : tet) : ten := scale_ten (sum10 (map flux (tet_sides T))).
Lemma divergence : forall T, 0 < jacobian T -> forall p, pair10 (side_sum T) p = tet_E T p.
Proof.
  intros [[ax ay az] [bx by_ bz] [cx cy cz] [dx dy dz]] HJ p. unfold tet_E. rewrite Rabs_right by lra. clear HJ.
  unfold side_sum, tet_sides, pair10, simplex_E, compose, jacobian, flux, add_triangle, sub_g, sub_f3, sub_f2, sub_f1, cross3, sub3, dot3, scale_ten. cbn. unfold pv. cbn.
  field.
Qed.

Lemma pair_add : forall a b p, pair10 (ten_add a b) p = pair10 a p + pair10 b p.
Proof. intros; unfold pair10; cbn; ring. Qed.
Lemma scale_add : forall a b, scale_ten (ten_add a b) = ten_add (scale_ten a) (scale_ten b).
Proof. intros; apply ten_eq; cbn; field. Qed.
Lemma surface_flux : forall mesh Ts, surface_of mesh Ts -> integrals mesh = sum10 (map side_sum Ts).
Proof.
  intros mesh Ts (inner & sides & P & F).
  assert (E1 : sum10 (map flux mesh) = sum10 (map flux sides)).
  { rewrite <- (sum10_perm _ _ (Permutation_map flux P)), !map_app, !sum10_app, map_map.
    rewrite (map_ext _ (fun t => ten_neg (flux t)) flux_flipped), <- (map_map flux ten_neg), sum10_neg, add_neg10, add_comm10, add_zero10. reflexivity. }
  assert (E2 : map flux sides = map flux (concat (map tet_sides Ts))).
  { clear P E1. induction F as [|t t' l l' Ht _ IH]; cbn [map]; [reflexivity|]. rewrite IH, (flux_rotated _ _ Ht). reflexivity. }
  rewrite integrals_flux, E1, E2. clear. induction Ts as [|T Ts IH]; cbn [map concat]; [apply ten_eq; cbn; field|].
  rewrite map_app, sum10_app, scale_add, IH. reflexivity.
Qed.
Lemma solid_integrates : forall mesh Ts, surface_of mesh Ts -> Forall (fun T => 0 < jacobian T) Ts ->
  integrates (over_solid Ts) (pair10 (integrals mesh)).
Proof.
  intros mesh Ts HS HJ.
  assert (H : integrates (pieces (map fst (map (fun T => (over_tet T, tet_E T)) Ts))) (fun p => fold_right Rplus 0 (map (fun oE => snd oE p) (map (fun T => (over_tet T, tet_E T)) Ts)))).
  { apply integrates_pieces. apply Forall_map. apply Forall_forall. intros T _. apply tet_integrates. }
  rewrite map_map in H. cbn [fst] in H. intros p f I Hf ->. apply (H p f); [exact Hf|]. rewrite map_map. cbn [snd].
  rewrite (surface_flux _ _ HS). clear H HS Hf.
  induction HJ as [|T Ts HT _ IH]; cbn [map sum10 fold_right]; [unfold pair10; cbn; ring|].
  fold (sum10 (map side_sum Ts)). rewrite pair_add, (divergence T HT), IH. reflexivity.
Qed.
Lemma solid_volume : forall mesh Ts, surface_of mesh Ts -> Forall (fun T => 0 < jacobian T) Ts -> Ts <> [] -> 0 < i0 (integrals mesh).
Proof.
  intros mesh Ts HS HJ HN. replace (i0 (integrals mesh)) with (pair10 (integrals mesh) (one_poly 1)) by (unfold pair10, one_poly; cbn; ring).
  rewrite (surface_flux _ _ HS). clear HS.
  assert (P : forall T, 0 < jacobian T -> 0 < pair10 (side_sum T) (one_poly 1)).
  { intros T HT. rewrite divergence by exact HT. unfold tet_E. rewrite Rabs_right by lra.
    replace (simplex_E _) with (/ 6) by (unfold simplex_E, compose, one_poly, pv; cbn; field). lra. }
  assert (Q : forall Ts, Forall (fun T => 0 < jacobian T) Ts -> 0 <= pair10 (sum10 (map side_sum Ts)) (one_poly 1)).
  { induction 1 as [|T l HT _ IH]; cbn [map sum10 fold_right]; [unfold pair10; cbn; lra|]. fold (sum10 (map side_sum l)). rewrite pair_add. specialize (P T HT). lra. }
  destruct HJ as [|T l HT Hl]; [congruence|]. cbn [map sum10 fold_right]. fold (sum10 (map side_sum l)). rewrite pair_add. specialize (P T HT). specialize (Q l Hl). lra.
Qed.

(* turning the eigenvectors into a rotation *)
Lemma flip_orthonormal : forall A, mm (flip_col0 A) (tr (flip_col0 A)) = mm A (tr A).
Proof. intros [[a b c] [d e f] [g h i]]. unfold flip_col0, mm, vmul, mul3, tr, dot3. cbn. f_equal; f_equal; ring. Qed.
Lemma flip_turned : forall A d, turned (flip_col0 A) d = turned A d.
Proof. intros [[a b c] [d e f] [g h i]] [x y z]. unfold turned, flip_col0, mm, vmul, mul3, tr, diag3, dot3. cbn. f_equal; f_equal; ring. Qed.
Lemma flip_det : forall A, det3 (flip_col0 A) = - det3 A.
Proof. intros [[a b c] [d e f] [g h i]]. unfold flip_col0, det3, dot3, cross3. cbn. ring. Qed.
Lemma diagonalize_ok : forall eig A, decomposes (eig A) A ->
  rotation (snd (diagonalize eig A)) /\ turned (snd (diagonalize eig A)) (fst (diagonalize eig A)) = A.
Proof.
  intros eig A [O T]. unfold diagonalize. destruct (eig A) as [d B]. cbn [fst snd] in *.
  assert (D : det3 B * det3 B = 1) by (rewrite <- (det_tr B) at 2; rewrite <- det_mm, O; apply det_id).
  destruct (Rlt_dec (det3 B) 0) as [L|L]; cbn [fst snd].
  - split; [split|].
    + rewrite flip_orthonormal. exact O.
    + rewrite flip_det. assert ((det3 B + 1) * (det3 B - 1) = 0) by lra. apply Rmult_integral in H as [H|H]; lra.
    + rewrite flip_turned. exact T.
  - split; [split|exact T]; [exact O|]. assert ((det3 B + 1) * (det3 B - 1) = 0) by lra. apply Rmult_integral in H as [H|H]; lra.
Qed.
Lemma turned_scale : forall A d k, turned A (scale3 k d) =
  M3 (scale3 k (row0 (turned A d))) (scale3 k (row1 (turned A d))) (scale3 k (row2_ (turned A d))).
Proof. intros [[a b c] [d e f] [g h i]] [x y z] k. unfold turned, scale3, mm, vmul, mul3, tr, diag3, dot3. cbn. f_equal; f_equal; ring. Qed.

Lemma mesh_mass_properties : forall eig verts faces mesh Ts rho,
  omapM (corners verts) faces = Ok mesh -> surface_of mesh Ts -> Forall (fun T => 0 < jacobian T) Ts -> Ts <> [] ->
  (forall c J, is_center (over_solid Ts) c -> is_inertia (over_solid Ts) 1 c J -> decomposes (eig J) J) ->
  exists mp, compute_moments eig verts faces = Ok mp
    /\ mass_properties (over_solid Ts) rho (mp_M (mesh_props mp rho)) (mp_CM (mesh_props mp rho)) (mp_I (mesh_props mp rho)) (mp_R (mesh_props mp rho))
    /\ 0 < mp_M mp.
Proof.
  intros eig verts faces mesh Ts rho HM HS HJ HN HE. unfold compute_moments. rewrite HM. cbn [obind].
  pose proof (solid_integrates mesh Ts HS HJ) as H. pose proof (solid_volume mesh Ts HS HJ HN) as V. set (s := integrals mesh) in *. clearbody s.
  assert (HC : is_center (over_solid Ts) (mesh_center s)).
  { eapply center_from; [exact H|]. intros [|[|[|k]]]; unfold pair10, mesh_center; cbn; field; lra. }
  assert (HI : is_inertia (over_solid Ts) 1 (mesh_center s) (mesh_tensor s)).
  { eapply inertia_from; [exact H|..]; unfold pair10, mesh_tensor, mesh_center, mesh_mass; cbn; field; lra. }
  destruct (diagonalize_ok eig (mesh_tensor s) (HE _ _ HC HI)) as [Ro Tu]. destruct (diagonalize eig (mesh_tensor s)) as [I A]. cbn [fst snd] in *.
  eexists. split; [reflexivity|]. unfold mesh_props. cbn [mp_M mp_CM mp_I mp_R]. split; [|exact V]. split; [|split; [|split]].
  - eapply mass_from; [exact H|]. unfold pair10, one_poly, mesh_mass. cbn. ring.
  - exact HC.
  - exact Ro.
  - rewrite turned_scale, Tu. eapply inertia_from; [exact H|..]; unfold pair10, mesh_tensor, mesh_center, mesh_mass; cbn; field; lra.
Qed.
