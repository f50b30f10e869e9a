From Coq Require Import List Reals Lra Permutation.
From Coquelicot Require Import Coquelicot.
From Verif Require Import Outcome Ccd_Model Lin_Model ContactRb3_Model Rot_Model Rot_Spec Rot_Alg State_Model Moment_Model Moment_Spec Moment_Int.
Import List ListNotations.
Open Scope R_scope.

(* An integration of quadratics: E gives the integral of every quadratic. *)
Definition integrates (over : integration) (E : poly -> R) : Prop :=
  forall p (f : R -> R -> R -> R) I, (forall x y z, f x y z = pv p x y z) -> I = E p -> over f I.
Lemma integrates_solid : forall S E, (forall p, integral3 S (pv p) (E p)) -> integrates (integral3 S) E.
Proof. intros S E H p f I Hf ->. apply (integral3_ext S S (pv p)); [tauto|intros; apply Hf|apply H]. Qed.
Lemma integrates_pieces : forall Ls, Forall (fun oE => integrates (fst oE) (snd oE)) Ls ->
  integrates (pieces (map fst Ls)) (fun p => fold_right Rplus 0 (map (fun oE => snd oE p) Ls)).
Proof.
  intros Ls H p f I Hf ->. exists (map (fun oE => snd oE p) Ls). split; [|reflexivity].
  induction H as [|[o E] t Ho Ht IH]; cbn [map]; constructor; [|exact IH]. apply (Ho p); [exact Hf|reflexivity].
Qed.

Definition one_poly (rho : R) : poly := P10 rho 0 0 0 0 0 0 0 0 0.
(* first moments about c *)
Definition first_poly (c : v3) (k : nat) : poly :=
  match k with
  | O => P10 (- c0 c) 1 0 0 0 0 0 0 0 0
  | S O => P10 (- c1 c) 0 1 0 0 0 0 0 0 0
  | _ => P10 (- c2 c) 0 0 1 0 0 0 0 0 0
  end.
(* second moments about c *)
Definition sq_poly (rho : R) (c : v3) (k : nat) : poly :=
  match k with
  | O => P10 (rho * (c1 c * c1 c + c2 c * c2 c)) 0 (- 2 * rho * c1 c) (- 2 * rho * c2 c) 0 rho rho 0 0 0
  | S O => P10 (rho * (c0 c * c0 c + c2 c * c2 c)) (- 2 * rho * c0 c) 0 (- 2 * rho * c2 c) rho 0 rho 0 0 0
  | _ => P10 (rho * (c0 c * c0 c + c1 c * c1 c)) (- 2 * rho * c0 c) (- 2 * rho * c1 c) 0 rho rho 0 0 0 0
  end.
Definition mix_poly (rho : R) (c : v3) (k : nat) : poly :=
  match k with
  | O => P10 (- (rho * c0 c * c1 c)) (rho * c1 c) (rho * c0 c) 0 0 0 0 (- rho) 0 0
  | S O => P10 (- (rho * c1 c * c2 c)) 0 (rho * c2 c) (rho * c1 c) 0 0 0 0 (- rho) 0
  | _ => P10 (- (rho * c2 c * c0 c)) (rho * c2 c) 0 (rho * c0 c) 0 0 0 0 0 (- rho)
  end.
Lemma inertia_from : forall over E rho c J, integrates over E ->
  c0 (row0 J) = E (sq_poly rho c 0) -> c1 (row1 J) = E (sq_poly rho c 1) -> c2 (row2_ J) = E (sq_poly rho c 2) ->
  c1 (row0 J) = E (mix_poly rho c 0) -> c0 (row1 J) = E (mix_poly rho c 0) ->
  c2 (row1 J) = E (mix_poly rho c 1) -> c1 (row2_ J) = E (mix_poly rho c 1) ->
  c2 (row0 J) = E (mix_poly rho c 2) -> c0 (row2_ J) = E (mix_poly rho c 2) -> is_inertia over rho c J.
Proof.
  intros over E rho c J H A0 A1 A2 B0 B0' B1 B1' B2 B2'. unfold is_inertia. cbv zeta.
  split; [refine (H _ _ _ _ A0); intros; unfold pv; cbn; ring|].
  split; [refine (H _ _ _ _ B0); intros; unfold pv; cbn; ring|].
  split; [refine (H _ _ _ _ B2); intros; unfold pv; cbn; ring|].
  split; [refine (H _ _ _ _ B0'); intros; unfold pv; cbn; ring|].
  split; [refine (H _ _ _ _ A1); intros; unfold pv; cbn; ring|].
  split; [refine (H _ _ _ _ B1); intros; unfold pv; cbn; ring|].
  split; [refine (H _ _ _ _ B2'); intros; unfold pv; cbn; ring|].
  split; [refine (H _ _ _ _ B1'); intros; unfold pv; cbn; ring|].
  refine (H _ _ _ _ A2); intros; unfold pv; cbn; ring.
Qed.
Lemma mass_from : forall over E rho M, integrates over E -> M = E (one_poly rho) -> is_mass over rho M.
Proof. intros over E rho M H EM. refine (H _ _ _ _ EM). intros; unfold pv; cbn; ring. Qed.
Lemma center_from : forall over E c, integrates over E -> (forall k, E (first_poly c k) = 0) -> is_center over c.
Proof.
  intros over E c H EC. split; [|split].
  - refine (H (first_poly c 0) _ _ _ _); [intros; unfold pv; cbn; ring|symmetry; apply EC].
  - refine (H (first_poly c 1) _ _ _ _); [intros; unfold pv; cbn; ring|symmetry; apply EC].
  - refine (H (first_poly c 2) _ _ _ _); [intros; unfold pv; cbn; ring|symmetry; apply EC].
Qed.

Lemma rotation_id3 : rotation id3.
Proof.
  split.
  - unfold mm, vmul, mul3, tr, id3, diag3, dot3. cbn. repeat f_equal; ring.
  - unfold det3, id3, diag3, dot3, cross3. cbn. ring.
Qed.
Lemma turned_id3 : forall d, turned id3 d = diag3 d.
Proof. intros [x y z]. unfold turned, mm, vmul, mul3, tr, id3, diag3, dot3. cbn. repeat f_equal; ring. Qed.
Lemma first3 : forall (P : nat -> Prop), P 0%nat -> P 1%nat -> P 2%nat -> (forall k, (3 <= k)%nat -> P 2%nat -> P k) -> forall k, P k.
Proof. intros P H0 H1 H2 H3 [|[|[|k]]]; auto. apply H3; [|exact H2]. repeat apply le_n_S. apply Nat.le_0_l. Qed.

Ltac about_id := rewrite turned_id3; unfold diag3; cbn [row0 row1 row2_ c0 c1 c2 sq_poly mix_poly p0 px py pz pxx pyy pzz pxy pyz pzx].

Lemma sphere_mass : forall r rho, 0 <= r -> let mp := sphere_props r rho in
  mass_properties (integral3 (ball r)) rho (mp_M mp) (mp_CM mp) (mp_I mp) (mp_R mp).
Proof.
  intros r rho Hr mp. pose proof (integrates_solid _ _ (fun p => ball_poly r p Hr)) as H. unfold mp, sphere_props. cbn [mp_M mp_CM mp_I mp_R].
  split; [|split; [|split]].
  - eapply mass_from; [exact H|]. cbn. field.
  - eapply center_from; [exact H|]. intros [|[|[|k]]]; cbn; ring.
  - apply rotation_id3.
  - eapply inertia_from; [exact H|..]; about_id; unfold zero3; cbn; field.
Qed.
Lemma box_mass : forall h rho, 0 <= c0 h -> 0 <= c1 h -> 0 <= c2 h -> let mp := box_props h rho in
  mass_properties (integral3 (brick h)) rho (mp_M mp) (mp_CM mp) (mp_I mp) (mp_R mp).
Proof.
  intros h rho H0 H1 H2 mp. pose proof (integrates_solid _ _ (fun p => brick_poly h p H0 H1 H2)) as H. unfold mp, box_props, box_inertia, box_volume. cbn [mp_M mp_CM mp_I mp_R].
  split; [|split; [|split]].
  - eapply mass_from; [exact H|]. cbn. field.
  - eapply center_from; [exact H|]. intros [|[|[|k]]]; cbn; field.
  - apply rotation_id3.
  - eapply inertia_from; [exact H|..]; about_id; unfold zero3, scale3; cbn; field.
Qed.

(* staple *)
Definition staple_E (w l r : R) (p : poly) : R :=
  (w * ((p0 p + pxx p * (w * w) / 12) * (PI * r * r) + (pyy p + pzz p) * (PI * r * r * r * r / 4)))
  + ((l * (PI * r * r) * (p0 p + px p * - (w / 2) + pxx p * (- (w / 2) * - (w / 2))) + (l * l / 2) * (PI * r * r) * (py p + pxy p * - (w / 2))
      + (l * l * l / 3) * (PI * r * r) * pyy p + l * (PI * r * r * r * r / 4) * (pxx p + pzz p))
  + ((l * (PI * r * r) * (p0 p + px p * (w / 2) + pxx p * (w / 2 * (w / 2))) + (l * l / 2) * (PI * r * r) * (py p + pxy p * (w / 2))
      + (l * l * l / 3) * (PI * r * r) * pyy p + l * (PI * r * r * r * r / 4) * (pxx p + pzz p)) + 0)).
Lemma staple_integrates : forall w l r, 0 <= w -> 0 <= l -> 0 <= r -> integrates (three_rods w l r) (staple_E w l r).
Proof.
  intros w l r Hw Hl Hr.
  set (E1 := fun p => w * ((p0 p + pxx p * (w * w) / 12) * (PI * r * r) + (pyy p + pzz p) * (PI * r * r * r * r / 4))).
  set (E2 := fun m p => l * (PI * r * r) * (p0 p + px p * m + pxx p * (m * m)) + (l * l / 2) * (PI * r * r) * (py p + pxy p * m)
   + (l * l * l / 3) * (PI * r * r) * pyy p + l * (PI * r * r * r * r / 4) * (pxx p + pzz p)).
  apply (integrates_pieces [(integral3 (rod_x w r), E1); (integral3 (rod_y (- (w / 2)) l r), E2 (- (w / 2))); (integral3 (rod_y (w / 2) l r), E2 (w / 2))]).
  repeat constructor; cbn [fst snd]; apply integrates_solid; intros p; [apply rod_x_poly|apply rod_y_poly|apply rod_y_poly]; assumption.
Qed.
(* the moments of inertia of the three rods about their common centre *)
Definition rods_I (w l r rho : R) : v3 :=
  let Mx := rho * w * PI * r * r in let My := rho * l * PI * r * r in let y := l * l / (2 * l + w) in
  V3 (Mx * (y * y) + 2 * My * ((l / 2 - y) * (l / 2 - y)) + Mx * (r * r) / 2 + 2 * My * (3 * r * r + l * l) / 12)
     (2 * My * (w / 2 * (w / 2)) + Mx * (3 * r * r + w * w) / 12 + My * (r * r))
     (Mx * (y * y) + 2 * My * (w / 2 * (w / 2) + (l / 2 - y) * (l / 2 - y)) + Mx * (3 * r * r + w * w) / 12 + 2 * My * (3 * r * r + l * l) / 12).
Lemma rods_mass : forall s rho, 0 < st_w s -> 0 < st_l s -> 0 <= st_r s -> let mp := staple_props s rho in
  mass_properties (three_rods (st_w s) (st_l s) (st_r s)) rho (mp_M mp) (mp_CM mp) (rods_I (st_w s) (st_l s) (st_r s) rho) (mp_R mp).
Proof.
  intros [w l r] rho Hw Hl Hr mp. cbn [st_w st_l st_r] in *. assert (H := staple_integrates w l r ltac:(lra) ltac:(lra) Hr).
  unfold mp, staple_props, staple_cm_y. cbn [mp_M mp_CM mp_I mp_R st_w st_l st_r].
  split; [|split; [|split]].
  - eapply mass_from; [exact H|]. unfold staple_E. cbn. field.
  - eapply center_from; [exact H|]. intros [|[|[|k]]]; unfold staple_E; cbn; field; lra.
  - apply rotation_id3.
  - eapply inertia_from; [exact H|..]; about_id; unfold staple_E, rods_I; cbn; field; lra.
Qed.
Lemma staple_error : forall s rho, mp_I (staple_props s rho) =
  add3 (rods_I (st_w s) (st_l s) (st_r s) rho)
       (scale3 (rho * PI * st_r s * st_r s / 12)
         (V3 (2 * (st_l s * st_l s * st_l s) * (st_l s - 1)) (st_w s * st_w s * st_w s * (st_w s - 1))
             (st_w s * st_w s * st_w s * (st_w s - 1) + 2 * (st_l s * st_l s * st_l s) * (st_l s - 1)))).
Proof.
  intros [w l r] rho. unfold staple_props, rods_I, staple_cm_y, add3, scale3. cbn. f_equal; set (y := l * l / (2 * l + w)); field.
Qed.
