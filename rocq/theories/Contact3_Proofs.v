(* Momentum of the 3D rigid bodies under the impulses of contacts. *)
From Coq Require Import List Reals Arith Bool Lia Lra.
From Verif Require Import Outcome Ccd_Model Lin_Model ContactBall_Model ContactRb3_Model Lin_Proofs Contact_Spec Contact_Proofs.
Import ListNotations.
Open Scope R_scope.

Definition comp (d : nat) (x : v3) : R := match d with O => c0 x | S O => c1 x | _ => c2 x end.

Ltac d3 d Hd := destruct d as [|[|[|d]]]; [| | |lia].

Lemma csum_lin_lin : forall nb d w i x, (d < 3)%nat -> (i < nb)%nat -> csum 3 0 d nb w (ins3 (3 * i) x) = comp d x * w i.
Proof.
  intros nb d w i x Hd Hi. unfold ins3. repeat rewrite csum_cons. rewrite !csum_one by lia.
  d3 d Hd; cbn [Nat.eqb andb comp]; nat_cases; cbn [andb]; rewrite Nat.sub_0_r; lra.
Qed.
Lemma csum_lin_ang : forall nb d w i x, (d < 3)%nat -> csum 3 0 d nb w (ins3 (3 * (i + nb)) x) = 0.
Proof.
  intros nb d w i x Hd. unfold ins3. repeat rewrite csum_cons. rewrite !csum_one by lia.
  d3 d Hd; cbn [Nat.eqb andb]; nat_cases; cbn [andb]; lra.
Qed.
Lemma csum_ang_lin : forall nb d w i x, (d < 3)%nat -> (i < nb)%nat -> csum 3 nb d nb w (ins3 (3 * i) x) = 0.
Proof.
  intros nb d w i x Hd Hi. unfold ins3. repeat rewrite csum_cons. rewrite !csum_one by lia.
  d3 d Hd; cbn [Nat.eqb andb]; nat_cases; cbn [andb]; lra.
Qed.
Lemma csum_ang_ang : forall nb d w i x, (d < 3)%nat -> (i < nb)%nat -> csum 3 nb d nb w (ins3 (3 * (i + nb)) x) = comp d x * w i.
Proof.
  intros nb d w i x Hd Hi. unfold ins3. repeat rewrite csum_cons. rewrite !csum_one by lia.
  replace (i + nb - nb)%nat with i by lia.
  d3 d Hd; cbn [Nat.eqb andb comp]; nat_cases; cbn [andb]; lra.
Qed.

(* linear part *)
Definition r3_colp (nb d : nat) (c : col) : R := csum 3 0 d nb one c.
Lemma r3_colp_app : forall nb d a b, r3_colp nb d (a ++ b) = r3_colp nb d a + r3_colp nb d b.
Proof. intros. apply csum_app. Qed.
Lemma r3_colp_lin : forall nb d i x, (d < 3)%nat -> (i < nb)%nat -> r3_colp nb d (ins3 (3 * i) x) = comp d x.
Proof. intros. unfold r3_colp. rewrite csum_lin_lin by assumption. unfold one. lra. Qed.
Lemma r3_colp_ang : forall nb d i x, (d < 3)%nat -> r3_colp nb d (ins3 (3 * (i + nb)) x) = 0.
Proof. intros. apply csum_lin_ang. assumption. Qed.

(* cross product component d of the positions with the column, plus the torque entries *)
Definition r3_colL (nb : nat) (q : dvec) (d : nat) (c : col) : R :=
  match d with
  | O => csum 3 0 2 nb (fun i => q (3 * i + 1)%nat) c - csum 3 0 1 nb (fun i => q (3 * i + 2)%nat) c + csum 3 nb 0 nb one c
  | S O => csum 3 0 0 nb (fun i => q (3 * i + 2)%nat) c - csum 3 0 2 nb (fun i => q (3 * i + 0)%nat) c + csum 3 nb 1 nb one c
  | _ => csum 3 0 1 nb (fun i => q (3 * i + 0)%nat) c - csum 3 0 0 nb (fun i => q (3 * i + 1)%nat) c + csum 3 nb 2 nb one c
  end.
Lemma r3_colL_app : forall nb q d a b, r3_colL nb q d (a ++ b) = r3_colL nb q d a + r3_colL nb q d b.
Proof. intros. destruct d as [|[|d]]; unfold r3_colL; rewrite !csum_app; lra. Qed.
Lemma r3_colL_lin : forall nb q d i x, (d < 3)%nat -> (i < nb)%nat ->
  r3_colL nb q d (ins3 (3 * i) x) = comp d (cross3 (seg3 q (3 * i)) x).
Proof.
  intros nb q d i x Hd Hi.
  d3 d Hd; unfold r3_colL; rewrite !csum_lin_lin by (try lia; assumption); rewrite csum_ang_lin by (try lia; assumption);
    unfold cross3, seg3; cbn [comp c0 c1 c2]; lra.
Qed.
Lemma r3_colL_ang : forall nb q d i x, (d < 3)%nat -> (i < nb)%nat ->
  r3_colL nb q d (ins3 (3 * (i + nb)) x) = comp d x.
Proof.
  intros nb q d i x Hd Hi.
  d3 d Hd; unfold r3_colL; rewrite !csum_lin_ang by lia; rewrite csum_ang_ang by (try lia; assumption);
    unfold one; cbn [comp]; lra.
Qed.

Ltac rb3_unfold_in H :=
  cbn [rb3_gradg rb3_friction mk_sphere_sphere mk_tele_sphere_sphere mk_body_body3 mk_sphere_body rb3_hcols rb3_H0 rb3_H1 rb3_bodies rb3_normal obind
       sphere_rows arm_rows map combine fst snd] in H.
Ltac in_list H :=
  cbn [In] in H;
  repeat match type of H with
  | _ \/ _ => destruct H as [H|H]
  | False => contradiction
  end.
Lemma two_cols_p : forall nb d i j a ta b tb, (d < 3)%nat -> (i < nb)%nat -> (j < nb)%nat ->
  r3_colp nb d (ins3 (3 * i) a ++ ins3 (3 * (i + nb)) ta ++ ins3 (3 * j) b ++ ins3 (3 * (j + nb)) tb) = comp d a + comp d b.
Proof. intros. rewrite !r3_colp_app, !r3_colp_ang, !r3_colp_lin by assumption. lra. Qed.
Lemma two_cols_L : forall nb q d i j a ta b tb, (d < 3)%nat -> (i < nb)%nat -> (j < nb)%nat ->
  r3_colL nb q d (ins3 (3 * i) a ++ ins3 (3 * (i + nb)) ta ++ ins3 (3 * j) b ++ ins3 (3 * (j + nb)) tb)
  = comp d (cross3 (seg3 q (3 * i)) a) + comp d ta + comp d (cross3 (seg3 q (3 * j)) b) + comp d tb.
Proof. intros. rewrite !r3_colL_app, !r3_colL_ang, !r3_colL_lin by assumption. lra. Qed.
Lemma hcols_eq : forall nb i j r0 r1, hrow3 nb i r0 ++ hrow3 nb j (neg_row3 r1)
  = ins3 (3 * i) (fst r0) ++ ins3 (3 * (i + nb)) (snd r0) ++ ins3 (3 * j) (neg3 (fst r1)) ++ ins3 (3 * (j + nb)) (neg3 (snd r1)).
Proof. intros. unfold hrow3, neg_row3. cbn [fst snd]. rewrite (Nat.add_comm nb i), (Nat.add_comm nb j), <- app_assoc. reflexivity. Qed.

Lemma comp_neg : forall d x, comp d (neg3 x) = - comp d x.
Proof. intros. destruct d as [|[|d]]; reflexivity. Qed.
Lemma cross_neg : forall d a x, comp d (cross3 a (neg3 x)) = - comp d (cross3 a x).
Proof. intros. destruct d as [|[|d]]; unfold cross3, neg3; cbn [comp c0 c1 c2]; lra. Qed.
Lemma comp_cross_sub : forall d a b x, comp d (cross3 (sub3 a b) x) = comp d (cross3 a x) - comp d (cross3 b x).
Proof. intros. destruct d as [|[|d]]; unfold cross3, sub3; cbn [comp c0 c1 c2]; lra. Qed.
Lemma comp_cross_add : forall d a b x, comp d (cross3 (add3 a b) x) = comp d (cross3 a x) + comp d (cross3 b x).
Proof. intros. destruct d as [|[|d]]; unfold cross3, add3; cbn [comp c0 c1 c2]; lra. Qed.
Lemma comp_cross_scale : forall d k a x, comp d (cross3 (scale3 k a) x) = k * comp d (cross3 a x).
Proof. intros. destruct d as [|[|d]]; unfold cross3, scale3; cbn [comp c0 c1 c2]; lra. Qed.
Lemma comp_cross_self : forall d a, comp d (cross3 a a) = 0.
Proof. intros. destruct d as [|[|d]]; unfold cross3; cbn [comp c0 c1 c2]; lra. Qed.
Lemma comp_zero : forall d, comp d zero3 = 0.
Proof. intros. destruct d as [|[|d]]; reflexivity. Qed.
Lemma comp_cross_par : forall d k a b, comp d (cross3 a (scale3 k (sub3 a b))) = comp d (cross3 b (scale3 k (sub3 a b))).
Proof. intros. destruct d as [|[|d]]; unfold cross3, scale3, sub3; cbn [comp c0 c1 c2]; lra. Qed.

Ltac p_simp :=
  rewrite ?hcols_eq; cbn [fst snd];
  rewrite ?two_cols_p by assumption;
  rewrite ?r3_colp_app, ?r3_colp_ang, ?r3_colp_lin by assumption;
  rewrite ?comp_neg; try lra.

Lemma rb3_column_p : forall nb q c g d, (d < 3)%nat -> in_range nb (rb3_bodies c) -> rb3_conserves_p c = true -> rb3_column nb q c g ->
  csum 3 0 d nb one g = 0.
Proof.
  intros nb q c g d Hd [H0 H1] Hc Hg. change (r3_colp nb d g = 0).
  destruct c; cbn in Hc; try discriminate; cbn in H0, H1;
    destruct Hg as [g Hg|t g Hg|n1 s1 t1 l g Hg Hin];
    rb3_unfold_in Hg; try discriminate; apply Ok_inj in Hg;
    try subst g; try (subst l; in_list Hin; subst g);
    unfold two_body_column; p_simp.
Qed.

Ltac L_simp :=
  rewrite ?hcols_eq; cbn [fst snd];
  rewrite ?two_cols_L by assumption;
  rewrite ?r3_colL_app, ?r3_colL_ang, ?r3_colL_lin by assumption;
  rewrite ?comp_neg, ?cross_neg, ?comp_zero, ?comp_cross_sub; try lra.

Lemma rb3_normal_L : forall nb q c g d, (d < 3)%nat -> in_range nb (rb3_bodies c) -> rb3_made_at q c -> rb3_conserves_L_impact c = true ->
  rb3_normal_column nb q c g -> r3_colL nb q d g = 0.
Proof.
  intros nb q c g d Hd [H0 H1] Hm Hc Hg.
  destruct Hm; cbn in Hc; try discriminate; cbn in H0, H1;
    destruct Hg as [g Hg|s1 t1 g l Hg];
    rb3_unfold_in Hg; try discriminate; apply Ok_inj in Hg; try subst g;
    try (assert (Hg' := f_equal (hd []) Hg); cbn [hd] in Hg'; clear Hg; subst g).
  - destruct (normalized3_par (sub3 (seg3 q (3 * i)) (seg3 q (3 * j)))) as [k Hk]; rewrite Hk. L_simp.
    rewrite (comp_cross_par d k (seg3 q (3 * i)) (seg3 q (3 * j))). lra.
  - destruct (normalized3_par (sub3 (seg3 q (3 * i)) (seg3 q (3 * j)))) as [k Hk]; rewrite Hk. L_simp.
    rewrite (comp_cross_par d k (seg3 q (3 * i)) (seg3 q (3 * j))). lra.
  - L_simp.
  - L_simp.
  - subst p. L_simp. rewrite comp_cross_add, comp_cross_scale, comp_cross_self. lra.
Qed.

Lemma rb3_contact_L : forall nb q c g d, (d < 3)%nat -> in_range nb (rb3_bodies c) -> rb3_made_at q c -> rb3_conserves_L_friction c = true ->
  rb3_contact_column nb q c g -> r3_colL nb q d g = 0.
Proof.
  intros nb q c g d Hd Hr Hm Hc Hg.
  destruct Hg as [g Hg|t g Hg|s1 t1 l g Hg Hin].
  - apply (rb3_normal_L nb q c g d Hd Hr Hm Hc Hg).
  - destruct Hr as [H0 H1].
    destruct Hm; cbn in Hc; try discriminate; cbn in H0, H1; rb3_unfold_in Hg; try discriminate; apply Ok_inj in Hg; subst g;
      unfold two_body_column; L_simp.
  - destruct Hr as [H0 H1].
    destruct Hm; cbn in Hc; try discriminate; cbn in H0, H1; rb3_unfold_in Hg; try discriminate; apply Ok_inj in Hg; subst l.
    + destruct (normalized3_par (sub3 (seg3 q (3 * i)) (seg3 q (3 * j)))) as [k Hk]; rewrite Hk in Hin.
      in_list Hin; subst g; L_simp.
      rewrite (comp_cross_par d k (seg3 q (3 * i)) (seg3 q (3 * j))). lra.
    + in_list Hin; subst g; L_simp.
Qed.

(* ---------- total momenta ---------- *)
Lemma rb3_minv_lin : forall nb m Iinv f i d, (i < nb)%nat -> (d < 3)%nat ->
  rb3_minv nb m Iinv f (3 * i + d)%nat = diag_minv m f (3 * i + d)%nat.
Proof.
  intros. unfold rb3_minv, ContactBall_Model.diag_minv.
  destruct (Nat.ltb_spec (3 * i + d) (3 * nb)); [reflexivity|lia].
Qed.
Lemma rb3_minv_ang : forall nb m Iinv f i d, (d < 3)%nat ->
  rb3_minv nb m Iinv f (3 * (nb + i) + d)%nat = comp d (mul3 (Iinv i) (seg3 f (3 * (nb + i)))).
Proof.
  intros nb m Iinv f i d Hd. unfold rb3_minv.
  destruct (Nat.ltb_spec (3 * (nb + i) + d) (3 * nb)) as [H|_]; [lia|].
  replace (3 * (nb + i) + d - 3 * nb)%nat with (3 * i + d)%nat by lia.
  assert (E1 : ((3 * i + d) / 3 = i)%nat) by (symmetry; apply (Nat.div_unique _ 3 i d); lia).
  assert (E2 : ((3 * i + d) mod 3 = d)%nat) by (symmetry; apply (Nat.mod_unique _ 3 i d); lia).
  rewrite E1, E2. d3 d Hd; reflexivity.
Qed.

Lemma rb3_lin_change : forall nb m I Iinv k w v f, mass_rb3_ok nb m I Iinv -> (k < 3)%nat ->
  rsum nb (fun i => m (3 * i)%nat * (w i * vplus v (rb3_minv nb m Iinv f) (3 * i + k)%nat))
  = rsum nb (fun i => m (3 * i)%nat * (w i * v (3 * i + k)%nat)) + rsum nb (fun i => f (3 * (0 + i) + k)%nat * w i).
Proof.
  intros nb m I Iinv k w v f Hm Hk.
  rewrite <- (momentum_change 3 k nb m w v f).
  - apply rsum_ext. intros i Hi. unfold vplus. rewrite rb3_minv_lin by assumption. reflexivity.
  - intros i Hi. destruct (Hm i Hi) as [Ha [Hb [Hc _]]]. split; [|assumption].
    d3 k Hk; [rewrite Nat.add_0_r; reflexivity|assumption|assumption].
Qed.

Lemma rb3_momentum_kept : forall nb m I Iinv q v imps,
  mass_rb3_ok nb m I Iinv ->
  Forall (fun ci => exists c, in_range nb (rb3_bodies c) /\ rb3_conserves_p c = true /\ rb3_column nb q c (fst ci)) imps ->
  rb3_momentum nb m (vplus v (rb3_minv nb m Iinv (impulse imps))) = rb3_momentum nb m v.
Proof.
  intros nb m I Iinv q v imps Hm Himp. unfold rb3_momentum, sum3, scale3, seg3. cbn [c0 c1 c2].
  assert (HK : forall d, (d < 3)%nat ->
    rsum nb (fun i => m (3 * i)%nat * vplus v (rb3_minv nb m Iinv (impulse imps)) (3 * i + d)%nat)
    = rsum nb (fun i => m (3 * i)%nat * v (3 * i + d)%nat)).
  { intros d Hd. pose proof (rb3_lin_change nb m I Iinv d one v (impulse imps) Hm Hd) as HC.
    rewrite impulse_csum in HC.
    rewrite (fold_zero imps (fun c => csum 3 0 d nb one c)) in HC.
    - rewrite Rplus_0_r in HC.
      rewrite (rsum_ext nb _ (fun i => m (3 * i)%nat * (one i * vplus v (rb3_minv nb m Iinv (impulse imps)) (3 * i + d)%nat))) by (intros; unfold one; lra).
      rewrite HC. apply rsum_ext. intros. unfold one. lra.
    - eapply Forall_impl; [|exact Himp]. intros ci [c [Hr [Hc Hcol]]]. eapply rb3_column_p; eassumption. }
  f_equal; apply HK; lia.
Qed.

Lemma mul3_add : forall A x y, mul3 A (add3 x y) = add3 (mul3 A x) (mul3 A y).
Proof. intros. apply v3_eq; unfold mul3, dot3, add3; cbn [c0 c1 c2]; ring. Qed.

Lemma rb3_ang_change : forall nb m I Iinv d v f, mass_rb3_ok nb m I Iinv -> (d < 3)%nat ->
  rsum nb (fun i => comp d (mul3 (I i) (seg3 (vplus v (rb3_minv nb m Iinv f)) (3 * (nb + i)))))
  = rsum nb (fun i => comp d (mul3 (I i) (seg3 v (3 * (nb + i))))) + rsum nb (fun i => f (3 * (nb + i) + d)%nat * one i).
Proof.
  intros nb m I Iinv d v f Hm Hd. rewrite <- rsum_plus. apply rsum_ext. intros i Hi.
  destruct (Hm i Hi) as [_ [_ [_ HI]]].
  assert (E : seg3 (vplus v (rb3_minv nb m Iinv f)) (3 * (nb + i))
    = add3 (seg3 v (3 * (nb + i))) (mul3 (Iinv i) (seg3 f (3 * (nb + i))))).
  { unfold seg3 at 1. unfold vplus. rewrite !rb3_minv_ang by lia. unfold seg3 at 1, add3. cbn [c0 c1 c2 comp]. reflexivity. }
  rewrite E, mul3_add, HI. unfold one, seg3, add3. d3 d Hd; cbn [comp c0 c1 c2]; lra.
Qed.

Lemma rb3_angular_gen : forall nb m I Iinv q v imps,
  mass_rb3_ok nb m I Iinv ->
  (forall d, (d < 3)%nat -> Forall (fun ci => r3_colL nb q d (fst ci) = 0) imps) ->
  rb3_angular nb m I q (vplus v (rb3_minv nb m Iinv (impulse imps))) = rb3_angular nb m I q v.
Proof.
  intros nb m I Iinv q v imps Hm Himp.
  set (v' := vplus v (rb3_minv nb m Iinv (impulse imps))).
  assert (HC : forall u a ka b kb g,
    (forall i, (i < nb)%nat -> g i = m (3 * i)%nat * (q (3 * i + a)%nat * u (3 * i + ka)%nat) - m (3 * i)%nat * (q (3 * i + b)%nat * u (3 * i + kb)%nat)) ->
    rsum nb g
    = rsum nb (fun i => m (3 * i)%nat * (q (3 * i + a)%nat * u (3 * i + ka)%nat))
      + (-1) * rsum nb (fun i => m (3 * i)%nat * (q (3 * i + b)%nat * u (3 * i + kb)%nat))).
  { intros u a ka b kb g Hg. rewrite <- rsum_scal, <- rsum_plus. apply rsum_ext. intros i Hi. rewrite (Hg i Hi). lra. }
  assert (HL : forall a ka w, (ka < 3)%nat -> w = (fun i => q (3 * i + a)%nat) ->
    rsum nb (fun i => m (3 * i)%nat * (q (3 * i + a)%nat * v' (3 * i + ka)%nat))
    = rsum nb (fun i => m (3 * i)%nat * (q (3 * i + a)%nat * v (3 * i + ka)%nat))
      + fold_right (fun ci acc => snd ci * csum 3 0 ka nb w (fst ci) + acc) 0 imps).
  { intros a ka w Hka ->. unfold v'.
    rewrite (rb3_lin_change nb m I Iinv ka (fun i => q (3 * i + a)%nat) v (impulse imps) Hm Hka).
    rewrite impulse_csum. reflexivity. }
  assert (HA : forall d, (d < 3)%nat ->
    rsum nb (fun i => comp d (mul3 (I i) (seg3 v' (3 * (nb + i)))))
    = rsum nb (fun i => comp d (mul3 (I i) (seg3 v (3 * (nb + i))))) + fold_right (fun ci acc => snd ci * csum 3 nb d nb one (fst ci) + acc) 0 imps).
  { intros d Hd. unfold v'. rewrite (rb3_ang_change nb m I Iinv d v (impulse imps) Hm Hd), impulse_csum. reflexivity. }
  pose proof (fold_zero imps _ (Himp 0%nat ltac:(lia))) as Z0.
  pose proof (fold_zero imps _ (Himp 1%nat ltac:(lia))) as Z1.
  pose proof (fold_zero imps _ (Himp 2%nat ltac:(lia))) as Z2.
  unfold r3_colL in Z0, Z1, Z2.
  rewrite <- (fold_plus imps (fun c => _ c - _ c) (csum 3 nb 0 nb one)), <- fold_minus in Z0.
  rewrite <- (fold_plus imps (fun c => _ c - _ c) (csum 3 nb 1 nb one)), <- fold_minus in Z1.
  rewrite <- (fold_plus imps (fun c => _ c - _ c) (csum 3 nb 2 nb one)), <- fold_minus in Z2.
  pose proof (HA 0%nat ltac:(lia)) as A0. pose proof (HA 1%nat ltac:(lia)) as A1. pose proof (HA 2%nat ltac:(lia)) as A2.
  cbn [comp] in A0, A1, A2.
  apply v3_eq; unfold rb3_angular, sum3, add3; cbn [c0 c1 c2].
  - rewrite (HC v' 1 2 2 1 (fun i => c0 (cross3 (scale3 (m (3 * i)%nat) (seg3 q (3 * i))) (seg3 v' (3 * i)))))%nat by (intros; unfold cross3, scale3, seg3; cbn [c0 c1 c2]; lra).
    rewrite (HC v 1 2 2 1 (fun i => c0 (cross3 (scale3 (m (3 * i)%nat) (seg3 q (3 * i))) (seg3 v (3 * i)))))%nat by (intros; unfold cross3, scale3, seg3; cbn [c0 c1 c2]; lra).
    rewrite (HL 1 2 _ ltac:(lia) eq_refl)%nat, (HL 2 1 _ ltac:(lia) eq_refl)%nat. lra.
  - rewrite (HC v' 2 0 0 2 (fun i => c1 (cross3 (scale3 (m (3 * i)%nat) (seg3 q (3 * i))) (seg3 v' (3 * i)))))%nat by (intros; unfold cross3, scale3, seg3; cbn [c0 c1 c2]; lra).
    rewrite (HC v 2 0 0 2 (fun i => c1 (cross3 (scale3 (m (3 * i)%nat) (seg3 q (3 * i))) (seg3 v (3 * i)))))%nat by (intros; unfold cross3, scale3, seg3; cbn [c0 c1 c2]; lra).
    rewrite (HL 2 0 _ ltac:(lia) eq_refl)%nat, (HL 0 2 _ ltac:(lia) eq_refl)%nat. lra.
  - rewrite (HC v' 0 1 1 0 (fun i => c2 (cross3 (scale3 (m (3 * i)%nat) (seg3 q (3 * i))) (seg3 v' (3 * i)))))%nat by (intros; unfold cross3, scale3, seg3; cbn [c0 c1 c2]; lra).
    rewrite (HC v 0 1 1 0 (fun i => c2 (cross3 (scale3 (m (3 * i)%nat) (seg3 q (3 * i))) (seg3 v (3 * i)))))%nat by (intros; unfold cross3, scale3, seg3; cbn [c0 c1 c2]; lra).
    rewrite (HL 0 1 _ ltac:(lia) eq_refl)%nat, (HL 1 0 _ ltac:(lia) eq_refl)%nat. lra.
Qed.
