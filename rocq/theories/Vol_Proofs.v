From Coq Require Import Reals Lra Bool.
From Coquelicot Require Import Coquelicot.
From Verif Require Import Ccd_Model Lin_Model Lin_Proofs Rot_Alg Geom_Spec Geom_Circle Geom_Space Geom_Aabb Frame_Proofs Wall_Geo Vol_Model Vol_Spec.
From Verif Require Cache_Thms.
Open Scope R_scope.

(* integral of k - ( t - c )^2 times pi *)
Lemma int_cap : forall k c a b, is_RInt (fun t => PI * (k - (t - c) * (t - c))) a b
  (PI * (k * b - (b - c) * (b - c) * (b - c) / 3) - PI * (k * a - (a - c) * (a - c) * (a - c) / 3)).
Proof.
  intros k c a b. apply (is_RInt_derive (fun t => PI * (k * t - (t - c) * (t - c) * (t - c) / 3))).
  - intros x _. auto_derive; [trivial|]. field.
  - intros x _. apply (ex_derive_continuous (fun t => PI * (k - (t - c) * (t - c)))). auto_derive. trivial.
Qed.
Lemma int_on : forall (f g : R -> R) a b v, a <= b -> (forall t, a < t < b -> f t = g t) -> is_RInt g a b v -> is_RInt f a b v.
Proof.
  intros f g a b v L E H. apply (is_RInt_ext g); [|exact H]. intros x Hx. rewrite Rmin_left, Rmax_right in Hx by exact L. symmetry. apply E, Hx.
Qed.
Lemma int_zero : forall a b, is_RInt (fun _ : R => 0) a b 0.
Proof.
  intros a b. refine (eq_ind _ (fun v => is_RInt (fun _ : R => 0) a b v) (is_RInt_const a b 0) 0 _).
  unfold scal. cbn. unfold mult. cbn. ring.
Qed.
Lemma int_join : forall (f : R -> R) a b c v w, is_RInt f a b v -> is_RInt f b c w -> is_RInt f a c (v + w).
Proof. intros f a b c v w H1 H2. apply (is_RInt_Chasles f a b c v w H1 H2). Qed.

Definition width (r0 r1 d t : R) : R := Rmin (r0 * r0 - t * t) (r1 * r1 - (t - d) * (t - d)).
Definition areas (r0 r1 d t : R) : R := disc_area (width r0 r1 d t).

Lemma areas_zero0 : forall r0 r1 d t, r0 * r0 <= t * t -> areas r0 r1 d t = 0.
Proof.
  intros r0 r1 d t H. unfold areas, disc_area. rewrite Rmax_left; [ring|]. unfold width. pose proof (Rmin_l (r0 * r0 - t * t) (r1 * r1 - (t - d) * (t - d))). lra.
Qed.
Lemma areas_zero1 : forall r0 r1 d t, r1 * r1 <= (t - d) * (t - d) -> areas r0 r1 d t = 0.
Proof.
  intros r0 r1 d t H. unfold areas, disc_area. rewrite Rmax_left; [ring|]. unfold width. pose proof (Rmin_r (r0 * r0 - t * t) (r1 * r1 - (t - d) * (t - d))). lra.
Qed.
Lemma areas_first : forall r0 r1 d t, t * t <= r0 * r0 -> r0 * r0 - t * t <= r1 * r1 - (t - d) * (t - d) -> areas r0 r1 d t = PI * (r0 * r0 - (t - 0) * (t - 0)).
Proof. intros r0 r1 d t H L. unfold areas, disc_area, width. rewrite Rmin_left, Rmax_right by lra. ring. Qed.
Lemma areas_second : forall r0 r1 d t, (t - d) * (t - d) <= r1 * r1 -> r1 * r1 - (t - d) * (t - d) <= r0 * r0 - t * t -> areas r0 r1 d t = PI * (r1 * r1 - (t - d) * (t - d)).
Proof. intros r0 r1 d t H L. unfold areas, disc_area, width. rewrite Rmin_right, Rmax_right by lra. reflexivity. Qed.

Lemma sq_in : forall a r, - r <= a <= r -> a * a <= r * r.
Proof. intros a r H. assert (0 <= (r - a) * (r + a)) by (apply Rmult_le_pos; lra). lra. Qed.
Lemma sq_out : forall a r, 0 <= r -> a <= - r \/ r <= a -> r * r <= a * a.
Proof.
  intros a r Hr [H|H].
  - assert (0 <= (- a - r) * (r - a)) by (apply Rmult_le_pos; lra). lra.
  - assert (0 <= (a - r) * (a + r)) by (apply Rmult_le_pos; lra). lra.
Qed.

Definition vol (d r0 r1 : R) : R :=
  if Rltb (r0 + r1) d then 0
  else if negb (Rltb (Rmax r0 r1) (d + Rmin r0 r1)) then 4 * PI * Rmin r0 r1 * Rmin r0 r1 * Rmin r0 r1 / 3 else lens_volume d (Rmin r0 r1) (Rmax r0 r1).

Lemma lens_sym : forall d r s, lens_volume d r s = lens_volume d s r.
Proof. intros. unfold lens_volume. f_equal. ring. Qed.

Lemma areas_integral : forall d r0 r1, 0 <= d -> 0 <= r0 -> 0 <= r1 -> is_RInt (areas r0 r1 d) (- r0) r0 (vol d r0 r1).
Proof.
  intros d r0 r1 Hd H0 H1. unfold vol. destruct (Rltb_spec (r0 + r1) d) as [Far|Near].
  { apply (int_on _ (fun _ => 0)); [lra| |apply int_zero]. intros t Ht. apply areas_zero1. apply sq_out; lra. }
  destruct (Rltb_spec (Rmax r0 r1) (d + Rmin r0 r1)) as [Part|In].
  - cbn [negb].
    assert (A0 : r0 < d + r1). { revert Part. unfold Rmax, Rmin. destruct (Rle_dec r0 r1); lra. }
    assert (A1 : r1 < d + r0). { revert Part. unfold Rmax, Rmin. destruct (Rle_dec r0 r1); lra. }
    assert (Dp : 0 < d) by lra.
    replace (lens_volume d (Rmin r0 r1) (Rmax r0 r1)) with (lens_volume d r0 r1).
    2:{ unfold Rmin, Rmax. destruct (Rle_dec r0 r1); [reflexivity|apply lens_sym]. }
    set (m := (d * d + r0 * r0 - r1 * r1) / (2 * d)).
    assert (Em : 2 * d * m = d * d + r0 * r0 - r1 * r1) by (unfold m; field; lra).
    assert (M0 : d - r1 <= m).
    { apply Rmult_le_reg_l with (2 * d); [lra|]. rewrite Em. assert (0 <= (r0 - (d - r1)) * (r0 + (d - r1))) by (apply Rmult_le_pos; lra). lra. }
    assert (M1 : m <= r0).
    { apply Rmult_le_reg_l with (2 * d); [lra|]. rewrite Em. assert (0 <= (r1 - (d - r0)) * (r1 + (d - r0))) by (apply Rmult_le_pos; lra). lra. }
    assert (Total : lens_volume d r0 r1 =
      0 + ((PI * (r1 * r1 * m - (m - d) * (m - d) * (m - d) / 3) - PI * (r1 * r1 * (d - r1) - (d - r1 - d) * (d - r1 - d) * (d - r1 - d) / 3))
      + (PI * (r0 * r0 * r0 - (r0 - 0) * (r0 - 0) * (r0 - 0) / 3) - PI * (r0 * r0 * m - (m - 0) * (m - 0) * (m - 0) / 3)))).
    { unfold lens_volume, m. field. lra. }
    rewrite Total. apply int_join with (d - r1).
    + apply (int_on _ (fun _ => 0)); [lra| |apply int_zero]. intros t Ht. apply areas_zero1. apply sq_out; lra.
    + apply int_join with m.
      * apply (int_on _ (fun t => PI * (r1 * r1 - (t - d) * (t - d)))); [lra| |apply int_cap]. intros t Ht.
        assert (T : 2 * d * t <= 2 * d * m) by (apply Rmult_le_compat_l; lra).
        apply areas_second; [|lra]. apply sq_in. split; [lra|].
        (* t <= m <= d + r1 *)
        assert (m <= d + r1). { apply Rmult_le_reg_l with (2 * d); [lra|]. rewrite Em. assert (0 <= (d + r1 - r0) * (d + r1 + r0)) by (apply Rmult_le_pos; lra). lra. } lra.
      * apply (int_on _ (fun t => PI * (r0 * r0 - (t - 0) * (t - 0)))); [lra| |apply int_cap]. intros t Ht.
        assert (T : 2 * d * m <= 2 * d * t) by (apply Rmult_le_compat_l; lra).
        apply areas_first; [|lra]. apply sq_in. split; [|lra].
        assert (- r0 <= m). { apply Rmult_le_reg_l with (2 * d); [lra|]. rewrite Em. assert (0 <= (d + r0 - r1) * (d + r0 + r1)) by (apply Rmult_le_pos; lra). lra. } lra.
  - cbn [negb]. apply Rnot_lt_le in In. destruct (Rle_dec r0 r1) as [L|L].
    + rewrite Rmin_left, Rmax_right in In by exact L. rewrite Rmin_left by exact L.
      replace (4 * PI * r0 * r0 * r0 / 3) with
        (PI * (r0 * r0 * r0 - (r0 - 0) * (r0 - 0) * (r0 - 0) / 3) - PI * (r0 * r0 * (- r0) - (- r0 - 0) * (- r0 - 0) * (- r0 - 0) / 3)) by field.
      apply (int_on _ (fun t => PI * (r0 * r0 - (t - 0) * (t - 0)))); [lra| |apply int_cap]. intros t Ht. apply areas_first; [apply sq_in; lra|].
      assert (0 <= (t + r0) * d) by (apply Rmult_le_pos; lra). assert ((r0 + d) * (r0 + d) <= r1 * r1) by (apply sq_in; lra). lra.
    + apply Rnot_le_lt in L. rewrite Rmin_right, Rmax_left in In by lra. rewrite Rmin_right by lra.
      replace (4 * PI * r1 * r1 * r1 / 3) with
        (0 + ((PI * (r1 * r1 * (d + r1) - (d + r1 - d) * (d + r1 - d) * (d + r1 - d) / 3) - PI * (r1 * r1 * (d - r1) - (d - r1 - d) * (d - r1 - d) * (d - r1 - d) / 3)) + 0)) by field.
      apply int_join with (d - r1); [|apply int_join with (d + r1)].
      * apply (int_on _ (fun _ => 0)); [lra| |apply int_zero]. intros t Ht. apply areas_zero1. apply sq_out; lra.
      * apply (int_on _ (fun t => PI * (r1 * r1 - (t - d) * (t - d)))); [lra| |apply int_cap]. intros t Ht. apply areas_second; [apply sq_in; lra|].
        assert (0 <= (d + r1 - t) * d) by (apply Rmult_le_pos; lra). assert ((r1 + d) * (r1 + d) <= r0 * r0) by (apply sq_in; lra). lra.
      * apply (int_on _ (fun _ => 0)); [lra| |apply int_zero]. intros t Ht. apply areas_zero1. apply sq_out; lra.
Qed.

(* ---------- the slices ---------- *)
Lemma along_axis : forall u v t, dot3 u u = 1 -> dot3 u v = t -> dot3 (sub3 v (scale3 t u)) (sub3 v (scale3 t u)) = dot3 v v - t * t.
Proof.
  intros u v t U <-. transitivity (dot3 v v - 2 * (dot3 u v * dot3 u v) + dot3 u v * dot3 u v * dot3 u u); [|rewrite U; ring].
  unfold dot3, sub3, scale3. cbn [c0 c1 c2]. ring.
Qed.
Theorem overlap_volume_ok : forall x0 x1 r0 r1, 0 <= r0 -> 0 <= r1 ->
  volume_by_slices (fun p => in_ball3 x0 r0 p /\ in_ball3 x1 r1 p) (overlap_volume x0 x1 r0 r1).
Proof.
  intros x0 x1 r0 r1 H0 H1.
  assert (U : exists u d, dot3 u u = 1 /\ 0 <= d /\ sub3 x1 x0 = scale3 d u /\ d = sqrt (dot3 (sub3 x0 x1) (sub3 x0 x1))).
  { set (d := sqrt (dot3 (sub3 x0 x1) (sub3 x0 x1))).
    destruct (Rle_lt_or_eq_dec _ _ (dot3_nn (sub3 x0 x1))) as [P|Z].
    - destruct (sqrt_pos_sq _ P) as [Sp Ss]. fold d in Sp, Ss. exists (scale3 (/ d) (sub3 x1 x0)), d. split.
      + rewrite dot_scale_sq. replace (dot3 (sub3 x1 x0) (sub3 x1 x0)) with (dot3 (sub3 x0 x1) (sub3 x0 x1)) by (unfold dot3, sub3; cbn [c0 c1 c2]; ring).
        rewrite <- Ss. field. lra.
      + split; [lra|]. split; [|reflexivity]. apply v3_ext; unfold scale3; cbn [c0 c1 c2]; field; lra.
    - exists (V3 1 0 0), d. assert (d = 0) by (unfold d; rewrite <- Z; apply sqrt_0). rewrite H. split; [unfold dot3; cbn [c0 c1 c2]; ring|]. split; [lra|]. split; [|reflexivity].
      pose proof (Cache_Thms.dot3_zero _ (eq_sym Z)) as E.
      assert (F : forall f : v3 -> R, f (sub3 x0 x1) = f zero3) by (intros f; rewrite E; reflexivity).
      pose proof (F c0) as F0. pose proof (F c1) as F1. pose proof (F c2) as F2. unfold sub3, zero3 in F0, F1, F2. cbn [c0 c1 c2] in F0, F1, F2.
      apply v3_ext; unfold sub3, scale3; cbn [c0 c1 c2]; lra. }
  destruct U as (u & d & U & Dp & E & Ed).
  exists x0, u, (- r0), r0, (width r0 r1 d). split; [exact U|]. split; [lra|]. split.
  - intros p [B _]. unfold in_ball3 in B. assert (K : Rabs (dot3 u (sub3 p x0)) <= 1 * r0) by (apply dot3_abs_le; try assumption; lra). apply abs_inv in K. lra.
  - split.
    + intros t. exists (add3 x0 (scale3 t u)). split; [rewrite sub_add3, dot3_scale_r, U; ring|]. intros p Hp. unfold in_ball3.
      replace (sub3 p (add3 x0 (scale3 t u))) with (sub3 (sub3 p x0) (scale3 t u)) by (apply v3_ext; unfold sub3, add3, scale3; cbn [c0 c1 c2]; ring).
      rewrite (along_axis u (sub3 p x0) t U Hp). set (q := dot3 (sub3 p x0) (sub3 p x0)).
      replace (dot3 (sub3 p x1) (sub3 p x1)) with (q - 2 * d * t + d * d).
      2:{ replace (sub3 p x1) with (sub3 (sub3 p x0) (scale3 d u)).
          - unfold q. transitivity (dot3 (sub3 p x0) (sub3 p x0) - 2 * d * dot3 u (sub3 p x0) + d * d * dot3 u u); [rewrite Hp, U; ring|].
            unfold dot3, sub3, scale3. cbn [c0 c1 c2]. ring.
          - rewrite <- E. apply v3_ext; unfold sub3; cbn [c0 c1 c2]; ring. }
      unfold width. split.
      * intros [A B]. apply Rmin_glb; lra.
      * intros A. pose proof (Rmin_l (r0 * r0 - t * t) (r1 * r1 - (t - d) * (t - d))). pose proof (Rmin_r (r0 * r0 - t * t) (r1 * r1 - (t - d) * (t - d))). split; lra.
    + unfold overlap_volume. rewrite <- Ed. exact (areas_integral d r0 r1 Dp H0 H1).
Qed.
