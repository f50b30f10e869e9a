From Coq Require Import Reals Arith Bool Lra Lia.
From Verif Require Import Ccd_Model Lin_Model Lin_Proofs Rot_Alg Geom_Circle Quad_Model Quad_Proofs Resid_Model Resid_Spec Resid_Proofs Apgd_Model Apgd_Spec Apgd_Proofs.
Open Scope R_scope.

Theorem apgd_returns_best : forall project term tol n A b fuel max_iters x0 bst st it,
  (0 < max_iters)%nat -> apgd project term tol n A b fuel max_iters x0 = Finished bst st it ->
  exists r x, bst = Some (r, x) /\ r = term x (qp_gradient n A b x)
    /\ (exists w, x = project w)
    /\ (st = Success <-> r <= tol) /\ (st = Success -> (it < max_iters)%nat) /\ (st = MaxItersExceeded -> it = max_iters)
    /\ r <= term (project x0) (qp_gradient n A b (project x0))
    /\ (exists k, (k < max_iters)%nat /\ (k <= it)%nat /\ iterate project n A b fuel k (first_iter project n A x0) = Some x)
    /\ (forall k, (k < max_iters)%nat -> (k <= it)%nat -> exists xk, iterate project n A b fuel k (first_iter project n A x0) = Some xk /\ r <= term xk (qp_gradient n A b xk)).
Proof.
  intros project term tol n A b fuel mx x0 bst st it Hm E. unfold apgd in E.
  pose proof (loop_inv project term tol n A b fuel mx 0 (first_iter project n A x0) None bst st it ltac:(discriminate) E) as (_ & I2 & I3 & _ & I5).
  destruct (I5 ltac:(lia)) as (r & x & Eb & Er & St & _ & Vis & From). exists r, x. split; [exact Eb|]. split; [exact Er|].
  destruct From as [K|(k & K1 & K2 & K3)]; [discriminate|].
  split; [eapply iterate_projected; [|exact K3]; exists x0; reflexivity|]. split; [exact St|]. split; [intros K; apply I3 in K; lia|]. split; [intros K; apply I2 in K; lia|].
  split; [destruct (Vis 0%nat Hm ltac:(lia)) as (xk & V & L); cbn [iterate] in V; inversion V; subst xk; exact L|]. split; [exists k; split; [exact K1|]; split; [lia|exact K3]|].
  intros j Hj Hi. apply Vis; [exact Hj|lia].
Qed.
Theorem apgd_no_iterations : forall project term tol n A b fuel x0, apgd project term tol n A b fuel 0 x0 = Finished None MaxItersExceeded 0.
Proof. reflexivity. Qed.
(* a larger limit never does harm *)
Theorem apgd_larger_limit : forall project term tol n A b fuel m1 m2 x0 r1 x1 s1 i1 bst s2 i2, (m1 <= m2)%nat ->
  apgd project term tol n A b fuel m1 x0 = Finished (Some (r1, x1)) s1 i1 -> apgd project term tol n A b fuel m2 x0 = Finished bst s2 i2 ->
  (exists r2 x2, bst = Some (r2, x2) /\ r2 <= r1) /\ (s1 = Success -> bst = Some (r1, x1) /\ s2 = Success /\ i2 = i1).
Proof.
  intros project term tol n A b fuel m1 m2 x0 r1 x1 s1 i1 bst s2 i2 L E1 E2. unfold apgd in *. replace m2 with (m1 + (m2 - m1))%nat in E2 by lia. split.
  - eapply loop_monotone; [exact E1|exact E2|reflexivity].
  - intros ->. rewrite (loop_more _ _ _ _ _ _ _ _ _ _ _ _ _ E1 (m2 - m1)%nat) in E2. inversion E2. split; [reflexivity|]. split; reflexivity.
Qed.
(* it always ends, when the first estimate of the Lipschitz constant is not zero *)
Theorem apgd_ends : forall project term tol n A b max_iters x0, symmetric n A ->
  (exists i, (i < n)%nat /\ mv n A (fun j => project x0 j - 1) i <> 0) ->
  exists fuel bst st it, forall extra, apgd project term tol n A b (fuel + extra) max_iters x0 = Finished bst st it.
Proof.
  intros project term tol n A b mx x0 Sy (i & Hi & Nz). unfold apgd. set (d := fun j => project x0 j - 1). change (mv n A d i <> 0) in Nz.
  assert (Dp : 0 < dotn n d d).
  { destruct (Rle_lt_or_eq_dec _ _ (dotn_nn n d)) as [P|Z]; [exact P|exfalso]. apply Nz. unfold mv. apply rsum_zero. intros j Hj.
    change (A i j * d j = 0). rewrite (dotn_zero n d (eq_sym Z) j Hj). ring. }
  assert (Ap : 0 < dotn n (mv n (transpose A) d) (mv n (transpose A) d)).
  { destruct (Rle_lt_or_eq_dec _ _ (dotn_nn n (mv n (transpose A) d))) as [P|Z]; [exact P|exfalso]. apply Nz.
    rewrite <- (mv_transpose_sym n A d i Sy Hi). apply (dotn_zero n _ (eq_sym Z) i Hi). }
  apply (loop_ends project term tol n A b Sy mx 0 (first_iter project n A x0) None
     (sqrt (dotn n (mv n (transpose A) d) (mv n (transpose A) d)) / sqrt (dotn n d d))).
  - unfold first_iter. cbv zeta. cbn [iL]. fold d. destruct (Rltb_spec 0 (dotn n d d)) as [_|N]; [reflexivity|lra].
  - apply Rdiv_lt_0_compat; apply sqrt_lt_R0; assumption.
Qed.

(* ---------- linear complementarity ---------- *)
Lemma nonneg_project_nn : forall w i, 0 <= nonneg_project w i.
Proof. intros w i. unfold nonneg_project. destruct (Rltb_spec (w i) 0); lra. Qed.
Lemma nonneg_project_id : forall w i, 0 <= w i -> nonneg_project w i = w i.
Proof. intros w i H. unfold nonneg_project. destruct (Rltb_spec (w i) 0); lra. Qed.
(* it is the closest non-negative vector *)
Theorem nonneg_project_closest : forall n w z, (forall i, (i < n)%nat -> 0 <= z i) ->
  dotn n (fun i => w i - nonneg_project w i) (fun i => w i - nonneg_project w i) <= dotn n (fun i => w i - z i) (fun i => w i - z i).
Proof.
  intros n w z Hz. apply rsum_le. intros i Hi. cbv beta. specialize (Hz i Hi). unfold nonneg_project. destruct (Rltb_spec (w i) 0) as [K|K].
  - assert (0 <= z i * (z i - w i)) by (apply Rmult_le_pos; lra). assert (0 <= - w i * z i) by (apply Rmult_le_pos; lra).
    replace ((w i - z i) * (w i - z i)) with (w i * w i + - w i * z i + z i * (z i - w i)) by ring. lra.
  - replace (w i - w i) with 0 by ring. pose proof (sq_nn (w i - z i)). lra.
Qed.
Lemma impact_Q_apply : forall nd n N Minv alpha i, mv n (impact_Q nd N Minv) alpha i = mv nd (transpose N) (mv nd Minv (mv n N alpha)) i.
Proof.
  intros nd n N Minv alpha i. unfold impact_Q. rewrite mv_mm. apply mv_ext. intros j _. apply mv_mm.
Qed.
Lemma impact_Q_sym : forall nd n N Minv, symmetric nd Minv -> symmetric n (impact_Q nd N Minv).
Proof.
  intros nd n N Minv Sy i j _ _. unfold impact_Q, mm, transpose.
  transitivity (rsum nd (fun k => rsum nd (fun l => N k i * Minv k l * N l j))).
  - apply rsum_same. intros k _. rewrite <- rsum_scale. apply rsum_same. intros. ring.
  - rewrite rsum_swap. apply rsum_same. intros l Hl. rewrite <- rsum_scale. apply rsum_same. intros k Hk. rewrite (Sy k l) by assumption. ring.
Qed.
(* gradient of the LCP = velocity along the normals after the impact plus CoR times the one before *)
Lemma lcp_gradient : forall nd n N Minv nrel CoR v0 v0F alpha i, symmetric nd Minv -> (i < n)%nat ->
  qp_gradient n (impact_Q nd N Minv) (lcp_b nd N nrel CoR v0 v0F) alpha i =
  normal_velocity nd N nrel (impact_velocity nd n N Minv v0F alpha) i + CoR i * normal_velocity nd N nrel v0 i.
Proof.
  intros nd n N Minv nrel CoR v0 v0F alpha i Sy Hi. unfold qp_gradient. rewrite (mv_transpose_sym n _ alpha i (impact_Q_sym nd n N Minv Sy) Hi).
  rewrite impact_Q_apply. unfold lcp_b, normal_velocity, impact_velocity.
  change (rsum nd (fun k => N k i * (v0F k + mv nd Minv (mv n N alpha) k))) with (mv nd (transpose N) (fun k => v0F k + mv nd Minv (mv n N alpha) k) i).
  rewrite mv_plus. change (rsum nd (fun k => N k i * v0 k)) with (mv nd (transpose N) v0 i). ring.
Qed.

Theorem lcp_apgd_impact : forall fuel tol max_iters nd n N Minv nrel CoR v0 v0F alpha0 r alpha it, symmetric nd Minv -> 0 <= tol -> (0 < max_iters)%nat ->
  lcp_apgd fuel tol max_iters nd n N (impact_Q nd N Minv) nrel CoR v0 v0F alpha0 = Finished (Some (r, alpha)) Success it ->
  forall i, (i < n)%nat ->
  nearly_complementary tol (alpha i) (normal_velocity nd N nrel (impact_velocity nd n N Minv v0F alpha) i + CoR i * normal_velocity nd N nrel v0 i).
Proof.
  intros fuel tol mx nd n N Minv nrel CoR v0 v0F alpha0 r alpha it Sy Ht Hm E i Hi. unfold lcp_apgd in E.
  destruct (apgd_returns_best _ _ _ _ _ _ _ _ _ _ _ _ Hm E) as (r1 & x1 & Eb & Er & (w & Ew) & St & _). assert (E1 : r1 = r) by congruence. assert (E2 : x1 = alpha) by congruence. rewrite E1, E2 in *. clear r1 x1 E1 E2 Eb.
  pose proof (proj1 St eq_refl) as Le. rewrite Er in Le. rewrite (min_map_within n alpha _ tol Ht) in Le. specialize (Le i Hi). destruct Le as (_ & L2 & L3).
  rewrite (lcp_gradient nd n N Minv nrel CoR v0 v0F alpha i Sy Hi) in L2, L3. unfold nearly_complementary. split; [rewrite Ew; apply nonneg_project_nn|]. split; assumption.
Qed.
(* even when the solver gives up, no contact pulls *)
Theorem lcp_apgd_pushes : forall fuel tol max_iters nd n N Q nrel CoR v0 v0F alpha0 r alpha st it, (0 < max_iters)%nat ->
  lcp_apgd fuel tol max_iters nd n N Q nrel CoR v0 v0F alpha0 = Finished (Some (r, alpha)) st it -> forall i, 0 <= alpha i.
Proof.
  intros fuel tol mx nd n N Q nrel CoR v0 v0F alpha0 r alpha st it Hm E i. unfold lcp_apgd in E.
  destruct (apgd_returns_best _ _ _ _ _ _ _ _ _ _ _ _ Hm E) as (r1 & x1 & Eb & _ & (w & Ew) & _). assert (E2 : x1 = alpha) by congruence. rewrite <- E2, Ew. apply nonneg_project_nn.
Qed.

(* the answer nearly minimises the quadratic *)
Lemma quadratic_is : forall n A b x, quadratic n A b x = / 2 * dotn n x (mv n A x) + dotn n b x.
Proof. reflexivity. Qed.
Theorem near_minimum : forall n A b tol x z, symmetric n A -> positive_semidefinite n A -> 0 <= tol ->
  (forall i, (i < n)%nat -> nearly_complementary tol (x i) (rsum n (fun j => A i j * x j) + b i)) -> (forall i, (i < n)%nat -> 0 <= z i) ->
  quadratic n A b x <= quadratic n A b z + tol * rsum n (fun i => x i + z i + Rabs (rsum n (fun j => A i j * x j) + b i)).
Proof.
  intros n A b tol x z Sy Psd Ht Nc Hz. rewrite !quadratic_is. set (d := fun i => z i - x i).
  assert (Z : forall i, z i = x i + d i) by (intros; unfold d; ring).
  assert (Qz : dotn n z (mv n A z) = dotn n x (mv n A x) + 2 * dotn n d (mv n A x) + dotn n d (mv n A d)).
  { transitivity (dotn n (fun i => x i + d i) (fun i => mv n A x i + mv n A d i)).
    - apply dotn_ext; [intros; apply Z|]. intros i _. rewrite <- mv_plus. apply mv_ext. intros; apply Z.
    - rewrite dotn_plus, !(dotn_comm n (fun i => x i + d i)), !dotn_plus. rewrite (dotn_comm n (mv n A x) x), (dotn_comm n (mv n A x) d), (dotn_comm n (mv n A d) d), <- (dotn_sym n A d x Sy). ring. }
  assert (Bz : dotn n b z = dotn n b x + dotn n b d) by (rewrite <- dotn_plus; apply dotn_ext; [reflexivity|intros; apply Z]).
  rewrite Qz, Bz. assert (P : 0 <= dotn n d (mv n A d)) by (apply Psd).
  change (rsum n (fun i => x i + z i + Rabs (rsum n (fun j => A i j * x j) + b i))) with (rsum n (fun i => x i + z i + Rabs (mv n A x i + b i))).
  enough (- (tol * rsum n (fun i => x i + z i + Rabs (mv n A x i + b i))) <= dotn n d (mv n A x) + dotn n b d) by lra.
  rewrite (dotn_comm n b d), <- dotn_plus. unfold dotn.
  rewrite <- rsum_scale. replace (- rsum n (fun i => tol * (x i + z i + Rabs (mv n A x i + b i)))) with (-1 * rsum n (fun i => tol * (x i + z i + Rabs (mv n A x i + b i)))) by ring.
  rewrite <- rsum_scale. apply rsum_le. intros i Hi. unfold d. destruct (Nc i Hi) as (X0 & G0 & Or). specialize (Hz i Hi). fold (mv n A x i) in G0, Or.
  set (w := mv n A x i + b i) in *. clearbody w. pose proof (Rabs_pos w) as Aw.
  assert (Zw : - (tol * z i) <= z i * w) by (assert (0 <= z i * (w + tol)) by (apply Rmult_le_pos; lra); lra).
  assert (Xw : x i * w <= tol * x i + tol * Rabs w).
  { destruct Or as [Or|Or].
    - assert (x i * w <= x i * Rabs w) by (apply Rmult_le_compat_l; [exact X0|apply Rle_abs]). assert (x i * Rabs w <= tol * Rabs w) by (apply Rmult_le_compat_r; assumption).
      assert (0 <= tol * x i) by (apply Rmult_le_pos; assumption). lra.
    - assert (x i * w <= x i * tol) by (apply Rmult_le_compat_l; assumption). assert (0 <= tol * Rabs w) by (apply Rmult_le_pos; assumption). lra. }
  lra.
Qed.

(* ---------- energy ---------- *)
Theorem impact_energy : forall nd n N M Minv c v0 alpha tol, symmetric nd M -> symmetric nd Minv -> inverse_of nd M Minv -> positive_semidefinite nd Minv ->
  0 <= c <= 1 -> 0 <= tol ->
  (forall i, (i < n)%nat -> nearly_complementary tol (alpha i)
     (normal_velocity nd N (fun _ => 0) (impact_velocity nd n N Minv v0 alpha) i + c * normal_velocity nd N (fun _ => 0) v0 i)) ->
  kinetic_energy nd M (impact_velocity nd n N Minv v0 alpha) <=
  kinetic_energy nd M v0 + tol * rsum n (fun i => alpha i
     + Rabs (normal_velocity nd N (fun _ => 0) (impact_velocity nd n N Minv v0 alpha) i + c * normal_velocity nd N (fun _ => 0) v0 i)).
Proof.
  intros nd n N M Minv c v0 alpha tol SM SI Inv Psd Hc Ht Nc. set (p := mv n N alpha). set (dv := mv nd Minv p).
  set (w := fun i => normal_velocity nd N (fun _ => 0) (impact_velocity nd n N Minv v0 alpha) i + c * normal_velocity nd N (fun _ => 0) v0 i) in *.
  assert (MI : forall i, (i < nd)%nat -> mv nd M dv i = p i) by (intros i Hi; apply (Inv p i Hi)).
  assert (E1 : kinetic_energy nd M (impact_velocity nd n N Minv v0 alpha) = kinetic_energy nd M v0 + dotn nd v0 p + / 2 * dotn nd dv p).
  { unfold kinetic_energy, impact_velocity. fold p. fold dv.
    change (/ 2 * dotn nd (fun k => v0 k + dv k) (mv nd M (fun k => v0 k + dv k)) = / 2 * dotn nd v0 (mv nd M v0) + dotn nd v0 p + / 2 * dotn nd dv p).
    rewrite (dotn_ext nd _ (mv nd M (fun k => v0 k + dv k)) (fun k => v0 k + dv k) (fun k => mv nd M v0 k + p k)).
    2: reflexivity. 2:{ intros i Hi. rewrite mv_plus, MI by exact Hi. reflexivity. }
    rewrite dotn_plus, !(dotn_comm nd (fun k => v0 k + dv k)), !dotn_plus. rewrite (dotn_comm nd (mv nd M v0) v0), (dotn_comm nd p v0), (dotn_comm nd p dv).
    rewrite <- (dotn_sym nd M v0 dv SM). rewrite (dotn_ext nd v0 (mv nd M dv) v0 p); [idtac|reflexivity|exact MI]. lra. }
  assert (U : forall v, dotn nd v p = dotn n alpha (fun i => normal_velocity nd N (fun _ => 0) v i)).
  { intros v. unfold p. rewrite dotn_transpose, dotn_comm. apply dotn_ext; [reflexivity|]. intros i Hi. unfold normal_velocity, mv, transpose. ring. }
  assert (Aw : dotn n alpha w = (1 + c) * dotn nd v0 p + dotn nd dv p).
  { unfold w. rewrite dotn_plus, dotn_scale, <- !U. unfold impact_velocity. fold p. fold dv. rewrite dotn_comm, dotn_plus, !(dotn_comm nd p). ring. }
  assert (Pp : 0 <= dotn nd dv p) by (rewrite dotn_comm; apply Psd).
  assert (Bd : dotn n alpha w <= tol * rsum n (fun i => alpha i + Rabs (w i))).
  { rewrite <- rsum_scale. apply rsum_le. intros i Hi. destruct (Nc i Hi) as (X0 & G0 & Or). pose proof (Rabs_pos (w i)) as Aw0.
    assert (K : forall a ww, 0 <= a -> - tol <= ww -> a <= tol \/ ww <= tol -> a * ww <= tol * (a + Rabs ww)).
    { intros a ww Ha Hw [O|O]; pose proof (Rabs_pos ww); pose proof (Rle_abs ww).
      - assert (a * ww <= a * Rabs ww) by (apply Rmult_le_compat_l; assumption). assert (a * Rabs ww <= tol * Rabs ww) by (apply Rmult_le_compat_r; assumption).
        assert (0 <= tol * a) by (apply Rmult_le_pos; assumption). lra.
      - assert (a * ww <= a * tol) by (apply Rmult_le_compat_l; assumption). assert (0 <= tol * Rabs ww) by (apply Rmult_le_pos; assumption). lra. }
    apply K; assumption. }
  rewrite E1. set (T := tol * rsum n (fun i => alpha i + Rabs (w i))) in *.
  assert (T0 : 0 <= T). { unfold T. apply Rmult_le_pos; [exact Ht|]. apply rsum_nonneg. intros i Hi. pose proof (Rabs_pos (w i)). destruct (Nc i Hi). lra. }
  change (kinetic_energy nd M v0 + dotn nd v0 p + / 2 * dotn nd dv p <= kinetic_energy nd M v0 + T).
  clearbody T. generalize dependent (dotn nd v0 p). generalize dependent (dotn nd dv p). intros P Hp a E1 Aw. 
  (* ( 1 + c ) a + P <= T gives a + P / 2 <= T *)
  assert (H1 : (1 + c) * a + P <= T) by lra.
  assert (H2 : (1 + c) * (a + / 2 * P) <= T). { assert (0 <= (1 - c) * P) by (apply Rmult_le_pos; lra). lra. }
  destruct (Rle_dec (a + / 2 * P) 0) as [K|K]; [lra|]. apply Rnot_le_lt in K. assert (0 <= c * (a + / 2 * P)) by (apply Rmult_le_pos; lra). lra.
Qed.
