From Coq Require Import List Reals Arith Lra Lia Bool String ZArith Sorted.
From Verif Require Import Outcome Ccd_Model Lin_Model Lin_Proofs Rot_Alg Geom_Circle Quad_Model Quad_Proofs Sparse_Model Sparse_Spec Sparse_Proofs Resid_Model Resid_Spec Resid_Proofs
  Apgd_Model Apgd_Spec Nlp_Model Nlp_Spec Nlp_Proofs.
Import ListNotations.
Open Scope R_scope.

(* ---------- choice of linear solvers ---------- *)
Lemma duplicates_none : forall l, containsDuplicates l = false <-> NoDup l.
Proof.
  induction l as [|s l IH]; [split; [constructor|reflexivity]|]. cbn [containsDuplicates]. destruct (existsb (String.eqb s) l) eqn:E.
  - split; [discriminate|]. intros N. inversion N; subst. apply existsb_exists in E. destruct E as (t & I & Et). apply String.eqb_eq in Et. subst t. contradiction.
  - rewrite IH. split; intros H; [constructor; [|exact H]|inversion H; assumption]. intros I. assert (existsb (String.eqb s) l = true) by (apply existsb_exists; exists s; split; [exact I|apply String.eqb_refl]). congruence.
Qed.
Lemma supported : forall s, linearSolverSupported s = true <-> In s ["ma27"; "ma57"; "mumps"; "ma86"; "ma97"]%string.
Proof.
  intros s. unfold linearSolverSupported. cbn [In].
  destruct (String.eqb_spec s "ma27"), (String.eqb_spec s "ma57"), (String.eqb_spec s "mumps"), (String.eqb_spec s "ma86"), (String.eqb_spec s "ma97"); cbn [andb negb]; split; intros H; try reflexivity; try (subst; tauto); try discriminate.
  exfalso. destruct H as [H|[H|[H|[H|[H|[]]]]]]; congruence.
Qed.
Theorem operator_ok : forall l, (l <> [] /\ NoDup l /\ forall s, In s l -> In s ["ma27"; "ma57"; "mumps"; "ma86"; "ma97"]%string) /\ ipopt_operator l = Ok l
  \/ ~ (l <> [] /\ NoDup l /\ forall s, In s l -> In s ["ma27"; "ma57"; "mumps"; "ma86"; "ma97"]%string) /\ ipopt_operator l = Exit.
Proof.
  intros l. unfold ipopt_operator. destruct l as [|s0 l0]; [right; split; [intros [H _]; congruence|reflexivity]|]. set (l := s0 :: l0). destruct (containsDuplicates l) eqn:D.
  - right. split; [|reflexivity]. intros (_ & N & _). apply duplicates_none in N. congruence.
  - apply duplicates_none in D. destruct (forallb linearSolverSupported l) eqn:F.
    + left. split; [|reflexivity]. split; [discriminate|]. split; [exact D|]. intros s I. apply supported. rewrite forallb_forall in F. apply F. exact I.
    + right. split; [|reflexivity]. intros (_ & _ & S). assert (forallb linearSolverSupported l = true) by (apply forallb_forall; intros s I; apply supported, S, I). congruence.
Qed.
Lemma accept_no : forall st, accept_flow st = false -> st <> SUCCESS /\ st <> STOP_AT_ACCEPTABLE_POINT.
Proof. intros [] H; try discriminate; split; discriminate. Qed.
Lemma accept_yes : forall st, accept_flow st = true -> st = SUCCESS \/ st = STOP_AT_ACCEPTABLE_POINT.
Proof. intros [] H; try discriminate; auto. Qed.
Lemma last_tail : forall s (t : list string), t <> [] -> List.last (s :: t) EmptyString = List.last t EmptyString.
Proof. intros s [|u t] N; [congruence|reflexivity]. Qed.
Lemma last_in : forall (l : list string), l <> [] -> In (List.last l EmptyString) l.
Proof. induction l as [|s l IH]; intros N; [congruence|]. destruct l as [|u l]; [left; reflexivity|]. right. rewrite last_tail by discriminate. apply IH. discriminate. Qed.
Theorem loop_flow : forall run problem x0 l st x, l <> [] -> NoDup l -> accept_flow st = false \/ always_reports run ->
  (exists pre s post st1 x1, l = pre ++ s :: post /\ Forall (fails_on run (problem x0)) pre /\ succeeds_on run (problem x0) s x1
     /\ solver_loop run problem accept_flow true (List.last l EmptyString) x0 l st x = Ok (st1, x1))
  \/ (Forall (fails_on run (problem x0)) l /\ solver_loop run problem accept_flow true (List.last l EmptyString) x0 l st x = Exit).
Proof.
  intros run problem x0. induction l as [|s l IH]; intros st x N D H; [congruence|]. inversion D as [|? ? Ns D1]; subst. cbn [solver_loop].
  destruct (run s (problem x0)) as [[st1 x1]|] eqn:E.
  - destruct (accept_flow st1) eqn:A.
    + left. exists [], s, l, st1, x1. split; [reflexivity|]. split; [constructor|]. split; [|reflexivity]. unfold succeeds_on. rewrite E. destruct (accept_yes _ A) as [->| ->]; auto.
    + assert (Fs : fails_on run (problem x0) s). { intros y. rewrite E. destruct (accept_no _ A). split; congruence. }
      destruct l as [|u l].
      * cbn [List.last]. rewrite String.eqb_refl. right. split; [constructor; [exact Fs|constructor]|reflexivity].
      * rewrite last_tail by discriminate. destruct (String.eqb_spec s (List.last (u :: l) EmptyString)) as [Es|_].
        -- exfalso. apply Ns. rewrite Es. apply last_in. discriminate.
        -- destruct (IH st1 x1 ltac:(discriminate) D1 (or_introl A)) as [(pre & s1 & post & st2 & x2 & E1 & E2 & E3 & E4)|[E1 E2]].
           ++ left. exists (s :: pre), s1, post, st2, x2. split; [rewrite E1; reflexivity|]. split; [constructor; assumption|]. split; assumption.
           ++ right. split; [constructor; assumption|exact E2].
  - destruct H as [A|A]; [|exfalso; exact (A _ _ E)]. rewrite A.
    assert (Fs : fails_on run (problem x0) s) by (intros y; rewrite E; split; discriminate).
    destruct l as [|u l].
    + cbn [List.last]. rewrite String.eqb_refl. right. split; [constructor; [exact Fs|constructor]|reflexivity].
    + rewrite last_tail by discriminate. destruct (String.eqb_spec s (List.last (u :: l) EmptyString)) as [Es|_].
      * exfalso. apply Ns. rewrite Es. apply last_in. discriminate.
      * destruct (IH st x0 ltac:(discriminate) D1 (or_introl A)) as [(pre & s1 & post & st2 & x2 & E1 & E2 & E3 & E4)|[E1 E2]].
        -- left. exists (s :: pre), s1, post, st2, x2. split; [rewrite E1; reflexivity|]. split; [constructor; assumption|]. split; assumption.
        -- right. split; [constructor; assumption|exact E2].
Qed.
Lemma operator_inv : forall l l', ipopt_operator l = Ok l' -> l' = l /\ l <> [] /\ NoDup l.
Proof. intros l l' H. destruct (operator_ok l) as [[(A & B & _) E]|[_ E]]; rewrite E in H; [|discriminate]. split; [congruence|]. split; assumption. Qed.
Lemma honest_success : forall tol run p s x, honest tol run -> succeeds_on run p s x -> kkt_point tol p x.
Proof. intros tol run p s x H [E|E]; apply (H p s _ x E); auto. Qed.

(* ---------- velocities ---------- *)
Lemma after_slip : forall nd n D Minv Q v drel beta j, is_DMD nd n D Minv Q -> (j < n)%nat ->
  smv Q beta j + (mv nd (transpose D) v j + drel j) = slip nd D drel (after nd n D Minv v beta) j.
Proof.
  intros nd n D Minv Q v drel beta j [En Eq] Hj. unfold smv. rewrite En.
  assert (E : mv n (coeff Q) beta j = mv nd (transpose D) (mv nd Minv (mv n D beta)) j).
  { transitivity (mv n (mm nd (transpose D) (mm nd Minv D)) beta j).
    - apply rsum_same. intros k Hk. rewrite (Eq j k Hj Hk). reflexivity.
    - rewrite mv_mm. apply mv_ext. intros k _. apply mv_mm. }
  rewrite E. unfold slip, after. change (rsum nd (fun k => D k j * (v k + rsum nd (fun l => Minv k l * rsum n (fun j0 => D l j0 * beta j0))))) with (mv nd (transpose D) (fun k => v k + mv nd Minv (mv n D beta) k) j).
  rewrite mv_plus. ring.
Qed.
Lemma lcp_slip : forall nd n N Minv Q nrel CoR v0 v0F alpha i, is_DMD nd n N Minv Q -> (i < n)%nat ->
  smv Q alpha i + lcp_b nd N nrel CoR v0 v0F i = slip nd N nrel (after nd n N Minv v0F alpha) i + CoR i * slip nd N nrel v0 i.
Proof.
  intros nd n N Minv Q nrel CoR v0 v0F alpha i H Hi. rewrite <- (after_slip nd n N Minv Q v0F nrel alpha i H Hi). unfold lcp_b, slip.
  change (rsum nd (fun k => N k i * v0 k)) with (mv nd (transpose N) v0 i). ring.
Qed.

(* ---------- impacts with Ipopt ---------- *)
Lemma ip_inf_none : no_upper ip_inf /\ no_lower (- ip_inf).
Proof. unfold no_upper, no_lower, ip_inf. assert (0 < 10 ^ 19) by (apply pow_lt; lra). lra. Qed.
Lemma zero_bound : ~ no_lower 0.
Proof. unfold no_lower. assert (0 < 10 ^ 19) by (apply pow_lt; lra). lra. Qed.
Theorem lcp_kkt : forall tol Q A alpha0 x, 0 <= tol -> kkt_point tol (qpnlp Q A alpha0) x -> forall i, (i < m_cols Q)%nat ->
  - tol <= x i /\ - tol <= smv Q x i + A i /\ Rabs (x i * (smv Q x i + A i)) <= tol * (1 + Rabs (x i)).
Proof.
  intros tol Q A alpha0 x Ht (zl & zu & ll & lu & B & _ & S) i Hi. specialize (B i Hi). specialize (S i Hi). cbn [qpnlp t_xl t_xu t_n] in B.
  unfold lagrangian_gradient in S. cbn [qpnlp t_grad t_m rsum] in S. destruct B as (B1 & _ & Z1 & Z2 & _ & Z4 & C1 & _).
  destruct B1 as [B1|B1]; [exfalso; exact (zero_bound B1)|]. destruct C1 as [C1|C1]; [exfalso; exact (zero_bound C1)|]. rewrite (Z4 (proj1 ip_inf_none)) in S.
  set (w := smv Q x i + A i) in *. clearbody w. apply abs_inv in S. rewrite Rminus_0_r in C1. split; [lra|]. split; [lra|].
  replace (x i * w) with (zl i * x i + x i * (w - zl i)) by ring. apply Rle_trans with (Rabs (zl i * x i) + Rabs (x i * (w - zl i))); [apply Rabs_triang|]. rewrite (Rabs_mult (x i)).
  assert (Rabs (x i) * Rabs (w - zl i) <= Rabs (x i) * tol); [|lra]. apply Rmult_le_compat_l; [apply Rabs_pos|]. apply abs_in. lra.
Qed.
Theorem lcp_ipopt_impact : forall tol run solvers l nd n N Minv Q nrel CoR v0 v0F alpha0 alpha, 0 <= tol -> honest tol run -> ipopt_operator solvers = Ok l -> is_DMD nd n N Minv Q ->
  lcp_ipopt run l nd N Q nrel CoR v0 v0F alpha0 = Ok alpha -> forall i, (i < n)%nat ->
  let w := slip nd N nrel (after nd n N Minv v0F alpha) i + CoR i * slip nd N nrel v0 i in
  - tol <= alpha i /\ - tol <= w /\ Rabs (alpha i * w) <= tol * (1 + Rabs (alpha i)).
Proof.
  intros tol run solvers l nd n N Minv Q nrel CoR v0 v0F alpha0 alpha Ht Hr Ho HQ E i Hi w. apply operator_inv in Ho. destruct Ho as (-> & Ne & Nd). unfold lcp_ipopt in E.
  destruct (loop_flow run (qpnlp Q (lcp_b nd N nrel CoR v0 v0F)) alpha0 solvers INTERNAL_ERROR alpha0 Ne Nd (or_introl eq_refl)) as [(pre & s & post & st1 & x1 & _ & _ & Su & L)|[_ L]]; rewrite L in E; [|discriminate].
  cbn [obind snd] in E. assert (x1 = alpha) by congruence. subst x1. apply (honest_success tol run) in Su; [|exact Hr]. unfold w. rewrite <- (lcp_slip nd n N Minv Q nrel CoR v0 v0F alpha i HQ Hi).
  apply (lcp_kkt tol Q _ alpha0); [exact Ht|exact Su|]. destruct HQ as [-> _]. exact Hi.
Qed.
Theorem lcp_fallback : forall run solvers l nd N Q nrel CoR v0 v0F alpha0, ipopt_operator solvers = Ok l ->
  let p := qpnlp Q (lcp_b nd N nrel CoR v0 v0F) alpha0 in
  (exists pre s post x, l = pre ++ s :: post /\ Forall (fails_on run p) pre /\ succeeds_on run p s x /\ lcp_ipopt run l nd N Q nrel CoR v0 v0F alpha0 = Ok x)
  \/ (Forall (fails_on run p) l /\ lcp_ipopt run l nd N Q nrel CoR v0 v0F alpha0 = Exit).
Proof.
  intros run solvers l nd N Q nrel CoR v0 v0F alpha0 Ho p. apply operator_inv in Ho. destruct Ho as (-> & Ne & Nd). unfold lcp_ipopt.
  destruct (loop_flow run (qpnlp Q (lcp_b nd N nrel CoR v0 v0F)) alpha0 solvers INTERNAL_ERROR alpha0 Ne Nd (or_introl eq_refl)) as [(pre & s & post & st1 & x1 & H1 & H2 & H3 & L)|[H L]]; rewrite L.
  - left. exists pre, s, post, x1. split; [exact H1|]. split; [exact H2|]. split; [exact H3|reflexivity].
  - right. split; [exact H|reflexivity].
Qed.

(* ---------- friction in discs ---------- *)
Theorem disc_kkt : forall Q A c beta0 x, Nat.even (m_cols Q) = true -> kkt_point 0 (smoothnlp Q A (fun i => c i * c i) beta0) x ->
  forall i, (i < Nat.div (m_cols Q) 2)%nat -> 0 <= c i -> c i * c i < 10 ^ 19 ->
  best_in_disc (c i) (x (2 * i)%nat, x (2 * i + 1)%nat) (smv Q x (2 * i)%nat + A (2 * i)%nat, smv Q x (2 * i + 1)%nat + A (2 * i + 1)%nat).
Proof.
  intros Q A c beta0 x Ev (zl & zu & ll & lu & B & G & S) i Hi Hc Hb. pose proof (half_even _ Ev) as H2. set (n := m_cols Q) in *.
  specialize (G i Hi). cbn [smoothnlp t_gl t_gu t_g] in G. destruct G as (_ & G1 & _ & L0 & L1 & _ & _ & C2).
  assert (Nb : ~ no_upper (c i * c i)) by (unfold no_upper; lra). destruct G1 as [G1|G1]; [contradiction|]. destruct C2 as [C2|C2]; [contradiction|].
  assert (P : lu i * (c i * c i - (x (2 * i + 0)%nat * x (2 * i + 0)%nat + x (2 * i + 1)%nat * x (2 * i + 1)%nat)) = 0). { apply abs_inv in C2. lra. }
  assert (St : forall j, (j < n)%nat -> Nat.div j 2 = i -> smv Q x j + A j = - (2 * lu i * x j)).
  { intros j Hj Ej. specialize (S j Hj). rewrite (disc_lagrangian Q A (fun i => c i * c i) Ev beta0 1 (fun i => lu i - ll i) x j Hj) in S. specialize (B j Hj). cbn [smoothnlp t_xl t_xu] in B. destruct B as (_ & _ & _ & _ & B5 & B6 & _).
    rewrite (B5 (proj2 ip_inf_none)), (B6 (proj1 ip_inf_none)), Ej, (L1 (proj2 ip_inf_none)) in S. apply abs_inv in S. lra. }
  rewrite (St (2 * i)%nat), (St (2 * i + 1)%nat); [|lia| |lia|].
  2:{ rewrite Nat.mul_comm, Nat.div_add_l by lia. cbn [Nat.div Nat.divmod fst]. lia. }
  2:{ rewrite Nat.mul_comm, Nat.div_mul by lia. reflexivity. }
  rewrite Nat.add_0_r in *. set (b0 := x (2 * i)%nat) in *. set (b1 := x (2 * i + 1)%nat) in *. clearbody b0 b1. split.
  - split; [exact Hc|]. unfold vdot. cbn [fst snd]. lra.
  - intros [z0 z1] [_ Hz]. unfold vdot, vsub in *. cbn [fst snd] in *. set (u := lu i) in *. clearbody u.
    replace (- (2 * u * b0) * (z0 - b0) + - (2 * u * b1) * (z1 - b1)) with (2 * (u * (b0 * b0 + b1 * b1) - u * (b0 * z0 + b1 * z1))) by ring.
    assert (u * (b0 * b0 + b1 * b1) = u * (c i * c i)) by lra.
    pose proof (sq_nn (b0 - z0)). pose proof (sq_nn (b1 - z1)). assert (b0 * z0 + b1 * z1 <= c i * c i) by lra. assert (0 <= u * (c i * c i - (b0 * z0 + b1 * z1))) by (apply Rmult_le_pos; lra). lra.
Qed.
(* beta cannot be improved, so it leaves the least energy *)
Theorem least_energy : forall nd n D M Minv drel v beta beta', symmetric nd M -> inverse_of nd M Minv -> positive_semidefinite nd M ->
  0 <= rsum n (fun j => slip nd D drel (after nd n D Minv v beta) j * (beta' j - beta j)) ->
  kinetic_energy nd M (after nd n D Minv v beta) + rsum n (fun j => drel j * beta j) <= kinetic_energy nd M (after nd n D Minv v beta') + rsum n (fun j => drel j * beta' j).
Proof.
  intros nd n D M Minv drel v beta beta' SM Inv Psd Hv. set (v1 := after nd n D Minv v beta) in *. set (d := fun j => beta' j - beta j). set (p := mv n D d). set (w := mv nd Minv p).
  assert (E2 : forall k, after nd n D Minv v beta' k = v1 k + w k).
  { intros k. unfold v1, after, w, p. change (v k + mv nd Minv (mv n D beta') k = v k + mv nd Minv (mv n D beta) k + mv nd Minv (mv n D d) k).
    rewrite (mv_ext nd Minv (mv n D d) (fun l => mv n D beta' l - mv n D beta l) k), mv_minus; [ring|]. intros l _. unfold d. apply mv_minus. }
  assert (MI : forall i, (i < nd)%nat -> mv nd M w i = p i) by (intros i Hi; apply (Inv p i Hi)).
  assert (K : kinetic_energy nd M (after nd n D Minv v beta') = kinetic_energy nd M v1 + dotn nd v1 p + / 2 * dotn nd w (mv nd M w)).
  { change (/ 2 * dotn nd (after nd n D Minv v beta') (mv nd M (after nd n D Minv v beta')) = / 2 * dotn nd v1 (mv nd M v1) + dotn nd v1 p + / 2 * dotn nd w (mv nd M w)).
    rewrite (dotn_ext nd (after nd n D Minv v beta') (mv nd M (after nd n D Minv v beta')) (fun k => v1 k + w k) (fun k => mv nd M v1 k + mv nd M w k)).
    2:{ intros i _. apply E2. } 2:{ intros i _. rewrite <- mv_plus. apply mv_ext. intros j _. apply E2. }
    rewrite dotn_plus, !(dotn_comm nd (fun k => v1 k + w k)), !dotn_plus. rewrite (dotn_comm nd (mv nd M v1) v1), (dotn_comm nd (mv nd M v1) w), (dotn_comm nd (mv nd M w) v1), (dotn_comm nd (mv nd M w) w), (dotn_sym nd M w v1 SM).
    rewrite (dotn_ext nd v1 (mv nd M w) v1 p), (dotn_ext nd (mv nd M w) v1 p v1), (dotn_comm nd p v1); try reflexivity; try exact MI. lra. }
  assert (Z : rsum n (fun j => slip nd D drel v1 j * (beta' j - beta j)) = dotn nd v1 p + (rsum n (fun j => drel j * beta' j) - rsum n (fun j => drel j * beta j))).
  { unfold p. rewrite dotn_transpose. unfold dotn. rewrite <- rsum_minus, <- rsum_plus. apply rsum_same. intros j _. unfold slip, mv, transpose, d. ring. }
  rewrite K. assert (0 <= dotn nd w (mv nd M w)) by (apply Psd). rewrite Z in Hv. lra.
Qed.
Lemma rsum_pairs_ : forall n f, rsum (2 * n) f = rsum n (fun i => f (2 * i)%nat + f (2 * i + 1)%nat).
Proof. induction n as [|n IH]; intros f; [reflexivity|]. replace (2 * S n)%nat with (S (S (2 * n))) by lia. cbn [rsum]. rewrite IH. replace (S (2 * n)) with (2 * n + 1)%nat by lia. ring. Qed.

Theorem smooth_friction : forall run solvers l nd nc D Minv Q drel mu alpha v0 beta0 beta lambda,
  honest 0 run -> always_reports run -> ipopt_operator solvers = Ok l -> is_DMD nd (2 * nc) D Minv Q ->
  (forall i, (i < nc)%nat -> 0 <= mu i /\ 0 <= alpha i /\ mu i * alpha i * (mu i * alpha i) < 10 ^ 19) ->
  smooth_ipopt run l nd D Q drel mu alpha v0 beta0 = Ok (beta, lambda) -> forall i, (i < nc)%nat ->
  let s := slip nd D drel (after nd (2 * nc) D Minv v0 beta) in
  best_in_disc (mu i * alpha i) (beta (2 * i)%nat, beta (2 * i + 1)%nat) (s (2 * i)%nat, s (2 * i + 1)%nat)
  /\ lambda i = vnorm (s (2 * i)%nat, s (2 * i + 1)%nat).
Proof.
  intros run solvers l nd nc D Minv Q drel mu alpha v0 beta0 beta lambda Hr Ha Ho HQ Hm E i Hi s. apply operator_inv in Ho. destruct Ho as (-> & Ne & Nd). unfold smooth_ipopt in E.
  set (A := fun j => mv nd (transpose D) v0 j + drel j) in *. pose proof (proj1 HQ) as En.
  assert (Sl : forall j, (j < 2 * nc)%nat -> smv Q beta j + A j = s j) by (intros j Hj; unfold A, s; apply after_slip; assumption).
  destruct (loop_flow run (smoothnlp Q A (fun i => mu i * mu i * alpha i * alpha i)) beta0 solvers SUCCESS beta0 Ne Nd (or_intror Ha)) as [(pre & sn & post & st1 & x1 & _ & _ & Su & L)|[_ L]]; rewrite L in E; [|discriminate].
  cbn [obind snd] in E. assert (x1 = beta) by congruence. assert (El : rescaled_lambda Q A x1 = lambda) by congruence. subst x1. apply (honest_success 0 run) in Su; [|exact Hr]. split.
  - rewrite <- (Sl (2 * i)%nat), <- (Sl (2 * i + 1)%nat) by lia. destruct (Hm i Hi) as (M1 & M2 & M3).
    apply (disc_kkt Q A (fun i => mu i * alpha i) beta0 beta).
    + rewrite En. apply Nat.even_spec. exists nc. reflexivity.
    + destruct Su as (zl & zu & ll & lu & B & G & S). exists zl, zu, ll, lu. split; [exact B|]. split; [|exact S]. intros k Hk. specialize (G k Hk). cbn [smoothnlp t_gl t_gu t_g] in *.
      replace (mu k * alpha k * (mu k * alpha k)) with (mu k * mu k * alpha k * alpha k) by ring. exact G.
    + rewrite En, Nat.mul_comm, Nat.div_mul by lia. exact Hi.
    + apply Rmult_le_pos; assumption.
    + exact M3.
  - rewrite <- El. unfold rescaled_lambda, seg2. rewrite Nat.add_0_r, !Sl by lia. reflexivity.
Qed.
Theorem smooth_least_energy : forall run solvers l nd nc D M Minv Q drel mu alpha v0 beta0 beta lambda,
  honest 0 run -> always_reports run -> ipopt_operator solvers = Ok l -> is_DMD nd (2 * nc) D Minv Q -> symmetric nd M -> inverse_of nd M Minv -> positive_semidefinite nd M ->
  (forall i, (i < nc)%nat -> 0 <= mu i /\ 0 <= alpha i /\ mu i * alpha i * (mu i * alpha i) < 10 ^ 19) ->
  smooth_ipopt run l nd D Q drel mu alpha v0 beta0 = Ok (beta, lambda) ->
  forall beta', (forall i, (i < nc)%nat -> in_friction_disc (mu i * alpha i) (beta' (2 * i)%nat, beta' (2 * i + 1)%nat)) ->
  kinetic_energy nd M (after nd (2 * nc) D Minv v0 beta) + rsum (2 * nc) (fun j => drel j * beta j)
  <= kinetic_energy nd M (after nd (2 * nc) D Minv v0 beta') + rsum (2 * nc) (fun j => drel j * beta' j).
Proof.
  intros run solvers l nd nc D M Minv Q drel mu alpha v0 beta0 beta lambda Hr Ha Ho HQ SM Inv Psd Hm E beta' Hb. apply least_energy; try assumption. rewrite rsum_pairs_. apply rsum_nonneg. intros i Hi.
  destruct (smooth_friction run solvers l nd nc D Minv Q drel mu alpha v0 beta0 beta lambda Hr Ha Ho HQ Hm E i Hi) as [[_ V] _]. specialize (V _ (Hb i Hi)). unfold vdot, vsub in V. cbn [fst snd] in V. exact V.
Qed.

(* ---------- QL ---------- *)
Theorem lcp_ql_impact : forall run nd n N Minv Q nrel CoR v0 v0F alpha0 alpha, ql_honest run -> is_DMD nd n N Minv Q ->
  lcp_ql run nd N Q nrel CoR v0 v0F alpha0 = Ok alpha ->
  (forall i, (i < n)%nat -> complementary (alpha i) (slip nd N nrel (after nd n N Minv v0F alpha) i + CoR i * slip nd N nrel v0 i))
  \/ exists st u, (st <> 0)%Z
     /\ run {| ql_n := m_cols Q; ql_m := 0; ql_C := coeff Q; ql_c := lcp_b nd N nrel CoR v0 v0F; ql_A := fun _ _ => 0; ql_b := fun _ => 0; ql_xl := fun _ => Some 0; ql_xu := fun _ => None |} alpha0 = (st, alpha, u).
Proof.
  intros run nd n N Minv Q nrel CoR v0 v0F alpha0 alpha Hr HQ E. unfold lcp_ql in E. destruct (work_bound (Z.of_nat (m_cols Q))) as [wz| |]; try discriminate. cbn [obind] in E.
  set (p := {| ql_n := m_cols Q; ql_m := 0; ql_C := coeff Q; ql_c := lcp_b nd N nrel CoR v0 v0F; ql_A := fun _ _ => 0; ql_b := fun _ => 0; ql_xl := fun _ => Some 0; ql_xu := fun _ => None |}) in *.
  destruct (run p alpha0) as [[st x] u] eqn:Er. assert (x = alpha) by (unfold obind in E; destruct (ql_warn st); congruence). subst x.
  destruct (Z.eq_dec st 0) as [->|N0]; [left|right; exists st, u; split; [exact N0|reflexivity]]. intros i Hi. pose proof (Hr p alpha0 alpha u Er) as (_ & K2 & K3 & K4). pose proof (proj1 HQ) as En.
  specialize (K2 i). specialize (K3 i). specialize (K4 i). cbn [p ql_n ql_m ql_xl ql_xu ql_C ql_c rsum Nat.add] in K2, K3, K4. rewrite En in *. specialize (K2 Hi). specialize (K3 Hi). specialize (K4 Hi).
  destruct K2 as (U & L1 & L2). destruct K3 as (_ & U2). rewrite <- (lcp_slip nd n N Minv Q nrel CoR v0 v0F alpha i HQ Hi). unfold smv. rewrite En. unfold mv. rewrite K4, U2. unfold complementary.
  rewrite Rminus_0_r in L2. split; [lra|]. split; [lra|]. lra.
Qed.
Theorem bound_friction : forall run nd n D Minv Q drel mu alpha v0 beta0 beta lambda, ql_honest run -> is_DMD nd n D Minv Q ->
  bound_ql run nd D Q drel mu alpha v0 beta0 = Ok (beta, lambda) ->
  (forall j, (j < n)%nat -> let s := slip nd D drel (after nd n D Minv v0 beta) j in
     best_in_interval (mu j * alpha j) (beta j) s /\ Rabs s <= lambda j /\ (0 < mu j * alpha j -> lambda j = Rabs s))
  \/ exists st u, (st <> 0)%Z
     /\ run {| ql_n := m_cols Q; ql_m := 0; ql_C := coeff Q; ql_c := fun j => mv nd (transpose D) v0 j + drel j; ql_A := fun _ _ => 0; ql_b := fun _ => 0; ql_xl := fun i => Some (- mu i * alpha i); ql_xu := fun i => Some (- (- mu i * alpha i)) |} beta0 = (st, beta, u).
Proof.
  intros run nd n D Minv Q drel mu alpha v0 beta0 beta lambda Hr HQ E. unfold bound_ql in E. destruct (work_bound (Z.of_nat (m_cols Q))) as [wz| |]; try discriminate. cbn [obind] in E. cbv beta in E.
  set (A := fun j => mv nd (transpose D) v0 j + drel j) in *.
  set (p := {| ql_n := m_cols Q; ql_m := 0; ql_C := coeff Q; ql_c := A; ql_A := fun _ _ => 0; ql_b := fun _ => 0; ql_xl := fun i => Some (- mu i * alpha i); ql_xu := fun i => Some (- (- mu i * alpha i)) |}) in *.
  destruct (run p beta0) as [[st x] u] eqn:Er. assert (Ex : (x, fun i => Rmax (u i) (u (m_cols Q + i)%nat)) = (beta, lambda)) by (unfold obind in E; destruct (ql_warn st); congruence).
  assert (x = beta) by congruence. assert (El : (fun i => Rmax (u i) (u (m_cols Q + i)%nat)) = lambda) by congruence. subst x.
  destruct (Z.eq_dec st 0) as [->|N0]; [left|right; exists st, u; split; [exact N0|reflexivity]]. intros j Hj s. pose proof (Hr p beta0 beta u Er) as (_ & K2 & K3 & K4). pose proof (proj1 HQ) as En.
  specialize (K2 j). specialize (K3 j). specialize (K4 j). cbn [p ql_n ql_m ql_xl ql_xu ql_C ql_c rsum Nat.add] in K2, K3, K4. rewrite En in *. specialize (K2 Hj). specialize (K3 Hj). specialize (K4 Hj).
  destruct K2 as (U1 & L1 & L2). destruct K3 as (U2 & L3 & L4).
  assert (Es : s = u j - u (n + j)%nat). { unfold s. rewrite <- (after_slip nd n D Minv Q v0 drel beta j HQ Hj). fold (A j). unfold smv. rewrite En. unfold mv. rewrite K4. ring. }
  rewrite <- El. rewrite Es. cbv beta. clear Es s El Er K4 E Ex. set (a := u j) in *. set (b := u (n + j)%nat) in *. clearbody a b. set (c := mu j * alpha j). replace (- mu j * alpha j) with (- c) in * by (unfold c; ring). clearbody c. set (y := beta j) in *. clearbody y.
  split; [split|split].
  - apply abs_in. lra.
  - intros z Hz. apply abs_inv in Hz. assert (0 <= a * (z + c)) by (apply Rmult_le_pos; lra). assert (0 <= b * (c - z)) by (apply Rmult_le_pos; lra).
    replace ((a - b) * (z - y)) with (a * (z + c) - a * (y - - c) + (b * (c - z) - b * (- - c - y))) by ring. lra.
  - unfold Rmax. destruct (Rle_dec a b); apply abs_in; lra.
  - intros Pc. assert (Z : a = 0 \/ b = 0). { apply Rmult_integral in L2. apply Rmult_integral in L4. destruct L2 as [|L2]; [left; assumption|]. destruct L4 as [|L4]; [right; assumption|]. lra. }
    destruct Z as [-> | ->].
    + rewrite Rmax_right by lra. rewrite Rabs_left1 by lra. ring.
    + rewrite Rmax_left by lra. rewrite Rabs_pos_eq by lra. ring.
Qed.

(* ---------- the rows of the disc constraint ---------- *)
Lemma rsum_blocks : forall m k f, rsum (m * k) f = rsum k (fun i => rsum m (fun s => f (m * i + s)%nat)).
Proof.
  intros m k f. induction k as [|k IH]; [rewrite Nat.mul_0_r; reflexivity|]. rewrite Nat.mul_succ_r, rsum_split, IH. reflexivity.
Qed.
Lemma disk_columns : forall samples cols c, (c < cols)%nat ->
  nth_error (map (fun col => map (fun s => ((samples * col + s)%nat, 1)) (seq 0 samples)) (seq 0 cols)) c = Some (map (fun s => ((samples * c + s)%nat, 1)) (seq 0 samples)).
Proof.
  intros samples cols c H. rewrite nth_error_map. assert (nth_error (seq 0 cols) c = Some c); [|rewrite H0; reflexivity]. rewrite (nth_error_nth' _ 0%nat) by (rewrite seq_length; exact H). rewrite seq_nth by exact H. reflexivity.
Qed.
Lemma disk_sorted : forall samples c, rows_below (map (fun s => ((samples * c + s)%nat, 1)) (seq 0 samples)).
Proof.
  intros samples c. apply sorted_of_steps. intros k [r1 v1] [r2 v2] H1 H2. rewrite nth_error_map in H1, H2.
  assert (K : (S k < samples)%nat). { assert (nth_error (seq 0 samples) (S k) <> None) by (destruct (nth_error (seq 0 samples) (S k)); [discriminate|discriminate]). apply nth_error_Some in H. rewrite seq_length in H. exact H. }
  rewrite (nth_error_nth' (seq 0 samples) 0%nat (n := k)), seq_nth in H1 by (rewrite ?seq_length; lia). rewrite (nth_error_nth' (seq 0 samples) 0%nat (n := S k)), seq_nth in H2 by (rewrite ?seq_length; lia). cbn [option_map] in H1, H2. cbn [fst]. assert ((samples * c + (0 + k))%nat = r1) by congruence. assert ((samples * c + (0 + S k))%nat = r2) by congruence. lia.
Qed.
Lemma disk_valid : forall samples cols, valid_csc (disk_constraint samples cols).
Proof.
  intros samples cols. apply compress_valid. intros c H. apply in_map_iff in H. destruct H as (k & <- & I). apply in_seq in I. split; [apply disk_sorted|].
  intros e He. apply in_map_iff in He. destruct He as (s & <- & Is). apply in_seq in Is. cbn [fst]. assert (samples * k + samples <= samples * cols)%nat; [|lia]. replace (samples * k + samples)%nat with (samples * (S k))%nat by lia. apply Nat.mul_le_mono_l. lia.
Qed.
Theorem disk_coeff : forall samples cols i c s, (c < cols)%nat -> (i < cols)%nat -> (s < samples)%nat -> coeff (disk_constraint samples cols) (samples * i + s) c = if Nat.eqb i c then 1 else 0.
Proof.
  intros samples cols i c s Hc Hi Hs.
  assert (St : forall r v, stored (disk_constraint samples cols) r c v <-> In (r, v) (map (fun s => ((samples * c + s)%nat, 1)) (seq 0 samples))) by (intros r v; apply compress_stored, disk_columns, Hc).
  assert (Mc : m_cols (disk_constraint samples cols) = cols) by (unfold disk_constraint; rewrite compress_cols, map_length, seq_length; reflexivity).
  destruct (Nat.eqb_spec i c) as [->|N].
  - unfold coeff. apply lookup_in; [apply column_sorted; [apply disk_valid|lia]|]. apply stored_column, St. apply in_map_iff. exists s. split; [reflexivity|]. apply in_seq. lia.
  - apply coeff_none. intros v H. apply St in H. apply in_map_iff in H. destruct H as (s1 & E & I). apply in_seq in I. assert (Er : (samples * c + s1 = samples * i + s)%nat) by congruence.
    destruct (Nat.lt_gt_cases i c) as [W _]. destruct (W N) as [L|L].
    + assert (samples * (S i) <= samples * c)%nat by (apply Nat.mul_le_mono_l; lia). lia.
    + assert (samples * (S c) <= samples * i)%nat by (apply Nat.mul_le_mono_l; lia). lia.
Qed.
Lemma disk_row_sum : forall samples cols i f, (i < cols)%nat -> rsum (samples * cols) (fun j => - coeff (disk_constraint samples cols) j i * f j) = - rsum samples (fun s => f (samples * i + s)%nat).
Proof.
  intros samples cols i f Hi. rewrite rsum_blocks, (rsum_one cols _ i Hi).
  - replace (- rsum samples (fun s => f (samples * i + s)%nat)) with (-1 * rsum samples (fun s => f (samples * i + s)%nat)) by ring. rewrite <- rsum_scale. apply rsum_same. intros s Hs. rewrite disk_coeff by assumption. rewrite Nat.eqb_refl. ring.
  - intros k Hk N. apply rsum_zero. intros s Hs. rewrite disk_coeff by assumption. rewrite (proj2 (Nat.eqb_neq k i) N). ring.
Qed.
Lemma disk_col_sum : forall samples cols i s f, (i < cols)%nat -> (s < samples)%nat -> rsum cols (fun k => - coeff (disk_constraint samples cols) (samples * i + s) k * f k) = - f i.
Proof.
  intros samples cols i s f Hi Hs. rewrite (rsum_one cols _ i Hi).
  - rewrite disk_coeff, Nat.eqb_refl by assumption. ring.
  - intros k Hk N. rewrite disk_coeff by assumption. destruct (Nat.eqb_spec i k); [congruence|]. ring.
Qed.
Theorem linear_friction : forall run samples nc nd D Minv Q drel mu alpha v0 beta0 beta lambda, ql_honest run -> is_DMD nd (samples * nc) D Minv Q ->
  linear_ql run samples nc nd D Q drel mu alpha v0 beta0 = Ok (beta, lambda) ->
  (forall i, (i < nc)%nat -> complementary (lambda i) (mu i * alpha i - rsum samples (fun s => beta (samples * i + s)%nat))
     /\ forall s, (s < samples)%nat -> let j := (samples * i + s)%nat in complementary (beta j) (slip nd D drel (after nd (samples * nc) D Minv v0 beta) j + lambda i))
  \/ exists st u, (st <> 0)%Z
     /\ run {| ql_n := m_cols Q; ql_m := nc; ql_C := coeff Q; ql_c := fun j => mv nd (transpose D) v0 j + drel j; ql_A := fun i j => - coeff (disk_constraint samples nc) j i; ql_b := fun i => mu i * alpha i; ql_xl := fun i => Some 0; ql_xu := fun i => None |} beta0 = (st, beta, u).
Proof.
  intros run samples nc nd D Minv Q drel mu alpha v0 beta0 beta lambda Hr HQ E. unfold linear_ql in E. destruct (work_linear (Z.of_nat (m_cols Q)) (Z.of_nat nc)) as [wz| |]; try discriminate. cbn [obind] in E. cbv beta in E.
  set (A := fun j => mv nd (transpose D) v0 j + drel j) in *.
  set (p := {| ql_n := m_cols Q; ql_m := nc; ql_C := coeff Q; ql_c := A; ql_A := fun i j => - coeff (disk_constraint samples nc) j i; ql_b := fun i => mu i * alpha i; ql_xl := fun i => Some 0; ql_xu := fun i => None |}) in *.
  destruct (run p beta0) as [[st x] u] eqn:Er. assert (Ex : (x, u) = (beta, lambda)) by (unfold obind in E; destruct (ql_warn st); congruence).
  assert (x = beta) by congruence. assert (u = lambda) by congruence. subst x u.
  destruct (Z.eq_dec st 0) as [->|N0]; [left|right; exists st, lambda; split; [exact N0|reflexivity]]. intros i Hi. pose proof (Hr p beta0 beta lambda Er) as (K1 & K2 & K3 & K4). pose proof (proj1 HQ) as En.
  cbn [p ql_n ql_m ql_xl ql_xu ql_C ql_c ql_A ql_b] in K1, K2, K3, K4. rewrite En in *. split.
  - specialize (K1 i Hi). cbv beta zeta in K1. rewrite disk_row_sum in K1 by exact Hi. destruct K1 as (H1 & H2 & H3). unfold complementary. split; [exact H2|]. split; [lra|].
    replace (mu i * alpha i - rsum samples (fun s => beta (samples * i + s)%nat)) with (- rsum samples (fun s => beta (samples * i + s)%nat) + mu i * alpha i) by ring. exact H3.
  - intros s Hs j. assert (Hj : (j < samples * nc)%nat). { unfold j. assert (samples * (S i) <= samples * nc)%nat by (apply Nat.mul_le_mono_l; lia). lia. }
    specialize (K2 j Hj). specialize (K3 j Hj). specialize (K4 j Hj). cbv beta zeta in K2, K3. destruct K2 as (U1 & L1 & L2). destruct K3 as (_ & U2).
    rewrite <- (after_slip nd (samples * nc) D Minv Q v0 drel beta j HQ Hj). fold (A j). unfold smv. rewrite En. unfold mv. rewrite K4, U2. unfold j at 2. rewrite disk_col_sum by assumption.
    rewrite Rminus_0_r in L2. unfold complementary. split; [lra|]. split; [lra|]. transitivity (lambda (nc + j)%nat * beta j); [ring|exact L2].
Qed.

(* ---------- working space ---------- *)
Lemma int_in : forall z, (-2147483648 <= z <= 2147483647)%Z -> int_ok z = Ok z.
Proof. intros z H. unfold int_ok. rewrite (proj2 (Z.leb_le _ _)), (proj2 (Z.leb_le _ _)) by lia. reflexivity. Qed.
Theorem work_fits : forall n, (0 <= n <= 26754)%Z -> work_bound n = Ok (Z.quot (3 * (n * n)) 2 + 10 * n + 2)%Z.
Proof.
  intros n H. assert (N2 : (0 <= n * n <= 715776516)%Z). { split; [apply Z.mul_nonneg_nonneg; lia|]. change 715776516%Z with (26754 * 26754)%Z. apply Z.mul_le_mono_nonneg; lia. }
  assert (Qb : (0 <= Z.quot (3 * (n * n)) 2 <= 1073664774)%Z). { split; [apply Z.quot_pos; lia|]. apply Z.quot_le_upper_bound; lia. }
  unfold work_bound. rewrite int_in by lia. cbn [obind]. rewrite int_in by lia. cbn [obind]. rewrite int_in by lia. cbn [obind]. rewrite int_in by lia. cbn [obind]. rewrite int_in by lia. reflexivity.
Qed.
Theorem work_overflows : forall n, (26755 <= n <= 100000)%Z -> work_bound n = UB.
Proof.
  intros n H. unfold work_bound. destruct (Z_le_gt_dec n 46340) as [L|L].
  - assert (N2 : (715830025 <= n * n <= 2147395600)%Z). { split; [change 715830025%Z with (26755 * 26755)%Z|change 2147395600%Z with (46340 * 46340)%Z]; apply Z.mul_le_mono_nonneg; lia. }
    rewrite int_in by lia. cbn [obind]. unfold int_ok at 1. replace (3 * (n * n) <=? 2147483647)%Z with false by (symmetry; apply Z.leb_gt; lia). rewrite andb_false_r. reflexivity.
  - assert (N2 : (46341 * 46341 <= n * n)%Z) by (apply Z.mul_le_mono_nonneg; lia). unfold int_ok at 1. replace (n * n <=? 2147483647)%Z with false by (symmetry; apply Z.leb_gt; lia). rewrite andb_false_r. reflexivity.
Qed.
Theorem work_linear_fits : forall n m, (0 <= n <= 26754)%Z -> (0 <= m <= n)%Z -> work_linear n m = Ok (Z.quot (3 * n * n) 2 + 10 * n + m + m + 2)%Z.
Proof.
  intros n m H Hm. assert (N2 : (0 <= 3 * n * n <= 2147329548)%Z). { rewrite <- Z.mul_assoc. assert (0 <= n * n <= 715776516)%Z; [|lia]. split; [apply Z.mul_nonneg_nonneg; lia|]. change 715776516%Z with (26754 * 26754)%Z. apply Z.mul_le_mono_nonneg; lia. }
  assert (Qb : (0 <= Z.quot (3 * n * n) 2 <= 1073664774)%Z). { split; [apply Z.quot_pos; lia|]. apply Z.quot_le_upper_bound; lia. }
  unfold work_linear. rewrite int_in by lia. cbn [obind]. rewrite int_in by lia. cbn [obind]. rewrite int_in by lia. cbn [obind]. rewrite int_in by lia. cbn [obind]. rewrite int_in by lia. cbn [obind]. rewrite int_in by lia. cbn [obind]. rewrite int_in by lia. reflexivity.
Qed.
(* what QL reports besides 0 is passed over *)
Theorem ql_failure_passed : forall run nd N Q nrel CoR v0 v0F alpha0, (Z.of_nat (m_cols Q) <= 26754)%Z ->
  let p := {| ql_n := m_cols Q; ql_m := 0; ql_C := coeff Q; ql_c := lcp_b nd N nrel CoR v0 v0F; ql_A := fun _ _ => 0; ql_b := fun _ => 0; ql_xl := fun _ => Some 0; ql_xu := fun _ => None |} in
  let st := fst (fst (run p alpha0)) in
  lcp_ql run nd N Q nrel CoR v0 v0F alpha0 = if ((st =? 0) || (st =? 1) || (st =? 2) || (st =? 3) || (st =? 5) || (100 <? st))%Z%bool then Ok (snd (fst (run p alpha0))) else Exit.
Proof.
  intros run nd N Q nrel CoR v0 v0F alpha0 Hn p. unfold lcp_ql. rewrite work_fits by lia. cbn [obind]. fold p. destruct (run p alpha0) as [[st x] u]. cbn [fst snd]. unfold ql_warn, ql_status_known.
  rewrite !(Z.eqb_sym _ st). destruct (st =? 0)%Z; [reflexivity|]. destruct (st =? 1)%Z; [reflexivity|]. destruct (st =? 2)%Z; [reflexivity|]. destruct (st =? 3)%Z; [reflexivity|]. destruct (st =? 5)%Z; [reflexivity|]. destruct (100 <? st)%Z; reflexivity.
Qed.
Theorem impact_problem : forall Q A alpha, valid_csc Q -> m_rows Q = m_cols Q -> symmetric (m_cols Q) (coeff Q) ->
  let p := qpnlp Q A alpha in
  states_derivatives p /\ (forall x, t_f p x = quadratic (m_cols Q) (coeff Q) A x) /\ t_n p = m_cols Q /\ t_m p = 0%nat /\ t_x0 p = alpha
  /\ (forall j, t_xl p j = 0) /\ forall j, no_upper (t_xu p j).
Proof.
  intros Q A alpha V Sq Sy p. split; [apply qp_states_derivatives; assumption|]. split; [|repeat split; intros; apply ip_inf_none].
  intros x. cbn [p qpnlp t_f]. unfold quadratic, dotn, smv, mv. lra.
Qed.
Theorem friction_problem : forall Q A C beta, valid_csc Q -> m_rows Q = m_cols Q -> symmetric (m_cols Q) (coeff Q) -> Nat.even (m_cols Q) = true ->
  (forall i, (i < m_cols Q)%nat -> exists v, stored Q i i v) ->
  let p := smoothnlp Q A C beta in
  states_derivatives p /\ (forall x, t_f p x = quadratic (m_cols Q) (coeff Q) A x) /\ t_n p = m_cols Q /\ (2 * t_m p = m_cols Q)%nat /\ t_x0 p = beta
  /\ (forall j, no_lower (t_xl p j) /\ no_upper (t_xu p j))
  /\ forall i, no_lower (t_gl p i) /\ t_gu p i = C i /\ forall x, t_g p x i = x (2 * i)%nat * x (2 * i)%nat + x (2 * i + 1)%nat * x (2 * i + 1)%nat.
Proof.
  intros Q A C beta V Sq Sy Ev Di p. split; [apply smooth_states_derivatives; assumption|]. split.
  { intros x. cbn [p smoothnlp t_f]. unfold quadratic, dotn, smv, mv. lra. }
  split; [reflexivity|]. split; [cbn [p smoothnlp t_m]; apply half_even, Ev|]. split; [reflexivity|]. split; [intros j; split; apply ip_inf_none|].
  intros i. split; [apply ip_inf_none|]. split; [reflexivity|]. intros x. cbn [p smoothnlp t_g]. rewrite Nat.add_0_r. reflexivity.
Qed.
