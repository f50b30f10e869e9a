From Coq Require Import Reals Arith Bool Lra Lia.
From Verif Require Import Ccd_Model Lin_Model Lin_Proofs Rot_Alg Geom_Circle Quad_Model Quad_Proofs Resid_Model Resid_Spec Resid_Proofs Apgd_Model Apgd_Spec.
Open Scope R_scope.

(* ---------- the momentum sequence ---------- *)
Theorem theta_facts : forall t, 0 < t <= 1 ->
  0 < new_theta t < t /\ new_theta t * new_theta t = (1 - new_theta t) * (t * t) /\ 0 <= new_beta t (new_theta t) < 1.
Proof.
  intros t [Tp T1]. assert (S0 : 0 <= t * t + 4) by (pose proof (sq_nn t); lra). pose proof (sqrt_sqrt _ S0) as Sq. pose proof (sqrt_pos (t * t + 4)) as Sp.
  assert (Tt : 0 < t * t) by (apply Rmult_lt_0_compat; exact Tp).
  assert (L : t < sqrt (t * t + 4)). { rewrite <- (sqrt_square t) at 1 by lra. apply sqrt_lt_1_alt. lra. }
  assert (U : sqrt (t * t + 4) < t + 2). { rewrite <- (sqrt_square (t + 2)) by lra. apply sqrt_lt_1_alt. lra. }
  assert (N0 : 0 < new_theta t).
  { unfold new_theta. replace (- t * t + t * sqrt (t * t + 4)) with (t * (sqrt (t * t + 4) - t)) by ring.
    assert (0 < t * (sqrt (t * t + 4) - t)) by (apply Rmult_lt_0_compat; lra). lra. }
  assert (N1 : new_theta t < t).
  { unfold new_theta. replace (/ 2 * (- t * t + t * sqrt (t * t + 4))) with (t * (sqrt (t * t + 4) - t) / 2) by field.
    assert (0 < t * (2 - (sqrt (t * t + 4) - t))) by (apply Rmult_lt_0_compat; lra). lra. }
  split; [split; assumption|]. split.
  - unfold new_theta. set (s := sqrt (t * t + 4)) in *.
    transitivity (/ 4 * (t * t) * (t * t) - / 2 * (t * t) * t * s + / 4 * (t * t) * (s * s)); [field|]. rewrite Sq. field.
  - unfold new_beta. assert (D : 0 < t * t + new_theta t) by lra. split.
    + apply Rmult_le_pos; [apply Rmult_le_pos; lra|]. left. apply Rinv_0_lt_compat. exact D.
    + apply (Rmult_lt_reg_r (t * t + new_theta t)); [exact D|]. unfold Rdiv. rewrite Rmult_assoc, Rinv_l by lra.
      (* t - t^2 < t^2 + theta1, as theta1 > t ( 1 - t ) *)
      assert (K : t * (1 - t) < new_theta t).
      { unfold new_theta. assert (Q : 2 - t < sqrt (t * t + 4)). { rewrite <- (sqrt_square (2 - t)) by lra. apply sqrt_lt_1_alt. split; [apply sq_nn|]. lra. }
        assert (0 < t * (sqrt (t * t + 4) - (2 - t))) by (apply Rmult_lt_0_compat; lra). lra. }
      lra.
Qed.

Section Loop.
Variables (project : dvec -> dvec) (term : dvec -> dvec -> R) (tol : R) (n : nat) (A : mat) (b : dvec).
Notation res x := (term x (qp_gradient n A b x)).
Notation step := (apgd_step project n A b).
Notation loop := (apgd_loop project term tol n A b).
Notation bt := (backtrack project n A b).

Lemma better_fst : forall best x, fst (better term n A b best x) <= res x.
Proof. intros [[rb xb]|] x; unfold better; cbn [fst]; [|lra]. destruct (Rltb_spec (res x) rb); cbn [fst]; lra. Qed.
Lemma better_old : forall rb xb x, fst (better term n A b (Some (rb, xb)) x) <= rb.
Proof. intros rb xb x. unfold better. destruct (Rltb_spec (res x) rb); cbn [fst]; lra. Qed.
Lemma better_some : forall best x, (better term n A b best x = (res x, x)) \/ best = Some (better term n A b best x).
Proof. intros [[rb xb]|] x; unfold better; [|left; reflexivity]. destruct (Rltb_spec (res x) rb); [left|right]; reflexivity. Qed.

(* everything the loop guarantees, for an arbitrary starting point of the loop *)
Lemma loop_inv : forall fuel left it s best bst st it1,
  (forall rb xb, best = Some (rb, xb) -> rb = res xb /\ tol < rb) ->
  loop fuel left it s best = Finished bst st it1 ->
  (it <= it1 <= it + left)%nat
  /\ (st = MaxItersExceeded -> it1 = (it + left)%nat)
  /\ (st = Success -> (it1 < it + left)%nat)
  /\ (left = 0%nat -> bst = best)
  /\ (left <> 0%nat -> exists r x, bst = Some (r, x) /\ r = res x /\ (st = Success <-> r <= tol)
        /\ (forall rb xb, best = Some (rb, xb) -> r <= rb)
        /\ (forall k, (k < left)%nat -> (it + k <= it1)%nat -> exists xk, iterate project n A b fuel k s = Some xk /\ r <= res xk)
        /\ (best = Some (r, x) \/ exists k, (k < left)%nat /\ (it + k <= it1)%nat /\ iterate project n A b fuel k s = Some x)).
Proof.
  intros fuel left. induction left as [|left IH]; intros it s best bst st it1 Hb E.
  - cbn [apgd_loop] in E. inversion E; subst. repeat split; try lia; try congruence.
  - cbn [apgd_loop] in E. cbv zeta in E.
    assert (B0 : exists r0 x0, better term n A b best (ix s) = (r0, x0) /\ r0 = res x0 /\ r0 <= res (ix s)
       /\ (forall rb xb, best = Some (rb, xb) -> r0 <= rb) /\ (best = Some (r0, x0) \/ x0 = ix s)).
    { pose proof (better_fst best (ix s)) as F. pose proof (better_some best (ix s)) as So.
      destruct (better term n A b best (ix s)) as [r0 x0] eqn:Eb. cbn [fst] in F. exists r0, x0. split; [reflexivity|]. split; [|split; [exact F|split]].
      - destruct So as [So|So]; [inversion So; reflexivity|]. apply Hb in So. apply So.
      - intros rb xb ->. pose proof (better_old rb xb (ix s)) as O. rewrite Eb in O. exact O.
      - destruct So as [So|So]; [right; inversion So; reflexivity|left; exact So]. }
    destruct B0 as (r0 & x0 & Eb & Er & Le & Old & Src). rewrite Eb in E. cbn [fst] in E.
    destruct (Rltb_spec tol r0) as [T|T].
    + destruct (step fuel s) as [s1| |] eqn:Es; try discriminate.
      assert (Hb1 : forall rb xb, Some (r0, x0) = Some (rb, xb) -> rb = res xb /\ tol < rb) by (intros rb xb K; inversion K; subst rb xb; split; [exact Er|lra]).
      pose proof (IH (S it) s1 (Some (r0, x0)) bst st it1 Hb1 E) as (I1 & I2 & I3 & I4 & I5).
      split; [lia|]. split; [intros K; specialize (I2 K); lia|]. split; [intros K; specialize (I3 K); lia|]. split; [discriminate|]. intros _.
      destruct (Nat.eq_dec left 0) as [Z|Z].
      * subst left. specialize (I4 eq_refl). cbn [apgd_loop] in E. inversion E; subst bst st it1. exists r0, x0.
        split; [reflexivity|]. split; [exact Er|]. split; [split; [discriminate|intros; lra]|]. split; [exact Old|]. split.
        -- intros k Hk _. assert (k = 0%nat) by lia. subst k. exists (ix s). split; [reflexivity|exact Le].
        -- destruct Src as [Src|Src]; [left; exact Src|right; exists 0%nat; split; [lia|]; split; [lia|]; rewrite Src; reflexivity].
      * destruct (I5 Z) as (r & x & Ebst & Rx & St & Oldb & Vis & From). exists r, x. pose proof (Oldb r0 x0 eq_refl) as Lr.
        split; [exact Ebst|]. split; [exact Rx|]. split; [exact St|]. split; [intros rb xb K; specialize (Old rb xb K); lra|]. split.
        -- intros [|k] Hk Hi; [exists (ix s); split; [reflexivity|lra]|]. destruct (Vis k ltac:(lia) ltac:(lia)) as (xk & V & Lk). exists xk. split; [|exact Lk].
           cbn [iterate]. rewrite Es. exact V.
        -- destruct From as [From|(k & K1 & K2 & K3)].
           ++ assert (Er0 : r0 = r) by congruence. assert (Ex0 : x0 = x) by congruence. rewrite Er0, Ex0 in Src. destruct Src as [Src|Src]; [left; exact Src|]. right. exists 0%nat. split; [lia|]. split; [lia|]. rewrite Src. reflexivity.
           ++ right. exists (S k). split; [lia|]. split; [lia|]. cbn [iterate]. rewrite Es. exact K3.
    + inversion E; subst bst st it1. split; [lia|]. split; [discriminate|]. split; [lia|]. split; [discriminate|]. intros _. exists r0, x0.
      split; [reflexivity|]. split; [exact Er|]. split; [split; [intros; lra|reflexivity]|]. split; [exact Old|]. split.
      * intros k Hk Hi. assert (k = 0%nat) by lia. subst k. exists (ix s). split; [reflexivity|exact Le].
      * destruct Src as [Src|Src]; [left; exact Src|right; exists 0%nat; split; [lia|]; split; [lia|]; rewrite Src; reflexivity].
Qed.

(* every iterate is the result of a projection *)
Lemma backtrack_projected : forall fuel g y0 L L1 x1, bt fuel g y0 L = Some (L1, x1) -> exists w, x1 = project w.
Proof.
  induction fuel as [|fuel IH]; intros g y0 L L1 x1 E; cbn [backtrack] in E; cbv zeta in E.
  - match type of E with context [if ?c then _ else _] => destruct c end; [discriminate|]. inversion E. eexists. reflexivity.
  - match type of E with context [if ?c then _ else _] => destruct c end; [eapply IH; exact E|]. inversion E. eexists. reflexivity.
Qed.
Lemma step_projected : forall fuel s s1, step fuel s = Next s1 -> exists w, ix s1 = project w.
Proof.
  intros fuel s s1 E. unfold apgd_step in E. destruct (iL s) as [L|]; [|discriminate]. destruct (Rltb 0 L); [|discriminate]. cbv zeta in E.
  destruct (bt fuel (qp_gradient n A b (iy s)) (iy s) L) as [[L1 x1]|] eqn:Eb; [|discriminate].
  apply backtrack_projected in Eb. destruct Eb as [w Ew].
  match type of E with context [if ?c then _ else _] => destruct c end; inversion E; cbn [ix]; exists w; exact Ew.
Qed.
Lemma iterate_projected : forall fuel k s xk, (exists w, ix s = project w) -> iterate project n A b fuel k s = Some xk -> exists w, xk = project w.
Proof.
  intros fuel. induction k as [|k IH]; intros s xk P E; cbn [iterate] in E; [inversion E; subst; exact P|].
  destruct (step fuel s) as [s1| |] eqn:Es; try discriminate. apply (IH s1); [|exact E]. eapply step_projected. exact Es.
Qed.

(* raising the limit *)
Lemma loop_more : forall fuel left it s best bst it1, loop fuel left it s best = Finished bst Success it1 ->
  forall extra, loop fuel (left + extra) it s best = Finished bst Success it1.
Proof.
  intros fuel left. induction left as [|left IH]; intros it s best bst it1 E extra; [cbn [apgd_loop] in E; discriminate|].
  cbn [apgd_loop Nat.add] in *. cbv zeta in *. destruct (Rltb tol (fst (better term n A b best (ix s)))); [|exact E].
  destruct (step fuel s); try discriminate. apply IH. exact E.
Qed.
Lemma loop_monotone : forall fuel left it s best bst st it1, loop fuel left it s best = Finished bst st it1 ->
  forall extra bst2 st2 it2, loop fuel (left + extra) it s best = Finished bst2 st2 it2 ->
  forall r x, bst = Some (r, x) -> exists r2 x2, bst2 = Some (r2, x2) /\ r2 <= r.
Proof.
  intros fuel left. induction left as [|left IH]; intros it s best bst st it1 E extra bst2 st2 it2 E2 r x Eb.
  - cbn [apgd_loop Nat.add] in E, E2. inversion E; subst bst st it1. clear E. revert it s best r x E2 H0. induction extra as [|extra IHe]; intros it s best r x E2 Eb.
    + cbn [apgd_loop] in E2. inversion E2; subst. exists r, x. split; [reflexivity|lra].
    + cbn [apgd_loop] in E2. cbv zeta in E2. subst best. pose proof (better_old r x (ix s)) as O. destruct (better term n A b (Some (r, x)) (ix s)) as [r0 x0]. cbn [fst] in *.
      destruct (Rltb tol r0).
      * destruct (step fuel s); try discriminate. destruct (IHe _ _ _ r0 x0 E2 eq_refl) as (r2 & x2 & E3 & L). exists r2, x2. split; [exact E3|lra].
      * inversion E2; subst. exists r0, x0. split; [reflexivity|exact O].
  - cbn [apgd_loop Nat.add] in E, E2. cbv zeta in E, E2. destruct (Rltb tol (fst (better term n A b best (ix s)))).
    + destruct (step fuel s); try discriminate. eapply IH; eassumption.
    + inversion E; subst. inversion E2; subst. exists r, x. split; [assumption|lra].
Qed.

(* ---------- the inner loop ends ---------- *)
Lemma bt_more : forall fuel g y0 L o, bt fuel g y0 L = Some o -> forall extra, bt (fuel + extra) g y0 L = Some o.
Proof.
  induction fuel as [|fuel IH]; intros g y0 L o E extra.
  - cbn [backtrack] in E. cbv zeta in E. destruct extra; cbn [Nat.add backtrack]; cbv zeta; match type of E with context [if ?c then _ else _] => destruct c end; try discriminate; exact E.
  - cbn [Nat.add backtrack] in *. cbv zeta in *. match type of E with context [if ?c then _ else _] => destruct c end; [|exact E]. apply IH. exact E.
Qed.
Lemma descent : symmetric n A -> forall y0 x1 L, mat_bound n A <= L ->
  qp_objective n A b x1 - qp_objective n A b y0 <=
  dotn n (qp_gradient n A b y0) (fun i => x1 i - y0 i) + / 2 * L * dotn n (fun i => x1 i - y0 i) (fun i => x1 i - y0 i).
Proof.
  intros Sy y0 x1 L HL. set (d := fun i => x1 i - y0 i).
  assert (Q : forall x, qp_objective n A b x = / 2 * dotn n x (mv n A x) + dotn n x b).
  { intros x. unfold qp_objective. rewrite dotn_plus, dotn_scale. f_equal. f_equal. apply dotn_ext; [reflexivity|]. intros i Hi. apply mv_transpose_sym; assumption. }
  assert (G : dotn n (qp_gradient n A b y0) d = dotn n y0 (mv n A d) + dotn n d b).
  { unfold qp_gradient. rewrite dotn_comm, dotn_plus. f_equal. rewrite dotn_comm, dotn_transpose. apply dotn_ext; reflexivity. }
  assert (Ex : qp_objective n A b x1 = / 2 * (dotn n y0 (mv n A y0) + 2 * dotn n y0 (mv n A d) + dotn n d (mv n A d)) + dotn n y0 b + dotn n d b).
  { rewrite Q. assert (X : forall i, x1 i = y0 i + d i) by (intros i; unfold d; ring).
    assert (E1 : dotn n x1 (mv n A x1) = dotn n (fun i => y0 i + d i) (fun i => mv n A y0 i + mv n A d i)).
    { apply dotn_ext; [intros; apply X|]. intros i _. rewrite <- mv_plus. apply mv_ext. intros; apply X. }
    assert (E2 : dotn n x1 b = dotn n y0 b + dotn n d b). { rewrite (dotn_comm n y0), (dotn_comm n d), <- dotn_plus, dotn_comm. apply dotn_ext; [reflexivity|intros; apply X]. }
    rewrite E1, E2, dotn_plus. rewrite !(dotn_comm n (fun i => y0 i + d i)), !dotn_plus.
    rewrite (dotn_comm n (mv n A y0) y0), (dotn_comm n (mv n A d) y0), (dotn_comm n (mv n A d) d).
    rewrite <- (dotn_sym n A y0 d Sy). ring. }
  rewrite Ex, (Q y0), G. pose proof (form_bound n A d) as F. pose proof (dotn_nn n d) as D.
  assert (mat_bound n A * dotn n d d <= L * dotn n d d) by (apply Rmult_le_compat_r; assumption). lra.
Qed.
Lemma bt_ends : symmetric n A -> forall y0 L, 0 < L -> exists fuel L1 x1, 0 < L1 /\ bt fuel (qp_gradient n A b y0) y0 L = Some (L1, x1).
Proof.
  intros Sy y0 L HL. set (g := qp_gradient n A b y0).
  assert (K : forall fuel L, 0 < L -> mat_bound n A <= L * 2 ^ fuel -> exists L1 x1, 0 < L1 /\ bt fuel g y0 L = Some (L1, x1)).
  { induction fuel as [|fuel IH]; intros L0 HL0 Hb.
    - cbn [pow] in Hb. rewrite Rmult_1_r in Hb. cbn [backtrack]. cbv zeta. pose proof (descent Sy y0 (trial project g y0 L0) L0 Hb) as De. fold g in De.
      match goal with |- context [if Rltb ?u ?v then _ else _] => destruct (Rltb_spec u v) as [K|K] end; [exfalso; lra|]. eexists. eexists. split; [exact HL0|reflexivity].
    - cbn [backtrack]. cbv zeta. match goal with |- context [if Rltb ?u ?v then _ else _] => destruct (Rltb_spec u v) as [K|K] end.
      + apply IH; [lra|]. cbn [pow] in Hb. lra.
      + eexists. eexists. split; [exact HL0|reflexivity]. }
  destruct (Pow_x_infinity 2 ltac:(rewrite Rabs_pos_eq; lra) (mat_bound n A / L)) as [N HN]. specialize (HN N (le_n N)).
  exists N. apply K; [exact HL|]. rewrite Rabs_pos_eq in HN by (apply pow_le; lra). apply Rge_le in HN.
  apply (Rmult_le_compat_l L) in HN; [|lra]. replace (L * (mat_bound n A / L)) with (mat_bound n A) in HN by (field; lra). exact HN.
Qed.
Lemma step_goes_on : symmetric n A -> forall s L, iL s = Some L -> 0 < L ->
  exists fuel s1 L1, iL s1 = Some L1 /\ 0 < L1 /\ forall extra, step (fuel + extra) s = Next s1.
Proof.
  intros Sy s L El HL. destruct (bt_ends Sy (iy s) L HL) as (fuel & L1 & x1 & P & E). exists fuel.
  assert (K : exists s1, iL s1 = Some (9 / 10 * L1) /\ forall extra, step (fuel + extra) s = Next s1).
  { unfold apgd_step. rewrite El. destruct (Rltb_spec 0 L) as [_|N]; [|lra]. cbv zeta.
    destruct (Rltb 0 (dotn n (qp_gradient n A b (iy s)) (fun i => x1 i - ix s i))) eqn:C.
    - eexists. split; [|intros extra; rewrite (bt_more _ _ _ _ _ E extra), C; reflexivity]. reflexivity.
    - eexists. split; [|intros extra; rewrite (bt_more _ _ _ _ _ E extra), C; reflexivity]. reflexivity. }
  destruct K as (s1 & K1 & K2). exists s1, (9 / 10 * L1). split; [exact K1|]. split; [lra|exact K2].
Qed.
Lemma loop_ends : symmetric n A -> forall left it s best L, iL s = Some L -> 0 < L ->
  exists fuel bst st it1, forall extra, loop (fuel + extra) left it s best = Finished bst st it1.
Proof.
  intros Sy left. induction left as [|left IH]; intros it s best L El HL.
  - exists 0%nat. do 3 eexists. intros extra. cbn [apgd_loop]. reflexivity.
  - destruct (Rltb tol (fst (better term n A b best (ix s)))) eqn:T.
    + destruct (step_goes_on Sy s L El HL) as (f1 & s1 & L1 & E1 & P1 & S1).
      destruct (IH (S it) s1 (Some (better term n A b best (ix s))) L1 E1 P1) as (f2 & bst & st & it1 & K).
      exists (f1 + f2)%nat, bst, st, it1. intros extra. cbn [apgd_loop]. cbv zeta. rewrite T.
      replace (f1 + f2 + extra)%nat with (f1 + (f2 + extra))%nat by lia. rewrite S1.
      replace (f1 + (f2 + extra))%nat with (f2 + (f1 + extra))%nat by lia. apply K.
    + exists 0%nat. do 3 eexists. intros extra. cbn [apgd_loop]. cbv zeta. rewrite T. reflexivity.
Qed.
End Loop.
