From Coq Require Import Reals Arith Bool Lra Lia.
From Verif Require Import Ccd_Model Lin_Model Lin_Proofs Rot_Alg Geom_Circle Wall_Geo Resid_Model Resid_Spec.
Open Scope R_scope.

Lemma max_over_le : forall n f m, 0 <= m -> (max_over n f <= m <-> forall i, (i < n)%nat -> f i <= m).
Proof.
  induction n as [|n IH]; intros f m Hm; cbn [max_over]; [split; [intros _ i H; lia|intros _; exact Hm]|]. split.
  - intros H i Hi. destruct (Nat.eq_dec i n) as [->|N]; [apply Rle_trans with (2 := H), Rmax_r|].
    apply (IH f m Hm); [|lia]. apply Rle_trans with (2 := H), Rmax_l.
  - intros H. apply Rmax_lub; [apply IH; [exact Hm|]; intros i Hi; apply H; lia|apply H; lia].
Qed.
Lemma max_if_is : forall n f, max_if n f = max_over n f.
Proof.
  induction n as [|n IH]; intros f; cbn [max_if max_over]; [reflexivity|]. rewrite IH. destruct (Rltb_spec (max_over n f) (f n)) as [H|H].
  - rewrite Rmax_right by lra. reflexivity.
  - rewrite Rmax_left by lra. reflexivity.
Qed.
Lemma max_over_nn : forall n f, 0 <= max_over n f.
Proof. induction n as [|n IH]; intros f; cbn [max_over]; [lra|]. apply Rle_trans with (1 := IH f), Rmax_l. Qed.
Lemma max_over_zero : forall n f, (forall i, (i < n)%nat -> 0 <= f i) -> (max_over n f = 0 <-> forall i, (i < n)%nat -> f i = 0).
Proof.
  intros n f P. split.
  - intros H i Hi. assert (L : max_over n f <= 0) by lra. rewrite (max_over_le n f 0) in L by lra. specialize (L i Hi). specialize (P i Hi). lra.
  - intros H. apply Rle_antisym; [|apply max_over_nn]. apply max_over_le; [lra|]. intros i Hi. rewrite H by exact Hi. lra.
Qed.
(* the maximum is attained unless it is 0 *)

Lemma min_zero : forall x y, Rmin x y = 0 <-> complementary x y.
Proof.
  intros x y. unfold complementary. split.
  - intros H. pose proof (Rmin_l x y). pose proof (Rmin_r x y). split; [lra|]. split; [lra|]. unfold Rmin in H. destruct (Rle_dec x y); subst; ring.
  - intros (X & Y & P). apply Rmult_integral in P. destruct P as [-> | ->]; [apply Rmin_left; exact Y|apply Rmin_right; exact X].
Qed.
Lemma fb_zero : forall x y, fb x y = 0 <-> complementary x y.
Proof.
  intros x y. assert (S0 : 0 <= x * x + y * y) by (pose proof (sq_nn x); pose proof (sq_nn y); lra).
  pose proof (sqrt_sqrt _ S0) as Sq. pose proof (sqrt_pos (x * x + y * y)) as Sp. unfold fb, complementary. split.
  - intros H. destruct (Req_dec (sqrt (x * x + y * y) - x - y) 0) as [E|N]; [|exfalso; apply (Rabs_no_R0 _ N); exact H].
    assert (Es : sqrt (x * x + y * y) = x + y) by lra. rewrite Es in Sq, Sp. assert (P : x * y = 0) by lra.
    apply Rmult_integral in P as Q. destruct Q as [-> | ->]; repeat split; lra.
  - intros (X & Y & P). replace (x * x + y * y) with ((x + y) * (x + y)) by lra. rewrite sqrt_square by lra.
    replace (x + y - x - y) with 0 by ring. apply Rabs_R0.
Qed.

Theorem min_map_zero : forall n x y, min_map n x y = 0 <-> forall i, (i < n)%nat -> complementary (x i) (y i).
Proof.
  intros n x y. unfold min_map. rewrite max_over_zero by (intros; apply Rabs_pos). split; intros H i Hi; specialize (H i Hi).
  - apply min_zero. destruct (Req_dec (Rmin (x i) (y i)) 0) as [E|N]; [exact E|]. exfalso. apply (Rabs_no_R0 _ N). exact H.
  - apply min_zero in H. rewrite H. apply Rabs_R0.
Qed.
Theorem min_map_within : forall n x y tol, 0 <= tol ->
  (min_map n x y <= tol <-> forall i, (i < n)%nat -> - tol <= x i /\ - tol <= y i /\ (x i <= tol \/ y i <= tol)).
Proof.
  intros n x y tol Ht. unfold min_map. rewrite max_over_le by exact Ht. split; intros H i Hi; specialize (H i Hi).
  - apply abs_inv in H. pose proof (Rmin_l (x i) (y i)). pose proof (Rmin_r (x i) (y i)). split; [lra|]. split; [lra|].
    unfold Rmin in H. destruct (Rle_dec (x i) (y i)); [left|right]; lra.
  - destruct H as (X & Y & K). apply abs_in. split; [apply Rmin_glb; assumption|]. pose proof (Rmin_l (x i) (y i)). pose proof (Rmin_r (x i) (y i)).
    destruct K; lra.
Qed.
Theorem fischer_burmeister_zero : forall n x y, fischer_burmeister n x y = 0 <-> forall i, (i < n)%nat -> complementary (x i) (y i).
Proof.
  intros n x y. unfold fischer_burmeister. rewrite max_if_is, max_over_zero by (intros; apply Rabs_pos). split; intros H i Hi; apply fb_zero, H, Hi.
Qed.
(* the two residuals are equivalent *)
Lemma sqrt_ge : forall a b, 0 <= b -> b * b <= a -> b <= sqrt a.
Proof. intros a b Hb H. rewrite <- (sqrt_square b Hb). apply sqrt_le_1_alt. exact H. Qed.
Lemma sqrt_le_of_sq : forall a b, 0 <= b -> a <= b * b -> sqrt a <= b.
Proof. intros a b Hb H. rewrite <- (sqrt_square b Hb). apply sqrt_le_1_alt. exact H. Qed.
Lemma fb_ordered : forall m M, m <= M -> Rabs m <= 2 * fb m M /\ fb m M <= 4 * Rabs m.
Proof.
  intros m M L. assert (S0 : 0 <= m * m + M * M) by (pose proof (sq_nn m); pose proof (sq_nn M); lra).
  pose proof (sqrt_sqrt _ S0) as Sq. pose proof (sqrt_pos (m * m + M * M)) as Sp. unfold fb.
  assert (SM : Rabs M <= sqrt (m * m + M * M)).
  { apply sqrt_ge; [apply Rabs_pos|]. rewrite <- Rabs_mult. rewrite Rabs_pos_eq by apply sq_nn. pose proof (sq_nn m). lra. }
  assert (SU : sqrt (m * m + M * M) <= Rabs m + Rabs M).
  { apply sqrt_le_of_sq; [pose proof (Rabs_pos m); pose proof (Rabs_pos M); lra|].
    replace ((Rabs m + Rabs M) * (Rabs m + Rabs M)) with (Rabs m * Rabs m + Rabs M * Rabs M + 2 * (Rabs m * Rabs M)) by ring.
    rewrite <- !Rabs_mult. rewrite (Rabs_pos_eq (m * m)) by apply sq_nn. rewrite (Rabs_pos_eq (M * M)) by apply sq_nn. pose proof (Rabs_pos (m * M)). lra. }
  destruct (Rle_dec 0 m) as [P|P].
  - rewrite (Rabs_pos_eq m) in * by exact P. rewrite (Rabs_pos_eq M) in * by lra.
    rewrite Rabs_left1 by lra. split; [|lra].
    (* m <= 2 ( m + M - s ), i.e. s <= m / 2 + M *)
    enough (sqrt (m * m + M * M) <= m / 2 + M) by lra. apply sqrt_le_of_sq; [lra|].
    assert (0 <= m * (M - m)) by (apply Rmult_le_pos; lra). assert (0 <= m * m) by apply sq_nn.
    replace ((m / 2 + M) * (m / 2 + M)) with (m * m / 4 + m * M + M * M) by field. lra.
  - apply Rnot_le_lt in P. rewrite (Rabs_left m) in * by exact P. destruct (Rle_dec 0 M) as [Q|Q].
    + rewrite (Rabs_pos_eq M) in * by exact Q. rewrite Rabs_pos_eq by lra. lra.
    + apply Rnot_le_lt in Q. rewrite (Rabs_left M) in * by exact Q. rewrite Rabs_pos_eq by lra. lra.
Qed.
Theorem residuals_equivalent : forall n x y,
  min_map n x y <= 2 * fischer_burmeister n x y /\ fischer_burmeister n x y <= 4 * min_map n x y.
Proof.
  intros n x y. unfold min_map, fischer_burmeister. rewrite max_if_is.
  assert (B : forall i, Rabs (Rmin (x i) (y i)) <= 2 * fb (x i) (y i) /\ fb (x i) (y i) <= 4 * Rabs (Rmin (x i) (y i))).
  { intros i. destruct (Rle_dec (x i) (y i)) as [L|L].
    - rewrite Rmin_left by exact L. apply fb_ordered. exact L.
    - rewrite Rmin_right by lra. replace (fb (x i) (y i)) with (fb (y i) (x i)); [apply fb_ordered; lra|].
      unfold fb. f_equal. rewrite Rplus_comm. ring. }
  pose proof (max_over_nn n (fun i => fb (x i) (y i))) as P1. pose proof (max_over_nn n (fun i => Rabs (Rmin (x i) (y i)))) as P2. split.
  - apply max_over_le; [lra|]. intros i Hi. pose proof (proj1 (max_over_le n (fun i => fb (x i) (y i)) _ P1) (Rle_refl _) i Hi) as K. cbv beta in K.
    destruct (B i) as [B1 _]. lra.
  - apply max_over_le; [lra|]. intros i Hi. pose proof (proj1 (max_over_le n (fun i => Rabs (Rmin (x i) (y i))) _ P2) (Rle_refl _) i Hi) as K. cbv beta in K.
    destruct (B i) as [_ B2]. lra.
Qed.

(* ---------- linear friction: an interval per sample ---------- *)
Lemma bound_zero : forall c b g, 0 <= c ->
  (fb (bound_lambda c b g) (c - Rabs b) = 0 <-> best_in_interval c b g \/ (0 < c /\ b = c)).
Proof.
  intros c b g Hc. rewrite fb_zero. unfold complementary, bound_lambda, best_in_interval. destruct (Req_EM_T c 0) as [Z|Z].
  - subst c. split.
    + intros (_ & V & _). left. split; [lra|]. intros z Hz. pose proof (Rabs_pos b). pose proof (Rabs_pos z).
      apply abs_inv in Hz. assert (Eb : Rabs b <= 0) by lra. apply abs_inv in Eb. replace (z - b) with 0 by lra. lra.
    + intros [[F _]|[K _]]; [|lra]. split; [lra|]. split; [lra|ring].
  - destruct (Rltb_spec (- c) b) as [A|A]; [destruct (Rltb_spec b c) as [B|B]|].
    + assert (Ib : Rabs b < c) by (apply Rabs_def1; lra). split.
      * intros (L & V & P). left. split; [lra|]. apply Rmult_integral in P. destruct P as [->|P]; [intros; lra|lra].
      * intros [[F V]|[_ K]]; [|lra]. assert (g = 0).
        { pose proof (V c ltac:(rewrite Rabs_pos_eq; lra)) as V1. pose proof (V (- c) ltac:(rewrite Rabs_left1; lra)) as V2.
          destruct (Rtotal_order g 0) as [K|[K|K]]; [|exact K|].
          - assert (0 < - g * (c - b)) by (apply Rmult_lt_0_compat; lra). lra.
          - assert (0 < g * (b + c)) by (apply Rmult_lt_0_compat; lra). lra. }
        subst g. split; [lra|]. split; [lra|ring].
    + rewrite Rabs_pos_eq by lra. split.
      * intros (L & V & P). right. split; lra.
      * intros [[F V]|[_ K]]; [|subst b].
        -- split; [apply Rmax_r|]. split; [lra|]. replace (c - b) with 0 by lra. ring.
        -- split; [apply Rmax_r|]. split; [lra|ring].
    + rewrite Rabs_left1 by lra. split.
      * intros (L & V & P). left. assert (b = - c) by lra. subst b. split; [lra|]. intros z Hz. apply abs_inv in Hz.
        assert (0 <= g) by (pose proof (Rmin_l g 0); lra). apply Rmult_le_pos; lra.
      * intros [[F V]|[K1 K2]]; [|lra]. assert (b = - c) by lra. subst b.
        assert (G : 0 <= g).
        { pose proof (V c ltac:(rewrite Rabs_pos_eq; lra)) as V1. destruct (Rle_dec 0 g) as [K|K]; [exact K|]. apply Rnot_le_lt in K.
          assert (0 < - g * (c - - c)) by (apply Rmult_lt_0_compat; lra). lra. }
        rewrite Rmin_right by exact G. split; [lra|]. split; [lra|ring].
Qed.
Theorem fb_bound_zero : forall n c beta vrel, (forall i, (i < n)%nat -> 0 <= c i) ->
  (fb_bound n c beta vrel = 0 <-> forall i, (i < n)%nat -> best_in_interval (c i) (beta i) (vrel i) \/ (0 < c i /\ beta i = c i)).
Proof.
  intros n c beta vrel Hc. unfold fb_bound, fischer_burmeister. rewrite max_if_is, max_over_zero by (intros; apply Rabs_pos).
  split; intros H i Hi; apply bound_zero; try (apply Hc; exact Hi); apply H; exact Hi.
Qed.

(* ---------- smooth friction: a disc per contact ---------- *)
Lemma vnorm_sq : forall x, vnorm x * vnorm x = vdot x x.
Proof. intros x. apply sqrt_sqrt, vdot_nn. Qed.
Lemma vnorm_nn : forall x, 0 <= vnorm x.
Proof. intros x. apply sqrt_pos. Qed.
Lemma vdot_zero : forall x, vdot x x = 0 -> x = (0, 0).
Proof.
  intros [a b] H. unfold vdot in H. cbn [fst snd] in H. pose proof (sq_nn a). pose proof (sq_nn b).
  assert (a = 0) by (apply Rsqr_0_uniq; unfold Rsqr; lra). assert (b = 0) by (apply Rsqr_0_uniq; unfold Rsqr; lra). subst. reflexivity.
Qed.
Lemma vnorm_zero : forall x, vnorm x = 0 -> x = (0, 0).
Proof. intros x H. apply vdot_zero. rewrite <- vnorm_sq, H. ring. Qed.
Lemma disc_norm : forall c x, 0 <= c -> (in_friction_disc c x <-> vnorm x <= c).
Proof.
  intros c x Hc. unfold in_friction_disc. rewrite <- vnorm_sq. pose proof (vnorm_nn x). split.
  - intros [_ H1]. apply (proj2 (sq_le (vnorm x) c H Hc)). exact H1.
  - intros H1. split; [exact Hc|]. apply sq_up; assumption.
Qed.
Lemma vsub_zero : forall a b, vsub a b = (0, 0) -> a = b.
Proof. intros [a0 a1] [b0 b1] H. unfold vsub in H. cbn [fst snd] in H. injection H as H0 H1. f_equal; lra. Qed.

Lemma disc_zero : forall c b g, 0 <= c ->
  (fb (signed_tangent b c g) (c - vnorm b) = 0 <-> best_in_disc c b g \/ (0 < c /\ vnorm b = c /\ exists k, 0 < k /\ g = vscale k b)).
Proof.
  intros c b g Hc. rewrite fb_zero. unfold complementary, signed_tangent, best_in_disc. rewrite (disc_norm c b Hc). pose proof (vnorm_nn b) as Nb.
  destruct (Rltb_spec (vnorm b) c) as [In|Out].
  - split.
    + intros (_ & _ & P). apply Rmult_integral in P. destruct P as [P|P]; [|lra]. apply vnorm_zero in P. subst g. left. split; [lra|].
      intros z _. unfold vdot. cbn [fst snd]. lra.
    + intros [[F V]|(K1 & K2 & _)]; [|lra]. assert (G : vnorm g = 0).
      { destruct (Req_dec (vnorm g) 0) as [E|E]; [exact E|exfalso]. pose proof (vnorm_nn g) as Ng.
        (* a short step against g *)
        set (s := (c - vnorm b) / vnorm g). assert (Sp : 0 < s) by (unfold s; apply Rdiv_lt_0_compat; lra).
        assert (Z : in_friction_disc c (vsub b (vscale s g))).
        { split; [exact Hc|]. replace (vdot (vsub b (vscale s g)) (vsub b (vscale s g))) with (vdot b b - 2 * s * vdot b g + s * s * vdot g g)
            by (destruct b, g; unfold vdot, vsub, vscale; cbn [fst snd]; ring).
          assert (Cs : Rabs (vdot b g) <= vnorm b * vnorm g) by (apply vdot_le; try apply vnorm_nn; rewrite vnorm_sq; lra).
          apply abs_inv in Cs. rewrite <- !vnorm_sq.
          replace (c * c) with (vnorm b * vnorm b + 2 * s * (vnorm b * vnorm g) + s * s * (vnorm g * vnorm g)).
          2:{ unfold s. field. exact E. }
          assert (0 <= 2 * s * (vnorm b * vnorm g + vdot b g)) by (apply Rmult_le_pos; lra). lra. }
        specialize (V _ Z). replace (vdot g (vsub (vsub b (vscale s g)) b)) with (- (s * vdot g g)) in V
          by (destruct b, g; unfold vdot, vsub, vscale; cbn [fst snd]; ring).
        assert (0 < s * vdot g g) by (apply Rmult_lt_0_compat; [exact Sp|]; rewrite <- vnorm_sq; apply Rmult_lt_0_compat; lra). lra. }
      rewrite G. split; [lra|]. split; [lra|ring].
  - destruct (Rltb_spec 0 (vnorm b)) as [P|P].
    + cbv zeta. set (n := vscale (/ vnorm b) b). assert (Un : vdot n n = 1).
      { unfold n. replace (vdot (vscale (/ vnorm b) b) (vscale (/ vnorm b) b)) with (vdot b b * (/ vnorm b * / vnorm b)) by (destruct b; unfold vdot, vscale; cbn [fst snd]; ring).
        rewrite <- vnorm_sq. field. lra. }
      assert (Eb : b = vscale (vnorm b) n) by (unfold n; destruct b as [b0 b1]; unfold vscale; cbn [fst snd]; f_equal; field; lra).
      set (t := vsub g (vscale (vdot g n) n)). pose proof (vnorm_nn t) as Nt. split.
      * intros (L & V & _). assert (Eq : vnorm b = c) by lra. assert (Zt : vnorm t = 0) by lra. apply vnorm_zero in Zt. apply vsub_zero in Zt.
        set (h := vdot g n) in *. clearbody h. destruct (Rle_dec h 0) as [H|H].
        -- left. split; [lra|]. intros z Hz. apply (disc_norm c z Hc) in Hz. rewrite Zt.
           replace (vdot (vscale h n) (vsub z b)) with (- h * (vdot b n - vdot n z)) by (destruct n, z, b; unfold vdot, vscale, vsub; cbn [fst snd]; ring).
           apply Rmult_le_pos; [lra|]. assert (Cs : Rabs (vdot n z) <= 1 * c) by (apply vdot_le; try lra; rewrite <- vnorm_sq; apply sq_up; [apply vnorm_nn|exact Hz]).
           apply abs_inv in Cs. assert (Bn : vdot b n = c).
           { rewrite Eb at 1. rewrite <- Eq. transitivity (vnorm b * vdot n n); [destruct n; unfold vdot, vscale; cbn [fst snd]; ring|rewrite Un; ring]. }
           lra.
        -- apply Rnot_le_lt in H. right. split; [lra|]. split; [exact Eq|]. exists (h * / vnorm b). split.
           ++ apply Rmult_lt_0_compat; [exact H|apply Rinv_0_lt_compat; exact P].
           ++ rewrite Zt. unfold n. destruct b; unfold vscale; cbn [fst snd]. f_equal; ring.
      * assert (Stat : vnorm b = c -> t = (0, 0) -> 0 <= - vnorm t /\ 0 <= c - vnorm b /\ - vnorm t * (c - vnorm b) = 0).
        { intros E Z. assert (vnorm t = 0) by (rewrite Z; unfold vnorm, vdot; cbn [fst snd]; rewrite Rmult_0_l, Rplus_0_l; apply sqrt_0).
          rewrite H, E. split; [lra|]. split; lra. }
        intros [[F V]|(K1 & K2 & k & Kp & ->)].
        -- assert (Eq : vnorm b = c) by lra. apply Stat; [exact Eq|].
           (* turning towards minus the tangential part would help *)
           apply vnorm_zero. destruct (Req_dec (vnorm t) 0) as [E|E]; [exact E|exfalso].
           assert (Tn : vdot t n = 0).
           { unfold t. transitivity (vdot g n - vdot g n * vdot n n); [destruct g, n; unfold vdot, vsub, vscale; cbn [fst snd]; ring|rewrite Un; ring]. }
           assert (Gt : vdot g t = vdot t t).
           { unfold t at 2. transitivity (vdot g t - vdot g n * vdot t n); [rewrite Tn; ring|destruct g, n, t; unfold vdot, vsub, vscale; cbn [fst snd]; ring]. }
           set (u := vscale (/ vnorm t) t).
           assert (Uu : vdot u u = 1). { unfold u. replace (vdot (vscale (/ vnorm t) t) (vscale (/ vnorm t) t)) with (vdot t t * (/ vnorm t * / vnorm t)) by (destruct t; unfold vdot, vscale; cbn [fst snd]; ring). rewrite <- vnorm_sq. field. exact E. }
           assert (Gu : vdot g u = vnorm t). { unfold u. replace (vdot g (vscale (/ vnorm t) t)) with (/ vnorm t * vdot g t) by (destruct t, g; unfold vdot, vscale; cbn [fst snd]; ring). rewrite Gt, <- vnorm_sq. field. exact E. }
           assert (Nu : vdot n u = 0). { unfold u. replace (vdot n (vscale (/ vnorm t) t)) with (/ vnorm t * vdot t n) by (destruct t, n; unfold vdot, vscale; cbn [fst snd]; ring). rewrite Tn. ring. }
           set (h := vdot g n) in *.
           (* z = c * ( (1 - s^2) n - 2 s u ) / ( 1 + s^2 ) for a small s *)
           set (s := vnorm t / (1 + Rabs h)). pose proof (Rabs_pos h) as Hh. assert (Sp : 0 < s) by (unfold s; apply Rdiv_lt_0_compat; lra).
           assert (Cp : 0 < c) by lra.
           set (z := vscale (c / (1 + s * s)) (vsub (vscale (1 - s * s) n) (vscale (2 * s) u))).
           assert (Dp : 0 < 1 + s * s) by (pose proof (sq_nn s); lra).
           assert (Zin : in_friction_disc c z).
           { split; [exact Hc|]. apply Req_le. unfold z.
             transitivity (c / (1 + s * s) * (c / (1 + s * s)) * ((1 - s * s) * (1 - s * s) * vdot n n + 2 * s * (2 * s) * vdot u u - 2 * (1 - s * s) * (2 * s) * vdot n u)).
             - destruct n, u; unfold vdot, vscale, vsub; cbn [fst snd]. ring.
             - rewrite Un, Uu, Nu. field. lra. }
           specialize (V z Zin).
           assert (Val : vdot g (vsub z b) = - (2 * c * s / (1 + s * s)) * (h * s + vnorm t)).
           { transitivity (c / (1 + s * s) * ((1 - s * s) * vdot g n - 2 * s * vdot g u) - vnorm b * vdot g n).
             - unfold z. rewrite Eb at 1. generalize (vnorm b). intros nb0. destruct g, n, u; unfold vdot, vscale, vsub; cbn [fst snd]. ring.
             - rewrite Gu, Eq. fold h. field. lra. }
           rewrite Val in V.
           assert (Hs : 0 < h * s + vnorm t).
           { unfold s. pose proof (vnorm_nn t). assert (Tp : 0 < vnorm t) by lra.
             replace (h * (vnorm t / (1 + Rabs h)) + vnorm t) with (vnorm t * (h + 1 + Rabs h) / (1 + Rabs h)) by (field; lra).
             apply Rdiv_lt_0_compat; [|lra]. apply Rmult_lt_0_compat; [exact Tp|]. pose proof (Rle_abs (- h)). rewrite Rabs_Ropp in H0. lra. }
           assert (0 < 2 * c * s / (1 + s * s) * (h * s + vnorm t)).
           { apply Rmult_lt_0_compat; [|exact Hs]. apply Rdiv_lt_0_compat; [|exact Dp]. apply Rmult_lt_0_compat; lra. }
           lra.
        -- apply Stat; [exact K2|]. unfold t.
           transitivity (vscale (k * vnorm b * (1 - vdot n n)) n); [|rewrite Un; destruct n; unfold vscale; cbn [fst snd]; f_equal; ring].
           rewrite Eb at 1 2. generalize (vnorm b). intros nb0. destruct n; unfold vdot, vscale, vsub; cbn [fst snd]. f_equal; ring.
    + assert (Zb : vnorm b = 0) by lra. assert (Zc : c = 0) by lra. subst c. destruct (Req_EM_T 0 0) as [_|N]; [|contradiction]. split.
      * intros _. left. split; [lra|]. intros z Hz. apply (disc_norm 0 z Hc) in Hz. pose proof (vnorm_nn z). assert (Ez : vnorm z = 0) by lra.
        apply vnorm_zero in Ez. apply vnorm_zero in Zb. subst. unfold vdot, vsub. cbn [fst snd]. lra.
      * intros _. split; [lra|]. split; [lra|ring].
Qed.
Theorem fb_disc_zero : forall n c beta vrel, (forall i, (i < n)%nat -> 0 <= c i) ->
  (fb_disc n c beta vrel = 0 <-> forall i, (i < n)%nat ->
     best_in_disc (c i) (beta i) (vrel i) \/ (0 < c i /\ vnorm (beta i) = c i /\ exists k, 0 < k /\ vrel i = vscale k (beta i))).
Proof.
  intros n c beta vrel Hc. unfold fb_disc. rewrite max_if_is, max_over_zero by (intros; apply Rabs_pos).
  split; intros H i Hi; apply disc_zero; try (apply Hc; exact Hi); apply H; exact Hi.
Qed.
