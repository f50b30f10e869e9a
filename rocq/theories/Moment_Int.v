(* Integrals of quadratic functions over discs, rectangles, balls, boxes, rods and simplices. *)
From Coq Require Import List Reals Lra.
From Coquelicot Require Import Coquelicot.
From Verif Require Import Ccd_Model Lin_Model Moment_Spec.
Import List ListNotations.
Open Scope R_scope.

Lemma int_eq : forall (f : R -> R) (a b v w : R), v = w -> is_RInt f a b v -> is_RInt f a b w.
Proof. intros f a b v w -> H. exact H. Qed.
Lemma int_ext : forall (f g : R -> R) (a b v : R), a <= b -> (forall t, a <= t <= b -> f t = g t) -> is_RInt g a b v -> is_RInt f a b v.
Proof.
  intros f g a b v L E H. apply (is_RInt_ext g); [|exact H]. intros x Hx. rewrite Rmin_left, Rmax_right in Hx by exact L. symmetry. apply E. lra.
Qed.
Lemma int_unique : forall (f : R -> R) (a b v w : R), is_RInt f a b v -> is_RInt f a b w -> v = w.
Proof. intros f a b v w H K. rewrite <- (is_RInt_unique f a b v H). apply is_RInt_unique, K. Qed.
(* antiderivatives *)
Lemma int_anti : forall (F f : R -> R) a b, (forall x, is_derive F x (f x)) -> (forall x, continuous f x) -> is_RInt f a b (F b - F a).
Proof. intros F f a b D C. apply (is_RInt_derive F f); intros; auto. Qed.
Lemma int_poly2 : forall k0 k1 k2 a b, is_RInt (fun x => k0 + k1 * x + k2 * (x * x)) a b
  ((k0 * b + k1 * (b * b) / 2 + k2 * (b * b * b) / 3) - (k0 * a + k1 * (a * a) / 2 + k2 * (a * a * a) / 3)).
Proof.
  intros k0 k1 k2 a b. apply (int_anti (fun x => k0 * x + k1 * (x * x) / 2 + k2 * (x * x * x) / 3)).
  - intros x. auto_derive; [trivial|]. field.
  - intros x. apply (ex_derive_continuous (fun x => k0 + k1 * x + k2 * (x * x))). auto_derive. trivial.
Qed.
Lemma int_poly4 : forall k0 k1 k2 k3 k4 a b,
  is_RInt (fun x => k0 + k1 * x + k2 * (x * x) + k3 * (x * x * x) + k4 * (x * x * x * x)) a b
  ((k0 * b + k1 * (b * b) / 2 + k2 * (b * b * b) / 3 + k3 * (b * b * b * b) / 4 + k4 * (b * b * b * b * b) / 5)
   - (k0 * a + k1 * (a * a) / 2 + k2 * (a * a * a) / 3 + k3 * (a * a * a * a) / 4 + k4 * (a * a * a * a * a) / 5)).
Proof.
  intros k0 k1 k2 k3 k4 a b.
  apply (int_anti (fun x => k0 * x + k1 * (x * x) / 2 + k2 * (x * x * x) / 3 + k3 * (x * x * x * x) / 4 + k4 * (x * x * x * x * x) / 5)).
  - intros x. auto_derive; [trivial|]. field.
  - intros x. apply (ex_derive_continuous (fun x => k0 + k1 * x + k2 * (x * x) + k3 * (x * x * x) + k4 * (x * x * x * x))). auto_derive. trivial.
Qed.

Lemma sq_range : forall x r, 0 <= r -> x * x <= r * r -> - r <= x <= r.
Proof.
  intros x r Hr H. split; apply Rnot_lt_le; intros L.
  - assert (0 < (- r - x) * (r - x)) by (apply Rmult_lt_0_compat; lra). lra.
  - assert (0 < (x - r) * (x + r)) by (apply Rmult_lt_0_compat; lra). lra.
Qed.
Lemma sq_pos : forall x, 0 <= x * x.
Proof. intros x. apply Rle_0_sqr. Qed.
(* half the chord of a disc of radius r at distance x from its centre *)
Definition chord (r x : R) : R := sqrt (r * r - x * x).
Lemma chord_sq : forall r x, - r <= x <= r -> chord r x * chord r x = r * r - x * x.
Proof. intros r x H. apply sqrt_sqrt. assert (0 <= (r - x) * (r + x)) by (apply Rmult_le_pos; lra). lra. Qed.
Lemma chord_pos : forall r x, 0 <= chord r x.
Proof. intros. apply sqrt_pos. Qed.
Lemma chord_cont : forall r x, - r <= x <= r -> continuous (chord r) x.
Proof.
  intros r x H. apply (continuous_comp (fun x => r * r - x * x) sqrt).
  - apply (ex_derive_continuous (fun x => r * r - x * x)). auto_derive. trivial.
  - apply continuity_pt_filterlim. apply continuity_pt_sqrt. assert (0 <= (r - x) * (r + x)) by (apply Rmult_le_pos; lra). lra.
Qed.
Lemma sin_in : forall r t, 0 <= r -> - r <= r * sin t <= r.
Proof. intros r t H. destruct (SIN_bound t) as [A B]. split; nra. Qed.
Lemma chord_sin : forall r t, 0 <= r -> - (PI / 2) <= t <= PI / 2 -> chord r (r * sin t) = r * cos t.
Proof.
  intros r t Hr Ht. unfold chord. replace (r * r - r * sin t * (r * sin t)) with ((r * cos t) * (r * cos t)).
  - apply sqrt_square. apply Rmult_le_pos; [exact Hr|]. apply cos_ge_0; lra.
  - pose proof (sin2_cos2 t) as E. unfold Rsqr in E. nra.
Qed.
(* substitution x = r sin t *)
Lemma int_disc : forall (f F : R -> R) r, 0 <= r -> (forall x, - r <= x <= r -> continuous f x) ->
  (forall t, - (PI / 2) <= t <= PI / 2 -> is_derive F t (r * cos t * f (r * sin t))) ->
  is_RInt f (- r) r (F (PI / 2) - F (- (PI / 2))).
Proof.
  intros f F r Hr C D. pose proof PI_RGT_0 as HPI.
  assert (Ex : ex_RInt f (- r) r).
  { apply (ex_RInt_continuous f). intros z Hz. rewrite Rmin_left, Rmax_right in Hz by lra. apply C, Hz. }
  pose proof (RInt_correct f _ _ Ex) as HI.
  assert (S : is_RInt (fun t => scal (r * cos t) (f (r * sin t))) (- (PI / 2)) (PI / 2) (RInt f (r * sin (- (PI / 2))) (r * sin (PI / 2)))).
  { apply (is_RInt_comp f (fun t => r * sin t) (fun t => r * cos t)).
    - intros t Ht. apply C. apply sin_in, Hr.
    - intros t Ht. split; [auto_derive; [trivial|ring]|]. apply (ex_derive_continuous (fun t => r * cos t)). auto_derive. trivial. }
  rewrite sin_neg, sin_PI2 in S. replace (r * - (1)) with (- r) in S by ring. rewrite Rmult_1_r in S.
  assert (V : is_RInt (fun t => scal (r * cos t) (f (r * sin t))) (- (PI / 2)) (PI / 2) (F (PI / 2) - F (- (PI / 2)))).
  { apply (is_RInt_derive F (fun t => scal (r * cos t) (f (r * sin t)))).
    - intros t Ht. rewrite Rmin_left, Rmax_right in Ht by lra. apply D, Ht.
    - intros t Ht. apply (continuous_mult (fun t => r * cos t) (fun t => f (r * sin t))).
      + apply (ex_derive_continuous (fun t => r * cos t)). auto_derive. trivial.
      + apply (continuous_comp (fun t => r * sin t) f).
        * apply (ex_derive_continuous (fun t => r * sin t)). auto_derive. trivial.
        * apply C, sin_in, Hr. }
  pose proof (is_RInt_unique _ _ _ _ S) as E1. pose proof (is_RInt_unique _ _ _ _ V) as E2. rewrite E1 in E2.
  rewrite <- E2. exact HI.
Qed.

Ltac trig t := let E := fresh in let C := fresh in pose proof (sin2_cos2 t) as E; unfold Rsqr in E;
  assert (C : cos t * cos t = 1 - sin t * sin t) by lra.
Definition disc_fun (r k0 k1 k2 k3 x : R) : R :=
  2 * chord r x * (k0 + k1 * x + k2 * (x * x)) + k3 * (2 / 3) * (chord r x * chord r x * chord r x).
Lemma int_disc_fun : forall r k0 k1 k2 k3, 0 <= r ->
  is_RInt (disc_fun r k0 k1 k2 k3) (- r) r (k0 * (PI * r * r) + (k2 + k3) * (PI * r * r * r * r / 4)).
Proof.
  intros r k0 k1 k2 k3 Hr.
  set (A := fun t => t + sin t * cos t). set (B := fun t => t - sin t * cos t * (1 - 2 * (sin t * sin t))).
  set (F := fun t => k0 * (r * r) * A t - k1 * (2 / 3) * (r * r * r) * (cos t * cos t * cos t)
                    + k2 * (r * r * r * r) / 4 * B t + k3 * (2 / 3) * (r * r * r * r) * (A t / 2 - B t / 8)).
  apply int_eq with (F (PI / 2) - F (- (PI / 2))).
  - unfold F, A, B. rewrite sin_neg, cos_neg, sin_PI2, cos_PI2. field.
  - apply int_disc; [exact Hr| |].
    + intros x Hx. unfold disc_fun. pose proof (chord_cont r x Hx) as C.
      apply (continuous_plus (fun x => 2 * chord r x * (k0 + k1 * x + k2 * (x * x)))).
      * apply (continuous_mult (fun x => 2 * chord r x) (fun x => k0 + k1 * x + k2 * (x * x))).
        -- apply (continuous_mult (fun _ => 2) (chord r)); [apply continuous_const|exact C].
        -- apply (ex_derive_continuous (fun x => k0 + k1 * x + k2 * (x * x))). auto_derive. trivial.
      * apply (continuous_mult (fun _ => k3 * (2 / 3)) (fun x => chord r x * chord r x * chord r x)); [apply continuous_const|].
        apply (continuous_mult (fun x => chord r x * chord r x) (chord r)); [|exact C]. apply (continuous_mult (chord r) (chord r)); exact C.
    + intros t Ht. unfold disc_fun. rewrite chord_sin by assumption. unfold F, A, B. auto_derive; [trivial|].
      set (s := sin t). set (c := cos t). assert (E : c * c = 1 - s * s) by (pose proof (sin2_cos2 t) as E; unfold Rsqr in E; unfold s, c; lra).
      assert (E4 : c * c * c * c = (1 - s * s) * (1 - s * s)) by (rewrite <- E; ring).
      assert (E3 : c * c * c = c * (1 - s * s)) by (rewrite <- E; ring).
      apply Rminus_diag_uniq. field_simplify_eq.
      replace (c ^ 4) with ((1 - s * s) * (1 - s * s)) by (rewrite <- E4; ring).
      replace (c ^ 2) with (1 - s * s) by (rewrite <- E; ring). ring.
Qed.

Lemma integral2_ext : forall (S S' : R -> R -> Prop) (f f' : R -> R -> R) I, (forall x y, S' x y <-> S x y) -> (forall x y, S x y -> f' x y = f x y) ->
  integral2 S f I -> integral2 S' f' I.
Proof.
  intros S S' f f' I HS Hf (a & b & lo & hi & g & L & M & G & HI). exists a, b, lo, hi, g. split; [exact L|]. split; [|split; [|exact HI]].
  - intros x y. rewrite HS. apply M.
  - intros x Hx. destruct (G x Hx) as [LX RX]. split; [exact LX|]. apply (int_ext _ (f x)); [exact LX| |exact RX].
    intros t Ht. apply Hf. apply M. split; assumption.
Qed.
Lemma integral3_ext : forall (S S' : R -> R -> R -> Prop) (f f' : R -> R -> R -> R) I, (forall x y z, S' x y z <-> S x y z) ->
  (forall x y z, S x y z -> f' x y z = f x y z) -> integral3 S f I -> integral3 S' f' I.
Proof.
  intros S S' f f' I HS Hf (a & b & g & L & M & G & HI). exists a, b, g. split; [exact L|]. split; [|split; [|exact HI]].
  - intros x y z H. apply HS in H. eapply M, H.
  - intros x Hx. apply (integral2_ext (S x) (S' x) (f x)); [intros; apply HS|intros; apply Hf; assumption|apply G, Hx].
Qed.

(* the integral is determined by the set and the function *)
Lemma integral2_unique : forall S f I I', integral2 S f I -> integral2 S f I' -> I = I'.
Proof.
  intros S f I I' (a & b & lo & hi & g & L & M & G & HI) (a' & b' & lo' & hi' & g' & L' & M' & G' & HI').
  assert (Ea : a = a' /\ b = b').
  { assert (T1 : S a (lo a)) by (apply M; split; [lra|]; destruct (G a ltac:(lra)); lra).
    assert (T2 : S b (lo b)) by (apply M; split; [lra|]; destruct (G b ltac:(lra)); lra).
    assert (T1' : S a' (lo' a')) by (apply M'; split; [lra|]; destruct (G' a' ltac:(lra)); lra).
    assert (T2' : S b' (lo' b')) by (apply M'; split; [lra|]; destruct (G' b' ltac:(lra)); lra).
    apply M' in T1, T2. apply M in T1', T2'. lra. }
  destruct Ea as [<- <-].
  assert (Eg : forall x, a <= x <= b -> g x = g' x).
  { intros x Hx. destruct (G x Hx) as [LX RX]. destruct (G' x Hx) as [LX' RX'].
    assert (T1 : S x (lo x)) by (apply M; lra). assert (T2 : S x (hi x)) by (apply M; lra).
    assert (T1' : S x (lo' x)) by (apply M'; lra). assert (T2' : S x (hi' x)) by (apply M'; lra).
    apply M' in T1, T2. apply M in T1', T2'. assert (E1 : lo x = lo' x) by lra. assert (E2 : hi x = hi' x) by lra.
    rewrite <- E1, <- E2 in RX'. eapply int_unique; eassumption. }
  assert (HI2 : is_RInt g a b I') by (apply (int_ext g g'); assumption).
  eapply int_unique; eassumption.
Qed.
Lemma integral2_point : forall S f I, integral2 S f I -> exists x y, S x y.
Proof. intros S f I (a & b & lo & hi & g & L & M & G & _). exists a, (lo a). apply M. destruct (G a ltac:(lra)). lra. Qed.
Lemma integral3_unique : forall S f I I', integral3 S f I -> integral3 S f I' -> I = I'.
Proof.
  intros S f I I' (a & b & g & L & M & G & HI) (a' & b' & g' & L' & M' & G' & HI').
  assert (Ea : a = a' /\ b = b').
  { destruct (integral2_point _ _ _ (G a ltac:(lra))) as (y1 & z1 & T1). destruct (integral2_point _ _ _ (G b ltac:(lra))) as (y2 & z2 & T2).
    destruct (integral2_point _ _ _ (G' a' ltac:(lra))) as (y3 & z3 & T3). destruct (integral2_point _ _ _ (G' b' ltac:(lra))) as (y4 & z4 & T4).
    apply M' in T1, T2. apply M in T3, T4. lra. }
  destruct Ea as [<- <-].
  assert (HI2 : is_RInt g a b I') by (apply (int_ext g g'); [exact L| |exact HI']; intros x Hx; eapply integral2_unique; [apply G, Hx|apply G', Hx]).
  eapply int_unique; eassumption.
Qed.

(* quadratic functions *)
Record poly := P10 { p0 : R; px : R; py : R; pz : R; pxx : R; pyy : R; pzz : R; pxy : R; pyz : R; pzx : R }.
Definition pv (p : poly) (x y z : R) : R :=
  p0 p + px p * x + py p * y + pz p * z + pxx p * (x * x) + pyy p * (y * y) + pzz p * (z * z)
  + pxy p * (x * y) + pyz p * (y * z) + pzx p * (z * x).

Lemma in_disc : forall r x y, 0 <= r -> disc r x y <-> - r <= x <= r /\ - chord r x <= y <= chord r x.
Proof.
  intros r x y Hr. unfold disc. split.
  - intros H. pose proof (sq_pos y) as Py. pose proof (sq_pos x) as Px. assert (Hx : - r <= x <= r) by (apply sq_range; lra). split; [exact Hx|].
    pose proof (chord_sq r x Hx) as E. apply sq_range; [apply chord_pos|lra].
  - intros [Hx Hy]. pose proof (chord_sq r x Hx) as E. assert (0 <= (chord r x - y) * (chord r x + y)) by (apply Rmult_le_pos; lra). lra.
Qed.
(* plane quadratics over a disc and a rectangle *)
Definition pv2 (k0 k1 k2 k11 k22 k12 x y : R) : R := k0 + k1 * x + k2 * y + k11 * (x * x) + k22 * (y * y) + k12 * (x * y).
Lemma disc_poly : forall r k0 k1 k2 k11 k22 k12, 0 <= r ->
  integral2 (disc r) (pv2 k0 k1 k2 k11 k22 k12) (k0 * (PI * r * r) + (k11 + k22) * (PI * r * r * r * r / 4)).
Proof.
  intros r k0 k1 k2 k11 k22 k12 Hr. exists (- r), r, (fun x => - chord r x), (chord r), (disc_fun r k0 k1 k11 k22).
  split; [lra|]. split; [intros; apply in_disc, Hr|]. split; [|apply int_disc_fun, Hr].
  intros x Hx. pose proof (chord_pos r x) as P. split; [lra|].
  eapply int_eq; [|apply (int_ext _ (fun y => (k0 + k1 * x + k11 * (x * x)) + (k2 + k12 * x) * y + k22 * (y * y))); [lra| |apply int_poly2]].
  - unfold disc_fun. field.
  - intros t _. unfold pv2. ring.
Qed.
Lemma rectangle_poly : forall a b k0 k1 k2 k11 k22 k12, 0 <= a -> 0 <= b ->
  integral2 (rectangle a b) (pv2 k0 k1 k2 k11 k22 k12) (4 * a * b * (k0 + k11 * (a * a) / 3 + k22 * (b * b) / 3)).
Proof.
  intros a b k0 k1 k2 k11 k22 k12 Ha Hb.
  exists (- a), a, (fun _ => - b), (fun _ => b), (fun x => (2 * b * k0 + 2 * k22 * (b * b * b) / 3) + (2 * b * k1) * x + (2 * b * k11) * (x * x)).
  split; [lra|]. split; [intros; unfold rectangle; tauto|]. split.
  - intros x Hx. split; [lra|].
    eapply int_eq; [|apply (int_ext _ (fun y => (k0 + k1 * x + k11 * (x * x)) + (k2 + k12 * x) * y + k22 * (y * y))); [lra| |apply int_poly2]].
    + field.
    + intros t _. unfold pv2. ring.
  - eapply int_eq; [|apply int_poly2]. field.
Qed.
(* ball *)
Lemma ball_poly : forall r p, 0 <= r -> integral3 (ball r) (pv p)
  (4 / 3 * PI * (r * r * r) * p0 p + 4 / 15 * PI * (r * r * r * r * r) * (pxx p + pyy p + pzz p)).
Proof.
  intros r p Hr.
  exists (- r), r, (fun x => (p0 p + px p * x + pxx p * (x * x)) * (PI * (r * r - x * x)) + (pyy p + pzz p) * (PI * ((r * r - x * x) * (r * r - x * x)) / 4)).
  split; [lra|]. split; [|split].
  - intros x y z H. unfold ball in H. pose proof (sq_pos y). pose proof (sq_pos z). apply sq_range; lra.
  - intros x Hx. pose proof (chord_sq r x Hx) as E.
    replace ((p0 p + px p * x + pxx p * (x * x)) * (PI * (r * r - x * x)) + (pyy p + pzz p) * (PI * ((r * r - x * x) * (r * r - x * x)) / 4))
      with ((p0 p + px p * x + pxx p * (x * x)) * (PI * chord r x * chord r x) + (pyy p + pzz p) * (PI * chord r x * chord r x * chord r x * chord r x / 4))
      by (rewrite <- E; field).
    apply (integral2_ext (disc (chord r x)) _ (pv2 (p0 p + px p * x + pxx p * (x * x)) (py p + pxy p * x) (pz p + pzx p * x) (pyy p) (pzz p) (pyz p))).
    + intros y z. unfold ball, disc. rewrite E. split; lra.
    + intros y z _. unfold pv, pv2. ring.
    + apply disc_poly, chord_pos.
  - set (k := pyy p + pzz p).
    eapply int_eq; [|apply (int_ext _ (fun x => (PI * (r * r) * p0 p + k * PI / 4 * (r * r * r * r)) + (PI * (r * r) * px p) * x + (PI * (r * r) * pxx p - PI * p0 p - k * PI / 2 * (r * r)) * (x * x) + (- PI * px p) * (x * x * x) + (- PI * pxx p + k * PI / 4) * (x * x * x * x))); [lra| |apply int_poly4]].
    + unfold k. field.
    + intros t _. field.
Qed.
(* box *)
Lemma brick_poly : forall h p, 0 <= c0 h -> 0 <= c1 h -> 0 <= c2 h -> integral3 (brick h) (pv p)
  (8 * c0 h * c1 h * c2 h * (p0 p + pxx p * (c0 h * c0 h) / 3 + pyy p * (c1 h * c1 h) / 3 + pzz p * (c2 h * c2 h) / 3)).
Proof.
  intros h p H0 H1 H2. set (a := c0 h) in *. set (b := c1 h) in *. set (c := c2 h) in *.
  exists (- a), a, (fun x => (4 * b * c * (p0 p + pyy p * (b * b) / 3 + pzz p * (c * c) / 3)) + (4 * b * c * px p) * x + (4 * b * c * pxx p) * (x * x)).
  split; [lra|]. split; [|split].
  - intros x y z (H & _). exact H.
  - intros x Hx.
    replace ((4 * b * c * (p0 p + pyy p * (b * b) / 3 + pzz p * (c * c) / 3)) + (4 * b * c * px p) * x + (4 * b * c * pxx p) * (x * x))
      with (4 * b * c * ((p0 p + px p * x + pxx p * (x * x)) + pyy p * (b * b) / 3 + pzz p * (c * c) / 3)) by field.
    apply (integral2_ext (rectangle b c) _ (pv2 (p0 p + px p * x + pxx p * (x * x)) (py p + pxy p * x) (pz p + pzx p * x) (pyy p) (pzz p) (pyz p))).
    + intros y z. unfold brick, rectangle. fold a b c. tauto.
    + intros y z _. unfold pv, pv2. ring.
    + apply rectangle_poly; assumption.
  - eapply int_eq; [|apply int_poly2]. field.
Qed.
(* rod along x *)
Lemma rod_x_poly : forall w r p, 0 <= w -> 0 <= r -> integral3 (rod_x w r) (pv p)
  (w * ((p0 p + pxx p * (w * w) / 12) * (PI * r * r) + (pyy p + pzz p) * (PI * r * r * r * r / 4))).
Proof.
  intros w r p Hw Hr.
  exists (- (w / 2)), (w / 2), (fun x => (p0 p * (PI * r * r) + (pyy p + pzz p) * (PI * r * r * r * r / 4)) + (px p * (PI * r * r)) * x + (pxx p * (PI * r * r)) * (x * x)).
  split; [lra|]. split; [|split].
  - intros x y z (H & _). exact H.
  - intros x Hx.
    replace ((p0 p * (PI * r * r) + (pyy p + pzz p) * (PI * r * r * r * r / 4)) + (px p * (PI * r * r)) * x + (pxx p * (PI * r * r)) * (x * x))
      with ((p0 p + px p * x + pxx p * (x * x)) * (PI * r * r) + (pyy p + pzz p) * (PI * r * r * r * r / 4)) by field.
    apply (integral2_ext (disc r) _ (pv2 (p0 p + px p * x + pxx p * (x * x)) (py p + pxy p * x) (pz p + pzx p * x) (pyy p) (pzz p) (pyz p))).
    + intros y z. unfold rod_x, disc. tauto.
    + intros y z _. unfold pv, pv2. ring.
    + apply disc_poly, Hr.
  - eapply int_eq; [|apply int_poly2]. field.
Qed.
(* translating the outer variable *)
Lemma int_shift : forall (f : R -> R) (a b m v : R), is_RInt f a b v -> is_RInt (fun x => f (x - m)) (a + m) (b + m) v.
Proof.
  intros f a b m v H.
  apply (is_RInt_ext (fun x => scal 1 (f (1 * x + - m)))).
  - intros x _. change (scal 1 (f (1 * x + - m))) with (1 * f (1 * x + - m)). rewrite Rmult_1_l. f_equal. ring.
  - assert (H' : is_RInt f (1 * (a + m) + - m) (1 * (b + m) + - m) v) by (replace (1 * (a + m) + - m) with a by ring; replace (1 * (b + m) + - m) with b by ring; exact H).
    exact (is_RInt_comp_lin f 1 (- m) (a + m) (b + m) v H').
Qed.
(* rod along y around ( m, *, 0 ) *)
Lemma rod_y_poly : forall m l r p, 0 <= l -> 0 <= r -> integral3 (rod_y m l r) (pv p)
  (l * (PI * r * r) * (p0 p + px p * m + pxx p * (m * m)) + (l * l / 2) * (PI * r * r) * (py p + pxy p * m)
   + (l * l * l / 3) * (PI * r * r) * pyy p + l * (PI * r * r * r * r / 4) * (pxx p + pzz p)).
Proof.
  intros m l r p Hl Hr.
  set (K0 := l * (p0 p + px p * m + pxx p * (m * m)) + l * l / 2 * (py p + pxy p * m) + l * l * l / 3 * pyy p).
  set (K1 := l * (px p + 2 * pxx p * m) + l * l / 2 * pxy p). set (K2 := l * pxx p). set (K3 := l * pzz p).
  exists (- r + m), (r + m), (fun x => disc_fun r K0 K1 K2 K3 (x - m)).
  split; [lra|]. split; [|split].
  - intros x y z (_ & H). pose proof (sq_pos z). assert (- r <= x - m <= r) by (apply sq_range; lra). lra.
  - intros x Hx. assert (Hx' : - r <= x - m <= r) by lra. pose proof (chord_sq r (x - m) Hx') as E. pose proof (chord_pos r (x - m)) as P.
    set (c := chord r (x - m)) in *.
    exists 0, l, (fun _ => - c), (fun _ => c), (fun y => (2 * c * (p0 p + px p * x + pxx p * (x * x)) + pzz p * (2 / 3) * (c * c * c)) + (2 * c * (py p + pxy p * x)) * y + (2 * c * pyy p) * (y * y)).
    split; [exact Hl|]. split; [|split].
    + intros y z. unfold rod_y. split.
      * intros [Hy Hz]. split; [exact Hy|]. apply sq_range; [exact P|lra].
      * intros [Hy Hz]. split; [exact Hy|]. assert (0 <= (c - z) * (c + z)) by (apply Rmult_le_pos; lra). lra.
    + intros y Hy. split; [lra|].
      eapply int_eq; [|apply (int_ext _ (fun z => (p0 p + px p * x + py p * y + pxx p * (x * x) + pyy p * (y * y) + pxy p * (x * y)) + (pz p + pyz p * y + pzx p * x) * z + pzz p * (z * z))); [lra| |apply int_poly2]].
      * field.
      * intros t _. unfold pv. ring.
    + eapply int_eq; [|apply int_poly2]. unfold disc_fun. fold c. unfold K0, K1, K2, K3. field.
  - eapply int_eq; [|apply int_shift, int_disc_fun, Hr]. unfold K0, K2, K3. field.
Qed.
(* unit simplex *)
Lemma simplex_poly : forall p, integral3 simplex (pv p)
  (p0 p / 6 + (px p + py p + pz p) / 24 + (pxx p + pyy p + pzz p) / 60 + (pxy p + pyz p + pzx p) / 120).
Proof.
  intros p.
  exists 0, 1, (fun s => let h := 1 - s in (p0 p + px p * s + pxx p * (s * s)) * (h * h) / 2 + (py p + pxy p * s + (pz p + pzx p * s)) * (h * h * h) / 6
                         + (pyy p + pzz p) * (h * h * h * h) / 12 + pyz p * (h * h * h * h) / 24).
  split; [lra|]. split; [|split].
  - intros s t u (H & Ht & Hu & HS). lra.
  - intros s Hs. set (h := 1 - s). set (a := p0 p + px p * s + pxx p * (s * s)). set (bt := py p + pxy p * s). set (bu := pz p + pzx p * s). cbv zeta.
    exists 0, h, (fun _ => 0), (fun t => h - t), (fun t => (a + bt * t + pyy p * (t * t)) * (h - t) + (bu + pyz p * t) * ((h - t) * (h - t)) / 2 + pzz p * ((h - t) * (h - t) * (h - t)) / 3).
    split; [unfold h; lra|]. split; [|split].
    + intros t u. unfold simplex, h. lra.
    + intros t Ht. split; [lra|].
      eapply int_eq; [|apply (int_ext _ (fun u => (a + bt * t + pyy p * (t * t)) + (bu + pyz p * t) * u + pzz p * (u * u))); [lra| |apply int_poly2]].
      * field.
      * intros u _. unfold pv, a, bt, bu. ring.
    + eapply int_eq; [|apply (int_ext _ (fun t => (a * h + bu * (h * h) / 2 + pzz p * (h * h * h) / 3) + (- a + bt * h - bu * h + pyz p * (h * h) / 2 - pzz p * (h * h)) * t
           + (- bt + pyy p * h + bu / 2 - pyz p * h + pzz p * h) * (t * t) + (- pyy p + pyz p / 2 - pzz p / 3) * (t * t * t) + 0 * (t * t * t * t))); [unfold h; lra| |apply int_poly4]].
      * field.
      * intros t _. field.
  - cbv zeta. set (k := (pyy p + pzz p) / 12 + pyz p / 24). set (bb := (py p + pz p) / 6). set (cc := (pxy p + pzx p) / 6).
    eapply int_eq; [|apply (int_ext _ (fun s => (p0 p / 2 + bb + k) + (px p / 2 - p0 p - 3 * bb + cc - 4 * k) * s
          + (p0 p / 2 - px p + pxx p / 2 + 3 * bb - 3 * cc + 6 * k) * (s * s) + (px p / 2 - pxx p - bb + 3 * cc - 4 * k) * (s * s * s) + (pxx p / 2 - cc + k) * (s * s * s * s))); [lra| |apply int_poly4]].
    + unfold k, bb, cc. field.
    + intros s _. unfold k, bb, cc. field.
Qed.
