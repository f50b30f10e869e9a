(* C17 for balls and spheres from the generic lemmas. *)
From Coq Require Import List Reals Arith Bool Lia Lra Psatz.
From Verif Require Import Outcome Ccd_Model Lin_Model ContactBall_Model ContactRb3_Model Lin_Proofs Contact_Spec Contact_Proofs Contact3_Proofs
  Jac_Proofs Impact_Model Impact_Spec Impact_Proofs Impact_Inst.
Import ListNotations.
Open Scope R_scope.

Definition zero : dvec := fun _ => 0.

Lemma impulse_one : forall g a k, impulse [(g, a)] k = entry g k * a.
Proof. intros. unfold impulse. cbn [fold_right fst snd]. lra. Qed.

(* ---------- balls ---------- *)
Lemma b_kinetic_energy : forall n m v, b_kinetic n m v = energy (2 * n) m zero v.
Proof. intros. unfold b_kinetic, energy, zero. f_equal. apply rsum_ext. intros. rewrite Rminus_0_r. reflexivity. Qed.

Lemma b_momentum_ext : forall n m v w, (forall k, (k < 2 * n)%nat -> v k = w k) -> b_momentum n m v = b_momentum n m w.
Proof.
  intros n m v w H. unfold b_momentum, seg2. cbn [fst snd].
  f_equal; apply rsum_ext; intros i Hi; rewrite H by lia; reflexivity.
Qed.
Lemma b_kinetic_ext : forall n m v w, (forall k, (k < 2 * n)%nat -> v k = w k) -> b_kinetic n m v = b_kinetic n m w.
Proof. intros n m v w H. unfold b_kinetic. f_equal. apply rsum_ext. intros k Hk. rewrite H by exact Hk. reflexivity. Qed.
Lemma b_ndotv_ext : forall n m c v w, ball_masses n m -> ball_pair n c -> (forall k, (k < 2 * n)%nat -> v k = w k) -> b_evalNdotV c v = b_evalNdotV c w.
Proof.
  intros n m c v w HM Hc H. destruct (ball_good n m c HM Hc) as (Hg & Hn & _). rewrite (Hn v), (Hn w). f_equal.
  apply (col_dot_ext (2 * n)); assumption.
Qed.
Lemma ball_masses_ok : forall n m, ball_masses n m -> mass2_ok n m.
Proof. intros n m H i Hi. destruct (H i Hi). split; [lra|assumption]. Qed.
Lemma ball_pair_range : forall n c, ball_pair n c -> in_range n (b_bodies c) /\ b_conserves_p c = true.
Proof. intros n c H. destruct c; try contradiction H; destruct H as (Hi & Hj & _); repeat split; assumption. Qed.
Lemma pair_no_kick_zero : forall n c, ball_pair n c -> no_kick c -> b_evalNdotV c zero = 0.
Proof. intros n c Hp Hk. destruct c; try contradiction; cbn; unfold vdot, vsub, seg2, zero; cbn; lra. Qed.

Lemma ball_impact_one : forall n m c CoR v, ball_masses n m -> ball_pair n c -> 0 <= CoR <= 1 -> b_evalNdotV c v < 0 ->
  exists v' a, b_resolveImpact CoR m (b_evalNdotV c v) c v = Ok (v', a)
  /\ 0 < a
  /\ b_evalNdotV c v' = - CoR * b_evalNdotV c v
  /\ (forall t, vdot t (b_normal c) = 0 -> vdot t (b_relvel c v') = vdot t (b_relvel c v))
  /\ (forall k, (k < 2 * n)%nat -> v' k = vplus v (diag_minv m (impulse [(b_gradg c, a)])) k)
  /\ (forall k, (2 * n <= k)%nat -> v' k = v k)
  /\ b_momentum n m v' = b_momentum n m v
  /\ (no_kick c -> b_kinetic n m v' <= b_kinetic n m v /\ (CoR = 1 <-> b_kinetic n m v' = b_kinetic n m v)).
Proof.
  intros n m c CoR v HM Hc HCoR Hv.
  pose proof (ball_good n m c HM Hc) as Hg. pose proof Hg as (Hg1 & Hg2 & Hg3 & Hg4).
  destruct (Hg4 CoR v) as (v' & E & Hmv1 & Hmv2). set (a := - (1 + CoR) * b_evalNdotV c v / gram m (b_gradg c)) in *.
  exists v', a. change (b_resolveImpact CoR m (b_evalNdotV c v) c v) with (b_res m CoR (b_evalNdotV c v) c v).
  split; [exact E|].
  assert (Hp : forall k, (k < 2 * n)%nat -> v' k = vplus v (diag_minv m (impulse [(b_gradg c, a)])) k).
  { intros k Hk. rewrite (Hmv1 k Hk). unfold vplus, diag_minv. rewrite impulse_one. reflexivity. }
  assert (Hdiag : forall k, (k < 2 * n)%nat -> 0 < m k) by (intros; apply (ball_diag_pos n); assumption).
  split; [exact (good_alpha (2 * n) m _ _ _ _ c CoR v v' a Hg (proj1 HCoR) Hv E)|].
  split; [exact (good_after (2 * n) m _ _ _ _ c CoR v v' a Hg E)|].
  split.
  { intros t Ht.
    assert (X : forall i j nn, vdot t nn = 0 -> (i < n)%nat -> (j < n)%nat -> i <> j ->
       (forall k, (k < 2 * n)%nat -> v' k = v k + 1 / m k * (entry (ins2 (2 * i) nn ++ ins2 (2 * j) (vneg nn)) k * a)) ->
       vdot t (vsub (seg2 v' (2 * i)) (seg2 v' (2 * j))) = vdot t (vsub (seg2 v (2 * i)) (seg2 v (2 * j)))).
    { intros i j [x y] Hn Hi Hj Hij HV. destruct (HM i Hi) as [Pi Ei]. destruct (HM j Hj) as [Pj Ej].
      unfold vdot, vsub, seg2 in *. cbn [fst snd] in *. rewrite !HV by lia.
      unfold ins2, vneg, entry. cbn [app fold_right fst snd]. rewrite !Nat.add_0_r. eqb_case.
      rewrite ?Ei, ?Ej. replace (fst t * x) with (- (snd t * y)) by lra.
      transitivity (fst t * (v (2 * i)%nat - v (2 * j)%nat) + snd t * (v (2 * i + 1)%nat - v (2 * j + 1)%nat)
         + (fst t * x + snd t * y) * (1 / m (2 * i)%nat * a + 1 / m (2 * j)%nat * a)); [ring|].
      rewrite Hn. ring. }
    destruct c as [i j nn r0 r1 tl|i j nn r0 r1 kick tl| |]; try contradiction Hc; destruct Hc as (Hi & Hj & Hij & Hn1); cbn [b_normal b_relvel] in *.
    - apply (X i j nn); assumption.
    - assert (Y := X i j nn Ht Hi Hj Hij Hmv1). unfold vdot, vsub in *. cbn [fst snd] in *. lra. }
  split; [exact Hp|]. split; [exact Hmv2|]. split.
  { rewrite (b_momentum_ext n m v' _ Hp). apply b_momentum_kept; [apply ball_masses_ok; exact HM|].
    destruct (ball_pair_range n c Hc) as [H1 H2]. constructor; [|constructor]. exists c. cbn [fst]. split; [exact H1|]. split; [exact H2|]. constructor. }
  intros Hk. rewrite !b_kinetic_energy.
  rewrite (good_energy (2 * n) m _ _ _ _ Hdiag c CoR v v' a zero Hg E).
  rewrite (pair_no_kick_zero n c Hc Hk). set (d := b_evalNdotV c v) in *. set (W := gram m (b_gradg c)) in *.
  assert (EQ : (1 + CoR) / W * (d * (d * (1 - CoR) / 2 - 0)) = (1 - CoR) * (((1 + CoR) / 2) * (d * d) / W)) by (field; lra).
  rewrite EQ.
  assert (0 < ((1 + CoR) / 2) * (d * d) / W).
  { unfold Rdiv. apply Rmult_lt_0_compat; [|apply Rinv_0_lt_compat; exact Hg3]. apply Rmult_lt_0_compat; [lra|]. nra. }
  split; [|split].
  - assert (0 <= (1 - CoR) * ((1 + CoR) / 2 * (d * d) / W)) by (apply Rmult_le_pos; lra). lra.
  - intros ->. lra.
  - intros HE. assert (HZ : (1 - CoR) * ((1 + CoR) / 2 * (d * d) / W) = 0) by lra. apply Rmult_integral in HZ. destruct HZ; lra.
Qed.

Lemma ball_impact_inv : forall fuel m tol cons al v v2 al2, ball_impact fuel m tol cons al v = Some (Ok (v2, al2)) ->
  exists v1, gs_loop b_evalNdotV (b_res m) tol fuel cons al v = Some (Ok (v1, al2))
    /\ v2 = vplus v (diag_minv m (impulse (combine (map (fun c => b_gradg (fst c)) cons) al2))).
Proof.
  intros fuel m tol cons al v v2 al2 H. unfold ball_impact in H. fold (b_res m) in H.
  destruct (gs_loop b_evalNdotV (b_res m) tol fuel cons al v) as [[[v1 al1]| |]|]; try discriminate H.
  injection H as H1 H2. subst. exists v1. split; reflexivity.
Qed.

Lemma Forall2_len : forall {A B} (P : A -> B -> Prop) a b, Forall2 P a b -> length a = length b.
Proof. intros A B P a b H. induction H; cbn; congruence. Qed.
Lemma Forall_zero_repeat : forall n, Forall (fun a => a = 0) (repeat 0 n).
Proof. induction n; constructor; [reflexivity|assumption]. Qed.
Lemma Forall2_zero : forall l al, Forall (fun a => a = 0) l -> Forall2 Rle l al -> Forall (fun a => 0 <= a) al.
Proof. intros l al H H2. induction H2; constructor; inversion H; subst; auto. Qed.

Lemma ball_impact_result : forall n m fuel tol cons v0 v2 alpha,
  ball_masses n m -> 0 <= tol -> Forall (fun c => ball_pair n (fst c) /\ 0 <= snd c <= 1) cons ->
  ball_impact fuel m tol cons (repeat 0 (length cons)) v0 = Some (Ok (v2, alpha)) ->
  Forall (fun c => - tol <= b_evalNdotV (fst c) v2) cons
  /\ Forall (fun a => 0 <= a) alpha /\ length alpha = length cons
  /\ b_momentum n m v2 = b_momentum n m v0
  /\ (Forall (fun c => no_kick (fst c)) cons -> b_kinetic n m v2 <= b_kinetic n m v0).
Proof.
  intros n m fuel tol cons v0 v2 alpha HM Ht HF H.
  destruct (ball_impact_inv _ _ _ _ _ _ _ _ H) as (v1 & HL & ->). clear H.
  assert (HG : Forall (fun c => good (2 * n) m b_evalNdotV (b_res m) b_gradg b_gdotN (fst c) /\ 0 <= snd c) cons).
  { eapply Forall_impl; [|exact HF]. intros c (Hp & Hc). split; [apply ball_good; assumption|lra]. }
  assert (Hdiag : forall k, (k < 2 * n)%nat -> 0 < m k) by (intros; apply (ball_diag_pos n); assumption).
  assert (Hlen : length (repeat 0 (length cons)) = length cons) by apply repeat_length.
  destruct (loop_moved (2 * n) m _ _ _ _ tol cons HG Ht fuel _ _ _ _ Hlen HL) as (M1 & M2 & M3).
  set (v2 := vplus v0 _).
  assert (EV : forall k, (k < 2 * n)%nat -> v1 k = v2 k).
  { intros k Hk. rewrite (M1 k Hk). unfold v2, vplus, diag_minv, grads. rewrite (combine_zeros _ (repeat 0 _)) by apply Forall_zero_repeat. ring. }
  split; [|split; [|split; [|split]]].
  - pose proof (loop_quiet _ _ _ cons fuel _ _ _ _ Hlen HL) as HQ.
    rewrite Forall_forall in HQ, HF |- *. intros c Hc. destruct (HF c Hc) as [Hp _].
    rewrite <- (b_ndotv_ext n m (fst c) v1 v2 HM Hp EV). apply HQ. exact Hc.
  - exact (Forall2_zero _ _ (Forall_zero_repeat _) M3).
  - rewrite <- Hlen. symmetry. apply (Forall2_len _ _ _ M3).
  - unfold v2. apply b_momentum_kept; [apply ball_masses_ok; exact HM|].
    apply Forall_forall. intros [g a] Hin. apply in_combine_l in Hin. apply in_map_iff in Hin. destruct Hin as (c & <- & Hc).
    rewrite Forall_forall in HF. destruct (HF c Hc) as [Hp _]. destruct (ball_pair_range n _ Hp) as [H1 H2].
    exists (fst c). cbn [fst]. split; [exact H1|]. split; [exact H2|]. constructor.
  - intros HK. rewrite <- (b_kinetic_ext n m v1 v2 EV). rewrite !b_kinetic_energy.
    refine (loop_keeps b_evalNdotV (b_res m) tol (fun u => energy (2 * n) m zero u <= energy (2 * n) m zero v0) cons _ fuel _ _ _ _ HL _); [|lra].
    intros c CoR u u' a Hin Hlt E Hu. rewrite Forall_forall in HF, HK. destruct (HF _ Hin) as [Hp Hc]. cbn [fst snd] in *.
    eapply Rle_trans; [|exact Hu].
    apply (good_energy_le (2 * n) m b_evalNdotV (b_res m) b_gradg b_gdotN Hdiag c CoR u u' a zero).
    + apply ball_good; assumption.
    + exact Hc.
    + lra.
    + pose proof (pair_no_kick_zero n c Hp (HK _ Hin)). lra.
    + exact E.
Qed.

Lemma ball_impact_terminates : forall n m tol cons alpha v0 w,
  ball_masses n m -> 0 < tol -> length alpha = length cons ->
  Forall (fun c => ball_pair n (fst c) /\ 0 <= snd c <= 1 /\ 0 <= b_evalNdotV (fst c) w
                   /\ (snd c < 1 \/ 0 < b_evalNdotV (fst c) w)) cons ->
  exists fuel v2 alpha2, ball_impact fuel m tol cons alpha v0 = Some (Ok (v2, alpha2)).
Proof.
  intros n m tol cons alpha v0 w HM Ht Hl HF.
  assert (Hdiag : forall k, (k < 2 * n)%nat -> 0 < m k) by (intros; apply (ball_diag_pos n); assumption).
  destruct (loop_total (2 * n) m b_evalNdotV (b_res m) b_gradg b_gdotN Hdiag tol cons w Ht) with (al := alpha) (v := v0) as (fuel & v1 & al1 & E).
  - eapply Forall_impl; [|exact HF]. intros c (H1 & H2 & H3 & H4). split; [apply ball_good; assumption|]. auto.
  - exact Hl.
  - exists fuel. unfold ball_impact. fold (b_res m). rewrite E. eexists. eexists. reflexivity.
Qed.

(* ---------- spheres and planes in 3D ---------- *)
Lemma rb3_kinetic_energy : forall nb m I v w,
  (forall k, (3 * nb <= k)%nat -> v k = w k) ->
  rb3_kinetic nb m I v - rb3_kinetic nb m I w = energy (3 * nb) m zero v - energy (3 * nb) m zero w.
Proof.
  intros nb m I v w H. unfold rb3_kinetic, energy, zero.
  rewrite (rsum_ext nb (fun i => dot3 (seg3 v (3 * (nb + i))) (mul3 (I i) (seg3 v (3 * (nb + i)))))
             (fun i => dot3 (seg3 w (3 * (nb + i))) (mul3 (I i) (seg3 w (3 * (nb + i)))))).
  2:{ intros i Hi. replace (seg3 v (3 * (nb + i))) with (seg3 w (3 * (nb + i))); [reflexivity|]. unfold seg3. rewrite !H by lia. reflexivity. }
  rewrite (rsum_ext (3 * nb) (fun k => (v k - 0) * (m k * (v k - 0))) (fun k => v k * (m k * v k))) by (intros; rewrite Rminus_0_r; reflexivity).
  rewrite (rsum_ext (3 * nb) (fun k => (w k - 0) * (m k * (w k - 0))) (fun k => w k * (m k * w k))) by (intros; rewrite Rminus_0_r; reflexivity).
  lra.
Qed.
Lemma rb3_momentum_ext : forall nb m v w, (forall k, (k < 3 * nb)%nat -> v k = w k) -> rb3_momentum nb m v = rb3_momentum nb m w.
Proof.
  intros nb m v w H. unfold rb3_momentum, sum3, scale3, seg3. cbn [c0 c1 c2].
  f_equal; apply rsum_ext; intros i Hi; rewrite H by lia; reflexivity.
Qed.
Lemma rb3_ndotv_ext : forall nb m q c v w, body_masses nb m -> sphere_contact nb c -> (forall k, (k < 3 * nb)%nat -> v k = w k) ->
  rb3_ndotv_or_0 nb q c v = rb3_ndotv_or_0 nb q c w.
Proof.
  intros nb m q c v w HM Hc H. destruct (sphere_good nb m q c HM Hc) as (Hg & Hn & _). rewrite (Hn v), (Hn w). f_equal.
  apply (col_dot_ext (3 * nb)); assumption.
Qed.
Lemma sphere_gradg : forall nb q c, sphere_contact nb c -> rb3_gradg nb q c = Ok (rb3_grad c).
Proof. intros nb q c H. destruct c; try contradiction H; reflexivity. Qed.
Lemma entry_high : forall N g k, Forall (fun e => (fst e < N)%nat) g -> (N <= k)%nat -> entry g k = 0.
Proof.
  intros N g k H Hk. induction H as [|[r x] g Hr _ IH]; [reflexivity|]. cbn [entry fold_right fst snd] in *. fold (entry g k) in *.
  destruct (Nat.eqb_spec r k); [lia|]. fold (entry g k). rewrite IH. lra.
Qed.
Lemma omapM_map : forall {A B} (f : A -> outcome B) (g : A -> B) l, (forall x, In x l -> f x = Ok (g x)) -> omapM f l = Ok (map g l).
Proof.
  induction l as [|x l IH]; intros H; cbn [omapM map]; [reflexivity|]. rewrite (H x) by (left; reflexivity). cbn [obind].
  rewrite IH by (intros; apply H; right; assumption). reflexivity.
Qed.

Lemma rb3_minv_lin_entry : forall nb m Iinv f k, (k < 3 * nb)%nat -> rb3_minv nb m Iinv f k = 1 / m k * f k.
Proof. intros. unfold rb3_minv. destruct (Nat.ltb_spec k (3 * nb)); [reflexivity|lia]. Qed.
Lemma rb3_minv_ang_zero : forall nb m Iinv f k, (forall i, (3 * nb <= i)%nat -> f i = 0) -> (3 * nb <= k)%nat -> rb3_minv nb m Iinv f k = 0.
Proof.
  intros nb m Iinv f k H Hk. unfold rb3_minv. destruct (Nat.ltb_spec k (3 * nb)); [lia|].
  cbv zeta. unfold mul3, seg3. rewrite !H by lia. unfold dot3. cbn [c0 c1 c2].
  destruct ((k - 3 * nb) mod 3)%nat as [|[|]]; ring.
Qed.
Lemma impulse_high : forall N l k, Forall (fun ci => Forall (fun e => (fst e < N)%nat) (fst ci)) l -> (N <= k)%nat -> impulse l k = 0.
Proof.
  intros N l k H Hk. unfold impulse. induction H as [|[g a] l Hg _ IH]; [reflexivity|]. cbn [fold_right fst snd] in *.
  rewrite (entry_high N g k Hg Hk), IH. lra.
Qed.

Lemma sphere_impact_one : forall nb m I Iinv q c CoR v, body_masses nb m -> sphere_contact nb c -> 0 <= CoR <= 1 ->
  rb3_ndotv_or_0 nb q c v < 0 ->
  exists v' a, rb3_resolveImpact CoR m (rb3_ndotv_or_0 nb q c v) c v = Ok (v', a)
  /\ 0 < a
  /\ rb3_ndotv_or_0 nb q c v' = - CoR * rb3_ndotv_or_0 nb q c v
  /\ (forall g, rb3_gradg nb q c = Ok g -> forall k, v' k = vplus v (rb3_minv nb m Iinv (impulse [(g, a)])) k)
  /\ (rb3_kinvel q c = Ok zero3 ->
        rb3_kinetic nb m I v' <= rb3_kinetic nb m I v /\ (CoR = 1 <-> rb3_kinetic nb m I v' = rb3_kinetic nb m I v)).
Proof.
  intros nb m I Iinv q c CoR v HM Hc HCoR Hv.
  pose proof (sphere_good nb m q c HM Hc) as Hg. pose proof Hg as (Hg1 & Hg2 & Hg3 & Hg4).
  destruct (Hg4 CoR v) as (v' & E & Hmv1 & Hmv2). set (a := - (1 + CoR) * rb3_ndotv_or_0 nb q c v / gram m (rb3_grad c)) in *.
  exists v', a. change (rb3_resolveImpact CoR m (rb3_ndotv_or_0 nb q c v) c v) with (r3_res m CoR (rb3_ndotv_or_0 nb q c v) c v).
  split; [exact E|].
  assert (Hdiag : forall k, (k < 3 * nb)%nat -> 0 < m k) by (intros; apply (body_diag_pos nb); assumption).
  split; [exact (good_alpha (3 * nb) m _ _ _ _ c CoR v v' a Hg (proj1 HCoR) Hv E)|].
  split; [exact (good_after (3 * nb) m _ _ _ _ c CoR v v' a Hg E)|].
  split.
  { intros g Hgg k. rewrite (sphere_gradg nb q c Hc) in Hgg. apply Ok_inj in Hgg. subst g. unfold vplus.
    destruct (Nat.lt_ge_cases k (3 * nb)) as [Hk|Hk].
    - rewrite (Hmv1 k Hk), rb3_minv_lin_entry by exact Hk. rewrite impulse_one. reflexivity.
    - rewrite (Hmv2 k Hk), rb3_minv_ang_zero; [ring| |exact Hk]. intros i Hi. rewrite impulse_one, (entry_high (3 * nb) _ i Hg1 Hi). ring. }
  intros Hk.
  assert (HZ : rb3_ndotv_or_0 nb q c zero = 0).
  { unfold rb3_ndotv_or_0. destruct c; try contradiction Hc; cbn [rb3_evalNdotV rb3_kinvel] in *.
    - unfold dot3, sub3, seg3, zero. cbn [c0 c1 c2]. ring.
    - apply Ok_inj in Hk. rewrite <- Hk. unfold dot3, sub3, seg3, zero, zero3. cbn [c0 c1 c2]. ring. }
  pose proof (rb3_kinetic_energy nb m I v' v Hmv2) as HD.
  rewrite (good_energy (3 * nb) m _ _ _ _ Hdiag c CoR v v' a zero Hg E), HZ in HD.
  set (d := rb3_ndotv_or_0 nb q c v) in *. set (W := gram m (rb3_grad c)) in *.
  assert (EQ : (1 + CoR) / W * (d * (d * (1 - CoR) / 2 - 0)) = (1 - CoR) * (((1 + CoR) / 2) * (d * d) / W)) by (field; lra).
  rewrite EQ in HD.
  assert (0 < ((1 + CoR) / 2) * (d * d) / W).
  { unfold Rdiv. apply Rmult_lt_0_compat; [|apply Rinv_0_lt_compat; exact Hg3]. apply Rmult_lt_0_compat; [lra|]. nra. }
  split; [|split].
  - assert (0 <= (1 - CoR) * ((1 + CoR) / 2 * (d * d) / W)) by (apply Rmult_le_pos; lra). lra.
  - intros ->. lra.
  - intros HE. assert (HZ2 : (1 - CoR) * ((1 + CoR) / 2 * (d * d) / W) = 0) by lra. apply Rmult_integral in HZ2. destruct HZ2; lra.
Qed.

Lemma rb3_impact_eq : forall fuel nb m Iinv q tol cons al v, Forall (fun c => sphere_contact nb (fst c)) cons ->
  rb3_impact fuel nb m Iinv q tol cons al v =
  match gs_loop (rb3_ndotv_or_0 nb q) (r3_res m) tol fuel cons al v with
  | Some (Ok (_, alpha1)) => Some (Ok (vplus v (rb3_minv nb m Iinv (impulse (combine (map (fun c => rb3_grad (fst c)) cons) alpha1))), alpha1))
  | Some Exit => Some Exit
  | Some UB => Some UB
  | None => None
  end.
Proof.
  intros fuel nb m Iinv q tol cons al v H. unfold rb3_impact.
  rewrite (omapM_map _ (fun c => rb3_grad (fst c))). { reflexivity. }
  intros c Hc. apply sphere_gradg. rewrite Forall_forall in H. apply H. exact Hc.
Qed.

Lemma rb3_impact_result : forall nb m I Iinv q fuel tol cons v0 v2 alpha,
  body_masses nb m -> 0 <= tol -> Forall (fun c => sphere_contact nb (fst c) /\ 0 <= snd c <= 1) cons ->
  rb3_impact fuel nb m Iinv q tol cons (repeat 0 (length cons)) v0 = Some (Ok (v2, alpha)) ->
  Forall (fun c => - tol <= rb3_ndotv_or_0 nb q (fst c) v2) cons
  /\ Forall (fun a => 0 <= a) alpha /\ length alpha = length cons
  /\ (Forall (fun c => rb3_kinvel q (fst c) = Ok zero3) cons -> rb3_kinetic nb m I v2 <= rb3_kinetic nb m I v0).
Proof.
  intros nb m I Iinv q fuel tol cons v0 v2 alpha HM Ht HF H.
  rewrite rb3_impact_eq in H by (eapply Forall_impl; [|exact HF]; intros c [Hc _]; exact Hc).
  destruct (gs_loop (rb3_ndotv_or_0 nb q) (r3_res m) tol fuel cons (repeat 0 (length cons)) v0) as [[[v1 al1]| |]|] eqn:HL; try discriminate H.
  injection H as <- <-.
  assert (HG : Forall (fun c => good (3 * nb) m (rb3_ndotv_or_0 nb q) (r3_res m) rb3_grad (rb3_off q) (fst c) /\ 0 <= snd c) cons).
  { eapply Forall_impl; [|exact HF]. intros c (Hp & Hc). split; [apply sphere_good; assumption|lra]. }
  assert (Hdiag : forall k, (k < 3 * nb)%nat -> 0 < m k) by (intros; apply (body_diag_pos nb); assumption).
  assert (Hlen : length (repeat 0 (length cons)) = length cons) by apply repeat_length.
  destruct (loop_moved (3 * nb) m _ _ _ _ tol cons HG Ht fuel _ _ _ _ Hlen HL) as (M1 & M2 & M3).
  set (v2 := vplus v0 _).
  assert (HR : Forall (fun ci => Forall (fun e => (fst e < 3 * nb)%nat) (fst ci)) (combine (map (fun c => rb3_grad (fst c)) cons) al1)).
  { apply Forall_forall. intros [g x] Hin. apply in_combine_l in Hin. apply in_map_iff in Hin. destruct Hin as (c & <- & Hc).
    rewrite Forall_forall in HG. destruct (HG c Hc) as ((Hx & _) & _). exact Hx. }
  assert (EV : forall k, v1 k = v2 k).
  { intros k. unfold v2, vplus. destruct (Nat.lt_ge_cases k (3 * nb)) as [Hk|Hk].
    - rewrite (M1 k Hk), rb3_minv_lin_entry by exact Hk. unfold grads.
      rewrite (combine_zeros _ (repeat 0 _)) by apply Forall_zero_repeat. ring.
    - rewrite (M2 k Hk), rb3_minv_ang_zero; [ring| |exact Hk]. intros i Hi. apply (impulse_high (3 * nb)); assumption. }
  split; [|split; [|split]].
  - pose proof (loop_quiet _ _ _ cons fuel _ _ _ _ Hlen HL) as HQ.
    rewrite Forall_forall in HQ, HF |- *. intros c Hc. destruct (HF c Hc) as [Hp _].
    rewrite <- (rb3_ndotv_ext nb m q (fst c) v1 v2 HM Hp (fun k _ => EV k)). apply HQ. exact Hc.
  - exact (Forall2_zero _ _ (Forall_zero_repeat _) M3).
  - rewrite <- Hlen. symmetry. apply (Forall2_len _ _ _ M3).
  - intros HK.
    assert (HE : energy (3 * nb) m zero v1 <= energy (3 * nb) m zero v0).
    { refine (loop_keeps (rb3_ndotv_or_0 nb q) (r3_res m) tol (fun u => energy (3 * nb) m zero u <= energy (3 * nb) m zero v0) cons _ fuel _ _ _ _ HL _); [|lra].
      intros c CoR u u' a Hin Hlt E Hu. rewrite Forall_forall in HF, HK. destruct (HF _ Hin) as [Hp Hc]. pose proof (HK _ Hin) as Hk. cbn [fst snd] in *.
      eapply Rle_trans; [|exact Hu].
      apply (good_energy_le (3 * nb) m (rb3_ndotv_or_0 nb q) (r3_res m) rb3_grad (rb3_off q) Hdiag c CoR u u' a zero).
      + apply sphere_good; assumption.
      + exact Hc.
      + lra.
      + apply Req_le. symmetry. unfold rb3_ndotv_or_0. destruct c; try contradiction Hp; cbn [rb3_evalNdotV rb3_kinvel] in *.
        * unfold dot3, sub3, seg3, zero. cbn [c0 c1 c2]. ring.
        * apply Ok_inj in Hk. rewrite <- Hk. unfold dot3, sub3, seg3, zero, zero3. cbn [c0 c1 c2]. ring.
      + exact E. }
    pose proof (rb3_kinetic_energy nb m I v2 v0) as HD.
    assert (Hhi : forall k, (3 * nb <= k)%nat -> v2 k = v0 k) by (intros k Hk; rewrite <- EV; apply M2; exact Hk).
    specialize (HD Hhi).
    assert (EE : energy (3 * nb) m zero v2 = energy (3 * nb) m zero v1).
    { unfold energy. f_equal. apply rsum_ext. intros k Hk. rewrite EV. reflexivity. }
    lra.
Qed.

Lemma rb3_impact_terminates : forall nb m Iinv q tol cons alpha v0 w,
  body_masses nb m -> 0 < tol -> length alpha = length cons ->
  Forall (fun c => sphere_contact nb (fst c) /\ 0 <= snd c <= 1 /\ 0 <= rb3_ndotv_or_0 nb q (fst c) w
                   /\ (snd c < 1 \/ 0 < rb3_ndotv_or_0 nb q (fst c) w)) cons ->
  exists fuel v2 alpha2, rb3_impact fuel nb m Iinv q tol cons alpha v0 = Some (Ok (v2, alpha2)).
Proof.
  intros nb m Iinv q tol cons alpha v0 w HM Ht Hl HF.
  assert (Hdiag : forall k, (k < 3 * nb)%nat -> 0 < m k) by (intros; apply (body_diag_pos nb); assumption).
  destruct (loop_total (3 * nb) m (rb3_ndotv_or_0 nb q) (r3_res m) rb3_grad (rb3_off q) Hdiag tol cons w Ht) with (al := alpha) (v := v0) as (fuel & v1 & al1 & E).
  - eapply Forall_impl; [|exact HF]. intros c (H1 & H2 & H3 & H4). split; [apply sphere_good; assumption|]. auto.
  - exact Hl.
  - exists fuel. rewrite rb3_impact_eq by (eapply Forall_impl; [|exact HF]; intros c [Hc _]; exact Hc). rewrite E. eexists. eexists. reflexivity.
Qed.
