(* The forces are minus the gradient of the reported potential energy. *)
From Coq Require Import List Reals Arith Bool Lia Lra FunctionalExtensionality.
From Verif Require Import Ccd_Model Lin_Model Lin_Proofs ContactBall_Model ContactRb2_Model Integr_Model Integr_Spec Integr_Proofs Integr_Thms.
Import ListNotations.
Open Scope R_scope.

(* ---------- the truncated power ---------- *)
Definition tpow (p y : R) : R := if Rlt_dec 0 y then Rpower y p else 0.

Lemma tpow_pos : forall p y, 0 < y -> tpow p y = Rpower y p.
Proof. intros p y H. unfold tpow. destruct (Rlt_dec 0 y); [reflexivity|lra]. Qed.
Lemma tpow_neg : forall p y, y <= 0 -> tpow p y = 0.
Proof. intros p y H. unfold tpow. destruct (Rlt_dec 0 y); [lra|reflexivity]. Qed.

Lemma Rpower_pos : forall x y, 0 < Rpower x y.
Proof. intros. unfold Rpower. apply exp_pos. Qed.

Lemma tpow_cpow : forall p y, 0 < p -> cpow y p = Some (tpow p y).
Proof.
  intros p y H. unfold cpow, tpow. destruct (Rlt_dec 0 y); [reflexivity|]. destruct (Rlt_dec 0 p); [reflexivity|lra].
Qed.

Lemma tpow_derive : forall p y, 1 < p -> derivable_pt_lim (tpow p) y (p * tpow (p - 1) y).
Proof.
  intros p y Hp. destruct (Rtotal_order y 0) as [H|[->|H]].
  - rewrite (tpow_neg (p - 1)) by lra. rewrite Rmult_0_r.
    apply (derivable_pt_lim_locally_ext (fun _ => 0) _ y (y - 1) 0); [lra| |apply derivable_pt_lim_const].
    intros z Hz. symmetry. apply tpow_neg. lra.
  - rewrite (tpow_neg (p - 1)) by lra. rewrite Rmult_0_r. intros eps He.
    assert (0 < Rpower eps (/ (p - 1))) as Hd by apply Rpower_pos.
    exists (mkposreal _ Hd). intros h Hh Hlt. cbn [pos] in Hlt. rewrite Rplus_0_l, (tpow_neg p 0) by lra.
    unfold tpow. destruct (Rlt_dec 0 h) as [H|H].
    + rewrite Rabs_right in Hlt by lra.
      assert (Rpower h p = h * Rpower h (p - 1)) as E.
      { replace p with (1 + (p - 1)) at 1 by lra. rewrite Rpower_plus, Rpower_1 by exact H. reflexivity. }
      replace ((Rpower h p - 0) / h - 0) with (Rpower h (p - 1)) by (rewrite E; field; lra).
      rewrite Rabs_right by (left; apply Rpower_pos).
      replace eps with (Rpower (Rpower eps (/ (p - 1))) (p - 1)).
      * apply Rlt_Rpower_l; lra.
      * rewrite Rpower_mult. replace (/ (p - 1) * (p - 1)) with 1 by (field; lra). apply Rpower_1. exact He.
    + replace ((0 - 0) / h - 0) with 0 by (field; lra). rewrite Rabs_R0. exact He.
  - rewrite (tpow_pos (p - 1)) by exact H.
    apply (derivable_pt_lim_locally_ext (fun x => Rpower x p) _ y 0 (y + 1)); [lra| |apply derivable_pt_lim_power; exact H].
    intros z Hz. symmetry. apply tpow_pos. lra.
Qed.

(* ---------- distances ---------- *)
Lemma put_derive : forall q k m x, derivable_pt_lim (fun x => put q k x m) x (if Nat.eqb m k then 1 else 0).
Proof.
  intros q k m x. unfold put. destruct (Nat.eqb m k); [apply derivable_pt_lim_id|apply derivable_pt_lim_const].
Qed.

Lemma put_same : forall q k, put q k (q k) = q.
Proof. intros q k. apply functional_extensionality. intros i. unfold put. destruct (Nat.eqb_spec i k) as [->|]; reflexivity. Qed.

Definition between (q : dvec) (p : nat * nat) : vec := vsub (seg2 q (2 * snd p)) (seg2 q (2 * fst p)).
Definition unit_at (k m : nat) : R := if Nat.eqb m k then 1 else 0.
Definition toward (k : nat) (p : nat * nat) : vec := between (unit_at k) p.

Lemma norm_derive : forall q k p, 0 < vdot (between q p) (between q p) ->
  derivable_pt_lim (fun x => sqrt (vdot (between (put q k x) p) (between (put q k x) p))) (q k)
    (vdot (between q p) (toward k p) / sqrt (vdot (between q p) (between q p))).
Proof.
  intros q k p H.
  assert (forall m l, derivable_pt_lim (fun x => put q k x m - put q k x l) (q k) (unit_at k m - unit_at k l)) as D
    by (intros m l; apply (derivable_pt_lim_minus (fun x => put q k x m) (fun x => put q k x l)); apply put_derive).
  pose proof (D (2 * snd p + 0)%nat (2 * fst p + 0)%nat) as DX. pose proof (D (2 * snd p + 1)%nat (2 * fst p + 1)%nat) as DY.
  set (X := fun x => put q k x (2 * snd p + 0)%nat - put q k x (2 * fst p + 0)%nat) in *.
  set (Y := fun x => put q k x (2 * snd p + 1)%nat - put q k x (2 * fst p + 1)%nat) in *.
  pose proof (derivable_pt_lim_plus _ _ _ _ _ (derivable_pt_lim_mult _ _ _ _ _ DX DX) (derivable_pt_lim_mult _ _ _ _ _ DY DY)) as DS.
  assert (X (q k) = fst (between q p)) as EX by (unfold X; rewrite put_same; reflexivity).
  assert (Y (q k) = snd (between q p)) as EY by (unfold Y; rewrite put_same; reflexivity).
  assert ((X * X + Y * Y)%F (q k) = vdot (between q p) (between q p)) as ES
    by (unfold plus_fct, mult_fct; rewrite EX, EY; reflexivity).
  pose proof (derivable_pt_lim_sqrt _ H) as DQ. rewrite <- ES in DQ.
  pose proof (derivable_pt_lim_comp _ sqrt _ _ _ DS DQ) as DC. rewrite ES in DC.
  eapply derivable_pt_lim_ext; [|].
  2:{ match goal with |- derivable_pt_lim _ _ ?l => match type of DC with derivable_pt_lim _ _ ?l' => replace l with l' end end; [exact DC|].
      rewrite EX, EY. unfold toward, between, vdot, vsub, seg2. cbn [fst snd]. field. 
      apply Rgt_not_eq. apply sqrt_lt_R0. exact H. }
  intros z. reflexivity.
Qed.

(* ---------- one pair ---------- *)
Definition depth (r q : dvec) (p : nat * nat) : R := r (fst p) + r (snd p) - sqrt (vdot (between q p) (between q p)).

Lemma dot_self : forall a, 0 <= vdot a a.
Proof. intros a. unfold vdot. pose proof (Rle_0_sqr (fst a)). pose proof (Rle_0_sqr (snd a)). unfold Rsqr in *. lra. Qed.

Lemma far_depth : forall r q p, 0 <= r (fst p) + r (snd p) ->
  (r (fst p) + r (snd p)) * (r (fst p) + r (snd p)) < vdot (between q p) (between q p) -> depth r q p <= 0.
Proof.
  intros r q p Hr H. unfold depth. set (t := r (fst p) + r (snd p)) in *.
  assert (t <= sqrt (vdot (between q p) (between q p))); [|lra].
  rewrite <- (sqrt_square t) by exact Hr. apply sqrt_le_1_alt. lra.
Qed.

Lemma pair_potential_value : forall k power r q p, 0 < power -> 0 <= r (fst p) + r (snd p) ->
  penalty_pair_potential k power r q p = Some (/ 2 * k * tpow power (depth r q p)).
Proof.
  intros k power r q p Hp Hr. unfold penalty_pair_potential. fold (between q p).
  destruct (Rlt_dec _ _) as [H|H].
  - rewrite (tpow_neg power (depth r q p)) by (apply far_depth; assumption). f_equal. ring.
  - rewrite tpow_cpow by exact Hp. f_equal. f_equal. f_equal. unfold depth. ring.
Qed.

Lemma pair_force_value : forall k power r q p us, 1 < power -> 0 < r (fst p) + r (snd p) ->
  penalty_pair k power r q p = Some us ->
  0 < vdot (between q p) (between q p)
  /\ forall i, upd_sum us i = / 2 * k * power * tpow (power - 1) (depth r q p)
                            * vdot (between q p) (toward i p) / sqrt (vdot (between q p) (between q p)).
Proof.
  intros k power r q p us Hp Hr E. unfold penalty_pair in E. fold (between q p) in E.
  destruct (Rlt_dec _ _) as [H|H] in E.
  - injection E as <-. split.
    + eapply Rle_lt_trans; [|exact H]. apply Rmult_le_pos; lra.
    + intros i. rewrite (tpow_neg (power - 1)) by (apply far_depth; [lra|exact H]). cbn. unfold Rdiv. ring.
  - destruct (Req_EM_T _ 0) as [Hd|Hd] in E; [discriminate|].
    assert (0 < vdot (between q p) (between q p)) as Hn.
    { destruct (Rle_lt_or_eq_dec _ _ (dot_self (between q p))) as [Hl|He]; [exact Hl|]. exfalso. apply Hd. rewrite <- He. apply sqrt_0. }
    split; [exact Hn|]. intros i. rewrite tpow_cpow in E by lra.
    replace (- (sqrt (vdot (between q p) (between q p)) - (r (fst p) + r (snd p)))) with (depth r q p) in E by (unfold depth; ring).
    injection E as <-. set (c := / 2 * k * power * tpow (power - 1) (depth r q p)).
    set (d := sqrt (vdot (between q p) (between q p))) in *.
    assert (forall m x, Integr_Proofs.comp (m, x) i = vdot x (seg2 (unit_at i) m)) as Hc.
    { intros m x. unfold Integr_Proofs.comp, vdot, seg2, unit_at. cbn [fst snd]. rewrite (Nat.eqb_sym i), (Nat.eqb_sym i).
      destruct (Nat.eqb_spec (m + 0) i) as [E1|N1]; destruct (Nat.eqb_spec (m + 1) i) as [E2|N2]; try lia; ring. }
    cbn [upd_sum fold_right]. rewrite !Hc. change (snd p + (snd p + 0))%nat with (2 * snd p)%nat.
    change (fst p + (fst p + 0))%nat with (2 * fst p)%nat.
    change (toward i p) with (vsub (seg2 (unit_at i) (2 * snd p)) (seg2 (unit_at i) (2 * fst p))).
    generalize (seg2 (unit_at i) (2 * snd p)) (seg2 (unit_at i) (2 * fst p)). intros a b.
    clearbody c d. set (n := between q p). clearbody n.
    unfold vdot, vneg, vscale, vsub. cbn [fst snd]. field. exact Hd.
Qed.

Lemma pair_derive : forall k power r q p us i, 1 < power -> 0 < r (fst p) + r (snd p) ->
  penalty_pair k power r q p = Some us ->
  derivable_pt_lim (fun x => / 2 * k * tpow power (depth r (put q i x) p)) (q i) (- upd_sum us i).
Proof.
  intros k power r q p us i Hp Hr E. destruct (pair_force_value _ _ _ _ _ _ Hp Hr E) as [Hn Hv]. rewrite Hv.
  pose proof (derivable_pt_lim_minus (fun _ => r (fst p) + r (snd p)) _ _ _ _ (derivable_pt_lim_const (r (fst p) + r (snd p)) (q i))
                (norm_derive q i p Hn)) as D1.
  pose proof (derivable_pt_lim_comp _ (tpow power) _ _ _ D1 (tpow_derive power _ Hp)) as D2.
  pose proof (derivable_pt_lim_scal _ (/ 2 * k) _ _ D2) as D3.
  match goal with |- derivable_pt_lim _ _ ?l => match type of D3 with derivable_pt_lim _ _ ?l' => replace l with l' end end.
  - eapply derivable_pt_lim_ext; [|exact D3]. intros z. reflexivity.
  - unfold minus_fct. rewrite put_same. unfold depth. field. apply Rgt_not_eq. apply sqrt_lt_R0. exact Hn.
Qed.

(* ---------- sums ---------- *)
Lemma sum_derive : forall {A} (f : A -> option (list update)) (U : A -> dvec -> option R) q i (l : list A) us,
  (forall a vs, In a l -> f a = Some vs ->
     exists u, (forall x, U a (put q i x) = Some (u x)) /\ derivable_pt_lim u (q i) (- upd_sum vs i)) ->
  collect f l = Some us ->
  exists u, (forall x, osum (fun a => U a (put q i x)) l = Some (u x)) /\ derivable_pt_lim u (q i) (- upd_sum us i).
Proof.
  intros A f U q i l. induction l as [|a l IH]; intros us H E; cbn [collect] in E.
  - injection E as <-. exists (fun _ => 0). split; [reflexivity|].
    change (upd_sum [] i) with 0. rewrite Ropp_0. apply derivable_pt_lim_const.
  - destruct (f a) as [ua|] eqn:Ea; [|discriminate]. destruct (collect f l) as [ub|] eqn:Eb; [|discriminate]. injection E as <-.
    destruct (H a ua (or_introl eq_refl) Ea) as (u & Hu & Du).
    destruct (IH ub ltac:(intros b vs Hb; apply H; right; exact Hb) eq_refl) as (t & Ht & Dt).
    exists (fun x => u x + t x). split.
    + intros x. cbn [osum]. rewrite Hu, Ht. reflexivity.
    + rewrite upd_sum_app, Ropp_plus_distr. exact (derivable_pt_lim_plus _ _ _ _ _ Du Dt).
Qed.

Lemma gravity_derive : forall s n M g q i, (2 <= s)%nat ->
  derivable_pt_lim (fun x => gravity_potential s n M g (put q i x)) (q i) (- upd_sum (gravity_updates s n M g) i).
Proof.
  intros s n M g q i Hs. unfold gravity_potential, gravity_updates. rewrite upd_sum_seq.
  induction n as [|n IH].
  - cbn [rsum]. rewrite Ropp_0. apply derivable_pt_lim_const.
  - cbn [rsum]. rewrite Ropp_plus_distr.
    apply (derivable_pt_lim_plus (fun x => rsum n (fun i0 => - (M (s * i0)%nat * vdot g (body s (put q i x) i0))))); [exact IH|].
    pose proof (derivable_pt_lim_scal _ (- (M (s * n)%nat * fst g)) _ _ (put_derive q i (s * n)%nat (q i))) as D0.
    pose proof (derivable_pt_lim_scal _ (- (M (s * n)%nat * snd g)) _ _ (put_derive q i (s * n + 1)%nat (q i))) as D1.
    pose proof (derivable_pt_lim_plus _ _ _ _ _ D0 D1) as D.
    match goal with |- derivable_pt_lim _ _ ?l => match type of D with derivable_pt_lim _ _ ?l' => replace l with l' end end.
    + eapply derivable_pt_lim_ext; [|exact D]. intros z. unfold plus_fct, mult_real_fct, vdot, body. cbn [fst snd]. ring.
    + unfold Integr_Proofs.comp, vscale. cbn [fst snd]. rewrite (Nat.eqb_sym i), (Nat.eqb_sym i). rewrite Nat.add_0_r.
      destruct (Nat.eqb_spec (s * n) i); destruct (Nat.eqb_spec (s * n + 1) i); try lia; ring.
Qed.

Lemma ball_gradient : forall w q v F i, stiff w -> radii_ok w -> ball_compute_force w q v = Some F ->
  exists U, (forall x, ball_potential w (put q i x) = Some (U x)) /\ derivable_pt_lim U (q i) (- F i).
Proof.
  intros w q v F i Hs Hr E. unfold ball_compute_force in E. destruct (collect _ _) as [us|] eqn:Eu; [|discriminate].
  injection E as <-. rewrite apply_zero. unfold ball_potential.
  apply (sum_derive (force_updates (bl_n w) (bl_M w) (bl_r w) q) (fun f x => force_potential (bl_n w) (bl_M w) (bl_r w) x f)); [|exact Eu].
  intros f vs Hf Ef. destruct f as [g|k power]; cbn [force_updates force_potential] in *.
  - injection Ef as <-. exists (fun x => gravity_potential 2 (bl_n w) (bl_M w) g (put q i x)). split.
    + intros x. rewrite osum_seq. f_equal. unfold gravity_potential. apply rsum_ext. intros j _. rewrite seg2_body. ring.
    + apply (gravity_derive 2). lia.
  - apply (sum_derive (penalty_pair k power (bl_r w) q) (fun p x => penalty_pair_potential k power (bl_r w) x p)); [|exact Ef].
    intros p ws Hp Ep. apply in_pairs_lt in Hp. pose proof (Hs k power Hf) as H1.
    pose proof (Hr (fst p) ltac:(lia)). pose proof (Hr (snd p) ltac:(lia)).
    exists (fun x => / 2 * k * tpow power (depth (bl_r w) (put q i x) p)). split.
    + intros x. apply pair_potential_value; lra.
    + apply pair_derive; [exact H1|lra|exact Ep].
Qed.

Lemma rb2_gradient : forall w q v i,
  exists U, (forall x, rb2_potential w (put q i x) = Some (U x)) /\ derivable_pt_lim U (q i) (- rb2_compute_force w q v i).
Proof.
  intros w q v i. exists (fun x => gravity_potential 3 (rb_n w) (rb_M w) (vsum (rb_gravity w)) (put q i x)). split.
  - intros x. apply rb2_potential_spec.
  - rewrite rb2_force_value.
    assert (forall gs, - upd_sum (flat_map (gravity_updates 3 (rb_n w) (rb_M w)) gs) i
            = - upd_sum (gravity_updates 3 (rb_n w) (rb_M w) (vsum gs)) i) as ->.
    { induction gs as [|g gs IH].
      - cbn [flat_map vsum fold_right]. unfold gravity_updates. rewrite upd_sum_seq. cbn [upd_sum fold_right]. f_equal.
        symmetry. apply rsum_zero. intros j _. unfold Integr_Proofs.comp, vscale, vzero. cbn [fst snd].
        destruct (Nat.eqb _ _); [ring|]. destruct (Nat.eqb _ _); ring.
      - cbn [flat_map vsum fold_right]. fold (vsum gs). rewrite upd_sum_app, Ropp_plus_distr, IH.
        unfold gravity_updates. rewrite !upd_sum_seq, <- Ropp_plus_distr, <- rsum_plus. f_equal. apply rsum_ext. intros j _.
        unfold Integr_Proofs.comp, vscale, vadd. cbn [fst snd]. destruct (Nat.eqb _ _); [ring|]. destruct (Nat.eqb _ _); ring. }
    apply gravity_derive. lia.
Qed.

(* the force exists unless two centres coincide *)
Lemma collect_some : forall {A B} (f : A -> option (list B)) l, (forall a, In a l -> exists us, f a = Some us) -> exists us, collect f l = Some us.
Proof.
  intros A B f l. induction l as [|a l IH]; intros H; [exists []; reflexivity|].
  destruct (H a (or_introl eq_refl)) as [u Eu]. destruct (IH ltac:(intros b Hb; apply H; right; exact Hb)) as [v Ev].
  cbn [collect]. rewrite Eu, Ev. exists (u ++ v). reflexivity.
Qed.

Lemma ball_force_defined : forall w q v, stiff w ->
  (forall i j, (i < j < bl_n w)%nat -> body 2 q i <> body 2 q j) -> exists F, ball_compute_force w q v = Some F.
Proof.
  intros w q v Hs Hd. unfold ball_compute_force.
  destruct (collect_some (force_updates (bl_n w) (bl_M w) (bl_r w) q) (bl_forces w)) as [us ->]; [|eexists; reflexivity].
  intros [g|k power] Hf; cbn [force_updates]; [eexists; reflexivity|]. apply collect_some. intros p Hp. apply in_pairs_lt in Hp.
  unfold penalty_pair. destruct (Rlt_dec _ _); [eexists; reflexivity|]. destruct (Req_EM_T _ 0) as [Hz|Hz].
  - exfalso. apply (Hd (fst p) (snd p) Hp). fold (between q p) in Hz. apply sqrt_eq_0 in Hz; [|apply dot_self].
    assert (fst (between q p) = 0 /\ snd (between q p) = 0) as [A B].
    { unfold vdot in Hz. pose proof (Rle_0_sqr (fst (between q p))) as H1. pose proof (Rle_0_sqr (snd (between q p))) as H2. unfold Rsqr in *.
      split; apply Rsqr_0_uniq; unfold Rsqr; lra. }
    unfold between, vsub, seg2 in A, B. cbn [fst snd] in A, B. rewrite Nat.add_0_r in A. rewrite Nat.add_0_r in A.
    unfold body. f_equal; lra.
  - rewrite tpow_cpow by (pose proof (Hs k power Hf); lra). eexists. reflexivity.
Qed.
