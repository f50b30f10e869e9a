(* The contacts that implement resolveImpact meet the conditions of the Gauss-Seidel lemmas. *)
From Coq Require Import List Reals Arith Bool Lia Lra Psatz.
From Verif Require Import Outcome Ccd_Model Lin_Model ContactBall_Model ContactRb3_Model Lin_Proofs Contact_Spec Contact_Proofs Jac_Proofs
  Impact_Model Impact_Spec Impact_Proofs.
Import ListNotations.
Open Scope R_scope.

(* ---------- balls ---------- *)
Ltac eqb_case := repeat match goal with |- context [Nat.eqb ?a ?b] => destruct (Nat.eqb_spec a b); try lia end.

Definition b_res (m : dvec) : R -> R -> ball_contact -> dvec -> outcome (dvec * R) := fun CoR nd c v => b_resolveImpact CoR m nd c v.

Lemma ball_diag_pos : forall n m k, ball_masses n m -> (k < 2 * n)%nat -> 0 < m k.
Proof.
  intros n m k H Hk. pose proof (Nat.div_mod k 2 ltac:(lia)) as E. pose proof (Nat.mod_upper_bound k 2 ltac:(lia)).
  destruct (H (k / 2)%nat ltac:(lia)) as [H1 H2].
  destruct (k mod 2)%nat as [|[|]] eqn:M; [| |lia].
  - rewrite E, Nat.add_0_r. exact H1.
  - rewrite E, H2. exact H1.
Qed.

Lemma pair_gram : forall (m : dvec) i j x y, i <> j -> m (2 * i + 1)%nat = m (2 * i)%nat -> m (2 * j + 1)%nat = m (2 * j)%nat ->
  m (2 * i)%nat <> 0 -> m (2 * j)%nat <> 0 -> x * x + y * y = 1 ->
  gram m (ins2 (2 * i) (x, y) ++ ins2 (2 * j) (vneg (x, y))) = 1 / m (2 * i)%nat + 1 / m (2 * j)%nat.
Proof.
  intros m i j x y Hij Ei Ej Zi Zj H. unfold gram, ins2, vneg, col_dot. cbn [app fold_right fst snd].
  unfold entry. cbn [fold_right fst snd].
  rewrite !Nat.add_0_r. eqb_case.
  rewrite Ei, Ej.
  transitivity ((x * x + y * y) * (1 / m (2 * i)%nat + 1 / m (2 * j)%nat)); [field; auto|]. rewrite H. ring.
Qed.

Lemma pair_moved : forall n (m : dvec) i j nn a v, (i < n)%nat -> (j < n)%nat -> i <> j -> ball_masses n m ->
  moved (2 * n) m (ins2 (2 * i) nn ++ ins2 (2 * j) (vneg nn)) a v
    (add_seg2 (add_seg2 v (2 * i) (vscale (a / m (2 * i)%nat) nn)) (2 * j) (vneg (vscale (a / m (2 * j)%nat) nn))).
Proof.
  intros n m i j [x y] a v Hi Hj Hij HM. destruct (HM i Hi) as [Pi Ei]. destruct (HM j Hj) as [Pj Ej].
  unfold moved, add_seg2, ins2, vneg, vscale, entry. cbn [app fold_right fst snd]. rewrite !Nat.add_0_r.
  split; intros k Hk.
  - pose proof (ball_diag_pos n m k HM Hk). eqb_case; subst; rewrite ?Ei, ?Ej; field; lra.
  - eqb_case. reflexivity.
Qed.

Lemma ball_good : forall n m c, ball_masses n m -> ball_pair n c -> good (2 * n) m b_evalNdotV (b_res m) b_gradg b_gdotN c.
Proof.
  intros n m c HM Hc.
  assert (K : forall i j nn, (i < n)%nat -> (j < n)%nat -> i <> j -> vdot nn nn = 1 ->
    Forall (fun e => (fst e < 2 * n)%nat) (ins2 (2 * i) nn ++ ins2 (2 * j) (vneg nn))
    /\ gram m (ins2 (2 * i) nn ++ ins2 (2 * j) (vneg nn)) = 1 / m (2 * i)%nat + 1 / m (2 * j)%nat
    /\ 0 < 1 / m (2 * i)%nat + 1 / m (2 * j)%nat).
  { intros i j [x y] Hi Hj Hij Hn. destruct (HM i Hi) as [Pi Ei]. destruct (HM j Hj) as [Pj Ej].
    split; [|split].
    - unfold ins2. repeat constructor; cbn [fst]; lia.
    - apply pair_gram; auto; lra.
    - assert (0 < / m (2 * i)%nat) by (apply Rinv_0_lt_compat; lra). assert (0 < / m (2 * j)%nat) by (apply Rinv_0_lt_compat; lra). lra. }
  assert (HN : forall v, b_evalNdotV c v = col_dot (b_gradg c) v + b_gdotN c).
  { intros v. rewrite b_ndotv_relvel. symmetry. apply b_gradg_relvel. }
  destruct c as [i j nn r0 r1 t|i j nn r0 r1 kick t| |]; try contradiction Hc; destruct Hc as (Hi & Hj & Hij & Hn);
    destruct (K i j nn Hi Hj Hij Hn) as (K1 & K2 & K3); unfold good; cbn [b_gradg];
    (split; [exact K1|]); (split; [exact HN|]); (split; [rewrite K2; exact K3|]);
    intros CoR v; rewrite K2; eexists; (split; [reflexivity|]); cbv zeta;
    apply pair_moved; assumption.
Qed.

(* ---------- spheres and planes in 3D ---------- *)
Definition r3_res (m : dvec) : R -> R -> rb3_contact -> dvec -> outcome (dvec * R) := fun CoR nd c v => rb3_resolveImpact CoR m nd c v.
Definition rb3_grad (c : rb3_contact) : col :=
  match c with
  | SphereSphere i j n _ _ _ => ins3 (3 * i) n ++ ins3 (3 * j) (neg3 n)
  | PlaneSphere i _ p => ins3 (3 * i) (tp_n p)
  | _ => []
  end.
Definition rb3_off (q : dvec) (c : rb3_contact) : R := match rb3_gdotN q c with Ok k => k | _ => 0 end.

Lemma body_diag_pos : forall n m k, body_masses n m -> (k < 3 * n)%nat -> 0 < m k.
Proof.
  intros n m k H Hk. pose proof (Nat.div_mod k 3 ltac:(lia)) as E. pose proof (Nat.mod_upper_bound k 3 ltac:(lia)).
  destruct (H (k / 3)%nat ltac:(lia)) as [H1 [H2 H3]].
  destruct (k mod 3)%nat as [|[|[|]]] eqn:M; [| | |lia].
  - rewrite E, Nat.add_0_r. exact H1.
  - rewrite E, H2. exact H1.
  - rewrite E, H3. exact H1.
Qed.

Lemma pair3_gram : forall (m : dvec) i j x y z, i <> j ->
  m (3 * i + 1)%nat = m (3 * i)%nat -> m (3 * i + 2)%nat = m (3 * i)%nat ->
  m (3 * j + 1)%nat = m (3 * j)%nat -> m (3 * j + 2)%nat = m (3 * j)%nat ->
  m (3 * i)%nat <> 0 -> m (3 * j)%nat <> 0 -> x * x + y * y + z * z = 1 ->
  gram m (ins3 (3 * i) (V3 x y z) ++ ins3 (3 * j) (neg3 (V3 x y z))) = 1 / m (3 * i)%nat + 1 / m (3 * j)%nat.
Proof.
  intros m i j x y z Hij Ei Ei2 Ej Ej2 Zi Zj H. unfold gram, ins3, neg3, col_dot. cbn [app fold_right fst snd c0 c1 c2].
  unfold entry. cbn [fold_right fst snd].
  rewrite !Nat.add_0_r. eqb_case.
  rewrite Ei, Ej, Ei2, Ej2.
  transitivity ((x * x + y * y + z * z) * (1 / m (3 * i)%nat + 1 / m (3 * j)%nat)); [field; auto|]. rewrite H. ring.
Qed.
Lemma one3_gram : forall (m : dvec) i x y z,
  m (3 * i + 1)%nat = m (3 * i)%nat -> m (3 * i + 2)%nat = m (3 * i)%nat -> m (3 * i)%nat <> 0 -> x * x + y * y + z * z = 1 ->
  gram m (ins3 (3 * i) (V3 x y z)) = 1 / m (3 * i)%nat.
Proof.
  intros m i x y z Ei Ei2 Zi H. unfold gram, ins3, col_dot. cbn [fold_right fst snd c0 c1 c2].
  unfold entry. cbn [fold_right fst snd]. rewrite !Nat.add_0_r. eqb_case. rewrite Ei, Ei2.
  transitivity ((x * x + y * y + z * z) * (1 / m (3 * i)%nat)); [field; auto|]. rewrite H. ring.
Qed.

Lemma pair3_moved : forall n (m : dvec) i j nn a v, (i < n)%nat -> (j < n)%nat -> i <> j -> body_masses n m ->
  moved (3 * n) m (ins3 (3 * i) nn ++ ins3 (3 * j) (neg3 nn)) a v
    (add_seg3 (add_seg3 v (3 * i) (scale3 (/ m (3 * i)%nat) (scale3 a nn))) (3 * j) (neg3 (scale3 (/ m (3 * j)%nat) (scale3 a nn)))).
Proof.
  intros n m i j [x y z] a v Hi Hj Hij HM. destruct (HM i Hi) as [Pi [Ei Ei2]]. destruct (HM j Hj) as [Pj [Ej Ej2]].
  unfold moved, add_seg3, ins3, neg3, scale3, entry. cbn [app fold_right fst snd c0 c1 c2]. rewrite !Nat.add_0_r.
  split; intros k Hk.
  - pose proof (body_diag_pos n m k HM Hk). eqb_case; subst; rewrite ?Ei, ?Ei2, ?Ej, ?Ej2; field; lra.
  - eqb_case. reflexivity.
Qed.
Lemma one3_moved : forall n (m : dvec) i nn s v, (i < n)%nat -> body_masses n m ->
  moved (3 * n) m (ins3 (3 * i) nn) (s * m (3 * i)%nat) v (add_seg3 v (3 * i) (scale3 s nn)).
Proof.
  intros n m i [x y z] s v Hi HM. destruct (HM i Hi) as [Pi [Ei Ei2]].
  unfold moved, add_seg3, ins3, scale3, entry. cbn [fold_right fst snd c0 c1 c2]. rewrite !Nat.add_0_r.
  split; intros k Hk.
  - pose proof (body_diag_pos n m k HM Hk). eqb_case; subst; rewrite ?Ei, ?Ei2; field; lra.
  - eqb_case. reflexivity.
Qed.

Lemma sphere_good : forall nb m q c, body_masses nb m -> sphere_contact nb c ->
  good (3 * nb) m (rb3_ndotv_or_0 nb q) (r3_res m) rb3_grad (rb3_off q) c.
Proof.
  intros nb m q c HM Hc. destruct c as [i j n p r0 r1| | | | | | |i r p| |]; try contradiction Hc.
  - destruct Hc as (Hi & Hj & Hij & Hn). destruct n as [x y z]. unfold dot3 in Hn. cbn [c0 c1 c2] in Hn.
    destruct (HM i Hi) as [Pi [Ei Ei2]]. destruct (HM j Hj) as [Pj [Ej Ej2]].
    pose proof (pair3_gram m i j x y z Hij Ei Ei2 Ej Ej2 ltac:(lra) ltac:(lra) Hn) as HW.
    assert (H1 : 0 < / m (3 * i)%nat) by (apply Rinv_0_lt_compat; lra). assert (H2 : 0 < / m (3 * j)%nat) by (apply Rinv_0_lt_compat; lra).
    unfold good. cbn [rb3_grad]. split; [|split; [|split]].
    + unfold ins3. repeat constructor; cbn [fst]; lia.
    + intros v. unfold rb3_ndotv_or_0, rb3_off. cbn [rb3_evalNdotV rb3_gdotN]. symmetry.
      apply (rb3_gradg_ndotv nb q (SphereSphere i j (V3 x y z) p r0 r1) v); reflexivity.
    + rewrite HW. lra.
    + intros CoR v. rewrite HW. unfold r3_res, rb3_ndotv_or_0. cbn [rb3_evalNdotV rb3_resolveImpact]. cbv zeta.
      set (d := dot3 _ _).
      assert (EA : - (1 + CoR) * d * m (3 * i)%nat * m (3 * j)%nat / (m (3 * i)%nat + m (3 * j)%nat)
                 = - (1 + CoR) * d / (1 / m (3 * i)%nat + 1 / m (3 * j)%nat)) by (field; lra).
      rewrite EA. eexists. split; [reflexivity|]. apply pair3_moved; assumption.
  - destruct Hc as (Hi & Hn). destruct p as [px pn pv po]. destruct pn as [x y z]. cbn [tp_n] in *. unfold dot3 in Hn. cbn [c0 c1 c2] in Hn.
    destruct (HM i Hi) as [Pi [Ei Ei2]].
    pose proof (one3_gram m i x y z Ei Ei2 ltac:(lra) Hn) as HW.
    assert (H1 : 0 < / m (3 * i)%nat) by (apply Rinv_0_lt_compat; lra).
    unfold good. cbn [rb3_grad tp_n]. split; [|split; [|split]].
    + unfold ins3. repeat constructor; cbn [fst]; lia.
    + intros v. unfold rb3_ndotv_or_0, rb3_off. cbn [rb3_evalNdotV rb3_gdotN]. symmetry.
      apply (rb3_gradg_ndotv nb q (PlaneSphere i r (Rb3Plane px (V3 x y z) pv po)) v); reflexivity.
    + rewrite HW. lra.
    + intros CoR v. rewrite HW. unfold r3_res, rb3_ndotv_or_0. cbn [rb3_evalNdotV rb3_resolveImpact tp_n]. cbv zeta.
      set (d := dot3 _ _).
      replace (- (1 + CoR) * d / (1 / m (3 * i)%nat)) with (- (1 + CoR) * d * m (3 * i)%nat) by (field; lra).
      eexists. split; [reflexivity|]. apply one3_moved; assumption.
Qed.
