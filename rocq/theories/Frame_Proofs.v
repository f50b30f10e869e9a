From Coq Require Import List Reals Arith Bool Lra Lia.
From Verif Require Import Outcome Ccd_Model ContactBall_Model ContactRb2_Model ContactRb3_Model Rot_Model Rot_Spec Rot_Alg Lin_Model Lin_Proofs
  Frame_Model Frame_Spec Geom_Circle Geom_Space.
From Verif Require Cache_Model Cache_Spec Cache_Thms.
Import ListNotations.
Open Scope R_scope.

Lemma Ok_inj : forall {A} (x y : A), Ok x = Ok y -> x = y.
Proof. intros A x y E. congruence. Qed.
Lemma normalized3_scale : forall a, 0 < dot3 a a -> normalized3 a = scale3 (/ sqrt (dot3 a a)) a.
Proof.
  intros a H. unfold normalized3. destruct (Rlt_dec 0 (dot3 a a)) as [K|K]; [|lra].
  apply v3_ext; unfold scale3; cbn [c0 c1 c2]; field; apply Rgt_not_eq, sqrt_lt_R0; exact H.
Qed.
Lemma normalized3_unit : forall a, 0 < dot3 a a -> dot3 (normalized3 a) (normalized3 a) = 1.
Proof.
  intros a H. rewrite (normalized3_scale a H), dot_scale_sq.
  destruct (sqrt_pos_sq _ H) as [Sp Ss]. rewrite <- Ss at 3. field. lra.
Qed.
Lemma normalized3_of_unit : forall a, dot3 a a = 1 -> normalized3 a = a.
Proof.
  intros a H. rewrite normalized3_scale by lra. rewrite H, sqrt_1. apply v3_ext; unfold scale3; cbn [c0 c1 c2]; field.
Qed.
Lemma normalized3_neg : forall a, 0 < dot3 a a -> normalized3 (scale3 (-1) a) = scale3 (-1) (normalized3 a).
Proof.
  intros a H. assert (E : dot3 (scale3 (-1) a) (scale3 (-1) a) = dot3 a a) by (rewrite dot_scale_sq; ring).
  rewrite normalized3_scale by (rewrite E; exact H). rewrite E, (normalized3_scale a H).
  apply v3_ext; unfold scale3; cbn [c0 c1 c2]; ring.
Qed.
Lemma dot3_scale_l : forall k a b, dot3 (scale3 k a) b = k * dot3 a b.
Proof. intros. unfold dot3, scale3. cbn [c0 c1 c2]. ring. Qed.
Lemma dot3_scale_r : forall k a b, dot3 a (scale3 k b) = k * dot3 a b.
Proof. intros. unfold dot3, scale3. cbn [c0 c1 c2]. ring. Qed.
Lemma dot3_sym : forall a b, dot3 a b = dot3 b a.
Proof. intros. unfold dot3. ring. Qed.

Lemma tangential_perp : forall n u, dot3 n n = 1 -> dot3 n (tangential n u) = 0.
Proof.
  intros n u H. transitivity (dot3 n u - dot3 u n * dot3 n n).
  - unfold tangential, dot3, sub3, scale3. cbn [c0 c1 c2]. ring.
  - rewrite H, (dot3_sym u n). ring.
Qed.
(* the squared length of n x u is that of the tangential part *)
Lemma cross_tangential : forall n u, dot3 n n = 1 -> dot3 (cross3 n u) (cross3 n u) = dot3 (tangential n u) (tangential n u).
Proof.
  intros n u H. transitivity (dot3 n n * dot3 u u - dot3 n u * dot3 n u).
  - unfold dot3, cross3. cbn [c0 c1 c2]. ring.
  - transitivity (dot3 u u - 2 * dot3 u n * dot3 n u + dot3 u n * dot3 u n * dot3 n n).
    + rewrite H, (dot3_sym u n). ring.
    + unfold tangential, dot3, sub3, scale3. cbn [c0 c1 c2]. ring.
Qed.
Lemma cross_sym_sq : forall n u, dot3 (cross3 u n) (cross3 u n) = dot3 (cross3 n u) (cross3 n u).
Proof. intros. unfold dot3, cross3. cbn [c0 c1 c2]. ring. Qed.

Lemma abs_le_sq : forall a b, Rabs a <= Rabs b -> a * a <= b * b.
Proof.
  intros a b H. rewrite <- (Rabs_pos_eq (a * a)), <- (Rabs_pos_eq (b * b)) by (apply sq_nn). rewrite !Rabs_mult.
  apply Rmult_le_compat; try apply Rabs_pos; exact H.
Qed.
Lemma orthogonal_vector_ok : forall n, dot3 n n = 1 ->
  dot3 (orthogonal_vector n) (orthogonal_vector n) = 1 /\ dot3 n (orthogonal_vector n) = 0.
Proof.
  intros n H. unfold orthogonal_vector.
  match goal with |- context [if ?b then V3 1 0 0 else ?e] => set (o := if b then V3 1 0 0 else e) end.
  assert (O : dot3 o o = 1 /\ dot3 n o * dot3 n o <= / 2).
  { unfold o. clear o. destruct n as [x y z]. unfold dot3 in *. cbn [c0 c1 c2] in *.
    destruct (Rltb_spec (Rabs y) (Rabs x)) as [A|A]; cbn [negb andb].
    - destruct (Rltb_spec (Rabs z) (Rabs y)) as [B|B]; cbn [negb c0 c1 c2].
      + assert (z * z <= y * y) by (apply abs_le_sq; lra). pose proof (sq_nn x). split; [ring|lra].
      + assert (y * y <= z * z) by (apply abs_le_sq; lra). pose proof (sq_nn x). split; [ring|lra].
    - destruct (Rltb_spec (Rabs z) (Rabs x)) as [B|B]; cbn [negb].
      + destruct (Rltb_spec (Rabs z) (Rabs y)) as [C|C]; cbn [negb c0 c1 c2].
        * assert (z * z <= y * y) by (apply abs_le_sq; lra). pose proof (sq_nn x). split; [ring|lra].
        * assert (y * y <= z * z) by (apply abs_le_sq; lra). pose proof (sq_nn x). split; [ring|lra].
      + cbn [c0 c1 c2]. assert (x * x <= y * y) by (apply abs_le_sq; lra). pose proof (sq_nn z). split; [ring|lra]. }
  destruct O as [O1 O2]. clearbody o.
  assert (P : dot3 (sub3 o (scale3 (dot3 n o) n)) (sub3 o (scale3 (dot3 n o) n)) = 1 - dot3 n o * dot3 n o).
  { transitivity (dot3 o o - 2 * dot3 n o * dot3 n o + dot3 n o * dot3 n o * dot3 n n).
    - unfold dot3, sub3, scale3. cbn [c0 c1 c2]. ring.
    - rewrite O1, H. ring. }
  split.
  - apply normalized3_unit. rewrite P. lra.
  - rewrite normalized3_scale by (rewrite P; lra). rewrite dot3_scale_r.
    replace (dot3 n (sub3 o (scale3 (dot3 n o) n))) with 0; [ring|].
    transitivity (dot3 n o - dot3 n o * dot3 n n); [rewrite H; ring|]. unfold dot3, sub3, scale3. cbn [c0 c1 c2]. ring.
Qed.

(* the second vector of the frame, before it is turned round *)
Lemma tangent_ok : forall n u, dot3 n n = 1 ->
  let s := if Rltb (dot3 (cross3 n u) (cross3 n u)) slip_eps then orthogonal_vector n else normalized3 (tangential n u) in
  dot3 s s = 1 /\ dot3 n s = 0 /\ (sliding n u -> exists k, 0 < k /\ tangential n u = scale3 k s).
Proof.
  intros n u H s. unfold s. rewrite (cross_tangential n u H). destruct (Rltb_spec (dot3 (tangential n u) (tangential n u)) slip_eps) as [L|L].
  - destruct (orthogonal_vector_ok n H) as [A B]. split; [exact A|]. split; [exact B|].
    intros Sl. unfold sliding in Sl. unfold slip_eps in L. lra.
  - assert (P : 0 < dot3 (tangential n u) (tangential n u)) by (unfold slip_eps in L; lra).
    split; [apply normalized3_unit; exact P|]. rewrite (normalized3_scale _ P). split.
    + rewrite dot3_scale_r, tangential_perp by exact H. ring.
    + intros _. destruct (sqrt_pos_sq _ P) as [Sp _]. exists (sqrt (dot3 (tangential n u) (tangential n u))). split; [exact Sp|].
      apply v3_ext; unfold scale3; cbn [c0 c1 c2]; field; lra.
Qed.

Lemma frame_from : forall n s, dot3 n n = 1 -> dot3 s s = 1 -> dot3 n s = 0 -> right_handed3 n s (normalized3 (cross3 n s)).
Proof.
  intros n s N S P.
  assert (U : dot3 (cross3 n s) (cross3 n s) = 1).
  { transitivity (dot3 n n * dot3 s s - dot3 n s * dot3 n s); [unfold dot3, cross3; cbn [c0 c1 c2]; ring|rewrite N, S, P; ring]. }
  rewrite (normalized3_of_unit _ U). unfold right_handed3. repeat (split; [assumption|]). split; [|split; [|reflexivity]];
  unfold dot3, cross3; cbn [c0 c1 c2]; ring.
Qed.

Theorem contact_basis_ok : forall n u a s t, dot3 n n = 1 -> contact_basis n u = (a, s, t) ->
  a = n /\ right_handed3 n s t /\ (sliding n u -> opposes n u s /\ dot3 t u = 0).
Proof.
  intros n u a s t H E. unfold contact_basis in E. fold (tangential n u) in E.
  pose proof (tangent_ok n u H) as K. cbv zeta in K.
  set (s0 := if Rltb (dot3 (cross3 n u) (cross3 n u)) slip_eps then orthogonal_vector n else normalized3 (tangential n u)) in *.
  destruct K as (S0 & P0 & Sl). inversion E; subst a s t. clear E.
  assert (Rh : right_handed3 n (scale3 (-1) s0) (normalized3 (cross3 n (scale3 (-1) s0)))).
  { apply frame_from; [exact H|rewrite dot_scale_sq, S0; ring|rewrite dot3_scale_r, P0; ring]. }
  split; [reflexivity|]. split; [exact Rh|]. intros Hs. destruct (Sl Hs) as (k & Kp & Ek). split.
  - exists k. split; [exact Kp|]. rewrite Ek. apply v3_ext; unfold scale3; cbn [c0 c1 c2]; ring.
  - destruct Rh as (_ & _ & _ & _ & Q1 & Q2 & _). set (t := normalized3 (cross3 n (scale3 (-1) s0))) in *.
    assert (Eu : u = add3 (tangential n u) (scale3 (dot3 u n) n)).
    { apply v3_ext; unfold tangential, add3, sub3, scale3; cbn [c0 c1 c2]; ring. }
    rewrite Eu, Ek. transitivity (- k * dot3 (scale3 (-1) s0) t + dot3 u n * dot3 n t).
    + unfold dot3, add3, scale3. cbn [c0 c1 c2]. ring.
    + rewrite Q1, Q2. ring.
Qed.

Lemma perp_frame : forall n, vdot n n = 1 -> right_handed2 n (vperp n).
Proof.
  intros [x y] H. unfold right_handed2, vperp, vdot, vcross in *. cbn [fst snd] in *. repeat split; try lra; ring.
Qed.

(* a turn about n of a vector of the contact plane *)
Lemma turn_plane : forall a n v, dot3 n v = 0 ->
  mul3 (angle_axis a n) v = add3 (scale3 (cos a) v) (scale3 (sin a) (cross3 n v)).
Proof.
  intros a n v H. transitivity (add3 (scale3 ((1 - cos a) * dot3 n v) n) (add3 (scale3 (cos a) v) (scale3 (sin a) (cross3 n v)))).
  - destruct n as [x y z], v as [p q r]. unfold angle_axis, mul3, add3, scale3, cross3, dot3. cbn [row0 row1 row2_ c0 c1 c2]. f_equal; ring.
  - rewrite H. apply v3_ext; unfold add3, scale3; cbn [c0 c1 c2]; ring.
Qed.

Theorem friction_disk_ok : forall n u count a s t, dot3 n n = 1 -> contact_basis n u = (a, s, t) ->
  length (friction_disk n u count) = count
  /\ forall i, (i < count)%nat ->
     nth i (friction_disk n u count) zero3
     = add3 (scale3 (cos (2 * PI * INR i / INR count)) s) (scale3 (sin (2 * PI * INR i / INR count)) t).
Proof.
  intros n u count a s t H E.
  destruct (contact_basis_ok n u a s t H E) as (_ & (_ & S1 & T1 & Pns & _ & _ & Ct) & _).
  unfold contact_basis in E. fold (tangential n u) in E. pose proof (tangent_ok n u H) as K. cbv zeta in K.
  set (s0 := if Rltb (dot3 (cross3 n u) (cross3 n u)) slip_eps then orthogonal_vector n else normalized3 (tangential n u)) in *.
  destruct K as (S0 & P0 & _). assert (E2 : scale3 (-1) s0 = s) by exact (f_equal (fun p => snd (fst p)) E). clear E.
  (* the first direction is s *)
  assert (V0 : let t0 := if Rltb (dot3 (cross3 u n) (cross3 u n)) slip_eps then orthogonal_vector n else u in
    normalized3 (sub3 (scale3 (-1) t0) (scale3 (dot3 n (scale3 (-1) t0)) n)) = s).
  { cbv zeta. rewrite <- E2. unfold s0. rewrite cross_sym_sq, (cross_tangential n u H).
    destruct (Rltb_spec (dot3 (tangential n u) (tangential n u)) slip_eps) as [L|L].
    - destruct (orthogonal_vector_ok n H) as [A B].
      replace (sub3 (scale3 (-1) (orthogonal_vector n)) (scale3 (dot3 n (scale3 (-1) (orthogonal_vector n))) n))
        with (scale3 (-1) (orthogonal_vector n)).
      + apply normalized3_of_unit. rewrite dot_scale_sq, A. ring.
      + rewrite dot3_scale_r, B. apply v3_ext; unfold sub3, scale3; cbn [c0 c1 c2]; ring.
    - assert (P : 0 < dot3 (tangential n u) (tangential n u)) by (unfold slip_eps in L; lra).
      rewrite <- (normalized3_neg _ P). f_equal. unfold tangential. rewrite dot3_scale_r, (dot3_sym n u).
      apply v3_ext; unfold sub3, scale3; cbn [c0 c1 c2]; ring. }
  cbv zeta in V0. unfold friction_disk, orthogonal_vectors. cbv zeta. rewrite V0. clear V0 E2.
  split; [rewrite map_length, seq_length; reflexivity|].
  intros i Hi.
  set (f := fun i0 : nat => match i0 with O => s | S _ => mul3 (angle_axis (INR i0 * (2 * PI / INR count)) n) s end).
  rewrite (nth_indep _ zero3 (f 0%nat)) by (rewrite map_length, seq_length; exact Hi).
  rewrite (map_nth f), seq_nth by exact Hi. cbn [Nat.add].
  assert (Cn : INR count <> 0) by (apply not_0_INR; lia).
  destruct i as [|i].
  - unfold f. cbn [INR]. replace (2 * PI * 0 / INR count) with 0 by (field; exact Cn). rewrite cos_0, sin_0.
    apply v3_ext; unfold add3, scale3; cbn [c0 c1 c2]; ring.
  - unfold f. rewrite turn_plane by exact Pns. rewrite <- Ct.
    replace (INR (S i) * (2 * PI / INR count)) with (2 * PI * INR (S i) / INR count) by (field; exact Cn). reflexivity.
Qed.

Lemma disk_member : forall n s t a, right_handed3 n s t ->
  let d := add3 (scale3 (cos a) s) (scale3 (sin a) t) in dot3 d d = 1 /\ dot3 n d = 0.
Proof.
  intros n s t a (N & S1 & T1 & P1 & P2 & P3 & _) d. unfold d. split.
  - transitivity (cos a * cos a * dot3 s s + 2 * cos a * sin a * dot3 s t + sin a * sin a * dot3 t t).
    + unfold dot3, add3, scale3. cbn [c0 c1 c2]. ring.
    + rewrite S1, T1, P3. pose proof (sin2_cos2 a) as Q. unfold Rsqr in Q. lra.
  - transitivity (cos a * dot3 n s + sin a * dot3 n t).
    + unfold dot3, add3, scale3. cbn [c0 c1 c2]. ring.
    + rewrite P1, P2. ring.
Qed.

Theorem friction_disk_members : forall n u count, dot3 n n = 1 ->
  length (friction_disk n u count) = count
  /\ (forall d, In d (friction_disk n u count) -> dot3 d d = 1 /\ dot3 n d = 0)
  /\ (forall d, Nat.Even count -> In d (friction_disk n u count) -> In (neg3 d) (friction_disk n u count))
  /\ (forall e, (1 <= count)%nat -> sliding n u -> dot3 n e = 0 -> dot3 e e = 1 ->
      dot3 u (nth 0 (friction_disk n u count) zero3) <= dot3 u e)
  .
Proof.
  intros n u count H. destruct (contact_basis n u) as [[a s] t] eqn:E.
  destruct (friction_disk_ok n u count a s t H E) as [Ln Nt]. destruct (contact_basis_ok n u a s t H E) as (_ & Rh & Sl).
  split; [exact Ln|]. split; [|split].
  - intros d Hd. destruct (In_nth _ _ zero3 Hd) as (i & Hi & <-). rewrite Ln in Hi. rewrite (Nt i Hi). apply disk_member. exact Rh.
  - intros d [h Ev] Hd. destruct (In_nth _ _ zero3 Hd) as (i & Hi & <-). rewrite Ln in Hi. rewrite (Nt i Hi).
    assert (Hh : (0 < h)%nat) by lia. assert (Cn : INR count <> 0) by (apply not_0_INR; lia).
    assert (Hn : INR h <> 0) by (apply not_0_INR; lia).
    assert (Ec : INR count = 2 * INR h) by (rewrite Ev, mult_INR; reflexivity).
    set (j := if (i <? h)%nat then (i + h)%nat else (i - h)%nat).
    assert (Hj : (j < count)%nat /\ cos (2 * PI * INR j / INR count) = - cos (2 * PI * INR i / INR count)
      /\ sin (2 * PI * INR j / INR count) = - sin (2 * PI * INR i / INR count)).
    { unfold j. destruct (Nat.ltb_spec i h) as [L|L].
      - split; [lia|]. rewrite plus_INR. replace (2 * PI * (INR i + INR h) / INR count) with (2 * PI * INR i / INR count + PI).
        + split; [apply neg_cos|apply neg_sin].
        + rewrite Ec. field. exact Hn.
      - split; [lia|]. rewrite minus_INR by exact L.
        replace (2 * PI * INR i / INR count) with (2 * PI * (INR i - INR h) / INR count + PI).
        + rewrite neg_cos, neg_sin. split; ring.
        + rewrite Ec. field. exact Hn. }
    destruct Hj as (Hj & C & Sn).
    replace (neg3 _) with (nth j (friction_disk n u count) zero3); [apply nth_In; rewrite Ln; exact Hj|].
    rewrite (Nt j Hj), C, Sn. apply v3_ext; unfold neg3, add3, scale3; cbn [c0 c1 c2]; ring.
  - intros e Hc Hs P U. destruct (Sl Hs) as [(k & Kp & Ek) _]. rewrite (Nt 0%nat) by lia.
    assert (Cn : INR count <> 0) by (apply not_0_INR; lia).
    cbn [INR]. replace (2 * PI * 0 / INR count) with 0 by (field; exact Cn). rewrite cos_0, sin_0.
    destruct Rh as (_ & S1 & _ & P1 & _).
    assert (Eu : u = add3 (scale3 (- k) s) (scale3 (dot3 u n) n)).
    { rewrite <- Ek. apply v3_ext; unfold tangential, add3, sub3, scale3; cbn [c0 c1 c2]; ring. }
    assert (A : dot3 u (add3 (scale3 1 s) (scale3 0 t)) = - k).
    { rewrite Eu at 1. transitivity (- k * dot3 s s + dot3 u n * dot3 n s).
      - unfold dot3, add3, scale3. cbn [c0 c1 c2]. ring.
      - rewrite S1, P1. ring. }
    assert (B : dot3 u e = - k * dot3 s e).
    { rewrite Eu at 1. transitivity (- k * dot3 s e + dot3 u n * dot3 n e).
      - unfold dot3, add3, scale3. cbn [c0 c1 c2]. ring.
      - rewrite P. ring. }
    rewrite A, B. assert (C : dot3 s e <= 1).
    { pose proof (dot3_nn (sub3 s e)) as Q. replace (dot3 (sub3 s e) (sub3 s e)) with (dot3 s s - 2 * dot3 s e + dot3 e e) in Q.
      - rewrite S1, U in Q. lra.
      - unfold dot3, sub3. cbn [c0 c1 c2]. ring. }
    apply Rminus_le. replace (- k - - k * dot3 s e) with (- (k * (1 - dot3 s e))) by ring.
    assert (0 <= k * (1 - dot3 s e)) by (apply Rmult_le_pos; lra). lra.
Qed.

(* the assembled matrices *)
Theorem rb3_bases_ok : forall nb q v cs bs,
  (forall c, In c cs -> dot3 (rb3_normal q c) (rb3_normal q c) = 1) ->
  rb3_contact_bases nb q v cs = Ok bs ->
  length bs = (3 * length cs)%nat
  /\ forall k c, nth_error cs k = Some c ->
     nth (3 * k) bs zero3 = rb3_normal q c
     /\ right_handed3 (nth (3 * k) bs zero3) (nth (3 * k + 1) bs zero3) (nth (3 * k + 2) bs zero3)
     /\ forall u, rb3_relvel nb q c v = Ok u -> sliding (rb3_normal q c) u -> opposes (rb3_normal q c) u (nth (3 * k + 1) bs zero3).
Proof.
  intros nb q v cs. induction cs as [|c cs IH]; intros bs U E; cbn [rb3_contact_bases] in E.
  - injection E as <-. split; [reflexivity|]. intros k c K. destruct k; discriminate.
  - apply obind_Ok_inv in E. destruct E as ([[n s] t] & E1 & E). apply obind_Ok_inv in E. destruct E as (rest & E2 & E).
    injection E as <-. destruct (IH rest) as [L N]; [intros c' Hc; apply U; right; exact Hc|exact E2|].
    split; [cbn [length]; lia|]. intros k c' K. destruct k as [|k].
    + cbn [nth_error] in K. injection K as <-. unfold rb3_basis in E1. apply obind_Ok_inv in E1. destruct E1 as (u & Eu & E1).
      apply Ok_inj in E1. destruct (contact_basis_ok _ _ _ _ _ (U c (or_introl eq_refl)) E1) as (-> & Rh & Sl).
      cbn [Nat.mul Nat.add nth]. split; [reflexivity|]. split; [exact Rh|]. intros u' Eu' Hs. rewrite Eu in Eu'. injection Eu' as <-.
      apply (Sl Hs).
    + cbn [nth_error] in K. replace (3 * S k)%nat with (S (S (S (3 * k)))) by lia. cbn [Nat.add nth]. apply N. exact K.
Qed.
Lemma rb3_bases_total : forall nb q v cs, (forall c s b n a0 a1, In c cs -> c <> SphereBody s b n a0 a1) ->
  exists bs, rb3_contact_bases nb q v cs = Ok bs.
Proof.
  intros nb q v cs. induction cs as [|c cs IH]; intros H; [exists []; reflexivity|].
  destruct IH as [rest E]; [intros; apply H; right; assumption|]. cbn [rb3_contact_bases].
  assert (B : exists b, rb3_basis nb q v c = Ok b).
  { unfold rb3_basis. destruct c; cbn [rb3_relvel obind]; try (eexists; reflexivity).
    exfalso. eapply H; [left; reflexivity|reflexivity]. }
  destruct B as [[[n s] t] B]. rewrite B. cbn [obind]. rewrite E. cbn [obind]. eexists. reflexivity.
Qed.

Lemma flat2_nth : forall {A B} (f g : A -> B) (d : B) l k a, nth_error l k = Some a ->
  nth (2 * k) (flat_map (fun x => [f x; g x]) l) d = f a /\ nth (2 * k + 1) (flat_map (fun x => [f x; g x]) l) d = g a.
Proof.
  intros A B f g d l. induction l as [|x l IH]; intros k a K; [destruct k; discriminate|]. destruct k as [|k].
  - injection K as <-. split; reflexivity.
  - cbn [nth_error] in K. cbn [flat_map app]. replace (2 * S k)%nat with (S (S (2 * k))) by lia. cbn [Nat.add nth]. apply IH. exact K.
Qed.
Theorem ball_bases_ok : forall cs k c, nth_error cs k = Some c -> vdot (b_normal c) (b_normal c) = 1 ->
  nth (2 * k) (ball_contact_bases cs) vzero = b_normal c
  /\ right_handed2 (nth (2 * k) (ball_contact_bases cs) vzero) (nth (2 * k + 1) (ball_contact_bases cs) vzero).
Proof.
  intros cs k c K U. unfold ball_contact_bases.
  destruct (flat2_nth (fun c => fst (b_basis c)) (fun c => snd (b_basis c)) vzero cs k c K) as [-> ->].
  destruct c; cbn [b_basis b_normal fst snd] in *; (split; [reflexivity|apply perp_frame; exact U]).
Qed.
Theorem rb2_bases_ok : forall cs k c, nth_error cs k = Some c -> vdot (rb2_normal c) (rb2_normal c) = 1 ->
  nth (2 * k) (rb2_contact_bases cs) vzero = rb2_normal c
  /\ right_handed2 (nth (2 * k) (rb2_contact_bases cs) vzero) (nth (2 * k + 1) (rb2_contact_bases cs) vzero).
Proof.
  intros cs k c K U. unfold rb2_contact_bases.
  destruct (flat2_nth (fun c => fst (rb2_basis c)) (fun c => snd (rb2_basis c)) vzero cs k c K) as [-> ->].
  unfold rb2_basis. cbn [fst snd]. split; [reflexivity|apply perp_frame; exact U].
Qed.

(* the components of the forcing term in the contact frame *)
Theorem forcing_term_components : forall n s t CoR ndotv kin nrel d0 d1, right_handed3 n s t ->
  kin_rel_vel (n, s, t) kin = (nrel, d0, d1) ->
  let f := forcing_term (n, s, t) CoR ndotv nrel d0 d1 in
  dot3 f n = CoR * ndotv - dot3 kin n /\ tangential n f = neg3 (tangential n kin).
Proof.
  intros n s t CoR ndotv kin nrel d0 d1 (N & S1 & T1 & P1 & P2 & P3 & C) E f. unfold kin_rel_vel in E. injection E as <- <- <-.
  assert (A : dot3 f n = CoR * ndotv - dot3 kin n).
  { unfold f, forcing_term.
    transitivity ((CoR * ndotv - dot3 kin n) * dot3 n n - dot3 kin s * dot3 n s - dot3 kin t * dot3 n t).
    - unfold dot3, add3, scale3, zero3. cbn [c0 c1 c2]. ring.
    - rewrite N, P1, P2. ring. }
  split; [exact A|]. unfold tangential at 1. rewrite A.
  (* expand kin in the frame *)
  assert (X : kin = add3 (add3 (scale3 (dot3 kin n) n) (scale3 (dot3 kin s) s)) (scale3 (dot3 kin t) t)).
  { symmetry. apply (Cache_Thms.expand (Cache_Model.mkFrame n s t) kin). unfold Cache_Spec.orthonormal. cbn [Cache_Model.f_n Cache_Model.f_s Cache_Model.f_t].
    repeat split; assumption. }
  unfold tangential, f, forcing_term. clear A f.
  assert (X0 := f_equal c0 X). assert (X1 := f_equal c1 X). assert (X2 := f_equal c2 X). clear X.
  unfold add3, scale3 in X0, X1, X2. cbn [c0 c1 c2] in X0, X1, X2.
  generalize dependent (dot3 kin n). generalize dependent (dot3 kin s). generalize dependent (dot3 kin t).
  intros a b X0 X1 X2. intros.
  apply v3_ext; unfold neg3, sub3, add3, scale3, zero3; cbn [c0 c1 c2]; lra.
Qed.
