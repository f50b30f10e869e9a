From Coq Require Import List NArith ZArith Reals Lia Lra Psatz Bool ZifyBool ZifyNat ZifyN.
From Verif Require Import Outcome Grid_Model Grid_Spec Grid_Proofs Grid_Arith Grid_Dim Ccd_Model Ccd_Spec.
Import ListNotations.
Open Scope R_scope.

Lemma Rltb_spec x y : reflect (x < y) (Rltb x y).
Proof. unfold Rltb. destruct (Rlt_dec x y); constructor; auto. Qed.
Lemma Rleb_spec x y : reflect (x <= y) (Rleb x y).
Proof. unfold Rleb. destruct (Rle_dec x y); constructor; auto. Qed.
Lemma Reqb_spec x y : reflect (x = y) (Reqb x y).
Proof. unfold Reqb. destruct (Req_EM_T x y); constructor; auto. Qed.

Lemma ccd_div div : (forall x y, y <> 0 -> div x y = x / y) ->
  forall q0a q1a ra q0b q1b rb, ccd_with div q0a q1a ra q0b q1b rb = ccd q0a q1a ra q0b q1b rb.
Proof.
  intros Hd q0a q1a ra q0b q1b rb. unfold ccd, ccd_with, ccd_from_coeffs.
  destruct (ccd_coeffs q0a q1a ra q0b q1b rb) as [[k0 k1] k2].
  destruct (Reqb_spec k2 0) as [E|E]; cbn [negb]; auto.
  destruct (Rltb (k1 * k1) (4 * k2 * k0)); auto.
  pose proof (sqrt_pos (k1 * k1 - 4 * k2 * k0)) as P. set (d := sqrt _) in *. clearbody d.
  assert (A : 2 * k2 <> 0) by lra.
  assert (F : first_root div k2 k1 k0 d = first_root Rdiv k2 k1 k0 d).
  { unfold first_root. destruct (Rleb_spec 0 k1); apply Hd; lra. }
  assert (G : second_root div k2 k1 k0 d = second_root Rdiv k2 k1 k0 d).
  { unfold second_root. destruct (Rltb_spec 0 k1); apply Hd; lra. }
  now rewrite F, G.
Qed.

Lemma roots a b c d : 0 < a -> 0 <= d -> d * d = b * b - 4 * a * c ->
  first_root Rdiv a b c d = (- b - d) / (2 * a) /\ second_root Rdiv a b c d = (- b + d) / (2 * a).
Proof.
  intros Ha Hd E. unfold first_root, second_root.
  assert (K : (- b - d) * (- b + d) = 4 * a * c) by nra.
  split.
  - destruct (Rleb_spec 0 b); auto.
    apply Rmult_eq_reg_r with ((- b + d) * (2 * a)).
    + replace (2 * c / (- b + d) * ((- b + d) * (2 * a))) with (4 * a * c) by (field; lra).
      replace ((- b - d) / (2 * a) * ((- b + d) * (2 * a))) with ((- b - d) * (- b + d)) by (field; lra). lra.
    + apply Rmult_integral_contrapositive_currified; lra.
  - destruct (Rltb_spec 0 b); auto.
    apply Rmult_eq_reg_r with ((- b - d) * (2 * a)).
    + replace (2 * c / (- b - d) * ((- b - d) * (2 * a))) with (4 * a * c) by (field; lra).
      replace ((- b + d) / (2 * a) * ((- b - d) * (2 * a))) with ((- b - d) * (- b + d)) by (field; lra). lra.
    + apply Rmult_integral_contrapositive_currified; lra.
Qed.

Definition quad (k : R * R * R) (t : R) : R := let '(k0, k1, k2) := k in k2 * t * t + k1 * t + k0.

Lemma quad_coeffs q0a q1a ra q0b q1b rb t :
  quad (ccd_coeffs q0a q1a ra q0b q1b rb) t =
  (fst (at_time q0a q1a t) - fst (at_time q0b q1b t)) ^ 2 + (snd (at_time q0a q1a t) - snd (at_time q0b q1b t)) ^ 2 - (ra + rb) ^ 2.
Proof.
  destruct q0a as [a1 a2], q1a as [b1 b2], q0b as [c1 c2], q1b as [d1 d2].
  unfold quad, ccd_coeffs, at_time, vdot, vsub. cbn [fst snd]. ring.
Qed.

Lemma touch_quad q0a q1a ra q0b q1b rb t : 0 <= ra + rb ->
  (touch q0a q1a ra q0b q1b rb t <-> quad (ccd_coeffs q0a q1a ra q0b q1b rb) t <= 0).
Proof.
  intros Hr. unfold touch, distance. rewrite quad_coeffs.
  set (u := fst _ - fst _). set (v := snd _ - snd _). set (r := ra + rb) in *.
  assert (N : 0 <= u ^ 2 + v ^ 2) by nra. split; intros H.
  - assert (sqrt (u ^ 2 + v ^ 2) * sqrt (u ^ 2 + v ^ 2) <= r * r).
    { apply Rmult_le_compat; auto using sqrt_pos. }
    rewrite sqrt_sqrt in H0 by auto. nra.
  - rewrite <- (sqrt_pow2 r) by auto. apply sqrt_le_1_alt. lra.
Qed.

Lemma ccd_quad k0 k1 k2 : 0 <= k2 -> (k2 = 0 -> k1 = 0) ->
  match ccd_from_coeffs Rdiv (k0, k1, k2) with
  | Some t => 0 <= t <= 1 /\ quad (k0, k1, k2) t <= 0 /\ forall s, 0 <= s < t -> quad (k0, k1, k2) s > 0
  | None => forall s, 0 <= s <= 1 -> quad (k0, k1, k2) s > 0
  end.
Proof.
  intros H2 H1. unfold ccd_from_coeffs, quad. destruct (Reqb_spec k2 0) as [E|E]; cbn [negb].
  - rewrite (H1 E), E. destruct (Rleb_spec k0 0).
    + repeat split; try lra. intros; lra.
    + intros; lra.
  - assert (P : 0 < k2) by lra.
    destruct (Rltb_spec (k1 * k1) (4 * k2 * k0)) as [D|D].
    + intros s _.
      assert (4 * k2 * (k2 * s * s + k1 * s + k0) > 0).
      { replace (4 * k2 * (k2 * s * s + k1 * s + k0)) with ((2 * k2 * s + k1) ^ 2 + (4 * k2 * k0 - k1 * k1)) by ring.
        pose proof (pow2_ge_0 (2 * k2 * s + k1)). lra. }
      apply Rnot_le_gt. intros L.
      assert (4 * k2 * (k2 * s * s + k1 * s + k0) <= 0); [|lra].
      assert (0 <= 4 * k2 * - (k2 * s * s + k1 * s + k0)); [|lra]. apply Rmult_le_pos; lra.
    + set (d := sqrt (k1 * k1 - 4 * k2 * k0)).
      assert (Hd : 0 <= d) by apply sqrt_pos.
      assert (Ed : d * d = k1 * k1 - 4 * k2 * k0) by (apply sqrt_sqrt; lra).
      destruct (roots k2 k1 k0 d P Hd Ed) as [R0 R1]. rewrite R0, R1.
      set (r0 := (- k1 - d) / (2 * k2)). set (r1 := (- k1 + d) / (2 * k2)).
      assert (F : forall s, k2 * s * s + k1 * s + k0 = k2 * ((s - r0) * (s - r1))).
      { intros s. unfold r0, r1.
        replace (k2 * ((s - (- k1 - d) / (2 * k2)) * (s - (- k1 + d) / (2 * k2))))
          with (k2 * s * s + k1 * s + (k1 * k1 - d * d) / (4 * k2)) by (field; lra).
        rewrite Ed. replace ((k1 * k1 - (k1 * k1 - 4 * k2 * k0)) / (4 * k2)) with k0 by (field; lra). reflexivity. }
      assert (L : r0 <= r1).
      { unfold r0, r1, Rdiv. apply Rmult_le_compat_r; [|lra]. apply Rlt_le, Rinv_0_lt_compat; lra. }
      destruct (Rltb_spec r1 0) as [L1|L1].
      * intros s Hs. rewrite F. apply Rmult_gt_0_compat; auto. apply Rmult_gt_0_compat; lra.
      * destruct (Rltb_spec 1 r0) as [L0|L0].
        -- intros s Hs. rewrite F. replace ((s - r0) * (s - r1)) with ((r0 - s) * (r1 - s)) by ring.
           apply Rmult_gt_0_compat; auto. apply Rmult_gt_0_compat; lra.
        -- assert (M : 0 <= Rmax 0 r0 <= 1) by (unfold Rmax; destruct (Rle_dec 0 r0); lra).
           split; auto. split.
           ++ rewrite F. assert (0 <= (Rmax 0 r0 - r0) * (r1 - Rmax 0 r0)).
              { apply Rmult_le_pos; unfold Rmax; destruct (Rle_dec 0 r0); lra. }
              assert (0 <= k2 * ((Rmax 0 r0 - r0) * (r1 - Rmax 0 r0))) by (apply Rmult_le_pos; lra). lra.
           ++ intros s Hs. rewrite F. replace ((s - r0) * (s - r1)) with ((r0 - s) * (r1 - s)) by ring.
              assert (s < r0) by (unfold Rmax in Hs; destruct (Rle_dec 0 r0); lra).
              apply Rmult_gt_0_compat; auto. apply Rmult_gt_0_compat; lra.
Qed.

Lemma coeffs_side q0a q1a ra q0b q1b rb : let '(k0, k1, k2) := ccd_coeffs q0a q1a ra q0b q1b rb in
  0 <= k2 /\ (k2 = 0 -> k1 = 0).
Proof.
  destruct q0a as [a1 a2], q1a as [b1 b2], q0b as [c1 c2], q1b as [d1 d2].
  unfold ccd_coeffs, vdot, vsub. cbn [fst snd].
  set (u := b1 - d1 - (a1 - c1)). set (v := b2 - d2 - (a2 - c2)). split; [nra|].
  intros E. assert (u = 0) by nra. assert (v = 0) by nra. rewrite H, H0. ring.
Qed.

Lemma ccd_exact q0a q1a ra q0b q1b rb : 0 <= ra + rb ->
  match ccd q0a q1a ra q0b q1b rb with
  | Some t => first_touch q0a q1a ra q0b q1b rb t
  | None => forall t, 0 <= t <= 1 -> ~ touch q0a q1a ra q0b q1b rb t
  end.
Proof.
  intros Hr. unfold ccd, ccd_with. pose proof (coeffs_side q0a q1a ra q0b q1b rb) as S.
  pose proof (fun t => touch_quad q0a q1a ra q0b q1b rb t Hr) as T.
  destruct (ccd_coeffs q0a q1a ra q0b q1b rb) as [[k0 k1] k2]. destruct S as [S1 S2].
  pose proof (ccd_quad k0 k1 k2 S1 S2) as C. destruct (ccd_from_coeffs Rdiv _) as [t|].
  - destruct C as (C1 & C2 & C3). split; auto. split; [apply T; auto|]. intros s Hs Ht. apply T in Ht.
    apply C3 in Hs. lra.
  - intros t Ht H. apply T in H. apply C in Ht. lra.
Qed.

Lemma ccd_iff q0a q1a ra q0b q1b rb : 0 <= ra + rb ->
  ((exists t, ccd q0a q1a ra q0b q1b rb = Some t) <->
   (exists t, 0 <= t <= 1 /\ touch q0a q1a ra q0b q1b rb t)).
Proof.
  intros Hr. pose proof (ccd_exact q0a q1a ra q0b q1b rb Hr) as C. destruct (ccd _ _ _ _ _ _) as [t|]; split.
  - intros _. destruct C as (C1 & C2 & _). eauto.
  - eauto.
  - intros [t H]; discriminate.
  - intros (t & Ht & H). exfalso. eapply C; eauto.
Qed.

(* ---------- broad phase + narrow phase ---------- *)
Lemma Int_part_spec x : IZR (Int_part x) <= x < IZR (Int_part x) + 1.
Proof. destruct (base_Int_part x). lra. Qed.
Lemma Int_part_mono x y : x <= y -> (Int_part x <= Int_part y)%Z.
Proof.
  intros H. pose proof (Int_part_spec x). pose proof (Int_part_spec y).
  assert (IZR (Int_part x) < IZR (Int_part y + 1)) by (rewrite plus_IZR; lra).
  apply lt_IZR in H2. lia.
Qed.
Lemma Rtrunc_mono x y : x <= y -> (0 <= Rtrunc y)%Z -> (Rtrunc x <= Rtrunc y)%Z.
Proof.
  unfold Rtrunc. intros H. destruct (Rle_dec 0 x), (Rle_dec 0 y); intros Hy.
  - apply Int_part_mono; auto.
  - lra.
  - assert (0 <= Int_part (- x))%Z.
    { replace 0%Z with (Int_part 0) by (unfold Int_part; rewrite <- (tech_up 0 1); [reflexivity|simpl; lra|simpl; lra]).
      apply Int_part_mono. lra. }
    lia.
  - assert (Int_part (- y) <= Int_part (- x))%Z by (apply Int_part_mono; lra). lia.
Qed.

Lemma alt_real_false a b : alt real b a = false <-> a <= b.
Proof. cbn [real alt]. destruct (Rltb_spec b a); split; intros; try lra; try discriminate; auto. Qed.

Lemma real_laws : arith_laws real.
Proof.
  constructor.
  - intros a b mn h i k Hab Hh Ei Ek. apply alt_real_false in Hab. apply alt_real_false in Hh.
    unfold cell_lo, cell_up, cell in *. cbn [real adiv asub aadd a1em6 to_u32 azero sc] in *.
    destruct (Req_EM_T h 0); [discriminate|].
    destruct (Z_u32 (Rtrunc ((a - / 1000000 - mn) / h))) as [i'|] eqn:U1; [|discriminate]. injection Ei as ->.
    destruct (Z_u32 (Rtrunc ((b + / 1000000 - mn) / h))) as [k'|] eqn:U2; [|discriminate]. injection Ek as ->.
    apply Z_u32_Some in U1 as [R1 ->]. apply Z_u32_Some in U2 as [R2 ->].
    assert (0 < h) by lra.
    assert ((a - / 1000000 - mn) / h <= (b + / 1000000 - mn) / h).
    { unfold Rdiv. apply Rmult_le_compat_r; [apply Rlt_le, Rinv_0_lt_compat; auto|]. lra. }
    pose proof (Rtrunc_mono _ _ H0). lia.
  - intros a b H. apply alt_real_false in H. apply alt_real_false. cbn [real asub azero]. lra.
  - apply alt_real_false. lra.
  - intros a b Ha Hb. apply alt_real_false in Ha, Hb. apply alt_real_false. cbn [real aadd azero] in *. lra.
  - intros x n h Hn Hx E. apply alt_real_false in Hx. apply alt_real_false. cbn [real adiv azero aofsize] in *.
    destruct (Req_EM_T (INR n) 0); [discriminate|]. injection E as <-.
    apply Rmult_le_pos; auto. apply Rlt_le, Rinv_0_lt_compat. apply lt_0_INR. auto.
Qed.

(* coordinates stay between the end points *)
Lemma between x0 x1 t : 0 <= t <= 1 -> Rmin x1 x0 <= (1 - t) * x0 + t * x1 <= Rmax x1 x0.
Proof.
  intros H. unfold Rmin, Rmax. destruct (Rle_dec x1 x0); nra.
Qed.
Lemma coord_dist q0a q1a ra q0b q1b rb t : touch q0a q1a ra q0b q1b rb t -> 
  Rabs (fst (at_time q0a q1a t) - fst (at_time q0b q1b t)) <= ra + rb /\
  Rabs (snd (at_time q0a q1a t) - snd (at_time q0b q1b t)) <= ra + rb.
Proof.
  unfold touch, distance. set (u := fst _ - fst _). set (v := snd _ - snd _). intros H.
  split; (eapply Rle_trans; [|exact H]); rewrite <- sqrt_Rsqr_abs; apply sqrt_le_1_alt; unfold Rsqr; nra.
Qed.

Lemma touch_overlaps a b : swept_touch a b -> 
  overlaps2 (swept_box a) (swept_box b) = true.
Proof.
  intros (t & Ht & T). apply coord_dist in T as [T1 T2].
  unfold at_time in *; cbn [fst snd] in *.
  pose proof (between (fst (s_q0 a)) (fst (s_q1 a)) t Ht). pose proof (between (snd (s_q0 a)) (snd (s_q1 a)) t Ht).
  pose proof (between (fst (s_q0 b)) (fst (s_q1 b)) t Ht). pose proof (between (snd (s_q0 b)) (snd (s_q1 b)) t Ht).
  assert (AB : forall u r, Rabs u <= r -> - r <= u <= r) by (intros u r; unfold Rabs; destruct (Rcase_abs u); lra).
  apply AB in T1, T2.
  apply overlaps2_intro; apply alt_real_false; unfold swept_box; cbn [lo2 up2 fst snd]; lra.
Qed.

Lemma swept_box_wf a : 0 <= s_r a -> wf2 real (swept_box a).
Proof.
  intros H. split; apply alt_real_false; unfold swept_box; cbn [lo2 up2 fst snd];
  [assert (Rmin (fst (s_q1 a)) (fst (s_q0 a)) <= Rmax (fst (s_q1 a)) (fst (s_q0 a)))
  |assert (Rmin (snd (s_q1 a)) (snd (s_q0 a)) <= Rmax (snd (s_q1 a)) (snd (s_q0 a)))];
  try lra; (eapply Rle_trans; [apply Rmin_r|apply Rmax_r]).
Qed.

Lemma narrow_true bs i j : narrow bs (i, j) = true <-> exists a b, ball_at bs i a /\ ball_at bs j b /\
  exists t, ccd (s_q0 a) (s_q1 a) (s_r a) (s_q0 b) (s_q1 b) (s_r b) = Some t.
Proof.
  unfold narrow, ball_at. cbn [fst snd].
  destruct (nth_error bs (N.to_nat i)) as [a|].
  2:{ split; [discriminate|]. intros (? & ? & H & _). discriminate. }
  destruct (nth_error bs (N.to_nat j)) as [b|].
  2:{ split; [discriminate|]. intros (? & ? & _ & H & _). discriminate. }
  destruct (ccd _ _ _ _ _ _) as [t|] eqn:E; split; try discriminate; auto.
  - intros _. exists a, b. eauto.
  - intros (? & ? & [= ->] & [= ->] & t & H). congruence.
Qed.

Lemma active_set_exact (bs : list swept) out i j : indexable bs -> Forall (fun b => 0 <= s_r b) bs ->
  ball_ball_active_set bs = Ok out -> (i < j)%N ->
  (In (i, j) out <-> exists a b, ball_at bs i a /\ ball_at bs j b /\ swept_touch a b).
Proof.
  intros Hi W E Hij. unfold ball_ball_active_set in E. apply obind_Ok_inv in E as (poss & E & E2). injection E2 as <-.
  rewrite filter_In, narrow_true. rewrite Forall_forall in W.
  assert (Hi' : indexable (map swept_box bs)) by (unfold indexable in *; now rewrite map_length).
  split.
  - intros (_ & a & b & Ha & Hb & t & C). exists a, b. repeat split; auto.
    unfold swept_touch. apply ccd_iff; [|eauto].
    assert (0 <= s_r a) by (apply W; eapply nth_error_In; exact Ha).
    assert (0 <= s_r b) by (apply W; eapply nth_error_In; exact Hb). lra.
  - intros (a & b & Ha & Hb & T). split.
    + eapply (any_complete2 real real_laws) with (a := swept_box a) (b := swept_box b); eauto.
      * apply Forall_forall. intros x Hx. apply in_map_iff in Hx as (y & <- & Hy). apply swept_box_wf; auto.
      * unfold box_at. now apply map_nth_error.
      * unfold box_at. now apply map_nth_error.
      * now apply touch_overlaps.
    + exists a, b. repeat split; auto. apply ccd_iff; auto.
      assert (0 <= s_r a) by (apply W; eapply nth_error_In; exact Ha).
      assert (0 <= s_r b) by (apply W; eapply nth_error_In; exact Hb). lra.
Qed.
