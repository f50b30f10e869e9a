(* The statements for the three simulators. *)
From Coq Require Import List Reals Arith Bool Lia Lra.
From Verif Require Import Outcome Ccd_Model Lin_Model Lin_Proofs ContactBall_Model ContactRb2_Model ContactRb3_Model Contact_Spec
  Sob_Model Sob_Spec Sob_Proofs Sob_Thms Sob_Sims.
Import ListNotations.
Open Scope R_scope.

(* a right inverse given on the bodies agrees with the inverses of the blocks *)
Lemma minv_blocks : forall {C} (K : sim C) inv ng M Minv, blocks_inverted K inv ng M ->
  (forall x b o, (b < ng)%nat -> (o < k_s K)%nat ->
     rsum (k_s K) (fun r => k_mass K ng M b o r * Minv x (k_vslot K ng b r)) = x (k_vslot K ng b o)) ->
  forall x b o, (b < ng)%nat -> (o < k_s K)%nat ->
    Minv x (k_vslot K ng b o) = rsum (k_s K) (fun p => inv (k_mass K ng M b) o p * x (k_vslot K ng b p)).
Proof.
  intros C K inv ng M Minv HI HR x b o Hb Ho.
  rewrite <- (HI b Hb (fun r => Minv x (k_vslot K ng b r)) o Ho). apply rsum_ext. intros p Hp. now rewrite (HR x b p Hb Hp).
Qed.

Lemma ball_user_cols : forall ng q0 it, well_sized 2 it -> user_cols ball_sim ng q0 it (ball_cols it).
Proof.
  intros ng q0 it [[F1 [F2 _]] _]. destruct (shaped2 (it_E it) (conj F1 F2)) as [a [b [c [e E]]]].
  unfold user_cols, ball_cols. rewrite E. cbn [ball_sim k_bodies k_H0 k_H1].
  eexists _, _, _. split; [reflexivity|]. split; [reflexivity|]. split; [reflexivity|].
  destruct (it_c it) as [ci cj n r0 r1 t|ci cj n r0 r1 kk t|ci r p|ci n r]; reflexivity.
Qed.

Lemma ball_final : forall inv gs tol ng M q0 v0 its,
  mass2_ok ng M -> blocks_inverted ball_sim inv ng M -> returns 2 gs -> ball_ready ng its ->
  exists r, sob_solve ball_sim inv gs tol ng M q0 v0 its = Ok r /\
    solves true (2 * ng) (diag_minv M) ball_cols (ball_bias v0) gs tol v0 its r.
Proof.
  intros inv gs tol ng M q0 v0 its HM HI Hg HR.
  apply (sob_solves ball_sim ball_laws inv gs tol ng M q0 v0 its (diag_minv M) ball_cols (ball_bias v0)); try assumption.
  - apply (minv_blocks ball_sim inv ng M (diag_minv M) HI).
    intros x b o Hb Ho. destruct (HM b Hb) as [N E]. cbn [ball_sim k_s k_vslot k_mass] in *. unfold ball_block, diag_minv, slot_of.
    rewrite Nat.add_0_r. destruct o as [|[|o]]; [| |lia]; cbn [rsum Nat.eqb]; rewrite !Nat.add_0_r; rewrite ?E; field; exact N.
  - intros it Hi. destruct (HR it Hi) as [[R1 R2] W]. split; [|split; [exact W|split]].
    + exists (fst (b_bodies (it_c it))), (snd (b_bodies (it_c it))). cbn [ball_sim k_bodies]. split; [now destruct (b_bodies (it_c it))|]. now split.
    + now apply ball_user_cols.
    + eexists. split; reflexivity.
Qed.

Lemma rb2_user_cols : forall ng q0 it, well_sized 2 it -> user_cols rb2_sim ng q0 it (rb2_cols q0 it).
Proof.
  intros ng q0 it [[F1 [F2 _]] _]. destruct (shaped2 (it_E it) (conj F1 F2)) as [a [b [c [e E]]]].
  unfold user_cols, rb2_cols. rewrite E. cbn [rb2_sim k_bodies k_H0 k_H1].
  eexists _, _, _. split; [reflexivity|]. split; [reflexivity|]. split; [reflexivity|].
  destruct (it_c it) as [ci cj n p r0 r1|ci cj n a0 a1|ci cj n a0 a1|ci cj n a0 a1 kk|ci r n kk kx kv ko|ci aa p|ci r p]; 
    cbn; rewrite ?Nat.add_0_r; try reflexivity.
Qed.

Lemma rb2_final : forall inv gs tol ng M q0 v0 its,
  mass_rb2_ok ng M -> blocks_inverted rb2_sim inv ng M -> returns 2 gs -> rb2_ready ng its ->
  exists r, sob_solve rb2_sim inv gs tol ng M q0 v0 its = Ok r /\
    solves true (3 * ng) (diag_minv M) (rb2_cols q0) (rb2_bias q0 v0) gs tol v0 its r.
Proof.
  intros inv gs tol ng M q0 v0 its HM HI Hg HR.
  apply (sob_solves rb2_sim rb2_laws inv gs tol ng M q0 v0 its (diag_minv M) (rb2_cols q0) (rb2_bias q0 v0)); try assumption.
  - apply (minv_blocks rb2_sim inv ng M (diag_minv M) HI).
    intros x b o Hb Ho. destruct (HM b Hb) as [N [E N2]]. cbn [rb2_sim k_s k_vslot k_mass] in *. unfold rb2_block, diag_minv, slot_of.
    assert (N1 : M (3 * b + 1)%nat <> 0) by (rewrite E; exact N).
    destruct o as [|[|[|o]]]; [| | |lia]; cbn [rsum Nat.eqb]; rewrite ?Nat.add_0_r; field; repeat split; assumption.
  - intros it Hi. destruct (HR it Hi) as [[R1 R2] W]. split; [|split; [exact W|split]].
    + exists (fst (rb2_bodies (it_c it))), (snd (rb2_bodies (it_c it))). cbn [rb2_sim k_bodies]. split; [now destruct (rb2_bodies (it_c it))|]. now split.
    + now apply rb2_user_cols.
    + eexists. split; reflexivity.
Qed.

Lemma hrow3_place : forall ng b r, hrow3 ng b r = place rb3_sim (slot3 3 ng) b (of_row3 r).
Proof.
  intros ng b [[a0 a1 a2] [b0 b1 b2]]. unfold hrow3, place, slot3. cbn [rb3_sim k_s seq map Nat.ltb Nat.leb Nat.sub of_row3 of3 fst snd c0 c1 c2 app at_ nth ins3].
  rewrite !Nat.mul_add_distr_l. reflexivity.
Qed.
Lemma neg_row3_of : forall r, of_row3 (neg_row3 r) = lneg (of_row3 r).
Proof. intros [[a0 a1 a2] [b0 b1 b2]]. reflexivity. Qed.

Lemma rb3_user_cols : forall ng q0 it, not_sphere_body (it_c it) -> well_sized 3 it -> user_cols rb3_sim ng q0 it (rb3_cols ng q0 it).
Proof.
  intros ng q0 it NS [[F1 [F2 _]] _]. destruct (shaped3 (it_E it) (conj F1 F2)) as [a0 [a1 [a2 [b0 [b1 [b2 [e0 [e1 [e2 E]]]]]]]]].
  unfold user_cols, rb3_cols. rewrite E. cbn [rb3_sim k_bodies k_H0 k_H1 nth]. unfold b3. cbn [nth].
  set (n := to3 [a0; a1; a2]). set (s := to3 [b0; b1; b2]). set (t := to3 [e0; e1; e2]).
  destruct (it_c it) as [ci cj m p r0 r1|ci cj m aa0 aa1|ci cj m aa0 aa1|cs cb m aa0 aa1|ci kk m a|ci r m kk|ci m a p|ci r p|ci r cy|ci a cy];
    try contradiction; unfold rb3_hcols; cbn [rb3_H0 rb3_H1 obind rb3_bodies rb3_sim_bodies];
    (eexists _, _, _; split; [reflexivity|]; split; [reflexivity|]; split; [reflexivity|]);
    unfold sphere_rows, arm_rows; cbn [map combine fst snd]; rewrite ?hrow3_place, ?neg_row3_of;
    unfold hcols; cbn [rb3_sim k_d k_vslot seq map fst snd nth]; rewrite ?app_nil_r; reflexivity.
Qed.

Lemma rb3_block_inverse : forall ng M Iinv, mass_rb3_ok ng M (inertia_of ng M) Iinv -> forall x b o, (b < ng)%nat -> (o < 6)%nat ->
  rsum 6 (fun r => rb3_block ng M b o r * rb3_minv ng M Iinv x (slot3 3 ng b r)) = x (slot3 3 ng b o).
Proof.
  intros ng M Iinv HM.
  intros x b o Hb Ho. destruct (HM b Hb) as [N [E1 [E2 RI]]].
  assert (ML : forall k, (k < 3)%nat -> rb3_minv ng M Iinv x (slot3 3 ng b k) = 1 / M (3 * b + k)%nat * x (slot3 3 ng b k)).
  { intros k Hk. unfold slot3. rewrite (proj2 (Nat.ltb_lt k 3) Hk). unfold rb3_minv.
    destruct (Nat.ltb_spec (3 * b + k) (3 * ng)); [reflexivity|lia]. }
  set (w := mul3 (Iinv b) (seg3 x (3 * (ng + b)))).
  assert (MA : rb3_minv ng M Iinv x (slot3 3 ng b 3) = c0 w /\ rb3_minv ng M Iinv x (slot3 3 ng b 4) = c1 w /\ rb3_minv ng M Iinv x (slot3 3 ng b 5) = c2 w).
  { assert (G : forall k, (k < 3)%nat -> rb3_minv ng M Iinv x (slot3 3 ng b (3 + k)) = match k with O => c0 w | S O => c1 w | _ => c2 w end).
    { intros k Hk. unfold slot3. destruct (Nat.ltb_spec (3 + k) 3); [lia|]. unfold rb3_minv.
      destruct (Nat.ltb_spec (3 * ng + 3 * b + (3 + k - 3)) (3 * ng)); [lia|].
      replace (3 * ng + 3 * b + (3 + k - 3) - 3 * ng)%nat with (k + b * 3)%nat by lia.
      rewrite Nat.div_add, Nat.mod_add, Nat.div_small, Nat.mod_small by lia. cbn [Nat.add]. fold w. reflexivity. }
    repeat split; [apply (G 0%nat)|apply (G 1%nat)|apply (G 2%nat)]; lia. }
  destruct MA as [MA0 [MA1 MA2]].
  assert (N1 : M (3 * b + 1)%nat <> 0) by (rewrite E1; exact N). assert (N2 : M (3 * b + 2)%nat <> 0) by (rewrite E2; exact N).
  assert (N0 : M (3 * b + 0)%nat <> 0) by (rewrite Nat.add_0_r; exact N).
  specialize (RI (seg3 x (3 * (ng + b)))). fold w in RI. unfold mul3, inertia_of, dot3, seg3 in RI. cbn [row0 row1 row2_ c0 c1 c2] in RI.
  assert (RI0 := f_equal c0 RI). assert (RI1 := f_equal c1 RI). assert (RI2 := f_equal c2 RI). cbn [c0 c1 c2] in RI0, RI1, RI2. clear RI.
  rewrite !Nat.mul_add_distr_l in RI0, RI1, RI2.
  assert (X3 : x (slot3 3 ng b 3) = x (3 * ng + 3 * b + 0)%nat) by reflexivity.
  assert (X4 : x (slot3 3 ng b 4) = x (3 * ng + 3 * b + 1)%nat) by reflexivity.
  assert (X5 : x (slot3 3 ng b 5) = x (3 * ng + 3 * b + 2)%nat) by reflexivity.
  assert (B00 : rb3_block ng M b 3 3 = M (3 * ng + 9 * b + 3 * 0 + 0)%nat) by reflexivity.
  assert (B01 : rb3_block ng M b 3 4 = M (3 * ng + 9 * b + 3 * 1 + 0)%nat) by reflexivity.
  assert (B02 : rb3_block ng M b 3 5 = M (3 * ng + 9 * b + 3 * 2 + 0)%nat) by reflexivity.
  assert (B10 : rb3_block ng M b 4 3 = M (3 * ng + 9 * b + 3 * 0 + 1)%nat) by reflexivity.
  assert (B11 : rb3_block ng M b 4 4 = M (3 * ng + 9 * b + 3 * 1 + 1)%nat) by reflexivity.
  assert (B12 : rb3_block ng M b 4 5 = M (3 * ng + 9 * b + 3 * 2 + 1)%nat) by reflexivity.
  assert (B20 : rb3_block ng M b 5 3 = M (3 * ng + 9 * b + 3 * 0 + 2)%nat) by reflexivity.
  assert (B21 : rb3_block ng M b 5 4 = M (3 * ng + 9 * b + 3 * 1 + 2)%nat) by reflexivity.
  assert (B22 : rb3_block ng M b 5 5 = M (3 * ng + 9 * b + 3 * 2 + 2)%nat) by reflexivity.
  assert (Z01 : rb3_block ng M b 0 1 = 0) by reflexivity.
  assert (Z02 : rb3_block ng M b 0 2 = 0) by reflexivity.
  assert (Z03 : rb3_block ng M b 0 3 = 0) by reflexivity.
  assert (Z04 : rb3_block ng M b 0 4 = 0) by reflexivity.
  assert (Z05 : rb3_block ng M b 0 5 = 0) by reflexivity.
  assert (Z10 : rb3_block ng M b 1 0 = 0) by reflexivity.
  assert (Z12 : rb3_block ng M b 1 2 = 0) by reflexivity.
  assert (Z13 : rb3_block ng M b 1 3 = 0) by reflexivity.
  assert (Z14 : rb3_block ng M b 1 4 = 0) by reflexivity.
  assert (Z15 : rb3_block ng M b 1 5 = 0) by reflexivity.
  assert (Z20 : rb3_block ng M b 2 0 = 0) by reflexivity.
  assert (Z21 : rb3_block ng M b 2 1 = 0) by reflexivity.
  assert (Z23 : rb3_block ng M b 2 3 = 0) by reflexivity.
  assert (Z24 : rb3_block ng M b 2 4 = 0) by reflexivity.
  assert (Z25 : rb3_block ng M b 2 5 = 0) by reflexivity.
  assert (Z30 : rb3_block ng M b 3 0 = 0) by reflexivity.
  assert (Z31 : rb3_block ng M b 3 1 = 0) by reflexivity.
  assert (Z32 : rb3_block ng M b 3 2 = 0) by reflexivity.
  assert (Z40 : rb3_block ng M b 4 0 = 0) by reflexivity.
  assert (Z41 : rb3_block ng M b 4 1 = 0) by reflexivity.
  assert (Z42 : rb3_block ng M b 4 2 = 0) by reflexivity.
  assert (Z50 : rb3_block ng M b 5 0 = 0) by reflexivity.
  assert (Z51 : rb3_block ng M b 5 1 = 0) by reflexivity.
  assert (Z52 : rb3_block ng M b 5 2 = 0) by reflexivity.
  assert (D0 : rb3_block ng M b 0 0 = M (3 * b + 0)%nat) by reflexivity.
  assert (D1 : rb3_block ng M b 1 1 = M (3 * b + 1)%nat) by reflexivity.
  assert (D2 : rb3_block ng M b 2 2 = M (3 * b + 2)%nat) by reflexivity.
  destruct o as [|[|[|[|[|[|o]]]]]]; [| | | | | |lia]; cbn [rsum]; rewrite ?(ML 0%nat), ?(ML 1%nat), ?(ML 2%nat), ?MA0, ?MA1, ?MA2 by lia;
    rewrite ?Z01, ?Z02, ?Z03, ?Z04, ?Z05, ?Z10, ?Z12, ?Z13, ?Z14, ?Z15, ?Z20, ?Z21, ?Z23, ?Z24, ?Z25, ?Z30, ?Z31, ?Z32, ?Z40, ?Z41, ?Z42, ?Z50, ?Z51, ?Z52, ?B00, ?B01, ?B02, ?B10, ?B11, ?B12, ?B20, ?B21, ?B22, ?D0, ?D1, ?D2.
  + field. repeat split; assumption.
  + field. repeat split; assumption.
  + field. repeat split; assumption.
  + rewrite X3, <- RI0. ring.
  + rewrite X4, <- RI1. ring.
  + rewrite X5, <- RI2. ring.
Qed.

Lemma rb3_final : forall inv gs tol ng M Iinv q0 v0 its,
  mass_rb3_ok ng M (inertia_of ng M) Iinv -> blocks_inverted rb3_sim inv ng M -> returns 3 gs -> rb3_ready ng its ->
  exists r, sob_solve rb3_sim inv gs tol ng M q0 v0 its = Ok r /\
    solves false (6 * ng) (rb3_minv ng M Iinv) (rb3_cols ng q0) (rb3_bias ng q0 v0) gs tol v0 its r.
Proof.
  intros inv gs tol ng M Iinv q0 v0 its HM HI Hg HR.
  apply (sob_solves rb3_sim rb3_laws inv gs tol ng M q0 v0 its (rb3_minv ng M Iinv) (rb3_cols ng q0) (rb3_bias ng q0 v0)); try assumption.
  - apply (minv_blocks rb3_sim inv ng M (rb3_minv ng M Iinv) HI). intros x b o. apply (rb3_block_inverse ng M Iinv HM).
  - intros it Hi. destruct (HR it Hi) as [NS [[R1 R2] W]]. split; [|split; [exact W|split]].
    + exists (fst (rb3_bodies (it_c it))), (snd (rb3_bodies (it_c it))). cbn [rb3_sim k_bodies].
      split; [destruct (it_c it); try contradiction; reflexivity|]. now split.
    + now apply rb3_user_cols.
    + destruct (it_c it) eqn:Ec; try contradiction; (eexists; split; [cbn [rb3_sim k_kinvel]; rewrite Ec; reflexivity|]);
        unfold rb3_bias; rewrite Ec; reflexivity.
Qed.

(* ---------- bodies that no contact names ---------- *)
Lemma impulse_untouched : forall (l : list (col * R)) k, (forall c x, In (c, x) l -> entry c k = 0) -> impulse l k = 0.
Proof.
  induction l as [|[c x] l IH]; intros k H; [reflexivity|]. unfold impulse in *. cbn [fold_right fst snd].
  rewrite (H c x (or_introl eq_refl)), IH; [ring|]. intros c' x' I. apply (H c' x'). now right.
Qed.

Lemma hcols_untouched : forall {C} (K : sim C) ng ij h0 h1 b o c, slots_ok (k_s K) (k_vslot K) ->
  (fst ij < ng)%nat -> match snd ij with Some j => (j < ng)%nat | None => True end -> untouched ij b -> (b < ng)%nat -> (o < k_s K)%nat ->
  In c (hcols K (k_vslot K ng) ij h0 h1) -> entry c (k_vslot K ng b o) = 0.
Proof.
  intros C K ng [i oj] h0 h1 b o c SO Hi Hj [U1 U2] Hb Ho I. cbn [fst snd] in *. unfold hcols in I. apply in_map_iff in I.
  destruct I as [k [<- _]]. cbn [fst snd]. rewrite entry_app.
  rewrite (place_entry K (k_vslot K ng) ng (SO ng)) by assumption. destruct (Nat.eqb_spec i b); [congruence|].
  destruct oj as [j|]; [|cbn; lra]. destruct h1 as [h1|]; [|cbn; lra].
  rewrite (place_entry K (k_vslot K ng) ng (SO ng)) by assumption. destruct (Nat.eqb_spec j b); [congruence|lra].
Qed.

Section Untouched.
Context {C : Type} (K : sim C) (laws : sim_laws K) (planar : bool) (ng : nat) (q0 v0 : dvec) (cols : item C -> list col)
  (bodies : C -> nat * option nat).
Lemma untouched_gen : forall gs tol bias_of its Minv r b o,
  (forall it, In it its -> k_bodies K (it_c it) = Ok (bodies (it_c it)) /\ in_range ng (bodies (it_c it)) /\ user_cols K ng q0 it (cols it)) ->
  (forall x b o, (b < ng)%nat -> (o < k_s K)%nat -> (forall o, (o < k_s K)%nat -> x (k_vslot K ng b o) = 0) -> Minv x (k_vslot K ng b o) = 0) ->
  solves planar (k_s K * ng) Minv cols bias_of gs tol v0 its r ->
  (forall it, In it its -> untouched (bodies (it_c it)) b) -> (b < ng)%nat -> (o < k_s K)%nat -> (k_vslot K ng b o < k_s K * ng)%nat ->
  sb_v r (k_vslot K ng b o) = v0 (k_vslot K ng b o) /\ sb_f r (k_vslot K ng b o) = 0.
Proof.
  intros gs tol bias_of its Minv r b o H HM S U Hb Ho Hk. unfold solves in S.
  destruct (gs _ _ _ _) as [rloc err]. destruct S as [_ [_ [S1 [S2 _]]]].
  assert (Z : forall it c o, In it its -> In c (cols it) -> (o < k_s K)%nat -> entry c (k_vslot K ng b o) = 0).
  { intros it c o' Hi Hc Ho'. destruct (H it Hi) as [B [[R1 R2] [ij [h0 [h1 [B1 [_ [_ E]]]]]]]]. rewrite B in B1. injection B1 as <-.
    rewrite E in Hc. apply (hcols_untouched K ng (bodies (it_c it)) h0 h1 b o' c); try assumption; [apply laws|now apply U]. }
  split.
  - rewrite S1 by exact Hk. rewrite HM; [ring|exact Hb|exact Ho|]. intros o' Ho'. apply impulse_untouched.
    intros c x I. apply in_combine_l in I. apply in_flat_map in I. destruct I as [it [I1 I2]]. now apply (Z it).
  - rewrite S2 by exact Hk. apply impulse_untouched. intros c x I. apply in_flat_map in I. destruct I as [[it im] [I1 I2]].
    apply in_combine_l in I1, I2. cbn [fst snd] in *. apply (Z it c o I1); [|exact Ho]. destruct (cols it); [destruct I2|now right].
Qed.
End Untouched.

Lemma ball_others : forall inv gs tol ng M q0 v0 its r b,
  mass2_ok ng M -> blocks_inverted ball_sim inv ng M -> returns 2 gs -> ball_ready ng its ->
  sob_solve ball_sim inv gs tol ng M q0 v0 its = Ok r ->
  (b < ng)%nat -> (forall it, In it its -> untouched (b_bodies (it_c it)) b) ->
  seg2 (sb_v r) (2 * b) = seg2 v0 (2 * b) /\ seg2 (sb_f r) (2 * b) = (0, 0).
Proof.
  intros inv gs tol ng M q0 v0 its r b HM HI Hg HR E Hb U.
  destruct (ball_final inv gs tol ng M q0 v0 its HM HI Hg HR) as [r' [E' S]]. rewrite E in E'. injection E' as <-.
  assert (G : forall o, (o < 2)%nat -> sb_v r (2 * b + o)%nat = v0 (2 * b + o)%nat /\ sb_f r (2 * b + o)%nat = 0).
  { intros o Ho. apply (untouched_gen ball_sim ball_laws true ng q0 v0 ball_cols b_bodies gs tol (ball_bias v0) its (diag_minv M) r b o); try assumption.
    - intros it Hi. destruct (HR it Hi) as [R W]. repeat split; try apply R. now apply ball_user_cols.
    - intros x b' o' _ Ho' Z. cbn [ball_sim k_vslot k_s] in *. unfold diag_minv. rewrite (Z o' Ho'). ring.
    - cbn [ball_sim k_vslot k_s]. unfold slot_of. lia. }
  unfold seg2. destruct (G 0%nat ltac:(lia)) as [-> ->]. destruct (G 1%nat ltac:(lia)) as [-> ->]. split; reflexivity.
Qed.

Lemma rb2_others : forall inv gs tol ng M q0 v0 its r b o,
  mass_rb2_ok ng M -> blocks_inverted rb2_sim inv ng M -> returns 2 gs -> rb2_ready ng its ->
  sob_solve rb2_sim inv gs tol ng M q0 v0 its = Ok r ->
  (b < ng)%nat -> (forall it, In it its -> untouched (rb2_bodies (it_c it)) b) -> (o < 3)%nat ->
  sb_v r (3 * b + o)%nat = v0 (3 * b + o)%nat /\ sb_f r (3 * b + o)%nat = 0.
Proof.
  intros inv gs tol ng M q0 v0 its r b o HM HI Hg HR E Hb U Ho.
  destruct (rb2_final inv gs tol ng M q0 v0 its HM HI Hg HR) as [r' [E' S]]. rewrite E in E'. injection E' as <-.
  apply (untouched_gen rb2_sim rb2_laws true ng q0 v0 (rb2_cols q0) rb2_bodies gs tol (rb2_bias q0 v0) its (diag_minv M) r b o); try assumption.
  - intros it Hi. destruct (HR it Hi) as [R W]. repeat split; try apply R. now apply rb2_user_cols.
  - intros x b' o' _ Ho' Z. cbn [rb2_sim k_vslot k_s] in *. unfold diag_minv. rewrite (Z o' Ho'). ring.
  - cbn [rb2_sim k_vslot k_s]. unfold slot_of. lia.
Qed.

Lemma rb3_others : forall inv gs tol ng M Iinv q0 v0 its r b,
  mass_rb3_ok ng M (inertia_of ng M) Iinv -> blocks_inverted rb3_sim inv ng M -> returns 3 gs -> rb3_ready ng its ->
  sob_solve rb3_sim inv gs tol ng M q0 v0 its = Ok r ->
  (b < ng)%nat -> (forall it, In it its -> untouched (rb3_bodies (it_c it)) b) ->
  seg3 (sb_v r) (3 * b) = seg3 v0 (3 * b) /\ seg3 (sb_v r) (3 * (ng + b)) = seg3 v0 (3 * (ng + b)) /\
  seg3 (sb_f r) (3 * b) = zero3 /\ seg3 (sb_f r) (3 * (ng + b)) = zero3.
Proof.
  intros inv gs tol ng M Iinv q0 v0 its r b HM HI Hg HR E Hb U.
  destruct (rb3_final inv gs tol ng M Iinv q0 v0 its HM HI Hg HR) as [r' [E' S]]. rewrite E in E'. injection E' as <-.
  assert (G : forall o, (o < 6)%nat -> sb_v r (slot3 3 ng b o) = v0 (slot3 3 ng b o) /\ sb_f r (slot3 3 ng b o) = 0).
  { intros o Ho. apply (untouched_gen rb3_sim rb3_laws false ng q0 v0 (rb3_cols ng q0) rb3_bodies gs tol (rb3_bias ng q0 v0) its (rb3_minv ng M Iinv) r b o); try assumption.
    - intros it Hi. destruct (HR it Hi) as [NS [R W]]. split; [|split; [exact R|now apply rb3_user_cols]].
      cbn [rb3_sim k_bodies]. now destruct (it_c it).
    - intros x b' o' Hb' Ho' Z. cbn [rb3_sim k_vslot k_s] in *. unfold rb3_minv, slot3. destruct (Nat.ltb_spec o' 3).
      + destruct (Nat.ltb_spec (3 * b' + o') (3 * ng)); [|lia]. specialize (Z o' Ho'). unfold slot3 in Z.
        rewrite (proj2 (Nat.ltb_lt o' 3)) in Z by lia. rewrite Z. ring.
      + destruct (Nat.ltb_spec (3 * ng + 3 * b' + (o' - 3)) (3 * ng)); [lia|].
        replace (3 * ng + 3 * b' + (o' - 3) - 3 * ng)%nat with ((o' - 3) + b' * 3)%nat by lia.
        rewrite Nat.div_add, Nat.mod_add, Nat.div_small, Nat.mod_small by lia. cbn [Nat.add].
        assert (S0 : seg3 x (3 * (ng + b')) = zero3).
        { rewrite Nat.mul_add_distr_l. assert (Z3 := Z 3%nat ltac:(lia)). assert (Z4 := Z 4%nat ltac:(lia)). assert (Z5 := Z 5%nat ltac:(lia)).
          unfold slot3 in Z3, Z4, Z5. cbn [Nat.ltb Nat.leb Nat.sub] in Z3, Z4, Z5. unfold seg3. now rewrite Z3, Z4, Z5. }
        rewrite S0. unfold mul3, dot3, zero3. destruct (o' - 3)%nat as [|[|?]]; cbn [c0 c1 c2]; ring.
    - cbn [rb3_sim k_vslot k_s]. unfold slot3. destruct (Nat.ltb_spec o 3); lia. }
  assert (L : forall x y : dvec, (forall o, (o < 6)%nat -> x (slot3 3 ng b o) = y (slot3 3 ng b o)) ->
    seg3 x (3 * b) = seg3 y (3 * b) /\ seg3 x (3 * (ng + b)) = seg3 y (3 * (ng + b))).
  { intros x y H. rewrite Nat.mul_add_distr_l.
    assert (H0 := H 0%nat ltac:(lia)). assert (H1 := H 1%nat ltac:(lia)). assert (H2 := H 2%nat ltac:(lia)).
    assert (H3 := H 3%nat ltac:(lia)). assert (H4 := H 4%nat ltac:(lia)). assert (H5 := H 5%nat ltac:(lia)).
    unfold slot3 in *. cbn [Nat.ltb Nat.leb Nat.sub] in *. unfold seg3. now rewrite H0, H1, H2, H3, H4, H5. }
  destruct (L (sb_v r) v0) as [A1 A2]; [intros; now apply G|].
  destruct (L (sb_f r) (fun _ => 0)) as [A3 A4]; [intros; now apply G|]. auto.
Qed.

(* ---------- the reported impulses are the ones that act ---------- *)
Lemma combine_in_nth : forall {A B} (l : list A) (m : list B) a b, In (a, b) (combine l m) ->
  exists k, nth_error l k = Some a /\ nth_error m k = Some b.
Proof.
  induction l as [|x l IH]; intros [|y m] a b H; try (destruct H; fail). destruct H as [H|H].
  - injection H as -> ->. now exists 0%nat.
  - destruct (IH m a b H) as [k [K1 K2]]. now exists (S k).
Qed.

Lemma reported_all : forall {C} (planar : bool) (its : list (item C)) rloc,
  (forall m r, In (m, r) (combine (map it_mu its) rloc) -> m = 0 -> forall t, In t (tl r) -> t = 0) -> length rloc = length its ->
  map (fun p => reported planar (fst p) (snd p)) (combine its rloc) = rloc.
Proof.
  intros C planar. induction its as [|it its IH]; intros [|r rloc] H L; try discriminate; [reflexivity|]. cbn [combine map]. f_equal.
  - cbn [fst snd]. unfold reported. destruct r as [|a t]; [reflexivity|]. destruct planar; cbn [andb]; [|reflexivity].
    unfold Reqb. destruct (Req_EM_T (it_mu it) 0) as [Z|]; [|reflexivity]. f_equal.
    specialize (H (it_mu it) (a :: t) (or_introl eq_refl) Z). cbn [tl] in H. clear - H. induction t as [|x t IH]; [reflexivity|].
    cbn [map]. f_equal; [symmetry; apply H; now left|]. apply IH. intros; apply H. now right.
  - apply IH; [|cbn [length] in L; lia]. intros m r' I. apply H. now right.
Qed.

Lemma solves_reported : forall {C} planar n Minv (cols : item C -> list col) bias_of gs tol v0 its r d,
  solves planar n Minv cols bias_of gs tol v0 its r -> returns d gs -> frictionless_ok gs ->
  forall k, (k < n)%nat -> sb_v r k = v0 k + Minv (impulse (combine (flat_map cols its) (concat (sb_imps r)))) k.
Proof.
  intros C planar n Minv cols bias_of gs tol v0 its r d S HR HF k Hk. unfold solves in S.
  specialize (HR (delassus Minv (flat_map cols its)) (map (fun it => free_velocity (cols it) v0 (bias_of it)) its) (map it_mu its) (map it_imp its)).
  specialize (HF (delassus Minv (flat_map cols its)) (map (fun it => free_velocity (cols it) v0 (bias_of it)) its) (map it_mu its) (map it_imp its)).
  destruct (gs (delassus Minv (flat_map cols its)) _ _ _) as [rloc err]. cbn [fst] in *. destruct HR as [HR _]. rewrite map_length in HR.
  destruct S as [_ [E [S1 _]]]. rewrite E, (reported_all planar its rloc HF HR). now apply S1.
Qed.

(* ---------- a sphere-body contact ends the program ---------- *)
Lemma sphere_body_exits : forall inv gs tol ng M q0 v0 l1 it l2,
  rb3_ready ng l1 -> ~ not_sphere_body (it_c it) -> sob_solve rb3_sim inv gs tol ng M q0 v0 (l1 ++ it :: l2) = Exit.
Proof.
  intros inv gs tol ng M q0 v0 l1 it l2 HR NS. unfold sob_solve, build_ltg. rewrite map_app, ofold_app.
  destruct (mark_all rb3_sim ng (map it_c l1) (fun _ => false)) as [p [E _]].
  { apply Forall_forall. intros c Hc. apply in_map_iff in Hc. destruct Hc as [i [<- Hi]]. destruct (HR i Hi) as [N [[R1 R2] _]].
    exists (fst (rb3_bodies (it_c i))), (snd (rb3_bodies (it_c i))). split; [|now split]. cbn [rb3_sim k_bodies]. now destruct (it_c i). }
  rewrite E. cbn [obind map ofold]. unfold mark_contact. cbn [rb3_sim k_bodies].
  destruct (it_c it); cbn [not_sphere_body] in NS; try (exfalso; apply NS; exact Logic.I). reflexivity.
Qed.
