(* The velocity the So-bogus interface returns is the one before plus the effect of impulses along the rows of H, whatever
   the frames are. *)
From Coq Require Import List Reals Arith Bool Lia Lra.
From Verif Require Import Outcome Ccd_Model Lin_Model Lin_Proofs Sob_Model Sob_Spec Sob_Proofs Sob_Thms.
Import ListNotations.
Open Scope R_scope.

Section Impulse.
Context {C : Type} (K : sim C) (laws : sim_laws K).
Let s := k_s K. Let d := k_d K.

Definition prepared0 (q0 : dvec) (ltg : list nat) (it : item C) (h : stored C) : Prop :=
  exists i oj i' oj', k_bodies K (it_c it) = Ok (i, oj) /\ st_ij h = (i', oj') /\
    both (fun b b' => (b' < length ltg)%nat /\ nth b' ltg 0%nat = b) i oj i' oj' /\
    k_H0 K q0 (it_c it) (it_E it) = Ok (st_h0 h) /\ k_H1 K q0 (it_c it) (it_E it) = Ok (st_h1 h) /\
    remap K (ltg_at ltg) (st_c h) = Ok (it_c it).

Lemma prepare_ok0 : forall ng ltg q0 v0 it,
  (forall b, touches K (it_c it) b -> In b ltg) -> placed K ng (it_c it) -> shaped d d (it_E it) ->
  exists h, prepare K ltg q0 (extract (k_qs K) (k_qslot K) ng ltg q0) (extract s (k_vslot K) ng ltg v0) it = Ok h /\
    prepared0 q0 ltg it h.
Proof.
  intros ng ltg q0 v0 it T [i [oj [B _]]] SE. set (ql := extract _ _ ng ltg q0). set (vl := extract _ _ ng ltg v0).
  assert (Ti : In i ltg). { apply T. exists i, oj. tauto. }
  destruct (find_from_ok ltg i 0 Ti) as [i' [Fi [Li Ni]]].
  assert (Hj : exists oj', match oj, oj' with Some j, Some j' => find_from 0 ltg j = Ok j' /\ (j' < length ltg)%nat /\ nth j' ltg 0%nat = j | None, None => True | _, _ => False end).
  { destruct oj as [j|]; [|now exists None]. assert (Tj : In j ltg). { apply T. exists i, (Some j). tauto. }
    destruct (find_from_ok ltg j 0 Tj) as [j' H]. now exists (Some j'). }
  destruct Hj as [oj' Hj].
  destruct (law_local K laws (it_c it) i oj i' oj' B) as [c' [B' [R1 [R2 LOC]]]].
  { split; [exact Logic.I|]. destruct oj, oj'; tauto. }
  destruct (law_shape K laws (it_c it) i oj q0 (it_E it) B SE) as [h0 [oh1 [kin [H0 [H1 [HK _]]]]]].
  destruct (LOC ng q0 v0 (length ltg) ql vl (it_E it)) as [L0 [L1 L2]].
  { assert (G : forall b b', (b' < length ltg)%nat /\ nth b' ltg 0%nat = b ->
      same_body (k_qs K) (k_qslot K) ng q0 b (length ltg) ql b' /\ same_body (k_s K) (k_vslot K) ng v0 b (length ltg) vl b').
    { intros b b' [Hb <-]. split; intros o Ho.
      - apply (extract_in (k_qs K) (k_qslot K) (law_q K laws)); assumption.
      - apply (extract_in (k_s K) (k_vslot K) (law_v K laws)); assumption. }
    split; [now apply G|]. destruct oj, oj'; try tauto. apply G. tauto. }
  unfold prepare, kin_rel. rewrite HK. cbn [obind]. rewrite (R1 (find_from 0 ltg)).
  - cbn [obind]. rewrite L0, H0, L1, H1, B'. cbn [obind]. eexists. split; [reflexivity|].
    exists i, oj, i', oj'. cbn [st_ij st_h0 st_h1 st_c]. split; [exact B|]. split; [reflexivity|].
    split; [split; [now split|]; destruct oj, oj'; tauto|]. split; [exact H0|]. split; [exact H1|].
    apply R2. split; [rewrite ltg_at_ok by exact Li; now rewrite Ni|].
    destruct oj as [j|], oj' as [j'|]; try tauto. rewrite ltg_at_ok by tauto. f_equal. tauto.
  - split; [exact Fi|]. destruct oj, oj'; tauto.
Qed.

Theorem sob_impulse : forall inv gs tol ng M q0 v0 its Minv cols r,
  (forall b, (b < ng)%nat -> inverts s (inv (k_mass K ng M b)) (k_mass K ng M b)) ->
  (forall x b o, (b < ng)%nat -> (o < s)%nat ->
     Minv x (k_vslot K ng b o) = rsum s (fun p => inv (k_mass K ng M b) o p * x (k_vslot K ng b p))) ->
  (forall it, In it its -> placed K ng (it_c it) /\ shaped d d (it_E it) /\ user_cols K ng q0 it (cols it)) ->
  sob_solve K inv gs tol ng M q0 v0 its = Ok r ->
  exists x, forall k, (k < s * ng)%nat -> sb_v r k = v0 k + Minv (impulse (combine (flat_map cols its) x)) k.
Proof.
  intros inv gs tol ng M q0 v0 its Minv cols r Hinv HM Hits HS.
  destruct (ltg_ok K ng (map it_c its)) as [ltg [El [ND [RG TL]]]].
  { apply Forall_forall. intros c Hc. apply in_map_iff in Hc. destruct Hc as [it [<- Hi]]. now apply Hits. }
  assert (TI : forall it b, In it its -> touches K (it_c it) b -> In b ltg).
  { intros it b Hi Ht. destruct (Hits it Hi) as [[i [oj [B [Bi Bj]]]] _]. apply TL.
    - destruct Ht as [i2 [oj2 [B2 H2]]]. rewrite B in B2. injection B2 as <- <-. destruct H2 as [->|H2]; [exact Bi|]. subst oj. exact Bj.
    - exists (it_c it). split; [now apply in_map|exact Ht]. }
  set (ql := extract (k_qs K) (k_qslot K) ng ltg q0). set (vl := extract s (k_vslot K) ng ltg v0).
  destruct (omapM_forall2 (prepare K ltg q0 ql vl) (fun it h => In it its /\ prepared0 q0 ltg it h) its) as [hs [Eh Fh]].
  { intros it Hi. destruct (prepare_ok0 ng ltg q0 v0 it) as [h [E P]]; [now intros b; apply TI|now apply Hits|now apply Hits|].
    exists h. split; [exact E|]. split; [exact Hi|exact P]. }
  set (mass := fun l => k_mass K ng M (nth l ltg 0%nat)).
  set (minv := block_mul K (fun l => inv (mass l))).
  set (fin := fun k => - rsum s (fun o => mass (k / s)%nat (k mod s)%nat o * vl (k_vslot K (length ltg) (k / s)%nat o))).
  assert (VL : forall l o, (l < length ltg)%nat -> (o < s)%nat -> vl (k_vslot K (length ltg) l o) = v0 (k_vslot K ng (nth l ltg 0%nat) o)).
  { intros l o Hl Ho. apply (extract_in s (k_vslot K) (law_v K laws)); assumption. }
  assert (GL : forall l, (l < length ltg)%nat -> (nth l ltg 0 < ng)%nat) by (intros; apply RG; now apply nth_In).
  assert (MV : forall l o, (l < length ltg)%nat -> (o < s)%nat -> minv fin (packed K l o) = - v0 (k_vslot K ng (nth l ltg 0%nat) o)).
  { intros l o Hl Ho. unfold minv. rewrite block_mul_at by exact Ho.
    rewrite <- (Hinv (nth l ltg 0%nat) (GL l Hl) (fun p => v0 (k_vslot K ng (nth l ltg 0%nat) p)) o Ho).
    rewrite <- rsum_opp. apply rsum_ext. intros p Hp. unfold fin.
    destruct (packed_div K l p Hp) as [E1 E2]. fold s in E1, E2. rewrite E1, E2. unfold mass.
    rewrite (rsum_ext s (fun o0 => k_mass K ng M (nth l ltg 0%nat) p o0 * vl (k_vslot K (length ltg) l o0))
                        (fun r => k_mass K ng M (nth l ltg 0%nat) p r * v0 (k_vslot K ng (nth l ltg 0%nat) r))).
    - ring.
    - intros r' Hr. now rewrite VL. }
  assert (MI : forall x y, (forall l o, (l < length ltg)%nat -> (o < s)%nat -> x (packed K l o) = y (k_vslot K ng (nth l ltg 0%nat) o)) ->
    forall l o, (l < length ltg)%nat -> (o < s)%nat -> minv x (packed K l o) = Minv y (k_vslot K ng (nth l ltg 0%nat) o)).
  { intros x y H l o Hl Ho. unfold minv. rewrite block_mul_at by exact Ho. rewrite HM by auto. apply rsum_ext.
    intros p Hp. now rewrite H. }
  set (same := same_col s (length ltg) ng ltg (packed K) (k_vslot K ng)).
  assert (PI : forall b o b' o', (b < length ltg)%nat -> (o < s)%nat -> (b' < length ltg)%nat -> (o' < s)%nat ->
     packed K b o = packed K b' o' -> b = b' /\ o = o') by (intros; now apply (packed_inj K)).
  assert (VI : forall n b o b' o', (b < n)%nat -> (o < s)%nat -> (b' < n)%nat -> (o' < s)%nat ->
     k_vslot K n b o = k_vslot K n b' o' -> b = b' /\ o = o') by (intros n; apply (law_v K laws n)).
  assert (CS : forall it h, In it its /\ prepared0 q0 ltg it h -> Forall2 same (st_cols K h) (cols it)).
  { intros it h [Hi [i [oj [i' [oj' [E2 [E3 [E4 [E5 [E6 _]]]]]]]]]]. destruct (Hits it Hi) as [_ [_ [ij [h0 [h1 [U1 [U2 [U3 ->]]]]]]]].
    rewrite E2 in U1. injection U1 as <-. rewrite E5 in U2. injection U2 as <-. rewrite E6 in U3. injection U3 as <-.
    unfold st_cols. rewrite E3. apply hcols_same; try assumption; try apply VI.
    - apply E4.
    - apply E4.
    - destruct E4 as [_ E4]. destruct oj, oj'; tauto. }
  assert (FS : Forall2 same (flat_map (st_cols K) hs) (flat_map cols its)).
  { apply Forall2_flip. apply (forall2_flat (fun it h => In it its /\ prepared0 q0 ltg it h) (fun a b => same b a)); [exact Fh|].
    intros it h P. apply Forall2_flip. now apply CS. }
  unfold sob_solve in HS. fold s in HS. rewrite El in HS. cbn [obind] in HS. cbv zeta in HS. fold ql vl in HS. rewrite Eh in HS. cbn [obind] in HS.
  fold mass in HS. change (block_mul K (fun l => inv (k_mass K ng M (nth l ltg 0%nat)))) with minv in HS.
  change (fun k => - rsum s (fun o => k_mass K ng M (nth (k / s) ltg 0%nat) (k mod s)%nat o * vl (k_vslot K (length ltg) (k / s)%nat o))) with fin in HS.
  destruct (gs _ _ _ _) as [rloc err]. destruct (omapM _ hs) as [back| |]; [|discriminate HS..]. cbn [obind] in HS. injection HS as <-.
  cbn [sb_v]. exists (concat rloc).
  intros k Hk. destruct (law_all K laws ng k Hk) as [b [o [Hb [Ho ->]]]].
  assert (FP := forall2_combine _ _ _ (concat rloc) FS).
  destruct (impulse_same K ng ltg (packed K) (k_vslot K ng) (length ltg) _ _ FP) as [I1 I2].
  destruct (in_dec Nat.eq_dec b ltg) as [Ib|Nb].
  - destruct (In_nth ltg b 0%nat Ib) as [l [Hl <-]].
    rewrite (scatter_in s (k_vslot K) (law_v K laws)) by assumption.
    rewrite (reorder_in s (k_vslot K) (law_v K laws)) by auto.
    set (imp := impulse (combine (flat_map (st_cols K) hs) (concat rloc))).
    match goal with |- _ = ?rhs => change (minv (fun k => imp k - fin k) (packed K l o) = rhs) end.
    assert (A : minv (fun k => imp k - fin k) (packed K l o) = minv imp (packed K l o) - minv fin (packed K l o)).
    { unfold minv. rewrite !block_mul_at by exact Ho. unfold Rminus. rewrite <- rsum_opp, <- rsum_plus.
      apply rsum_ext. intros; ring. }
    rewrite A, MV by assumption. rewrite (MI imp (impulse (combine (flat_map cols its) (concat rloc)))) by assumption. ring.
  - rewrite (scatter_out s (k_vslot K) (law_v K laws)) by assumption. rewrite HM by assumption.
    rewrite (rsum_zero s); [ring|]. intros p Hp. rewrite I2 by assumption. ring.
Qed.
End Impulse.
