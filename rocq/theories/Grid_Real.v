(* With exact real coordinates the grid always finishes on an arena of moderate size. *)
From Coq Require Import List NArith ZArith Reals Lia Lra Bool.
From Verif Require Import Outcome Grid_Model Grid_Spec Grid_Proofs Grid_Arith Grid_Dim Ccd_Model Ccd_Proofs.
Import ListNotations.
Open Scope R_scope.

Definition in_arena (M m : R) (b : box2 real) : Prop :=
  - M <= fst (lo2 b) /\ fst (lo2 b) <= fst (up2 b) /\ fst (up2 b) <= M /\
  - M <= snd (lo2 b) /\ snd (lo2 b) <= snd (up2 b) /\ snd (up2 b) <= M /\ m <= fst (up2 b) - fst (lo2 b).

Lemma amin_real a b : amin real a b <= a /\ amin real a b <= b /\ (amin real a b = a \/ amin real a b = b).
Proof. unfold amin. cbn [real alt sc]. destruct (Rltb_spec b a); repeat split; auto; lra. Qed.
Lemma amax_real a b : a <= amax real a b /\ b <= amax real a b /\ (amax real a b = a \/ amax real a b = b).
Proof. unfold amax. cbn [real alt sc]. destruct (Rltb_spec a b); repeat split; auto; lra. Qed.

Section Fold.
  Variable T : Type.
  Variable f : T -> R.
  Lemma real_fold_min bs M : forall a, M <= a -> (forall b, In b bs -> M <= f b) ->
    let r := fold_left (fun m b => amin real m (f b)) bs a in M <= r /\ r <= a /\ forall b, In b bs -> r <= f b.
  Proof.
    induction bs as [|b bs IH]; intros a Ha H; cbn [fold_left].
    - repeat split; auto; try lra. intros b [].
    - destruct (amin_real a (f b)) as (A & B & C).
      destruct (IH (amin real a (f b))) as (X & Y & Z).
      + pose proof (H b (or_introl eq_refl)). destruct C as [-> | ->]; lra.
      + intros c Hc. apply H. now right.
      + cbv zeta in *. repeat split; try lra. intros c [<-|Hc]; [lra|auto].
  Qed.
  Lemma real_fold_max bs M : forall a, a <= M -> (forall b, In b bs -> f b <= M) ->
    let r := fold_left (fun m b => amax real m (f b)) bs a in r <= M /\ a <= r /\ forall b, In b bs -> f b <= r.
  Proof.
    induction bs as [|b bs IH]; intros a Ha H; cbn [fold_left].
    - repeat split; auto; try lra. intros b [].
    - destruct (amax_real a (f b)) as (A & B & C).
      destruct (IH (amax real a (f b))) as (X & Y & Z).
      + pose proof (H b (or_introl eq_refl)). destruct C as [-> | ->]; lra.
      + intros c Hc. apply H. now right.
      + cbv zeta in *. repeat split; try lra. intros c [<-|Hc]; [lra|auto].
  Qed.
  Lemma real_fold_sum bs m : forall a, (forall b, In b bs -> m <= f b) ->
    a + m * INR (length bs) <= fold_left (fun d b => d + f b) bs a.
  Proof.
    induction bs as [|b bs IH]; intros a H; cbn [fold_left length].
    - cbn [INR]. lra.
    - eapply Rle_trans; [|apply IH; intros c Hc; apply H; now right]. rewrite S_INR.
      pose proof (H b (or_introl eq_refl)). lra.
  Qed.
End Fold.

Lemma fold_left_pair {T A B} (f : A -> T -> A) (g : B -> T -> B) l : forall a b,
  fold_left (fun m x => (f (fst m) x, g (snd m) x)) l (a, b) = (fold_left f l a, fold_left g l b).
Proof. induction l as [|x l IH]; intros a b; cbn [fold_left fst snd]; [reflexivity|apply IH]. Qed.

Lemma real_cell_total c mn h : 0 < h -> 0 <= c - mn -> (c - mn) / h < 4294967000 ->
  exists k, cell real c mn h = Ok k /\ (k < 4294967000)%N.
Proof.
  intros Hh P B. unfold cell. cbn [real adiv asub to_u32]. destruct (Req_EM_T h 0); [lra|].
  set (q := (c - mn) / h) in *. assert (0 <= q) by (unfold q; apply Rmult_le_pos; [lra|left; now apply Rinv_0_lt_compat]).
  unfold Rtrunc. destruct (Rle_dec 0 q); [|lra]. pose proof (Int_part_spec q) as S.
  assert (A : (0 <= Int_part q)%Z). { assert (-1 < Int_part q)%Z; [|lia]. apply lt_IZR. lra. }
  assert (C : (Int_part q < 4294967000)%Z) by (apply lt_IZR; lra).
  rewrite (proj2 (Z_u32_Some (Int_part q) (Z.to_N (Int_part q)))) by (split; [lia|reflexivity]).
  eexists. split; [reflexivity|]. lia.
Qed.
Lemma real_ncells_total mn mx h : 0 < h -> 0 <= mx - mn -> (mx - mn) / h < 4294967000 ->
  exists k, ncells real mn mx h = Ok k.
Proof.
  intros Hh P B. unfold ncells. cbn [real adiv asub aceil to_u32]. destruct (Req_EM_T h 0); [lra|].
  set (q := (mx - mn) / h) in *. assert (0 <= q) by (unfold q; apply Rmult_le_pos; [lra|left; now apply Rinv_0_lt_compat]).
  pose proof (Int_part_spec (- q)) as S. set (z := Int_part (- q)) in *.
  assert (A : (0 <= - z)%Z). { assert (z < 1)%Z; [|lia]. apply lt_IZR. lra. }
  assert (C : (- z < 4294967296)%Z). { assert (-4294967001 < z)%Z; [|lia]. apply lt_IZR. lra. }
  assert (T : Rtrunc (IZR (- z)) = (- z)%Z).
  { unfold Rtrunc. destruct (Rle_dec 0 (IZR (- z))) as [_|N]; [|exfalso; apply N; apply (IZR_le 0); lia].
    pose proof (Int_part_spec (IZR (- z))) as S'. set (w := Int_part (IZR (- z))) in *.
    assert (w < - z + 1)%Z by (apply lt_IZR; rewrite plus_IZR; lra).
    assert (- z < w + 1)%Z by (apply lt_IZR; rewrite plus_IZR; lra). lia. }
  rewrite T. rewrite (proj2 (Z_u32_Some (- z) (Z.to_N (- z)))) by (split; [lia|reflexivity]). eauto.
Qed.

Lemma real_total2 bs s M m : bs <> [] -> Forall (in_arena M m) bs -> 0 < m -> (2 * M + 1) < 4294967000 * m ->
  exists out, getPotentialOverlaps2 real bs s = Ok out.
Proof.
  intros Hne F Hm HM. rewrite Forall_forall in F.
  assert (G : exists mn dims h, init2 real bs = Ok (mn, dims, h) /\ forall b, In b bs -> exists ks, cells2 real mn h dims b = Ok ks).
  { destruct bs as [|b0 bs'] eqn:Ebs; [congruence|]. rewrite <- Ebs in *. clear Hne.
    assert (I0 : In b0 bs) by (rewrite Ebs; now left).
    unfold init2. rewrite Ebs. rewrite <- Ebs. cbv zeta.
    rewrite (surjective_pairing (lo2 b0)), (surjective_pairing (up2 b0)).
    rewrite (fold_left_pair (fun m b => amin real m (fst (lo2 b))) (fun m b => amin real m (snd (lo2 b)))).
    rewrite (fold_left_pair (fun m b => amax real m (fst (up2 b))) (fun m b => amax real m (snd (up2 b)))).
    rewrite (fold_left_pair (fun d b => aadd real d (asub real (fst (up2 b)) (fst (lo2 b)))) (fun d b => aadd real d (asub real (snd (up2 b)) (snd (lo2 b))))).
    cbn [fst snd].
    destruct (real_fold_min _ (fun b : box2 real => fst (lo2 b)) bs (- M) (fst (lo2 b0))) as (A1 & A2 & A3);
      [apply (F b0 I0)|intros b Ib; apply (F b Ib)|].
    destruct (real_fold_min _ (fun b : box2 real => snd (lo2 b)) bs (- M) (snd (lo2 b0))) as (B1 & B2 & B3);
      [apply (F b0 I0)|intros b Ib; apply (F b Ib)|].
    destruct (real_fold_max _ (fun b : box2 real => fst (up2 b)) bs M (fst (up2 b0))) as (C1 & C2 & C3);
      [apply (F b0 I0)|intros b Ib; apply (F b Ib)|].
    destruct (real_fold_max _ (fun b : box2 real => snd (up2 b)) bs M (snd (up2 b0))) as (D1 & D2 & D3);
      [apply (F b0 I0)|intros b Ib; apply (F b Ib)|].
    cbv zeta beta in *.
    set (mnx := fold_left _ bs (fst (lo2 b0))) in *. set (mny := fold_left _ bs (snd (lo2 b0))) in *.
    set (mxx := fold_left _ bs (fst (up2 b0))) in *. set (mxy := fold_left _ bs (snd (up2 b0))) in *.
    pose proof (real_fold_sum _ (fun b : box2 real => fst (up2 b) - fst (lo2 b)) bs m 0) as S.
    assert (S' : 0 + m * INR (length bs) <= fold_left (fun (d : R) (b : box2 real) => d + (fst (up2 b) - fst (lo2 b))) bs 0) by (apply S; intros b Ib; apply (F b Ib)).
    clear S.
    match goal with |- context [amax real ?A ?B] => set (sx := A); set (sy := B) end.
    change (0 + m * INR (length bs) <= sx) in S'.
    destruct (amax_real sx sy) as (X1 & X2 & X3).
    assert (Pn : 1 <= INR (length bs)).
    { rewrite Ebs. cbn [length]. rewrite S_INR. pose proof (pos_INR (length bs')). lra. }
    cbn [adiv real aofsize]. destruct (Req_EM_T (INR (length bs)) 0); [lra|].
    set (h := amax real sx sy / INR (length bs)).
    assert (Hh : m <= h).
    { unfold h. apply Rmult_le_reg_r with (INR (length bs)); [lra|]. unfold Rdiv. rewrite Rmult_assoc, Rinv_l by lra. cbn [sc real] in *. lra. }
    assert (Q : forall t, 0 <= t -> t <= 2 * M + 1 -> t / h < 4294967000).
    { intros t T0 T1. apply Rmult_lt_reg_r with h; [lra|]. unfold Rdiv. rewrite Rmult_assoc, Rinv_l, Rmult_1_r by lra.
      eapply Rle_lt_trans; [exact T1|]. eapply Rlt_le_trans; [exact HM|]. apply Rmult_le_compat_l; lra. }
    assert (Hh0 : 0 < h) by (exact (Rlt_le_trans _ _ _ Hm Hh)).
    clearbody h mnx mny mxx mxy sx sy.
    destruct (F b0 I0) as (Z1 & Z2 & Z3 & Z4 & Z5 & Z6 & _). cbn [sc real] in *.
    destruct (real_ncells_total (mnx - 2 * / 1000000) (mxx + 2 * / 1000000) h) as (dx & Ex); [exact Hh0|lra|apply Q; lra|].
    destruct (real_ncells_total (mny - 2 * / 1000000) (mxy + 2 * / 1000000) h) as (dy & Ey); [lra|lra|apply Q; lra|].
    match goal with |- exists mn dims hh, obind ?A _ = _ /\ _ => change A with (ncells real (mnx - 2 * / 1000000) (mxx + 2 * / 1000000) h) end.
    rewrite Ex. cbn [obind].
    match goal with |- exists mn dims hh, obind ?A _ = _ /\ _ => change A with (ncells real (mny - 2 * / 1000000) (mxy + 2 * / 1000000) h) end.
    rewrite Ey. cbn [obind].
    eexists; eexists; eexists. split; [reflexivity|].
    intros b Ib. destruct (F b Ib) as (V1 & V2 & V3 & V4 & V5 & V6 & _).
    assert (W : mnx <= fst (lo2 b) /\ mny <= snd (lo2 b) /\ - M <= fst (lo2 b) /\ fst (lo2 b) <= fst (up2 b) /\ fst (up2 b) <= M /\
      - M <= snd (lo2 b) /\ snd (lo2 b) <= snd (up2 b) /\ snd (up2 b) <= M) by exact (conj (A3 b Ib) (conj (B3 b Ib) (conj V1 (conj V2 (conj V3 (conj V4 (conj V5 V6))))))).
    clear V1 V2 V3 V4 V5 V6. unfold cells2, cell_lo, cell_up. cbn [fst snd].
    cbn [real aadd asub a1em6].
    destruct (real_cell_total (fst (lo2 b) - / 1000000) (mnx - 2 * / 1000000) h) as (lx & Elx & Lx); [lra|lra|apply Q; lra|].
    match goal with |- exists ks, obind ?A _ = _ => change A with (cell real (fst (lo2 b) - / 1000000) (mnx - 2 * / 1000000) h) end.
    rewrite Elx. cbn [obind].
    destruct (real_cell_total (snd (lo2 b) - / 1000000) (mny - 2 * / 1000000) h) as (ly & Ely & Ly); [lra|lra|apply Q; lra|].
    match goal with |- exists ks, obind ?A _ = _ => change A with (cell real (snd (lo2 b) - / 1000000) (mny - 2 * / 1000000) h) end.
    rewrite Ely. cbn [obind].
    destruct (real_cell_total (fst (up2 b) + / 1000000) (mnx - 2 * / 1000000) h) as (ux & Eux & Ux); [lra|lra|apply Q; lra|].
    match goal with |- exists ks, obind ?A _ = _ => change A with (cell real (fst (up2 b) + / 1000000) (mnx - 2 * / 1000000) h) end.
    rewrite Eux. cbn [obind].
    destruct (real_cell_total (snd (up2 b) + / 1000000) (mny - 2 * / 1000000) h) as (uy & Euy & Uy); [lra|lra|apply Q; lra|].
    match goal with |- exists ks, obind ?A _ = _ => change A with (cell real (snd (up2 b) + / 1000000) (mny - 2 * / 1000000) h) end.
    rewrite Euy. cbn [obind].
    cbn [obind]. unfold cell_range.
    rewrite (proj2 (N.eqb_neq ux 4294967295)) by lia. rewrite (proj2 (N.eqb_neq uy 4294967295)) by lia. cbn [obind]. eauto. }
  destruct G as (mn & dims & h & E & C).
  destruct (rasterize_total (cells2 real mn h dims) bs) with (idx := 0%nat) (m := @nil (N * list N)) as [v Ev]; [exact C|].
  unfold getPotentialOverlaps2. rewrite E. cbn [obind]. rewrite Ev. cbn [obind]. eexists. reflexivity.
Qed.
