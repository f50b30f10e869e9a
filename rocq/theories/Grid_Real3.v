(* The spatial grid over the reals can be built for every bounded scene whose boxes are not too thin. *)
From Coq Require Import List Reals Arith NArith ZArith Bool Lra Lia.
From Verif Require Import Outcome Grid_Model Grid_Spec Grid_Proofs Grid_Arith Grid_Dim Grid_Exact Ccd_Model Ccd_Proofs Grid_Real.
Import ListNotations.
Local Open Scope R_scope.

Definition axis3 (k : nat) {A} (v : A * A * A) : A := match k with O => Grid_Model.c0 v | 1%nat => Grid_Model.c1 v | _ => Grid_Model.c2 v end.
Definition in_arena3 (M m : R) (b : box3 real) : Prop :=
  (forall k, (k < 3)%nat -> - M <= axis3 k (lo3 b) /\ axis3 k (lo3 b) <= axis3 k (up3 b) /\ axis3 k (up3 b) <= M)
  /\ m <= Grid_Model.c0 (up3 b) - Grid_Model.c0 (lo3 b).

Lemma fold_left_triple {T A B C} (f : A -> T -> A) (g : B -> T -> B) (h : C -> T -> C) l : forall a b c,
  fold_left (fun m x => (f (fst (fst m)) x, g (snd (fst m)) x, h (snd m) x)) l (a, b, c) = (fold_left f l a, fold_left g l b, fold_left h l c).
Proof. induction l as [|x l IH]; intros a b c; cbn [fold_left fst snd]; [reflexivity|apply IH]. Qed.
Lemma triple_eta {A B C} (v : A * B * C) : v = (fst (fst v), snd (fst v), snd v).
Proof. destruct v as [[a b] c]. reflexivity. Qed.

(* the values the counts and cell numbers take *)
Lemma real_cell_value c mn h k : cell real c mn h = Ok k -> 0 < h -> 0 <= c - mn -> IZR (Z.of_N k) <= (c - mn) / h.
Proof.
  intros E Hh P. unfold cell in E. cbn [real adiv asub to_u32] in E. destruct (Req_EM_T h 0); [lra|].
  set (q := (c - mn) / h) in *. assert (0 <= q) by (unfold q; apply Rmult_le_pos; [lra|left; now apply Rinv_0_lt_compat]).
  unfold Rtrunc in E. destruct (Rle_dec 0 q); [|lra]. pose proof (Int_part_spec q) as S.
  destruct (Z_u32 (Int_part q)) as [k'|] eqn:K; [|discriminate]. injection E as ->. apply Z_u32_Some in K. destruct K as [K1 ->].
  rewrite Z2N.id by lia. lra.
Qed.
Lemma real_ncells_value mn mx h d : ncells real mn mx h = Ok d -> 0 < h -> 0 <= mx - mn ->
  (mx - mn) / h <= IZR (Z.of_N d) /\ IZR (Z.of_N d) < (mx - mn) / h + 1.
Proof.
  intros E Hh P. unfold ncells in E. cbn [real adiv asub aceil to_u32] in E. destruct (Req_EM_T h 0); [lra|].
  set (q := (mx - mn) / h) in *. assert (0 <= q) by (unfold q; apply Rmult_le_pos; [lra|left; now apply Rinv_0_lt_compat]).
  pose proof (Int_part_spec (- q)) as S. set (z := Int_part (- q)) in *.
  assert (A : (0 <= - z)%Z). { assert (z < 1)%Z; [|lia]. apply lt_IZR. lra. }
  assert (T : Rtrunc (IZR (- z)) = (- z)%Z).
  { unfold Rtrunc. destruct (Rle_dec 0 (IZR (- z))) as [_|N]; [|exfalso; apply N; apply (IZR_le 0); lia].
    pose proof (Int_part_spec (IZR (- z))) as S'. set (w := Int_part (IZR (- z))) in *.
    assert (w < - z + 1)%Z by (apply lt_IZR; rewrite plus_IZR; lra).
    assert (- z < w + 1)%Z by (apply lt_IZR; rewrite plus_IZR; lra). lia. }
  rewrite T in E. destruct (Z_u32 (- z)) as [k'|] eqn:K; [|discriminate]. injection E as ->. apply Z_u32_Some in K. destruct K as [K1 ->].
  rewrite Z2N.id by lia. rewrite opp_IZR. lra.
Qed.
Lemma cell_below mn mx h c d k : ncells real mn mx h = Ok d -> cell real c mn h = Ok k -> 0 < h -> mn <= c -> c < mx -> (k < d)%N.
Proof.
  intros Ed Ek Hh A B. apply real_ncells_value in Ed; [|exact Hh|lra]. apply real_cell_value in Ek; [|exact Hh|lra].
  assert ((c - mn) / h < (mx - mn) / h) by (apply Rmult_lt_compat_r; [now apply Rinv_0_lt_compat|lra]).
  assert (Z.of_N k < Z.of_N d)%Z by (apply lt_IZR; lra). lia.
Qed.
Lemma ncells_small mn mx h d n : ncells real mn mx h = Ok d -> 0 < h -> 0 <= mx - mn -> mx - mn <= IZR n * h -> (Z.of_N d <= n)%Z.
Proof.
  intros Ed Hh A B. apply real_ncells_value in Ed; [|exact Hh|lra].
  assert ((mx - mn) / h <= IZR n) by (apply Rmult_le_reg_r with h; [exact Hh|]; unfold Rdiv; rewrite Rmult_assoc, Rinv_l, Rmult_1_r by lra; exact B).
  assert (Z.of_N d < n + 1)%Z by (apply lt_IZR; rewrite plus_IZR; lra). lia.
Qed.
Lemma cells_differ dx dy dz ux uy uz lx ly lz xs ys zs : (dx * dy * dz <= 4294967296)%N -> (ux < dx)%N -> (uy < dy)%N -> (uz < dz)%N ->
  cell_range lx ux = Ok xs -> cell_range ly uy = Ok ys -> cell_range lz uz = Ok zs ->
  NoDup (flat_map (fun x => flat_map (fun y => map (fun z => key3 x y z (dx, dy, dz)) zs) ys) xs).
Proof.
  intros Hd Lx Ly Lz Ex Ey Ez.
  pose proof (cell_range_In _ _ _ Ex) as Ix. pose proof (cell_range_In _ _ _ Ey) as Iy. pose proof (cell_range_In _ _ _ Ez) as Iz.
  apply NoDup_flat_map.
  - eapply NoDup_cell_range; eauto.
  - intros x Hx. apply NoDup_flat_map; [eapply NoDup_cell_range; eauto| |].
    + intros y Hy. apply NoDup_map_inj; [|eapply NoDup_cell_range; eauto].
      intros z z' Hz Hz' K. apply Ix in Hx. apply Iy in Hy. apply Iz in Hz, Hz'. apply key3_inj in K; lia.
    + intros y y' k Hy Hy' Hk Hk'. apply in_map_iff in Hk as (z & <- & Hz). apply in_map_iff in Hk' as (z' & K & Hz').
      apply Ix in Hx. apply Iy in Hy, Hy'. apply Iz in Hz, Hz'. apply key3_inj in K; lia.
  - intros x x' k Hx Hx' Hk Hk'. apply in_flat_map in Hk as (y & Hy & Hk). apply in_flat_map in Hk' as (y' & Hy' & Hk').
    apply in_map_iff in Hk as (z & <- & Hz). apply in_map_iff in Hk' as (z' & K & Hz').
    apply Ix in Hx, Hx'. apply Iy in Hy, Hy'. apply Iz in Hz, Hz'. apply key3_inj in K; lia.
Qed.

Lemma real_total3 bs s M m : bs <> [] -> Forall (in_arena3 M m) bs -> 0 < m -> (2 * M + 1) < 4294967000 * m ->
  exists out, getPotentialOverlaps3 real bs s = Ok out
    /\ (indexable bs -> 2 * M + 1 <= 1600 * m -> forall k, In (k, k) out -> In (k, k) s).
Proof.
  intros Hne F Hm HM. rewrite Forall_forall in F.
  assert (F0 : forall b, In b bs -> - M <= fst (fst (lo3 b)) /\ fst (fst (lo3 b)) <= fst (fst (up3 b)) /\ fst (fst (up3 b)) <= M) by (intros b Ib; apply (proj1 (F b Ib) 0%nat); lia).
  assert (F1 : forall b, In b bs -> - M <= snd (fst (lo3 b)) /\ snd (fst (lo3 b)) <= snd (fst (up3 b)) /\ snd (fst (up3 b)) <= M) by (intros b Ib; apply (proj1 (F b Ib) 1%nat); lia).
  assert (F2 : forall b, In b bs -> - M <= snd (lo3 b) /\ snd (lo3 b) <= snd (up3 b) /\ snd (up3 b) <= M) by (intros b Ib; apply (proj1 (F b Ib) 2%nat); lia).
  assert (F3 : forall b, In b bs -> m <= fst (fst (up3 b)) - fst (fst (lo3 b))) by (intros b Ib; apply (proj2 (F b Ib))). clear F.
  assert (G : exists mn dims h, init3 real bs = Ok (mn, dims, h) /\ forall b, In b bs -> exists ks, cells3 real mn h dims b = Ok ks /\ (2 * M + 1 <= 1600 * m -> NoDup ks)).
  { destruct bs as [|b0 bs'] eqn:Ebs; [congruence|]. rewrite <- Ebs in *. clear Hne.
    assert (I0 : In b0 bs) by (rewrite Ebs; now left).
    unfold init3. rewrite Ebs. rewrite <- Ebs. cbv zeta. unfold Grid_Model.c0, Grid_Model.c1, Grid_Model.c2.
    rewrite (triple_eta (lo3 b0)), (triple_eta (up3 b0)).
    rewrite (fold_left_triple (fun m b => amin real m (fst (fst (lo3 b)))) (fun m b => amin real m (snd (fst (lo3 b)))) (fun m b => amin real m (snd (lo3 b)))).
    rewrite (fold_left_triple (fun m b => amax real m (fst (fst (up3 b)))) (fun m b => amax real m (snd (fst (up3 b)))) (fun m b => amax real m (snd (up3 b)))).
    rewrite (fold_left_triple (fun d b => aadd real d (asub real (fst (fst (up3 b))) (fst (fst (lo3 b))))) (fun d b => aadd real d (asub real (snd (fst (up3 b))) (snd (fst (lo3 b))))) (fun d b => aadd real d (asub real (snd (up3 b)) (snd (lo3 b))))).
    cbn [fst snd].
    destruct (real_fold_min _ (fun b : box3 real => fst (fst (lo3 b))) bs (- M) (fst (fst (lo3 b0)))) as (A1 & A2 & A3); [apply (F0 b0 I0)|intros b Ib; apply (F0 b Ib)|].
    destruct (real_fold_min _ (fun b : box3 real => snd (fst (lo3 b))) bs (- M) (snd (fst (lo3 b0)))) as (B1 & B2 & B3); [apply (F1 b0 I0)|intros b Ib; apply (F1 b Ib)|].
    destruct (real_fold_min _ (fun b : box3 real => snd (lo3 b)) bs (- M) (snd (lo3 b0))) as (K1 & K2 & K3); [apply (F2 b0 I0)|intros b Ib; apply (F2 b Ib)|].
    destruct (real_fold_max _ (fun b : box3 real => fst (fst (up3 b))) bs M (fst (fst (up3 b0)))) as (C1 & C2 & C3); [apply (F0 b0 I0)|intros b Ib; apply (F0 b Ib)|].
    destruct (real_fold_max _ (fun b : box3 real => snd (fst (up3 b))) bs M (snd (fst (up3 b0)))) as (D1 & D2 & D3); [apply (F1 b0 I0)|intros b Ib; apply (F1 b Ib)|].
    destruct (real_fold_max _ (fun b : box3 real => snd (up3 b)) bs M (snd (up3 b0))) as (E1 & E2 & E3); [apply (F2 b0 I0)|intros b Ib; apply (F2 b Ib)|].
    cbv zeta beta in *.
    set (mnx := fold_left _ bs (fst (fst (lo3 b0)))) in *. set (mny := fold_left _ bs (snd (fst (lo3 b0)))) in *. set (mnz := fold_left _ bs (snd (lo3 b0))) in *.
    set (mxx := fold_left _ bs (fst (fst (up3 b0)))) in *. set (mxy := fold_left _ bs (snd (fst (up3 b0)))) in *. set (mxz := fold_left _ bs (snd (up3 b0))) in *.
    assert (S' : 0 + m * INR (length bs) <= fold_left (fun (d : R) (b : box3 real) => d + (fst (fst (up3 b)) - fst (fst (lo3 b)))) bs 0).
    { apply (real_fold_sum _ (fun b : box3 real => fst (fst (up3 b)) - fst (fst (lo3 b))) bs m 0). exact F3. }
    match goal with |- context [amax real (amax real ?A ?B) ?C] => set (sx := A); set (sy := B); set (sz := C) end.
    change (0 + m * INR (length bs) <= sx) in S'.
    destruct (amax_real sx sy) as (X1 & _ & _). destruct (amax_real (amax real sx sy) sz) as (X2 & _ & _).
    assert (Pn : 1 <= INR (length bs)).
    { rewrite Ebs. cbn [length]. rewrite S_INR. pose proof (pos_INR (length bs')). lra. }
    cbn [adiv real aofsize]. destruct (Req_EM_T (INR (length bs)) 0); [lra|].
    set (h := amax real (amax real sx sy) sz / INR (length bs)).
    assert (Hh : m <= h).
    { unfold h. apply Rmult_le_reg_r with (INR (length bs)); [lra|]. unfold Rdiv. rewrite Rmult_assoc, Rinv_l by lra. cbn [sc real] in *. lra. }
    assert (Q : forall t, 0 <= t -> t <= 2 * M + 1 -> t / h < 4294967000).
    { intros t T0 T1. apply Rmult_lt_reg_r with h; [lra|]. unfold Rdiv. rewrite Rmult_assoc, Rinv_l, Rmult_1_r by lra.
      eapply Rle_lt_trans; [exact T1|]. eapply Rlt_le_trans; [exact HM|]. apply Rmult_le_compat_l; lra. }
    assert (Hh0 : 0 < h) by (exact (Rlt_le_trans _ _ _ Hm Hh)).
    clearbody h mnx mny mnz mxx mxy mxz sx sy sz.
    destruct (F0 b0 I0) as (Z1 & Z2 & Z3). destruct (F1 b0 I0) as (Z4 & Z5 & Z6). destruct (F2 b0 I0) as (Z7 & Z8 & Z9). cbn [sc real] in *.
    destruct (real_ncells_total (mnx - 2 * / 1000000) (mxx + 2 * / 1000000) h) as (dx & Ex); [exact Hh0|lra|apply Q; lra|].
    destruct (real_ncells_total (mny - 2 * / 1000000) (mxy + 2 * / 1000000) h) as (dy & Ey); [exact Hh0|lra|apply Q; lra|].
    destruct (real_ncells_total (mnz - 2 * / 1000000) (mxz + 2 * / 1000000) h) as (dz & Ez); [exact Hh0|lra|apply Q; lra|].
    match goal with |- exists mn dims hh, obind ?A _ = _ /\ _ => change A with (ncells real (mnx - 2 * / 1000000) (mxx + 2 * / 1000000) h) end.
    rewrite Ex. cbn [obind].
    match goal with |- exists mn dims hh, obind ?A _ = _ /\ _ => change A with (ncells real (mny - 2 * / 1000000) (mxy + 2 * / 1000000) h) end.
    rewrite Ey. cbn [obind].
    match goal with |- exists mn dims hh, obind ?A _ = _ /\ _ => change A with (ncells real (mnz - 2 * / 1000000) (mxz + 2 * / 1000000) h) end.
    rewrite Ez. cbn [obind].
    eexists; eexists; eexists. split; [reflexivity|].
    intros b Ib. destruct (F0 b Ib) as (V1 & V2 & V3). destruct (F1 b Ib) as (V4 & V5 & V6). destruct (F2 b Ib) as (V7 & V8 & V9).
    pose proof (A3 b Ib) as U1. pose proof (B3 b Ib) as U2. pose proof (K3 b Ib) as U3.
    destruct b as [[[l0 l1] l2] [[u0 u1] u2]]. cbn [lo3 up3 fst snd] in *.
    assert (W : forall c mn, mn <= c -> - M <= mn -> c <= M -> exists k, cell real (c - / 1000000) (mn - 2 * / 1000000) h = Ok k /\ (k < 4294967000)%N).
    { intros c mn W1 W2 W3. apply real_cell_total; [exact Hh0|lra|apply Q; lra]. }
    assert (W' : forall c mn, mn <= c -> - M <= mn -> c <= M -> exists k, cell real (c + / 1000000) (mn - 2 * / 1000000) h = Ok k /\ (k < 4294967000)%N).
    { intros c mn W1 W2 W3. apply real_cell_total; [exact Hh0|lra|apply Q; lra]. }
    unfold cells3, cell_lo, cell_up, Grid_Model.c0, Grid_Model.c1, Grid_Model.c2. cbn [fst snd lo3 up3].
    cbn [real aadd asub a1em6 a2em6 sc] in *.
    assert (Le : forall a b c : R, a <= b -> b <= c -> a <= c) by (intros a b c; apply Rle_trans).
    destruct (W l0 mnx U1 A1 (Le _ _ _ V2 V3)) as (lx & Elx & Lx). destruct (W l1 mny U2 B1 (Le _ _ _ V5 V6)) as (ly & Ely & Ly).
    destruct (W l2 mnz U3 K1 (Le _ _ _ V8 V9)) as (lz & Elz & Lz).
    destruct (W' u0 mnx (Le _ _ _ U1 V2) A1 V3) as (ux & Eux & Ux). destruct (W' u1 mny (Le _ _ _ U2 V5) B1 V6) as (uy & Euy & Uy).
    destruct (W' u2 mnz (Le _ _ _ U3 V8) K1 V9) as (uz & Euz & Uz).
    match goal with |- exists ks, obind ?A _ = _ /\ _ => change A with (cell real (l0 - / 1000000) (mnx - 2 * / 1000000) h) end. rewrite Elx. cbn [obind].
    match goal with |- exists ks, obind ?A _ = _ /\ _ => change A with (cell real (l1 - / 1000000) (mny - 2 * / 1000000) h) end. rewrite Ely. cbn [obind].
    match goal with |- exists ks, obind ?A _ = _ /\ _ => change A with (cell real (l2 - / 1000000) (mnz - 2 * / 1000000) h) end. rewrite Elz. cbn [obind].
    match goal with |- exists ks, obind ?A _ = _ /\ _ => change A with (cell real (u0 + / 1000000) (mnx - 2 * / 1000000) h) end. rewrite Eux. cbn [obind].
    match goal with |- exists ks, obind ?A _ = _ /\ _ => change A with (cell real (u1 + / 1000000) (mny - 2 * / 1000000) h) end. rewrite Euy. cbn [obind].
    match goal with |- exists ks, obind ?A _ = _ /\ _ => change A with (cell real (u2 + / 1000000) (mnz - 2 * / 1000000) h) end. rewrite Euz. cbn [obind].
    unfold cell_range.
    rewrite (proj2 (N.eqb_neq ux 4294967295)) by lia. rewrite (proj2 (N.eqb_neq uy 4294967295)) by lia. rewrite (proj2 (N.eqb_neq uz 4294967295)) by lia.
    cbn [obind]. eexists. split; [reflexivity|]. intros Small.
    assert (Fit : forall t, t <= 2 * M + 1 -> t <= IZR 1600 * h).
    { intros t Ht. apply Rle_trans with (2 * M + 1); [exact Ht|]. apply Rle_trans with (1600 * m); [exact Small|]. apply Rmult_le_compat_l; [lra|exact Hh]. }
    assert (N0 : (Z.of_N dx <= 1600)%Z) by (apply (ncells_small _ _ _ _ _ Ex Hh0); [lra|apply Fit; lra]).
    assert (N1 : (Z.of_N dy <= 1600)%Z) by (apply (ncells_small _ _ _ _ _ Ey Hh0); [lra|apply Fit; lra]).
    assert (N2 : (Z.of_N dz <= 1600)%Z) by (apply (ncells_small _ _ _ _ _ Ez Hh0); [lra|apply Fit; lra]).
    assert (Hd : (dx * dy * dz <= 4294967296)%N).
    { assert (dx * dy <= 1600 * 1600)%N by (apply N.mul_le_mono; lia). assert (dx * dy * dz <= 1600 * 1600 * 1600)%N by (apply N.mul_le_mono; lia). lia. }
    assert (M0 : u0 <= mxx) by (apply (C3 _ Ib)). assert (M1 : u1 <= mxy) by (apply (D3 _ Ib)). assert (M2 : u2 <= mxz) by (apply (E3 _ Ib)).
    eapply cells_differ; [exact Hd| | | |unfold cell_range|unfold cell_range|unfold cell_range].
    4: rewrite (proj2 (N.eqb_neq ux 4294967295)) by lia; reflexivity.
    4: rewrite (proj2 (N.eqb_neq uy 4294967295)) by lia; reflexivity.
    4: rewrite (proj2 (N.eqb_neq uz 4294967295)) by lia; reflexivity.
    - apply (cell_below _ _ _ _ _ _ Ex Eux Hh0); [pose proof (Le _ _ _ U1 V2) as Y; lra|lra].
    - apply (cell_below _ _ _ _ _ _ Ey Euy Hh0); [pose proof (Le _ _ _ U2 V5) as Y; lra|lra].
    - apply (cell_below _ _ _ _ _ _ Ez Euz Hh0); [pose proof (Le _ _ _ U3 V8) as Y; lra|lra]. }
  destruct G as (mn & dims & h & E & C).
  destruct (rasterize_total (cells3 real mn h dims) bs) with (idx := 0%nat) (m := @nil (N * list N)) as [v Ev]; [intros b Ib; destruct (C b Ib) as (ks & K & _); eauto|].
  unfold getPotentialOverlaps3. rewrite E. cbn [obind]. rewrite Ev. cbn [obind]. eexists. split; [reflexivity|].
  intros Ix Small k H. eapply gen_sound in H as [H|(_ & _ & Self)]; eauto. exfalso. destruct (Self eq_refl) as (b & Hb & ND).
  destruct (C b) as (ks & K & NDk); [eapply nth_error_In; exact Hb|]. apply ND. unfold keys_of. rewrite K. apply NDk, Small.
Qed.
