(* The 2D and 3D grids. *)
From Coq Require Import List NArith ZArith QArith Qround Reals Lia Lqa Lra Bool Sorted ZifyBool ZifyNat ZifyN.
From Flocq Require Import Core IEEE754.BinarySingleNaN.
From Verif Require Import Outcome Grid_Model Grid_Spec Grid_Proofs Grid_Arith.
Import ListNotations.
Open Scope N_scope.

Lemma cell_range_In lo up l : cell_range lo up = Ok l -> forall x, In x l <-> lo <= x <= up.
Proof.
  unfold cell_range. destruct (up =? _) eqn:E; [discriminate|]. intros [= <-] x.
  rewrite in_map_iff. split.
  - intros (k & <- & H). apply in_seq in H. lia.
  - intros H. exists (N.to_nat (x - lo)). split; [lia|]. apply in_seq. lia.
Qed.
Lemma NoDup_map_inj {A B} (f : A -> B) l : (forall x y, In x l -> In y l -> f x = f y -> x = y) ->
  NoDup l -> NoDup (map f l).
Proof.
  induction l as [|a l IH]; intros Hf H; cbn [map]; [constructor|]. inversion H; subst. constructor.
  - intros I. apply in_map_iff in I as (y & E & I). apply H2. rewrite <- (Hf y a); auto; [now right|now left].
  - apply IH; auto. intros; apply Hf; auto; now right.
Qed.
Lemma NoDup_flat_map {A B} (f : A -> list B) xs : NoDup xs -> (forall x, In x xs -> NoDup (f x)) ->
  (forall x y z, In x xs -> In y xs -> In z (f x) -> In z (f y) -> x = y) -> NoDup (flat_map f xs).
Proof.
  induction xs as [|a xs IH]; intros H1 H2 H3; cbn [flat_map]; [constructor|]. inversion H1; subst.
  assert (ND : NoDup (flat_map f xs)).
  { apply IH; auto; intros; [apply H2|eapply H3]; eauto; now right. }
  assert (Dis : forall z, In z (f a) -> ~ In z (flat_map f xs)).
  { intros z Hz I. apply in_flat_map in I as (y & Iy & Iz).
    assert (a = y) by (eapply H3; eauto; [now left|now right]). subst; auto. }
  assert (Na : NoDup (f a)) by (apply H2; now left).
  revert Na Dis. generalize (f a) as l. induction l as [|b l IHl]; intros Na Dis; cbn [app]; auto.
  inversion Na; subst. constructor.
  - rewrite in_app_iff. intros [|I]; auto. eapply Dis; eauto; now left.
  - apply IHl; auto. intros; apply Dis; now right.
Qed.
Lemma NoDup_cell_range lo up l : cell_range lo up = Ok l -> NoDup l.
Proof.
  unfold cell_range. destruct (up =? _); [discriminate|]. intros [= <-]. apply NoDup_map_inj.
  - intros; lia.
  - apply seq_NoDup.
Qed.

(* ================= any arithmetic ================= *)
Section Any.
  Variable ar : arith.
  Hypothesis L : arith_laws ar.
  Notation le a b := (alt ar b a = false).

  Definition wf2 (b : box2 ar) : Prop := le (fst (lo2 b)) (fst (up2 b)) /\ le (snd (lo2 b)) (snd (up2 b)).
  Definition wf3 (b : box3 ar) : Prop :=
    le (c0 (lo3 b)) (c0 (up3 b)) /\ le (c1 (lo3 b)) (c1 (up3 b)) /\ le (c2 (lo3 b)) (c2 (up3 b)).

  Lemma overlaps2_inv (a b : box2 ar) : overlaps2 a b = true ->
    le (fst (lo2 b)) (fst (up2 a)) /\ le (snd (lo2 b)) (snd (up2 a)) /\
    le (fst (lo2 a)) (fst (up2 b)) /\ le (snd (lo2 a)) (snd (up2 b)).
  Proof.
    unfold overlaps2.
    destruct (alt ar (fst (up2 a)) (fst (lo2 b))), (alt ar (snd (up2 a)) (snd (lo2 b))),
      (alt ar (fst (up2 b)) (fst (lo2 a))), (alt ar (snd (up2 b)) (snd (lo2 a))); cbn; auto; discriminate.
  Qed.
  Lemma overlaps2_intro (a b : box2 ar) :
    le (fst (lo2 b)) (fst (up2 a)) -> le (snd (lo2 b)) (snd (up2 a)) ->
    le (fst (lo2 a)) (fst (up2 b)) -> le (snd (lo2 a)) (snd (up2 b)) -> overlaps2 a b = true.
  Proof. intros H1 H2 H3 H4. unfold overlaps2. now rewrite H1, H2, H3, H4. Qed.
  Lemma overlaps3_inv (a b : box3 ar) : overlaps3 a b = true ->
    (le (c0 (lo3 b)) (c0 (up3 a)) /\ le (c1 (lo3 b)) (c1 (up3 a)) /\ le (c2 (lo3 b)) (c2 (up3 a))) /\
    (le (c0 (lo3 a)) (c0 (up3 b)) /\ le (c1 (lo3 a)) (c1 (up3 b)) /\ le (c2 (lo3 a)) (c2 (up3 b))).
  Proof.
    unfold overlaps3.
    destruct (alt ar (c0 (up3 a)) (c0 (lo3 b))), (alt ar (c1 (up3 a)) (c1 (lo3 b))), (alt ar (c2 (up3 a)) (c2 (lo3 b))),
      (alt ar (c0 (up3 b)) (c0 (lo3 a))), (alt ar (c1 (up3 b)) (c1 (lo3 a))), (alt ar (c2 (up3 b)) (c2 (lo3 a)));
      cbn; auto; discriminate.
  Qed.
  Lemma overlaps3_intro (a b : box3 ar) :
    le (c0 (lo3 b)) (c0 (up3 a)) -> le (c1 (lo3 b)) (c1 (up3 a)) -> le (c2 (lo3 b)) (c2 (up3 a)) ->
    le (c0 (lo3 a)) (c0 (up3 b)) -> le (c1 (lo3 a)) (c1 (up3 b)) -> le (c2 (lo3 a)) (c2 (up3 b)) -> overlaps3 a b = true.
  Proof. intros H1 H2 H3 H4 H5 H6. unfold overlaps3. now rewrite H1, H2, H3, H4, H5, H6. Qed.

  (* the cell size is not negative *)
  Lemma amax_nn a b : le (azero ar) a -> le (azero ar) b -> le (azero ar) (amax ar a b).
  Proof. unfold amax. destruct (alt ar a b); auto. Qed.
  Lemma sum2_nn (bs : list (box2 ar)) : Forall wf2 bs -> forall d, le (azero ar) (fst d) -> le (azero ar) (snd d) ->
    let d' := fold_left (fun d b => (aadd ar (fst d) (asub ar (fst (up2 b)) (fst (lo2 b))),
                                     aadd ar (snd d) (asub ar (snd (up2 b)) (snd (lo2 b))))) bs d in
    le (azero ar) (fst d') /\ le (azero ar) (snd d').
  Proof.
    induction 1 as [|b bs [H1 H2] _ IH]; intros d D1 D2; cbn [fold_left]; auto.
    apply IH; cbn [fst snd]; apply (law_add _ L); auto; apply (law_sub _ L); auto.
  Qed.
  Lemma sum3_nn (bs : list (box3 ar)) : Forall wf3 bs -> forall d, le (azero ar) (c0 d) -> le (azero ar) (c1 d) -> le (azero ar) (c2 d) ->
    let d' := fold_left (fun d b => (aadd ar (c0 d) (asub ar (c0 (up3 b)) (c0 (lo3 b))),
                                     aadd ar (c1 d) (asub ar (c1 (up3 b)) (c1 (lo3 b))),
                                     aadd ar (c2 d) (asub ar (c2 (up3 b)) (c2 (lo3 b))))) bs d in
    le (azero ar) (c0 d') /\ le (azero ar) (c1 d') /\ le (azero ar) (c2 d').
  Proof.
    induction 1 as [|b bs (H1 & H2 & H3) _ IH]; intros d D1 D2 D3; cbn [fold_left]; auto.
    apply IH; unfold c0, c1, c2 in *; cbn [fst snd]; apply (law_add _ L); auto; apply (law_sub _ L); auto.
  Qed.
  Lemma init2_h bs mn dims h : Forall wf2 bs -> init2 ar bs = Ok (mn, dims, h) -> le (azero ar) h.
  Proof.
    intros W E. destruct bs as [|b0 bs]; [discriminate|]. unfold init2 in E. cbv zeta in E.
    set (n := length (b0 :: bs)) in *.
    destruct (sum2_nn _ W (azero ar, azero ar) (law_zero _ L) (law_zero _ L)) as [H1 H2].
    destruct (adiv ar _ _) as [h'|] eqn:Eh in E; [|discriminate].
    apply (law_div _ L) in Eh; [|cbn; lia|apply amax_nn; assumption].
    apply obind_Ok_inv in E as (? & _ & E). apply obind_Ok_inv in E as (? & _ & E). congruence.
  Qed.
  Lemma init3_h bs mn dims h : Forall wf3 bs -> init3 ar bs = Ok (mn, dims, h) -> le (azero ar) h.
  Proof.
    intros W E. destruct bs as [|b0 bs]; [discriminate|]. unfold init3 in E. cbv zeta in E.
    set (n := length (b0 :: bs)) in *.
    destruct (sum3_nn _ W (azero ar, azero ar, azero ar) (law_zero _ L) (law_zero _ L) (law_zero _ L)) as (H1 & H2 & H3).
    destruct (adiv ar _ _) as [h'|] eqn:Eh in E; [|discriminate].
    apply (law_div _ L) in Eh; [|cbn; lia|apply amax_nn; [apply amax_nn|]; assumption].
    apply obind_Ok_inv in E as (? & _ & E). apply obind_Ok_inv in E as (? & _ & E).
    apply obind_Ok_inv in E as (? & _ & E). congruence.
  Qed.

  Lemma cells2_inv mn h dims b ks : cells2 ar mn h dims b = Ok ks ->
    exists lx ly ux uy xs ys,
      cell_lo ar (fst (lo2 b)) (fst mn) h = Ok lx /\ cell_lo ar (snd (lo2 b)) (snd mn) h = Ok ly /\
      cell_up ar (fst (up2 b)) (fst mn) h = Ok ux /\ cell_up ar (snd (up2 b)) (snd mn) h = Ok uy /\
      cell_range lx ux = Ok xs /\ cell_range ly uy = Ok ys /\
      ks = flat_map (fun x => map (fun y => key2 x y dims) ys) xs.
  Proof.
    unfold cells2. intros E.
    apply obind_Ok_inv in E as (lx & E1 & E). apply obind_Ok_inv in E as (ly & E2 & E).
    apply obind_Ok_inv in E as (ux & E3 & E). apply obind_Ok_inv in E as (uy & E4 & E).
    apply obind_Ok_inv in E as (xs & E5 & E). apply obind_Ok_inv in E as (ys & E6 & E).
    injection E as <-. exists lx, ly, ux, uy, xs, ys. repeat split; auto.
  Qed.
  Lemma cells3_inv mn h dims b ks : cells3 ar mn h dims b = Ok ks ->
    exists lx ly lz ux uy uz xs ys zs,
      cell_lo ar (c0 (lo3 b)) (c0 mn) h = Ok lx /\ cell_lo ar (c1 (lo3 b)) (c1 mn) h = Ok ly /\
      cell_lo ar (c2 (lo3 b)) (c2 mn) h = Ok lz /\
      cell_up ar (c0 (up3 b)) (c0 mn) h = Ok ux /\ cell_up ar (c1 (up3 b)) (c1 mn) h = Ok uy /\
      cell_up ar (c2 (up3 b)) (c2 mn) h = Ok uz /\
      cell_range lx ux = Ok xs /\ cell_range ly uy = Ok ys /\ cell_range lz uz = Ok zs /\
      ks = flat_map (fun x => flat_map (fun y => map (fun z => key3 x y z dims) zs) ys) xs.
  Proof.
    unfold cells3. intros E.
    apply obind_Ok_inv in E as (lx & E1 & E). apply obind_Ok_inv in E as (ly & E2 & E). apply obind_Ok_inv in E as (lz & E3 & E).
    apply obind_Ok_inv in E as (ux & E4 & E). apply obind_Ok_inv in E as (uy & E5 & E). apply obind_Ok_inv in E as (uz & E6 & E).
    apply obind_Ok_inv in E as (xs & E7 & E). apply obind_Ok_inv in E as (ys & E8 & E). apply obind_Ok_inv in E as (zs & E9 & E).
    injection E as <-. exists lx, ly, lz, ux, uy, uz, xs, ys, zs. repeat split; auto.
  Qed.

  Lemma law_cell' mn h a b i k : cell_lo ar a mn h = Ok i -> cell_up ar b mn h = Ok k ->
    le (azero ar) h -> le a b -> i <= k.
  Proof. intros. eapply (law_cell _ L); eauto. Qed.
  Lemma common_cell la ua lb ub : la <= ua -> lb <= ub -> la <= ub -> lb <= ua ->
    exists x, la <= x <= ua /\ lb <= x <= ub.
  Proof. intros. exists (N.max la lb). lia. Qed.

  Lemma common_key2 mn h dims a b ka kb : le (azero ar) h -> wf2 a -> wf2 b -> overlaps2 a b = true ->
    cells2 ar mn h dims a = Ok ka -> cells2 ar mn h dims b = Ok kb -> exists k, In k ka /\ In k kb.
  Proof.
    intros Hh [A1 A2] [B1 B2] O Ea Eb. apply overlaps2_inv in O as (O1 & O2 & O3 & O4).
    apply cells2_inv in Ea as (lx & ly & ux & uy & xs & ys & P1 & P2 & P3 & P4 & P5 & P6 & ->).
    apply cells2_inv in Eb as (lx' & ly' & ux' & uy' & xs' & ys' & Q1 & Q2 & Q3 & Q4 & Q5 & Q6 & ->).
    destruct (common_cell lx ux lx' ux') as (x & Hx & Hx'); try (eapply law_cell'; eassumption).
    destruct (common_cell ly uy ly' uy') as (y & Hy & Hy'); try (eapply law_cell'; eassumption).
    exists (key2 x y dims). split; apply in_flat_map; exists x; (split; [eapply cell_range_In; eauto|]);
      apply in_map_iff; exists y; (split; [reflexivity|eapply cell_range_In; eauto]).
  Qed.
  Lemma common_key3 mn h dims a b ka kb : le (azero ar) h -> wf3 a -> wf3 b -> overlaps3 a b = true ->
    cells3 ar mn h dims a = Ok ka -> cells3 ar mn h dims b = Ok kb -> exists k, In k ka /\ In k kb.
  Proof.
    intros Hh (A1 & A2 & A3) (B1 & B2 & B3) O Ea Eb. apply overlaps3_inv in O as ((O1 & O2 & O3) & O4 & O5 & O6).
    apply cells3_inv in Ea as (lx & ly & lz & ux & uy & uz & xs & ys & zs & P1 & P2 & P3 & P4 & P5 & P6 & P7 & P8 & P9 & ->).
    apply cells3_inv in Eb as (lx' & ly' & lz' & ux' & uy' & uz' & xs' & ys' & zs' & Q1 & Q2 & Q3 & Q4 & Q5 & Q6 & Q7 & Q8 & Q9 & ->).
    destruct (common_cell lx ux lx' ux') as (x & Hx & Hx'); try (eapply law_cell'; eassumption).
    destruct (common_cell ly uy ly' uy') as (y & Hy & Hy'); try (eapply law_cell'; eassumption).
    destruct (common_cell lz uz lz' uz') as (z & Hz & Hz'); try (eapply law_cell'; eassumption).
    exists (key3 x y z dims). split; apply in_flat_map; exists x; (split; [eapply cell_range_In; eauto|]);
      apply in_flat_map; exists y; (split; [eapply cell_range_In; eauto|]);
      apply in_map_iff; exists z; (split; [reflexivity|eapply cell_range_In; eauto]).
  Qed.

  Lemma any_complete2 bs s out i j a b : indexable bs -> Forall wf2 bs ->
    getPotentialOverlaps2 ar bs s = Ok out ->
    i < j -> box_at bs i a -> box_at bs j b -> overlaps2 a b = true -> In (i, j) out.
  Proof.
    intros Hi W E Hij Ha Hb O. unfold getPotentialOverlaps2 in E.
    apply obind_Ok_inv in E as ([[mn dims] h] & E1 & E). apply obind_Ok_inv in E as (m & E2 & E).
    injection E as <-.
    pose proof (init2_h _ _ _ _ W E1) as Hh.
    destruct (rasterize_get _ bs 0 [] m I E2) as (_ & _ & T).
    assert (Ia : In a bs) by (eapply nth_error_In; exact Ha).
    assert (Ib : In b bs) by (eapply nth_error_In; exact Hb).
    destruct (T a Ia) as [ka Ka]. destruct (T b Ib) as [kb Kb].
    rewrite Forall_forall in W.
    destruct (common_key2 mn h dims a b ka kb) as (k & I1 & I2); auto.
    apply (gen_complete overlaps2 (cells2 ar mn h dims) bs m s Hi E2 i j a b k); auto; unfold keys_of; [rewrite Ka|rewrite Kb]; auto.
  Qed.
  Lemma any_complete3 bs s out i j a b : indexable bs -> Forall wf3 bs ->
    getPotentialOverlaps3 ar bs s = Ok out ->
    i < j -> box_at bs i a -> box_at bs j b -> overlaps3 a b = true -> In (i, j) out.
  Proof.
    intros Hi W E Hij Ha Hb O. unfold getPotentialOverlaps3 in E.
    apply obind_Ok_inv in E as ([[mn dims] h] & E1 & E). apply obind_Ok_inv in E as (m & E2 & E).
    injection E as <-.
    pose proof (init3_h _ _ _ _ W E1) as Hh.
    destruct (rasterize_get _ bs 0 [] m I E2) as (_ & _ & T).
    assert (Ia : In a bs) by (eapply nth_error_In; exact Ha).
    assert (Ib : In b bs) by (eapply nth_error_In; exact Hb).
    destruct (T a Ia) as [ka Ka]. destruct (T b Ib) as [kb Kb].
    rewrite Forall_forall in W.
    destruct (common_key3 mn h dims a b ka kb) as (k & I1 & I2); auto.
    apply (gen_complete overlaps3 (cells3 ar mn h dims) bs m s Hi E2 i j a b k); auto; unfold keys_of; [rewrite Ka|rewrite Kb]; auto.
  Qed.

  Lemma any_sound2 bs s out i j : indexable bs -> getPotentialOverlaps2 ar bs s = Ok out -> In (i, j) out ->
    In (i, j) s \/ (i <= j /\ exists a b, box_at bs i a /\ box_at bs j b /\ overlaps2 a b = true).
  Proof.
    intros Hi E H. unfold getPotentialOverlaps2 in E.
    apply obind_Ok_inv in E as ([[mn dims] h] & E1 & E). apply obind_Ok_inv in E as (m & E2 & E).
    injection E as <-. eapply gen_sound in H as [|(H1 & H2 & _)]; eauto.
  Qed.
  Lemma any_sound3 bs s out i j : indexable bs -> getPotentialOverlaps3 ar bs s = Ok out -> In (i, j) out ->
    In (i, j) s \/ (i <= j /\ exists a b, box_at bs i a /\ box_at bs j b /\ overlaps3 a b = true).
  Proof.
    intros Hi E H. unfold getPotentialOverlaps3 in E.
    apply obind_Ok_inv in E as ([[mn dims] h] & E1 & E). apply obind_Ok_inv in E as (m & E2 & E).
    injection E as <-. eapply gen_sound in H as [|(H1 & H2 & _)]; eauto.
  Qed.
  Lemma any_keeps2 bs s out : getPotentialOverlaps2 ar bs s = Ok out -> forall p, In p s -> In p out.
  Proof.
    intros E p H. unfold getPotentialOverlaps2 in E.
    apply obind_Ok_inv in E as ([[mn dims] h] & E1 & E). apply obind_Ok_inv in E as (m & E2 & E).
    injection E as <-. apply scan_In; auto. now destruct (rasterize_get _ bs 0 [] m I E2).
  Qed.
  Lemma any_keeps3 bs s out : getPotentialOverlaps3 ar bs s = Ok out -> forall p, In p s -> In p out.
  Proof.
    intros E p H. unfold getPotentialOverlaps3 in E.
    apply obind_Ok_inv in E as ([[mn dims] h] & E1 & E). apply obind_Ok_inv in E as (m & E2 & E).
    injection E as <-. apply scan_In; auto. now destruct (rasterize_get _ bs 0 [] m I E2).
  Qed.
End Any.

(* ================= exact arithmetic ================= *)
Ltac qlra := Lqa.lra.

Lemma overlaps2_meet (a b : box2 exact) : proper2 a -> proper2 b -> (overlaps2 a b = true <-> meet2 a b).
Proof.
  intros [A1 A2] [B1 B2]. split.
  - intros O. apply overlaps2_inv in O as (O1 & O2 & O3 & O4).
    apply exact_alt_false in O1, O2, O3, O4.
    assert (M : forall la ua lb ub : Q, (la < ua)%Q -> (lb < ub)%Q -> (lb <= ua)%Q -> (la <= ub)%Q ->
       exists p, (la <= p /\ p <= ua /\ lb <= p /\ p <= ub)%Q).
    { intros. destruct (Qlt_le_dec la lb); [exists lb|exists la]; repeat split; qlra. }
    destruct (M _ _ _ _ A1 B1 O1 O3) as (x & ? & ? & ? & ?).
    destruct (M _ _ _ _ A2 B2 O2 O4) as (y & ? & ? & ? & ?).
    exists (x, y). split; repeat split; cbn [fst snd]; auto.
  - intros ([x y] & (P1 & P2 & P3 & P4) & (Q1 & Q2 & Q3 & Q4)). cbn [fst snd] in *.
    apply overlaps2_intro; apply exact_alt_false; eapply Qle_trans; eauto.
Qed.
Lemma overlaps3_meet (a b : box3 exact) : proper3 a -> proper3 b -> (overlaps3 a b = true <-> meet3 a b).
Proof.
  intros (A1 & A2 & A3) (B1 & B2 & B3). split.
  - intros O. apply overlaps3_inv in O as ((O1 & O2 & O3) & O4 & O5 & O6).
    apply exact_alt_false in O1, O2, O3, O4, O5, O6.
    assert (M : forall la ua lb ub : Q, (la < ua)%Q -> (lb < ub)%Q -> (lb <= ua)%Q -> (la <= ub)%Q ->
       exists p, (la <= p /\ p <= ua /\ lb <= p /\ p <= ub)%Q).
    { intros. destruct (Qlt_le_dec la lb); [exists lb|exists la]; repeat split; qlra. }
    destruct (M _ _ _ _ A1 B1 O1 O4) as (x & ? & ? & ? & ?).
    destruct (M _ _ _ _ A2 B2 O2 O5) as (y & ? & ? & ? & ?).
    destruct (M _ _ _ _ A3 B3 O3 O6) as (z & ? & ? & ? & ?).
    exists (x, y, z). split; repeat split; cbn [c0 c1 c2 fst snd]; auto.
  - intros ([[x y] z] & (P1 & P2 & P3 & P4 & P5 & P6) & (Q1 & Q2 & Q3 & Q4 & Q5 & Q6)).
    unfold c0, c1, c2 in *; cbn [fst snd] in *.
    apply overlaps3_intro; unfold c0, c1, c2; apply exact_alt_false; eapply Qle_trans; eauto.
Qed.
Lemma proper2_wf b : proper2 b -> wf2 exact b.
Proof. intros [H1 H2]. split; apply exact_alt_false; apply Qlt_le_weak; assumption. Qed.
Lemma proper3_wf b : proper3 b -> wf3 exact b.
Proof. intros (H1 & H2 & H3). repeat split; apply exact_alt_false; apply Qlt_le_weak; assumption. Qed.

(* one axis *)
Lemma axis_ok (lo up mn mx h : Q) (X : Z) : (mx - mn <= inject_Z X * h)%Q -> (0 < h)%Q -> (lo < up)%Q -> (mn <= lo - (2 # 1000000))%Q -> (up + (2 # 1000000) <= mx)%Q ->
  (X < 4294967296)%Z ->
  exists l u d, cell_lo exact lo mn h = Ok l /\ cell_up exact up mn h = Ok u /\ ncells exact mn mx h = Ok d /\
    l <= u /\ u < d /\ (Z.of_N d <= X)%Z.
Proof.
  intros HX Hh Hl Hmn Hmx HX2.
  assert (Hnz : Qeq_bool h 0 = false).
  { apply not_true_is_false. intros E. apply Qeq_bool_iff in E. qlra. }
  set (zl := Qred (Qred (Qred (lo - (1 # 1000000)) - mn) / h)).
  set (zu := Qred (Qred (Qred (up + (1 # 1000000)) - mn) / h)).
  set (zd := Qred (Qred (mx - mn) / h)).
  assert (El : (zl == (lo - (1 # 1000000) - mn) / h)%Q) by (unfold zl; rewrite !Qred_correct; reflexivity).
  assert (Eu : (zu == (up + (1 # 1000000) - mn) / h)%Q) by (unfold zu; rewrite !Qred_correct; reflexivity).
  assert (Ed : (zd == (mx - mn) / h)%Q) by (unfold zd; rewrite !Qred_correct; reflexivity).
  assert (Hi : (0 < / h)%Q) by (apply Qinv_lt_0_compat; auto).
  assert (Zl : (0 <= zl)%Q).
  { rewrite El. apply Qle_shift_div_l; auto. qlra. }
  assert (Zlu : (zl <= zu)%Q).
  { rewrite El, Eu. unfold Qdiv. apply Qmult_le_compat_r; qlra. }
  assert (Zud : (zu < zd)%Q).
  { rewrite Eu, Ed. unfold Qdiv. apply Qmult_lt_r; auto. qlra. }
  assert (ZdX : (zd <= inject_Z X)%Q).
  { rewrite Ed. apply Qle_shift_div_r; auto. }
  assert (C1 : (Qceiling zd <= X)%Z).
  { rewrite <- (Qceiling_Z X). apply Qceiling_resp_le; auto. }
  assert (C2 : (Qfloor zu < Qceiling zd)%Z).
  { rewrite Zlt_Qlt. eapply Qle_lt_trans; [apply Qfloor_le|]. eapply Qlt_le_trans; [exact Zud|apply Qle_ceiling]. }
  assert (C3 : (Qfloor zl <= Qfloor zu)%Z) by (apply Qfloor_resp_le; auto).
  assert (C4 : (0 <= Qfloor zl)%Z).
  { change 0%Z with (Qfloor (inject_Z 0)). apply Qfloor_resp_le; auto. }
  exists (Z.to_N (Qfloor zl)), (Z.to_N (Qfloor zu)), (Z.to_N (Qceiling zd)).
  assert (U : forall z, (0 <= z < 4294967296)%Z -> Z_u32 z = Some (Z.to_N z)).
  { intros z Hz. apply Z_u32_Some; auto. }
  repeat split; try lia.
  - unfold cell_lo, cell. cbn [exact adiv asub a1em6 to_u32]. rewrite Hnz.
    change (Z.quot _ _) with (Qtrunc zl). rewrite Qtrunc_floor by auto. rewrite U; auto. lia.
  - unfold cell_up, cell. cbn [exact adiv aadd asub a1em6 to_u32]. rewrite Hnz.
    change (Z.quot _ _) with (Qtrunc zu). rewrite Qtrunc_floor by qlra. rewrite U; auto. lia.
  - unfold ncells. cbn [exact adiv aadd asub a1em6 to_u32 aceil]. rewrite Hnz.
    fold zd. cbn [inject_Z Qnum Qden]. rewrite Z.quot_1_r. rewrite U; auto. lia.
Qed.

Lemma amin_exact (a b : Q) : (amin exact a b <= a)%Q /\ (amin exact a b <= b)%Q /\ (amin exact a b = a \/ amin exact a b = b).
Proof.
  unfold amin. destruct (alt exact b a) eqn:E.
  - apply exact_alt_true in E. repeat split; auto; qlra.
  - apply exact_alt_false in E. repeat split; auto; qlra.
Qed.
Lemma amax_exact (a b : Q) : (a <= amax exact a b)%Q /\ (b <= amax exact a b)%Q /\ (amax exact a b = a \/ amax exact a b = b).
Proof.
  unfold amax. destruct (alt exact a b) eqn:E.
  - apply exact_alt_true in E. repeat split; auto; qlra.
  - apply exact_alt_false in E. repeat split; auto; qlra.
Qed.

Lemma fold_min {B} (f : B -> Q) bs : forall m, let r := fold_left (fun m b => amin exact m (f b)) bs m in
  (r <= m)%Q /\ (forall b, In b bs -> (r <= f b)%Q) /\ (r = m \/ exists b, In b bs /\ r = f b).
Proof.
  induction bs as [|b bs IH]; intros m; cbn [fold_left].
  - repeat split; auto; [qlra|intros ? []].
  - destruct (IH (amin exact m (f b))) as (H1 & H2 & H3). destruct (amin_exact m (f b)) as (A1 & A2 & A3).
    cbn [sc exact] in *. repeat split.
    + eapply Qle_trans; eauto.
    + intros b' [<-|I]; auto. eapply Qle_trans; eauto.
    + destruct H3 as [H3|(b' & I & H3)].
      * rewrite H3. destruct A3 as [->| ->]; auto. right. exists b. split; auto. now left.
      * right. exists b'. split; auto. now right.
Qed.
Lemma fold_max {B} (f : B -> Q) bs : forall m, let r := fold_left (fun m b => amax exact m (f b)) bs m in
  (m <= r)%Q /\ (forall b, In b bs -> (f b <= r)%Q) /\ (r = m \/ exists b, In b bs /\ r = f b).
Proof.
  induction bs as [|b bs IH]; intros m; cbn [fold_left].
  - repeat split; auto; [qlra|intros ? []].
  - destruct (IH (amax exact m (f b))) as (H1 & H2 & H3). destruct (amax_exact m (f b)) as (A1 & A2 & A3).
    cbn [sc exact] in *. repeat split.
    + eapply Qle_trans; eauto.
    + intros b' [<-|I]; auto. eapply Qle_trans; eauto.
    + destruct H3 as [H3|(b' & I & H3)].
      * rewrite H3. destruct A3 as [->| ->]; auto. right. exists b. split; auto. now left.
      * right. exists b'. split; auto. now right.
Qed.
Lemma fold_sum {B} (f : B -> Q) bs : forall m,
  (fold_left (fun d b => Qred (d + f b)) bs m == m + Qsum (map f bs))%Q.
Proof.
  induction bs as [|b bs IH]; intros m; cbn [fold_left map Qsum fold_right]; [qlra|].
  rewrite IH, Qred_correct. unfold Qsum. qlra.
Qed.
Lemma Qsum_pos {B} (f : B -> Q) bs : (forall b, In b bs -> (0 < f b)%Q) -> bs <> [] -> (0 < Qsum (map f bs))%Q.
Proof.
  intros H N. destruct bs as [|b bs]; [congruence|]. clear N. revert b H.
  induction bs as [|c bs IH]; intros b H; cbn [map Qsum fold_right] in *.
  - pose proof (H b (or_introl eq_refl)). qlra.
  - pose proof (H b (or_introl eq_refl)). assert (0 < Qsum (map f (c :: bs)))%Q.
    { apply IH. intros; apply H; now right. } cbn [map Qsum fold_right] in H1. unfold Qsum in H1. qlra.
Qed.

(* componentwise folds *)
Lemma fold_pair {A B} (f g : A -> B -> A) bs : forall m,
  fold_left (fun m b => (f (fst m) b, g (snd m) b)) bs m = (fold_left f bs (fst m), fold_left g bs (snd m)).
Proof. induction bs as [|b bs IH]; intros m; cbn [fold_left]; [now destruct m|]. now rewrite IH. Qed.
Lemma fold_triple {A B} (f g k : A -> B -> A) bs : forall m,
  fold_left (fun m b => (f (c0 m) b, g (c1 m) b, k (c2 m) b)) bs m =
  (fold_left f bs (c0 m), fold_left g bs (c1 m), fold_left k bs (c2 m)).
Proof. induction bs as [|b bs IH]; intros m; cbn [fold_left]; [now destruct m as [[? ?] ?]|]. now rewrite IH. Qed.

Lemma key2_inj d1 d2 x y x' y' : x < d1 -> y < d2 -> x' < d1 -> y' < d2 -> d1 * d2 <= 4294967296 ->
  key2 x y (d1, d2) = key2 x' y' (d1, d2) -> x = x' /\ y = y'.
Proof.
  intros Hx Hy Hx' Hy' Hd. unfold key2. cbn [fst].
  assert (A : forall x y, x < d1 -> y < d2 -> x + d1 * y < 4294967296) by (intros; nia).
  pose proof (A x y Hx Hy). pose proof (A x' y' Hx' Hy').
  rewrite !u32_small by (try rewrite u32_small; lia). intros E.
  assert (y = y').
  { apply (f_equal (fun n => n / d1)) in E. rewrite !(N.mul_comm d1), !N.div_add, !(N.div_small _ d1) in E by lia. lia. }
  subst. split; auto. lia.
Qed.
Lemma key3_inj d1 d2 d3 x y z x' y' z' : x < d1 -> y < d2 -> z < d3 -> x' < d1 -> y' < d2 -> z' < d3 -> d1 * d2 * d3 <= 4294967296 ->
  key3 x y z (d1, d2, d3) = key3 x' y' z' (d1, d2, d3) -> x = x' /\ y = y' /\ z = z'.
Proof.
  intros Hx Hy Hz Hx' Hy' Hz' Hd. unfold key3. unfold c0, c1; cbn [fst snd].
  assert (A : forall x y, x < d1 -> y < d2 -> x + d1 * y < d1 * d2) by (intros; nia).
  pose proof (A x y Hx Hy) as L1. pose proof (A x' y' Hx' Hy') as L2.
  assert (Hp : 0 < d1 * d2) by nia.
  assert (Bd : forall n z, n < d1 * d2 -> z < d3 -> n + d1 * d2 * z < 4294967296) by (intros; nia).
  pose proof (Bd _ z L1 Hz) as M1. pose proof (Bd _ z' L2 Hz') as M2.
  assert (Hpz : z <> 0 -> d1 * d2 < 4294967296) by (intros; nia).
  assert (Hpz' : z' <> 0 -> d1 * d2 < 4294967296) by (intros; nia).
  assert (P : forall z, z < d3 -> (z <> 0 -> d1 * d2 < 4294967296) -> d1 * d2 * z < 4294967296 -> u32 (u32 (d1 * d2) * z) = d1 * d2 * z).
  { intros w Hw H1 H2. destruct (N.eq_dec w 0) as [->|N]; [rewrite !N.mul_0_r; reflexivity|].
    rewrite (u32_small (d1 * d2)) by auto. apply u32_small; auto. }
  rewrite (P z), (P z') by (auto; lia).
  rewrite (u32_small (d1 * y)), (u32_small (d1 * y')) by lia.
  rewrite (u32_small (x + d1 * y)), (u32_small (x' + d1 * y')) by lia.
  rewrite (u32_small (x + d1 * y + _)), (u32_small (x' + d1 * y' + _)) by lia. intros E.
  assert (z = z').
  { apply (f_equal (fun n => n / (d1 * d2))) in E.
    rewrite !(N.mul_comm (d1 * d2)), !N.div_add, !(N.div_small _ (d1 * d2)) in E by lia. lia. }
  subst. assert (E' : x + d1 * y = x' + d1 * y') by lia.
  assert (y = y').
  { apply (f_equal (fun n => n / d1)) in E'. rewrite !(N.mul_comm d1), !N.div_add, !(N.div_small _ d1) in E' by lia. lia. }
  subst. repeat split; auto. lia.
Qed.
