(* In exact arithmetic the grid returns exactly the pairs of meeting boxes. *)
From Coq Require Import List NArith ZArith QArith Qround Lia Lqa Bool Sorted ZifyBool ZifyNat ZifyN.
From Verif Require Import Outcome Grid_Model Grid_Spec Grid_Proofs Grid_Arith Grid_Dim.
Import ListNotations.
Open Scope N_scope.

(* cell width of a list whose two sums are given *)
Lemma width_pos sx sy (n : nat) : (0 < sx)%Q -> (0 < n)%nat ->
  exists h, adiv exact (amax exact sx sy) (aofsize exact n) = Some h /\ (0 < h)%Q /\
    (h == amax exact sx sy / inject_Z (Z.of_nat n))%Q.
Proof.
  intros Hs Hn. destruct (amax_exact sx sy) as (A1 & A2 & _).
  cbn [exact adiv aofsize]. 
  assert (Hq : (0 < inject_Z (Z.of_nat n))%Q) by (unfold Qlt, inject_Z; cbn [Qnum Qden]; lia).
  destruct (Qeq_bool (inject_Z (Z.of_nat n)) 0) eqn:E; [apply Qeq_bool_iff in E; lra|].
  eexists; split; [reflexivity|]. rewrite Qred_correct. split; [|reflexivity].
  apply Qlt_shift_div_l; auto. cbn [sc exact] in *. lra.
Qed.

Section Exact2.
  Variables (bs : list (box2 exact)) (X Y : Z).
  Hypothesis Hne : bs <> [].
  Hypothesis Hp : Forall proper2 bs.
  Hypothesis Hsp : spread2 bs X Y.
  Hypothesis HX : (X < 4294967296)%Z.
  Hypothesis HY : (Y < 4294967296)%Z.

  Lemma init2_exact : exists mn dx dy h, init2 exact bs = Ok (mn, (dx, dy), h) /\
    (Z.of_N dx <= X)%Z /\ (Z.of_N dy <= Y)%Z /\
    forall b, In b bs -> exists lx ux ly uy,
      cell_lo exact (fst (lo2 b)) (fst mn) h = Ok lx /\ cell_up exact (fst (up2 b)) (fst mn) h = Ok ux /\
      cell_lo exact (snd (lo2 b)) (snd mn) h = Ok ly /\ cell_up exact (snd (up2 b)) (snd mn) h = Ok uy /\
      lx <= ux < dx /\ ly <= uy < dy.
  Proof.
    rewrite Forall_forall in Hp.
    destruct bs as [|b0 bs'] eqn:Ebs; [congruence|]. rewrite <- Ebs in *. clear Hne.
    assert (I0 : In b0 bs) by (rewrite Ebs; now left).
    set (mnx := fold_left (fun m b => amin exact m (fst (lo2 b))) bs (fst (lo2 b0))).
    set (mny := fold_left (fun m b => amin exact m (snd (lo2 b))) bs (snd (lo2 b0))).
    set (mxx := fold_left (fun m b => amax exact m (fst (up2 b))) bs (fst (up2 b0))).
    set (mxy := fold_left (fun m b => amax exact m (snd (up2 b))) bs (snd (up2 b0))).
    set (sx := fold_left (fun (d : Q) (b : box2 exact) => Qred (d + Qred (fst (up2 b) - fst (lo2 b)))) bs 0%Q).
    set (sy := fold_left (fun (d : Q) (b : box2 exact) => Qred (d + Qred (snd (up2 b) - snd (lo2 b)))) bs 0%Q).
    assert (Sred : forall l : list (box2 exact),
      (Qsum (map (fun b : box2 exact => Qred (fst (up2 b) - fst (lo2 b))) l) == Qsum (widths2 l))%Q /\
      (Qsum (map (fun b : box2 exact => Qred (snd (up2 b) - snd (lo2 b))) l) == Qsum (heights2 l))%Q).
    { unfold widths2, heights2, Qsum. induction l as [|b l [IH1 IH2]]; cbn [map fold_right]; [split; reflexivity|].
      rewrite IH1, IH2, !Qred_correct. split; reflexivity. }
    assert (Esx : (sx == Qsum (widths2 bs))%Q).
    { unfold sx. rewrite (fold_sum (fun b : box2 exact => Qred (fst (up2 b) - fst (lo2 b))) bs 0%Q).
      rewrite (proj1 (Sred bs)). lra. }
    assert (Esy : (sy == Qsum (heights2 bs))%Q).
    { unfold sy. rewrite (fold_sum (fun b : box2 exact => Qred (snd (up2 b) - snd (lo2 b))) bs 0%Q).
      rewrite (proj2 (Sred bs)). lra. }
    assert (Psx : (0 < sx)%Q).
    { rewrite Esx. apply Qsum_pos; [|rewrite Ebs; discriminate].
      intros b Ib. destruct (Hp b Ib) as [H1 _]. cbn [sc exact] in *. lra. }
    destruct (width_pos sx sy (length bs) Psx) as (h & Eh & Ph & Vh); [rewrite Ebs; cbn; lia|].
    assert (Mh : is_mean_extent2 bs h).
    { destruct (amax_exact sx sy) as (A1 & A2 & A3). cbn [sc exact] in *.
      destruct A3 as [A3|A3]; rewrite A3 in *.
      - exists (Qsum (widths2 bs)). repeat split; auto; [lra|lra|]. rewrite Vh, Esx. reflexivity.
      - exists (Qsum (heights2 bs)). repeat split; auto; [lra|lra|]. rewrite Vh, Esy. reflexivity. }
    pose proof (Hsp h Mh) as Sp.
    set (mn := (asub exact mnx (a2em6 exact), asub exact mny (a2em6 exact))).
    set (mx := (aadd exact mxx (a2em6 exact), aadd exact mxy (a2em6 exact))).
    pose proof (fold_min (fun b : box2 exact => fst (lo2 b)) bs (fst (lo2 b0))) as Fn1.
    pose proof (fold_min (fun b : box2 exact => snd (lo2 b)) bs (snd (lo2 b0))) as Fn2.
    pose proof (fold_max (fun b : box2 exact => fst (up2 b)) bs (fst (up2 b0))) as Fx1.
    pose proof (fold_max (fun b : box2 exact => snd (up2 b)) bs (snd (up2 b0))) as Fx2.
    cbv zeta in Fn1, Fn2, Fx1, Fx2. fold mnx in Fn1. fold mny in Fn2. fold mxx in Fx1. fold mxy in Fx2.
    destruct Fn1 as (N1 & N2 & N3). destruct Fn2 as (N4 & N5 & N6).
    destruct Fx1 as (M1 & M2 & M3). destruct Fx2 as (M4 & M5 & M6).
    assert (A1 : exists b, In b bs /\ mnx = fst (lo2 b)) by (destruct N3 as [N3|]; [exists b0; split; [exact I0|exact N3]|assumption]).
    assert (A2 : exists b, In b bs /\ mny = snd (lo2 b)) by (destruct N6 as [N6|]; [exists b0; split; [exact I0|exact N6]|assumption]).
    assert (A3 : exists b, In b bs /\ mxx = fst (up2 b)) by (destruct M3 as [M3|]; [exists b0; split; [exact I0|exact M3]|assumption]).
    assert (A4 : exists b, In b bs /\ mxy = snd (up2 b)) by (destruct M6 as [M6|]; [exists b0; split; [exact I0|exact M6]|assumption]).
    assert (Vmn : (fst mn == mnx - (2 # 1000000) /\ snd mn == mny - (2 # 1000000))%Q).
    { unfold mn. cbn [fst snd exact asub a2em6]. rewrite !Qred_correct. split; reflexivity. }
    assert (Vmx : (fst mx == mxx + (2 # 1000000) /\ snd mx == mxy + (2 # 1000000))%Q).
    { unfold mx. cbn [fst snd exact aadd a2em6]. rewrite !Qred_correct. split; reflexivity. }
    destruct Vmn as [Vn1 Vn2]. destruct Vmx as [Vx1 Vx2]. cbn [sc exact] in *.
    assert (Dx : (fst mx - fst mn <= inject_Z X * h)%Q).
    { destruct A1 as (a & Ia & Ea). destruct A3 as (b & Ib & Eb). destruct (Sp a b Ia Ib) as [S1 _].
      cbn [sc exact] in *. rewrite Vx1, Vn1, Ea, Eb. lra. }
    assert (Dy : (snd mx - snd mn <= inject_Z Y * h)%Q).
    { destruct A2 as (a & Ia & Ea). destruct A4 as (b & Ib & Eb). destruct (Sp a b Ia Ib) as [_ S1].
      cbn [sc exact] in *. rewrite Vx2, Vn2, Ea, Eb. lra. }
    assert (AX : forall b, In b bs -> exists l u d, cell_lo exact (fst (lo2 b)) (fst mn) h = Ok l /\
       cell_up exact (fst (up2 b)) (fst mn) h = Ok u /\ ncells exact (fst mn) (fst mx) h = Ok d /\ l <= u /\ u < d /\ (Z.of_N d <= X)%Z).
    { intros b Ib. apply axis_ok; auto.
      - apply (Hp b Ib).
      - assert (Hb : (mnx <= fst (lo2 b))%Q) by exact (N2 b Ib). cbn [sc exact] in *. clear - Hb Vn1 Vn2 Vx1 Vx2. clearbody mn mx mnx mny mxx mxy. lra.
      - assert (Hb : (fst (up2 b) <= mxx)%Q) by exact (M2 b Ib). cbn [sc exact] in *. clear - Hb Vn1 Vn2 Vx1 Vx2. clearbody mn mx mnx mny mxx mxy. lra. }
    assert (AY : forall b, In b bs -> exists l u d, cell_lo exact (snd (lo2 b)) (snd mn) h = Ok l /\
       cell_up exact (snd (up2 b)) (snd mn) h = Ok u /\ ncells exact (snd mn) (snd mx) h = Ok d /\ l <= u /\ u < d /\ (Z.of_N d <= Y)%Z).
    { intros b Ib. apply axis_ok; auto.
      - apply (Hp b Ib).
      - assert (Hb : (mny <= snd (lo2 b))%Q) by exact (N5 b Ib). cbn [sc exact] in *. clear - Hb Vn1 Vn2 Vx1 Vx2. clearbody mn mx mnx mny mxx mxy. lra.
      - assert (Hb : (snd (up2 b) <= mxy)%Q) by exact (M5 b Ib). cbn [sc exact] in *. clear - Hb Vn1 Vn2 Vx1 Vx2. clearbody mn mx mnx mny mxx mxy. lra. }
    destruct (AX b0 I0) as (lx0 & ux0 & dx & _ & _ & Ndx & _ & _ & LX).
    destruct (AY b0 I0) as (ly0 & uy0 & dy & _ & _ & Ndy & _ & _ & LY).
    exists mn, dx, dy, h. repeat split; auto.
    - rewrite Ebs. unfold init2. rewrite <- Ebs. cbv zeta.
      rewrite (fold_pair (fun m b => amin exact m (fst (lo2 b))) (fun m b => amin exact m (snd (lo2 b)))).
      rewrite (fold_pair (fun m b => amax exact m (fst (up2 b))) (fun m b => amax exact m (snd (up2 b)))).
      rewrite (fold_pair (fun d b => aadd exact d (asub exact (fst (up2 b)) (fst (lo2 b)))) (fun d b => aadd exact d (asub exact (snd (up2 b)) (snd (lo2 b))))).
      fold mnx mny mxx mxy. cbn [fst snd]. fold mn mx.
      change (fold_left (fun d b => aadd exact d (asub exact (fst (up2 b)) (fst (lo2 b)))) bs (azero exact)) with sx.
      change (fold_left (fun d b => aadd exact d (asub exact (snd (up2 b)) (snd (lo2 b)))) bs (azero exact)) with sy.
      rewrite Eh.
      change (obind (ncells exact (fst mn) (fst mx) h) (fun dx0 =>
              obind (ncells exact (snd mn) (snd mx) h) (fun dy0 => Ok (mn, (dx0, dy0), h))) = Ok (mn, (dx, dy), h)).
      rewrite Ndx. cbn [obind]. rewrite Ndy. reflexivity.
    - intros b Ib. destruct (AX b Ib) as (lx & ux & dx' & P1 & P2 & P3 & P4 & P5 & _).
      destruct (AY b Ib) as (ly & uy & dy' & Q1 & Q2 & Q3 & Q4 & Q5 & _).
      assert (dx' = dx) by congruence. assert (dy' = dy) by congruence. subst.
      exists lx, ux, ly, uy. repeat split; auto.
  Qed.

  Hypothesis HXY : (X * Y <= 4294967296)%Z.
  Hypothesis Hidx : indexable bs.

  Lemma cell_range_ok l u : u < 4294967295 -> exists r, cell_range l u = Ok r.
  Proof. intros. unfold cell_range. replace (u =? 4294967295) with false by lia. eauto. Qed.

  Lemma exact2 s : is_pair_set s -> exists out, getPotentialOverlaps2 exact bs s = Ok out /\ is_pair_set out /\
    forall i j, In (i, j) out <-> In (i, j) s \/ (i < j /\ meeting meet2 bs i j).
  Proof.
    intros Hs. destruct init2_exact as (mn & dx & dy & h & E & LX & LY & C).
    assert (T : forall b, In b bs -> exists ks, cells2 exact mn h (dx, dy) b = Ok ks /\ NoDup ks).
    { intros b Ib. destruct (C b Ib) as (lx & ux & ly & uy & P1 & P2 & P3 & P4 & P5 & P6).
      destruct (cell_range_ok lx ux) as [xs Ex]; [lia|]. destruct (cell_range_ok ly uy) as [ys Ey]; [lia|].
      unfold cells2. rewrite P1, P2, P3, P4. cbn [obind]. rewrite Ex, Ey. cbn [obind].
      eexists; split; [reflexivity|].
      pose proof (cell_range_In _ _ _ Ex) as Ix. pose proof (cell_range_In _ _ _ Ey) as Iy.
      assert (Hd : dx * dy <= 4294967296) by nia.
      apply NoDup_flat_map.
      - eapply NoDup_cell_range; eauto.
      - intros x Hx. apply NoDup_map_inj; [|eapply NoDup_cell_range; eauto].
        intros y y' Hy Hy' K. apply Ix in Hx. apply Iy in Hy, Hy'. apply key2_inj in K; lia.
      - intros x x' z Hx Hx' Hz Hz'. apply in_map_iff in Hz as (y & <- & Hy). apply in_map_iff in Hz' as (y' & K & Hy').
        apply Ix in Hx, Hx'. apply Iy in Hy, Hy'. apply key2_inj in K; lia. }
    destruct (rasterize_total (cells2 exact mn h (dx, dy)) bs) with (idx := 0%nat) (m := @nil (N * list N)) as [m Em].
    { intros b Ib. destruct (T b Ib) as (ks & Ek & _). eauto. }
    assert (G : getPotentialOverlaps2 exact bs s = Ok (scan_voxels overlaps2 bs m s)).
    { unfold getPotentialOverlaps2. rewrite E. cbn [obind]. rewrite Em. reflexivity. }
    eexists. split; [exact G|]. split; [now apply scan_sorted|].
    rewrite Forall_forall in Hp. intros i j. split.
    - intros H. eapply gen_sound in H as [|(Hij & (a & b & Ha & Hb & O) & Self)]; eauto. right.
      assert (Ia : In a bs) by (eapply nth_error_In; exact Ha).
      assert (Ib : In b bs) by (eapply nth_error_In; exact Hb).
      split.
      + apply N.le_neq. split; auto. intros Eq. destruct (Self Eq) as (c & Hc & ND). apply ND.
        assert (Ic : In c bs) by (eapply nth_error_In; exact Hc).
        destruct (T c Ic) as (ks & Ek & NDk). unfold keys_of. rewrite Ek. auto.
      + exists a, b. repeat split; auto. apply overlaps2_meet; auto.
    - intros [H|(Hij & a & b & Ha & Hb & M)].
      + eapply any_keeps2; eauto.
      + assert (Ia : In a bs) by (eapply nth_error_In; exact Ha).
        assert (Ib : In b bs) by (eapply nth_error_In; exact Hb).
        eapply (any_complete2 exact exact_laws); eauto.
        * apply Forall_forall. intros; apply proper2_wf; auto.
        * apply overlaps2_meet; auto.
  Qed.
End Exact2.

Section Exact3.
  Variables (bs : list (box3 exact)) (X Y Z : Z).
  Hypothesis Hne : bs <> [].
  Hypothesis Hp : Forall proper3 bs.
  Hypothesis Hsp : spread3 bs X Y Z.
  Hypothesis HX : (X < 4294967296)%Z.
  Hypothesis HY : (Y < 4294967296)%Z.
  Hypothesis HZ : (Z < 4294967296)%Z.

  (* one axis of the initialisation *)
  Lemma axis3 (k : forall A, A * A * A -> A) (W : BinNums.Z) (b0 : box3 exact) (h : Q) (mn mx : Q) :
    In b0 bs -> (W < 4294967296)%Z -> (0 < h)%Q ->
    (forall b, In b bs -> (k Q (lo3 b) < k Q (up3 b))%Q) ->
    (forall a b, In a bs -> In b bs -> (k Q (up3 b) - k Q (lo3 a) + (4 # 1000000) <= inject_Z W * h)%Q) ->
    (mn == fold_left (fun (m : Q) (b : box3 exact) => amin exact m (k Q (lo3 b))) bs (k Q (lo3 b0)) - (2 # 1000000))%Q ->
    (mx == fold_left (fun (m : Q) (b : box3 exact) => amax exact m (k Q (up3 b))) bs (k Q (up3 b0)) + (2 # 1000000))%Q ->
    exists d, ncells exact mn mx h = Ok d /\ (Z.of_N d <= W)%Z /\
    forall b, In b bs -> exists l u, cell_lo exact (k Q (lo3 b)) mn h = Ok l /\ cell_up exact (k Q (up3 b)) mn h = Ok u /\ l <= u < d.
  Proof.
    intros I0 HW Ph Hlt Sp Emn Emx.
    pose proof (fold_min (fun b : box3 exact => k Q (lo3 b)) bs (k Q (lo3 b0))) as Fn.
    pose proof (fold_max (fun b : box3 exact => k Q (up3 b)) bs (k Q (up3 b0))) as Fx.
    cbv zeta in Fn, Fx. cbn [sc exact] in *.
    set (m0 := fold_left (fun (m : Q) (b : box3 exact) => amin exact m (k Q (lo3 b))) bs (k Q (lo3 b0))) in *.
    set (m1 := fold_left (fun (m : Q) (b : box3 exact) => amax exact m (k Q (up3 b))) bs (k Q (up3 b0))) in *.
    destruct Fn as (N1 & N2 & N3). destruct Fx as (M1 & M2 & M3).
    assert (A1 : exists b, In b bs /\ m0 = k Q (lo3 b)) by (destruct N3 as [N3|]; [exists b0; split; [exact I0|exact N3]|assumption]).
    assert (A2 : exists b, In b bs /\ m1 = k Q (up3 b)) by (destruct M3 as [M3|]; [exists b0; split; [exact I0|exact M3]|assumption]).
    assert (D : (mx - mn <= inject_Z W * h)%Q).
    { destruct A1 as (a & Ia & Ea). destruct A2 as (b & Ib & Eb). pose proof (Sp a b Ia Ib) as S1.
      cbn [sc exact] in *. rewrite Emx, Emn, Ea, Eb. lra. }
    assert (AX : forall b, In b bs -> exists l u d, cell_lo exact (k Q (lo3 b)) mn h = Ok l /\
       cell_up exact (k Q (up3 b)) mn h = Ok u /\ ncells exact mn mx h = Ok d /\ l <= u /\ u < d /\ (Z.of_N d <= W)%Z).
    { intros b Ib. apply axis_ok; auto.
      - assert (Hb : (m0 <= k Q (lo3 b))%Q) by exact (N2 b Ib). cbn [sc exact] in *. clear - Hb Emn. clearbody m0. lra.
      - assert (Hb : (k Q (up3 b) <= m1)%Q) by exact (M2 b Ib). cbn [sc exact] in *. clear - Hb Emx. clearbody m1. lra. }
    destruct (AX b0 I0) as (l0 & u0 & d & _ & _ & Nd & _ & _ & LX).
    exists d. repeat split; auto. intros b Ib. destruct (AX b Ib) as (l & u & d' & P1 & P2 & P3 & P4 & P5 & _).
    assert (d' = d) by congruence. subst. exists l, u. auto.
  Qed.

  Lemma sum3_exact (k : forall A, A * A * A -> A) :
    (fold_left (fun (d : Q) (b : box3 exact) => Qred (d + Qred (k Q (up3 b) - k Q (lo3 b)))) bs 0 == Qsum (ext3 k bs))%Q.
  Proof.
    rewrite (fold_sum (fun b : box3 exact => Qred (k Q (up3 b) - k Q (lo3 b))) bs 0%Q).
    assert (S : forall l : list (box3 exact),
      (Qsum (map (fun b : box3 exact => Qred (k Q (up3 b) - k Q (lo3 b))) l) == Qsum (ext3 k l))%Q).
    { unfold ext3, Qsum. induction l as [|b l IH]; cbn [map fold_right]; [reflexivity|].
      rewrite IH, Qred_correct. reflexivity. }
    rewrite S. lra.
  Qed.

  Lemma init3_exact : exists mn dx dy dz h, init3 exact bs = Ok (mn, (dx, dy, dz), h) /\
    (Z.of_N dx <= X)%Z /\ (Z.of_N dy <= Y)%Z /\ (Z.of_N dz <= Z)%Z /\
    forall b, In b bs -> exists lx ux ly uy lz uz,
      cell_lo exact (c0 (lo3 b)) (c0 mn) h = Ok lx /\ cell_up exact (c0 (up3 b)) (c0 mn) h = Ok ux /\
      cell_lo exact (c1 (lo3 b)) (c1 mn) h = Ok ly /\ cell_up exact (c1 (up3 b)) (c1 mn) h = Ok uy /\
      cell_lo exact (c2 (lo3 b)) (c2 mn) h = Ok lz /\ cell_up exact (c2 (up3 b)) (c2 mn) h = Ok uz /\
      lx <= ux < dx /\ ly <= uy < dy /\ lz <= uz < dz.
  Proof.
    rewrite Forall_forall in Hp.
    destruct bs as [|b0 bs'] eqn:Ebs; [congruence|]. rewrite <- Ebs in *. clear Hne.
    assert (I0 : In b0 bs) by (rewrite Ebs; now left).
    set (sx := fold_left (fun (d : Q) (b : box3 exact) => Qred (d + Qred (c0 (up3 b) - c0 (lo3 b)))) bs 0%Q).
    set (sy := fold_left (fun (d : Q) (b : box3 exact) => Qred (d + Qred (c1 (up3 b) - c1 (lo3 b)))) bs 0%Q).
    set (sz := fold_left (fun (d : Q) (b : box3 exact) => Qred (d + Qred (c2 (up3 b) - c2 (lo3 b)))) bs 0%Q).
    pose proof (sum3_exact (@c0)) as Esx. pose proof (sum3_exact (@c1)) as Esy. pose proof (sum3_exact (@c2)) as Esz.
    change (sx == Qsum (ext3 (@c0) bs))%Q in Esx. change (sy == Qsum (ext3 (@c1) bs))%Q in Esy. change (sz == Qsum (ext3 (@c2) bs))%Q in Esz.
    assert (Psx : (0 < sx)%Q).
    { rewrite Esx. apply (Qsum_pos (fun b : box3 exact => c0 (up3 b) - c0 (lo3 b))%Q); [|rewrite Ebs; discriminate].
      intros b Ib. destruct (Hp b Ib) as [H1 _]. cbn [sc exact] in *. lra. }
    destruct (amax_exact sx sy) as (B1 & B2 & B3).
    destruct (width_pos (amax exact sx sy) sz (length bs)) as (h & Eh & Ph & Vh);
      [cbn [sc exact] in *; lra|rewrite Ebs; cbn; lia|].
    assert (Mh : is_mean_extent3 bs h).
    { destruct (amax_exact (amax exact sx sy) sz) as (A1 & A2 & A3). cbn [sc exact] in *.
      destruct A3 as [A3|A3]; rewrite A3 in *; [destruct B3 as [B3|B3]; rewrite B3 in *|].
      - exists (Qsum (ext3 (@c0) bs)). repeat split; auto; [lra|lra|lra|]. rewrite Vh, Esx. reflexivity.
      - exists (Qsum (ext3 (@c1) bs)). repeat split; auto; [lra|lra|lra|]. rewrite Vh, Esy. reflexivity.
      - exists (Qsum (ext3 (@c2) bs)). repeat split; auto; [lra|lra|lra|]. rewrite Vh, Esz. reflexivity. }
    assert (Sp : forall a b, In a bs -> In b bs -> _) by exact (Hsp h Mh).
    set (mnv := fun k : (forall A, A * A * A -> A) => asub exact (fold_left (fun (m : Q) (b : box3 exact) => amin exact m (k Q (lo3 b))) bs (k Q (lo3 b0))) (a2em6 exact)).
    set (mxv := fun k : (forall A, A * A * A -> A) => aadd exact (fold_left (fun (m : Q) (b : box3 exact) => amax exact m (k Q (up3 b))) bs (k Q (up3 b0))) (a2em6 exact)).
    assert (Vn : forall k, (mnv k == fold_left (fun (m : Q) (b : box3 exact) => amin exact m (k Q (lo3 b))) bs (k Q (lo3 b0)) - (2 # 1000000))%Q).
    { intros k. unfold mnv. cbn [exact asub a2em6]. rewrite Qred_correct. reflexivity. }
    assert (Vx : forall k, (mxv k == fold_left (fun (m : Q) (b : box3 exact) => amax exact m (k Q (up3 b))) bs (k Q (up3 b0)) + (2 # 1000000))%Q).
    { intros k. unfold mxv. cbn [exact aadd a2em6]. rewrite Qred_correct. reflexivity. }
    pose proof (axis3 (@c0) X b0 h (mnv (@c0)) (mxv (@c0))) as Ax.
    pose proof (axis3 (@c1) Y b0 h (mnv (@c1)) (mxv (@c1))) as Ay.
    pose proof (axis3 (@c2) Z b0 h (mnv (@c2)) (mxv (@c2))) as Az.
    destruct Ax as (dx & Ndx & LX & CX); auto; [intros; apply Hp; auto|intros; apply Sp; auto|].
    destruct Ay as (dy & Ndy & LY & CY); auto; [intros; apply Hp; auto|intros; apply Sp; auto|].
    destruct Az as (dz & Ndz & LZ & CZ); auto; [intros; apply Hp; auto|intros; apply Sp; auto|].
    exists (mnv (@c0), mnv (@c1), mnv (@c2)), dx, dy, dz, h. repeat split; auto.
    - rewrite Ebs. unfold init3. rewrite <- Ebs. cbv zeta.
      rewrite (fold_triple (fun m b => amin exact m (c0 (lo3 b))) (fun m b => amin exact m (c1 (lo3 b))) (fun m b => amin exact m (c2 (lo3 b)))).
      rewrite (fold_triple (fun m b => amax exact m (c0 (up3 b))) (fun m b => amax exact m (c1 (up3 b))) (fun m b => amax exact m (c2 (up3 b)))).
      rewrite (fold_triple (fun d b => aadd exact d (asub exact (c0 (up3 b)) (c0 (lo3 b))))
                 (fun d b => aadd exact d (asub exact (c1 (up3 b)) (c1 (lo3 b))))
                 (fun d b => aadd exact d (asub exact (c2 (up3 b)) (c2 (lo3 b))))).
      match goal with |- context [adiv exact ?x ?y] => change (adiv exact x y) with (adiv exact (amax exact (amax exact sx sy) sz) (aofsize exact (length bs))) end.
      rewrite Eh.
      change (obind (ncells exact (mnv (@c0)) (mxv (@c0)) h) (fun dx0 =>
              obind (ncells exact (mnv (@c1)) (mxv (@c1)) h) (fun dy0 =>
              obind (ncells exact (mnv (@c2)) (mxv (@c2)) h) (fun dz0 =>
                Ok (mnv (@c0), mnv (@c1), mnv (@c2), (dx0, dy0, dz0), h)))) = Ok (mnv (@c0), mnv (@c1), mnv (@c2), (dx, dy, dz), h)).
      rewrite Ndx. cbn [obind]. rewrite Ndy. cbn [obind]. rewrite Ndz. reflexivity.
    - intros b Ib. destruct (CX b Ib) as (lx & ux & P1 & P2 & P3).
      destruct (CY b Ib) as (ly & uy & Q1 & Q2 & Q3). destruct (CZ b Ib) as (lz & uz & R1 & R2 & R3).
      exists lx, ux, ly, uy, lz, uz. repeat split; auto; lia.
  Qed.

  Hypothesis HXYZ : (X * Y * Z <= 4294967296)%Z.
  Hypothesis Hidx : indexable bs.

  Lemma exact3 s : is_pair_set s -> exists out, getPotentialOverlaps3 exact bs s = Ok out /\ is_pair_set out /\
    forall i j, In (i, j) out <-> In (i, j) s \/ (i < j /\ meeting meet3 bs i j).
  Proof.
    intros Hs. destruct init3_exact as (mn & dx & dy & dz & h & E & LX & LY & LZ & C).
    assert (T : forall b, In b bs -> exists ks, cells3 exact mn h (dx, dy, dz) b = Ok ks /\ NoDup ks).
    { intros b Ib. destruct (C b Ib) as (lx & ux & ly & uy & lz & uz & P1 & P2 & P3 & P4 & P5 & P6 & P7 & P8 & P9).
      destruct (cell_range_ok lx ux) as [xs Ex]; [lia|]. destruct (cell_range_ok ly uy) as [ys Ey]; [lia|].
      destruct (cell_range_ok lz uz) as [zs Ez]; [lia|].
      unfold cells3. rewrite P1, P2, P3, P4, P5, P6. cbn [obind]. rewrite Ex, Ey, Ez. cbn [obind].
      eexists; split; [reflexivity|].
      pose proof (cell_range_In _ _ _ Ex) as Ix. pose proof (cell_range_In _ _ _ Ey) as Iy. pose proof (cell_range_In _ _ _ Ez) as Iz.
      assert (Hd : dx * dy * dz <= 4294967296).
      { assert (Z.of_N dx * Z.of_N dy <= X * Y)%Z by (apply Z.mul_le_mono_nonneg; lia).
        assert (Z.of_N dx * Z.of_N dy * Z.of_N dz <= X * Y * Z)%Z by (apply Z.mul_le_mono_nonneg; lia). lia. }
      apply NoDup_flat_map.
      - eapply NoDup_cell_range; eauto.
      - intros x Hx. apply NoDup_flat_map; [eapply NoDup_cell_range; eauto| |].
        + intros y Hy. apply NoDup_map_inj; [|eapply NoDup_cell_range; eauto].
          intros z z' Hz Hz' K. apply Ix in Hx. apply Iy in Hy. apply Iz in Hz, Hz'. apply key3_inj in K; lia.
        + intros y y' k Hy Hy' Hk Hk'. apply in_map_iff in Hk as (z & <- & Hz). apply in_map_iff in Hk' as (z' & K & Hz').
          apply Ix in Hx. apply Iy in Hy, Hy'. apply Iz in Hz, Hz'. apply key3_inj in K; lia.
      - intros x x' k Hx Hx' Hk Hk'. apply in_flat_map in Hk as (y & Hy & Hk). apply in_flat_map in Hk' as (y' & Hy' & Hk').
        apply in_map_iff in Hk as (z & <- & Hz). apply in_map_iff in Hk' as (z' & K & Hz').
        apply Ix in Hx, Hx'. apply Iy in Hy, Hy'. apply Iz in Hz, Hz'. apply key3_inj in K; lia. }
    destruct (rasterize_total (cells3 exact mn h (dx, dy, dz)) bs) with (idx := 0%nat) (m := @nil (N * list N)) as [m Em].
    { intros b Ib. destruct (T b Ib) as (ks & Ek & _). eauto. }
    assert (G : getPotentialOverlaps3 exact bs s = Ok (scan_voxels overlaps3 bs m s)).
    { unfold getPotentialOverlaps3. rewrite E. cbn [obind]. rewrite Em. reflexivity. }
    eexists. split; [exact G|]. split; [now apply scan_sorted|].
    rewrite Forall_forall in Hp. intros i j. split.
    - intros H. eapply gen_sound in H as [|(Hij & (a & b & Ha & Hb & O) & Self)]; eauto. right.
      assert (Ia : In a bs) by (eapply nth_error_In; exact Ha).
      assert (Ib : In b bs) by (eapply nth_error_In; exact Hb).
      split.
      + apply N.le_neq. split; auto. intros Eq. destruct (Self Eq) as (c & Hc & ND). apply ND.
        assert (Ic : In c bs) by (eapply nth_error_In; exact Hc).
        destruct (T c Ic) as (ks & Ek & NDk). unfold keys_of. rewrite Ek. auto.
      + exists a, b. repeat split; auto. apply overlaps3_meet; auto.
    - intros [H|(Hij & a & b & Ha & Hb & M)].
      + eapply any_keeps3; eauto.
      + assert (Ia : In a bs) by (eapply nth_error_In; exact Ha).
        assert (Ib : In b bs) by (eapply nth_error_In; exact Hb).
        eapply (any_complete3 exact exact_laws); eauto.
        * apply Forall_forall. intros; apply proper3_wf; auto.
        * apply overlaps3_meet; auto.
  Qed.
End Exact3.
