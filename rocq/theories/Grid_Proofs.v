From Coq Require Import List NArith ZArith QArith Qround Reals Lia Lqa Lra Bool Sorted ZifyBool ZifyNat ZifyN.
From Flocq Require Import Core IEEE754.BinarySingleNaN.
From Verif Require Import Outcome Grid_Model Grid_Spec.
Import ListNotations.
Open Scope N_scope.

(* ================= containers ================= *)

Lemma pair_ltb_iff p q : pair_ltb p q = true <-> pair_lt p q.
Proof. unfold pair_ltb, pair_lt. lia. Qed.
Lemma pair_lt_trans p q r : pair_lt p q -> pair_lt q r -> pair_lt p r.
Proof. unfold pair_lt; lia. Qed.
Lemma pair_lt_total p q : pair_ltb p q = false -> pair_ltb q p = false -> p = q.
Proof.
  destruct p as [a b], q as [c d]; unfold pair_ltb; cbn [fst snd]; intros.
  assert (a = c) by lia. assert (b = d) by lia. congruence.
Qed.

Lemma set_add_In p q s : In q (set_add p s) <-> q = p \/ In q s.
Proof.
  induction s as [|r s IH]; cbn [set_add In]; [intuition congruence|].
  destruct (pair_ltb p r) eqn:E1; [cbn [In]; intuition congruence|].
  destruct (pair_ltb r p) eqn:E2; cbn [In]; [rewrite IH; intuition congruence|].
  pose proof (pair_lt_total _ _ E1 E2). subst. intuition congruence.
Qed.
Lemma set_add_sorted p s : is_pair_set s -> is_pair_set (set_add p s).
Proof.
  unfold is_pair_set. induction s as [|r s IH]; cbn [set_add]; intros H.
  - constructor; constructor.
  - inversion H; subst.
    destruct (pair_ltb p r) eqn:E1.
    + apply pair_ltb_iff in E1. constructor; auto. constructor; auto.
      eapply Forall_impl; [|eassumption]. intros; eapply pair_lt_trans; eauto.
    + destruct (pair_ltb r p) eqn:E2; auto. apply pair_ltb_iff in E2.
      constructor; auto. apply Forall_forall. intros q Hq. apply set_add_In in Hq as [->|Hq]; auto.
      eapply Forall_forall in H3; eauto.
Qed.
Lemma pair_lt_irrefl p : ~ pair_lt p p.
Proof. unfold pair_lt; lia. Qed.
Lemma pair_set_ext s t : is_pair_set s -> is_pair_set t -> (forall p, In p s <-> In p t) -> s = t.
Proof.
  unfold is_pair_set. intros Hs; revert t. induction Hs as [|a s Hs IH Ha]; intros t Ht E.
  - destruct t as [|q t]; auto. exfalso. apply (proj2 (E q)); now left.
  - destruct Ht as [|b t Ht Hb]; [exfalso; apply (proj1 (E a)); now left|].
    rewrite Forall_forall in Ha, Hb.
    assert (a = b).
    { destruct (proj1 (E a) (or_introl eq_refl)) as [|I1]; auto.
      destruct (proj2 (E b) (or_introl eq_refl)) as [|I2]; auto.
      exfalso. apply Hb in I1. apply Ha in I2. eapply pair_lt_irrefl, pair_lt_trans; eauto. }
    subst b. f_equal. apply IH; auto. intros p; split; intros I.
    + destruct (proj1 (E p) (or_intror I)) as [->|]; auto. exfalso; apply (pair_lt_irrefl p); auto.
    + destruct (proj2 (E p) (or_intror I)) as [->|]; auto. exfalso; apply (pair_lt_irrefl p); auto.
Qed.

(* voxel map *)
Fixpoint vget (k : N) (m : voxmap) : list N :=
  match m with
  | [] => []
  | (k', l) :: m' => if k =? k' then l else vget k m'
  end.
Fixpoint vsorted (m : voxmap) : Prop :=
  match m with
  | [] => True
  | (k, l) :: m' => l <> [] /\ (forall k' l', In (k', l') m' -> k < k') /\ vsorted m'
  end.

Lemma vox_add_In k i m k' l' : In (k', l') (vox_add k i m) -> k' = k \/ In (k', l') m.
Proof.
  induction m as [|[a l] m IH]; cbn [vox_add In].
  - intros [[= <- <-]|[]]; auto.
  - destruct (k <? a) eqn:E1; [cbn [In]; intros [[= <- <-]|]; auto|].
    destruct (k =? a) eqn:E2; cbn [In]; intros [[= <- <-]|H]; auto; try (left; lia).
    apply IH in H as [|]; auto.
Qed.
Lemma vox_add_sorted k i m : vsorted m -> vsorted (vox_add k i m).
Proof.
  induction m as [|[a l] m IH]; cbn [vox_add vsorted].
  - repeat split; auto; [discriminate|intros ? ? []].
  - intros (Hl & Hm & Hs).
    destruct (k <? a) eqn:E1; cbn [vsorted].
    + repeat split; auto; [discriminate|]. intros k' l' [[= <- <-]|I]; [lia|]. apply Hm in I. lia.
    + destruct (k =? a) eqn:E2; cbn [vsorted].
      * repeat split; auto. destruct l; discriminate.
      * repeat split; auto. intros k' l' I. apply vox_add_In in I as [->|I]; [lia|eauto].
Qed.
Lemma vget_out k m : (forall k' l', In (k', l') m -> k < k') -> vget k m = [].
Proof.
  induction m as [|[a l] m IH]; cbn [vget]; auto. intros H.
  assert (k < a) by (apply (H a l); now left).
  replace (k =? a) with false by lia. apply IH. intros; eapply H; right; eauto.
Qed.
Lemma vget_add k i m k' : vsorted m ->
  vget k' (vox_add k i m) = if k' =? k then vget k m ++ [i] else vget k' m.
Proof.
  induction m as [|[a l] m IH]; cbn [vox_add vsorted vget].
  - intros _. destruct (k' =? k); auto.
  - intros (Hl & Hm & Hs).
    destruct (k <? a) eqn:E1; cbn [vget].
    + destruct (k' =? k) eqn:E2; auto.
      replace (k =? a) with false by lia. rewrite vget_out; auto.
      intros ? ? I. apply Hm in I. lia.
    + destruct (k =? a) eqn:E2; cbn [vget].
      * destruct (k' =? a) eqn:E3; destruct (k' =? k) eqn:E4; auto; lia.
      * rewrite IH by auto. destruct (k' =? a) eqn:E3; auto.
        destruct (k' =? k) eqn:E4; auto. lia.
Qed.
Lemma vget_In k l m : vsorted m -> (In (k, l) m <-> l = vget k m /\ l <> []).
Proof.
  induction m as [|[a l0] m IH]; cbn [vsorted vget In].
  - intuition.
  - intros (Hl & Hm & Hs). specialize (IH Hs).
    destruct (k =? a) eqn:E.
    + assert (k = a) by lia. subst a. split.
      * intros [[= <-]|I]; auto. apply Hm in I. lia.
      * intros [-> _]. now left.
    + rewrite <- IH. split; [intros [[= <- <-]|]; auto; lia|auto].
Qed.

(* pairs *)
Lemma pairs_of_In p l : In p (pairs_of l) <-> exists a b c, l = a ++ fst p :: b ++ snd p :: c.
Proof.
  induction l as [|x l IH]; cbn [pairs_of].
  - split; [intros []|]. intros (a & b & c & E). destruct a; discriminate.
  - rewrite in_app_iff, IH, in_map_iff. split.
    + intros [(y & <- & I)|(a & b & c & ->)].
      * apply in_split in I as (b & c & ->). exists [], b, c. reflexivity.
      * exists (x :: a), b, c. reflexivity.
    + intros (a & b & c & E). destruct a as [|y a]; cbn [app] in E; injection E as -> ->.
      * left. exists (snd p). destruct p; split; auto. apply in_or_app; right; now left.
      * right. eauto.
Qed.

(* ================= the dimension independent part ================= *)
Section Generic.
  Context {B : Type}.
  Variable overlaps : B -> B -> bool.
  Variable cells : B -> outcome (list N).

  Definition keys_of (b : B) : list N := match cells b with Ok ks => ks | _ => [] end.

  (* the indices a voxel receives *)
  Fixpoint occ (k : N) (idx : nat) (bs : list B) : list N :=
    match bs with
    | [] => []
    | b :: bs' => map (fun _ => u32 (N.of_nat idx)) (filter (N.eqb k) (keys_of b)) ++ occ k (Datatypes.S idx) bs'
    end.

  Lemma fold_vox_add i ks : forall m, vsorted m ->
    let m' := fold_left (fun m k => vox_add k i m) ks m in
    vsorted m' /\ forall k, vget k m' = vget k m ++ map (fun _ => i) (filter (N.eqb k) ks).
  Proof.
    induction ks as [|x ks IH]; intros m Hm; cbn [fold_left filter map].
    - split; auto. intros; now rewrite app_nil_r.
    - destruct (IH (vox_add x i m) (vox_add_sorted _ _ _ Hm)) as [H1 H2]. split; auto.
      intros k. rewrite H2, vget_add by auto. destruct (k =? x) eqn:E; cbn [map].
      + assert (k = x) by lia. subst x. rewrite <- app_assoc. reflexivity.
      + reflexivity.
  Qed.

  Lemma rasterize_get bs : forall idx m m', vsorted m -> rasterize cells idx bs m = Ok m' ->
    vsorted m' /\ (forall k, vget k m' = vget k m ++ occ k idx bs) /\
    (forall b, In b bs -> exists ks, cells b = Ok ks).
  Proof.
    induction bs as [|b bs IH]; intros idx m m' Hm E; cbn [rasterize occ] in *.
    - injection E as <-. split; auto. split; [intros; now rewrite app_nil_r|intros ? []].
    - apply obind_Ok_inv in E as (ks & Ek & E).
      destruct (fold_vox_add (u32 (N.of_nat idx)) ks m Hm) as [H1 H2].
      destruct (IH _ _ _ H1 E) as (H3 & H4 & H5). split; auto. split.
      + intros k. rewrite H4, H2. unfold keys_of. rewrite Ek. now rewrite <- app_assoc.
      + intros b' [<-|I]; eauto.
  Qed.

  Lemma rasterize_total bs : (forall b, In b bs -> exists ks, cells b = Ok ks) ->
    forall idx m, exists m', rasterize cells idx bs m = Ok m'.
  Proof.
    induction bs as [|b bs IH]; intros H idx m; cbn [rasterize]; eauto.
    destruct (H b (or_introl eq_refl)) as [ks ->]. cbn [obind]. apply IH. intros; apply H; now right.
  Qed.

  Lemma scan_In bs m s p : vsorted m ->
    (In p (scan_voxels overlaps bs m s) <->
     In p s \/ ((exists k, In p (pairs_of (vget k m))) /\
                exists a b, box_at bs (fst p) a /\ box_at bs (snd p) b /\ overlaps a b = true)).
  Proof.
    intros Hm. unfold scan_voxels.
    assert (T : forall s q, In p (test_pair overlaps bs s q) <->
       In p s \/ (p = q /\ exists a b, box_at bs (fst p) a /\ box_at bs (snd p) b /\ overlaps a b = true)).
    { intros s0 q. unfold test_pair, box_at.
      destruct (nth_error bs (N.to_nat (fst q))) as [a|] eqn:Ea.
      2:{ split; auto. intros [|(-> & a & b & H & _)]; auto. congruence. }
      destruct (nth_error bs (N.to_nat (snd q))) as [b|] eqn:Eb.
      2:{ split; auto. intros [|(-> & a' & b & _ & H & _)]; auto. congruence. }
      destruct (overlaps a b) eqn:O.
      - rewrite set_add_In. split; [intros [->|]; eauto 8|]. intros [|(-> & _)]; auto.
      - split; auto. intros [|(-> & a' & b' & H1 & H2 & H3)]; auto. congruence. }
    assert (F : forall l s, In p (fold_left (test_pair overlaps bs) l s) <->
       In p s \/ (In p l /\ exists a b, box_at bs (fst p) a /\ box_at bs (snd p) b /\ overlaps a b = true)).
    { induction l as [|q l IH]; intros s0; cbn [fold_left In]; [tauto|]. rewrite IH, T. intuition. }
    assert (G : forall (m0 : voxmap) s, In p (fold_left (fun s e => fold_left (test_pair overlaps bs) (pairs_of (snd e)) s) m0 s) <->
       In p s \/ ((exists e, In e m0 /\ In p (pairs_of (snd e))) /\
         exists a b, box_at bs (fst p) a /\ box_at bs (snd p) b /\ overlaps a b = true)).
    { induction m0 as [|e m0 IH]; intros s0; cbn [fold_left In].
      - split; auto. intros [|((? & [] & _) & _)]; auto.
      - rewrite IH, F. split.
        + intros [[|(I & O)]|((e' & I & J) & O)]; eauto 8.
        + intros [|((e' & [<-|I] & J) & O)]; eauto 8. }
    rewrite G. split; (intros [|((e & I) & O)]; [auto|right; split; auto]).
    - destruct e as [k l]. destruct I as [I J]. apply vget_In in I as [-> _]; auto. eauto.
    - exists (e, vget e m). split; auto. apply vget_In; auto. split; auto. intros Z. rewrite Z in I. destruct I.
  Qed.

  Lemma scan_sorted bs m s : is_pair_set s -> is_pair_set (scan_voxels overlaps bs m s).
  Proof.
    unfold scan_voxels. revert s. induction m as [|e m IH]; intros s Hs; cbn [fold_left]; auto.
    apply IH. generalize (pairs_of (snd e)) as l. intros l; revert s Hs.
    induction l as [|p l IHl]; intros s Hs; cbn [fold_left]; auto. apply IHl.
    unfold test_pair. destruct (nth_error _ _); auto. destruct (nth_error _ _); auto.
    destruct (overlaps b b0); auto using set_add_sorted.
  Qed.

  Lemma u32_small n : n < 4294967296 -> u32 n = n.
  Proof. intros; unfold u32. apply N.mod_small; auto. Qed.

  (* elements of occ *)
  Lemma occ_In k i : forall bs idx, (idx + length bs <= N.to_nat 4294967296)%nat ->
    (In i (occ k idx bs) <-> exists j b, nth_error bs j = Some b /\ In k (keys_of b) /\ i = N.of_nat (idx + j)).
  Proof.
    induction bs as [|b bs IH]; intros idx L; cbn [occ length] in *.
    - split; [intros []|]. intros ([|j] & b & H & _); discriminate.
    - rewrite in_app_iff, in_map_iff, IH by lia. rewrite u32_small by lia. split.
      + intros [(x & <- & I)|(j & b' & H & I & ->)].
        * apply filter_In in I as [I Ek]. assert (k = x) by lia. subst x.
          exists 0%nat, b. repeat split; auto; try lia.
        * exists (Datatypes.S j), b'. repeat split; auto; try lia.
      + intros ([|j] & b' & H & I & ->); cbn [nth_error] in H.
        * injection H as <-. left. exists k. split; [lia|]. apply filter_In. split; auto. lia.
        * right. exists j, b'. repeat split; auto; try lia.
  Qed.

  (* two different boxes with a common key appear in order *)
  Lemma occ_split k : forall bs idx i j a b, (idx + length bs <= N.to_nat 4294967296)%nat ->
    (i < j)%nat -> nth_error bs i = Some a -> nth_error bs j = Some b ->
    In k (keys_of a) -> In k (keys_of b) ->
    In (N.of_nat (idx + i), N.of_nat (idx + j)) (pairs_of (occ k idx bs)).
  Proof.
    induction bs as [|x bs IH]; intros idx i j a b L Hij Hi Hj Ka Kb.
    - destruct i; discriminate.
    - destruct j as [|j]; [lia|]. cbn [nth_error length] in *. cbn [occ].
      destruct i as [|i]; cbn [nth_error] in Hi.
      + injection Hi as ->. apply pairs_of_In. cbn [fst snd].
        assert (I1 : In (N.of_nat (idx + 0)) (map (fun _ => u32 (N.of_nat idx)) (filter (N.eqb k) (keys_of a)))).
        { apply in_map_iff. exists k. split; [rewrite u32_small; lia|]. apply filter_In; split; auto; lia. }
        assert (I2 : In (N.of_nat (idx + Datatypes.S j)) (occ k (Datatypes.S idx) bs)).
        { apply occ_In; [lia|]. exists j, b. repeat split; auto; try lia. }
        apply in_split in I1 as (p & q & E1). apply in_split in I2 as (r & s & E2).
        rewrite E1, E2. exists p, (q ++ r), s. now rewrite <- !app_assoc.
      + assert (I : In (N.of_nat (Datatypes.S idx + i), N.of_nat (Datatypes.S idx + j)) (pairs_of (occ k (Datatypes.S idx) bs))).
        { eapply IH; eauto; lia. }
        replace (idx + Datatypes.S i)%nat with (Datatypes.S idx + i)%nat by lia.
        replace (idx + Datatypes.S j)%nat with (Datatypes.S idx + j)%nat by lia.
        apply pairs_of_In in I as (p & q & r & E). apply pairs_of_In. rewrite E.
        eexists (_ ++ p), q, r. now rewrite <- app_assoc.
  Qed.

  (* the voxel list is non-decreasing, and strictly so when no box enters the voxel twice *)
  Lemma occ_lower k : forall bs idx i, (idx + length bs <= N.to_nat 4294967296)%nat ->
    In i (occ k idx bs) -> N.of_nat idx <= i.
  Proof. intros bs idx i L I. apply occ_In in I as (j & b & _ & _ & ->); auto. lia. Qed.

  Lemma occ_pairs k : forall bs idx p, (idx + length bs <= N.to_nat 4294967296)%nat ->
    In p (pairs_of (occ k idx bs)) ->
    fst p < snd p \/ (fst p = snd p /\ exists j b, nth_error bs j = Some b /\ fst p = N.of_nat (idx + j) /\ ~ NoDup (keys_of b)).
  Proof.
    induction bs as [|x bs IH]; intros idx p L I; cbn [occ length] in *; [destruct I|].
    rewrite u32_small in I by lia.
    set (f := filter (N.eqb k) (keys_of x)) in *.
    assert (A : forall l, In p (pairs_of (map (fun _ : N => N.of_nat idx) l ++ occ k (Datatypes.S idx) bs)) ->
       In p (pairs_of (occ k (Datatypes.S idx) bs)) \/
       (fst p = N.of_nat idx /\ In (snd p) (occ k (Datatypes.S idx) bs)) \/
       (fst p = N.of_nat idx /\ snd p = N.of_nat idx /\ (2 <= length l)%nat)).
    { induction l as [|y l IHl]; cbn [map app pairs_of]; auto. rewrite in_app_iff, in_map_iff.
      intros [(z & <- & J)|J]; cbn [fst snd].
      - apply in_app_iff in J as [J|J]; auto. right; right.
        apply in_map_iff in J as (w & <- & J). repeat split; auto. destruct l; [destruct J|cbn [length]; lia].
      - apply IHl in J as [|[|(? & ? & ?)]]; auto. right; right. repeat split; auto. cbn [length]; lia. }
    apply A in I as [I|[[E I]|(E1 & E2 & Len)]].
    - apply IH in I as [|(E & j & b & Hj & E' & ND)]; auto; [|lia]. right. split; auto.
      exists (Datatypes.S j), b. repeat split; auto; try lia.
    - left. apply occ_lower in I; lia.
    - right. split; [congruence|]. exists 0%nat, x. repeat split; auto; [lia|].
      intros ND. apply (NoDup_filter (N.eqb k)) in ND. fold f in ND.
      destruct f as [|u [|v f']] eqn:F; cbn [length] in Len; try lia.
      assert (In u (filter (N.eqb k) (keys_of x))) by (fold f; rewrite F; now left).
      assert (In v (filter (N.eqb k) (keys_of x))) by (fold f; rewrite F; right; now left).
      apply filter_In in H as [_ H]. apply filter_In in H0 as [_ H0]. assert (u = v) by lia. subst.
      inversion ND; subst. apply H3; now left.
  Qed.

  Section Result.
    Variables (bs : list B) (m : voxmap) (s : list (N * N)).
    Hypothesis Hidx : indexable bs.
    Hypothesis Hras : rasterize cells 0 bs [] = Ok m.

    Lemma ras_get k : vget k m = occ k 0 bs.
    Proof. destruct (rasterize_get bs 0 [] m I Hras) as (_ & H & _). now rewrite H. Qed.
    Lemma ras_sorted : vsorted m.
    Proof. now destruct (rasterize_get bs 0 [] m I Hras) as (H & _). Qed.

    Lemma gen_complete i j a b k : (i < j) -> box_at bs i a -> box_at bs j b ->
      overlaps a b = true -> In k (keys_of a) -> In k (keys_of b) ->
      In (i, j) (scan_voxels overlaps bs m s).
    Proof.
      intros Hij Ha Hb O Ka Kb. apply scan_In; [apply ras_sorted|]. right. split; [|cbn [fst snd]; eauto].
      exists k. rewrite ras_get. unfold box_at in *. unfold indexable in Hidx.
      pose proof (occ_split k bs 0 (N.to_nat i) (N.to_nat j) a b) as Q. cbn [Nat.add] in Q.
      rewrite !N2Nat.id in Q. apply Q; auto; lia.
    Qed.

    Lemma gen_sound i j : In (i, j) (scan_voxels overlaps bs m s) ->
      In (i, j) s \/ (i <= j /\ (exists a b, box_at bs i a /\ box_at bs j b /\ overlaps a b = true) /\
                      (i = j -> exists b, box_at bs i b /\ ~ NoDup (keys_of b))).
    Proof.
      intros H. apply scan_In in H as [|((k & I) & O)]; auto; [|apply ras_sorted]. right.
      rewrite ras_get in I. cbn [fst snd] in O.
      apply occ_pairs in I as [L|(E & x & b & H1 & H2 & H3)]; cbn [fst snd] in *.
      - repeat split; auto; try lia.
      - repeat split; auto; [lia|]. intros _. exists b. split; auto. unfold box_at.
        rewrite H2, Nat2N.id. exact H1.
      - unfold indexable in Hidx. lia.
    Qed.
  End Result.

End Generic.

(* ---------- the reference ---------- *)
Section Reference.
  Context {B : Type}.
  Variable overlaps : B -> B -> bool.
  Lemma all_pairs_inner_In p i a : forall bs j s, (j + length bs <= N.to_nat 4294967296)%nat -> (i < N.to_nat 4294967296)%nat ->
    (In p (all_pairs_inner overlaps i j a bs s) <->
     In p s \/ exists x b, nth_error bs x = Some b /\ overlaps a b = true /\ p = (N.of_nat i, N.of_nat (j + x))).
  Proof.
    induction bs as [|b bs IH]; intros j s L Li; cbn [all_pairs_inner length] in *.
    - split; auto. intros [|([|x] & b & H & _)]; auto; discriminate.
    - rewrite IH by lia. rewrite !u32_small by lia.
      destruct (overlaps a b) eqn:O; [rewrite set_add_In|]; split.
      + intros [[->|]|(x & c & H & O' & ->)]; auto.
        * right. exists 0%nat, b. repeat split; auto. rewrite Nat.add_0_r; auto.
        * right. exists (Datatypes.S x), c. repeat split; auto; try (f_equal; lia).
      + intros [|([|x] & c & H & O' & ->)]; auto; cbn [nth_error] in H.
        * rewrite Nat.add_0_r. auto.
        * right. exists x, c. repeat split; auto; try (f_equal; lia).
      + intros [|(x & c & H & O' & ->)]; auto. right. exists (Datatypes.S x), c. repeat split; auto; try (f_equal; lia).
      + intros [|([|x] & c & H & O' & ->)]; auto; cbn [nth_error] in H.
        * congruence.
        * right. exists x, c. repeat split; auto; try (f_equal; lia).
  Qed.
  Lemma all_pairs_In p : forall bs i s, (i + length bs <= N.to_nat 4294967296)%nat ->
    (In p (all_pairs overlaps i bs s) <->
     In p s \/ exists x y a b, (x < y)%nat /\ nth_error bs x = Some a /\ nth_error bs y = Some b /\
       overlaps a b = true /\ p = (N.of_nat (i + x), N.of_nat (i + y))).
  Proof.
    induction bs as [|a bs IH]; intros i s L; cbn [all_pairs length] in *.
    - split; auto. intros [|([|x] & y & a & b & _ & H & _)]; auto; discriminate.
    - rewrite IH by lia. rewrite all_pairs_inner_In by lia. split.
      + intros [[|(x & b & H & O & ->)]|(x & y & a' & b & Lt & H1 & H2 & O & ->)]; auto; right.
        * exists 0%nat, (Datatypes.S x), a, b. repeat split; auto; try lia; try (f_equal; lia).
        * exists (Datatypes.S x), (Datatypes.S y), a', b. repeat split; auto; try lia; try (f_equal; lia).
      + intros [|(x & [|y] & a' & b & Lt & H1 & H2 & O & ->)]; auto; [lia|]. cbn [nth_error] in *.
        destruct x as [|x]; cbn [nth_error] in *.
        * injection H1 as ->. left; right. exists y, b. repeat split; auto; try (f_equal; lia).
        * right. exists x, y, a', b. repeat split; auto; try lia; try (f_equal; lia).
  Qed.
  Lemma all_pairs_sorted : forall bs i s, is_pair_set s -> is_pair_set (all_pairs overlaps i bs s).
  Proof.
    induction bs as [|a bs IH]; intros i s Hs; cbn [all_pairs]; auto. apply IH.
    generalize (Datatypes.S i) as j. revert s Hs. clear IH.
    induction bs as [|b bs IHb]; intros s Hs j; cbn [all_pairs_inner]; auto. apply IHb.
    destruct (overlaps a b); auto using set_add_sorted.
  Qed.
  Lemma all_pairs_spec bs i j : indexable bs ->
    (In (i, j) (all_pairs overlaps 0 bs []) <->
     i < j /\ exists a b, box_at bs i a /\ box_at bs j b /\ overlaps a b = true).
  Proof.
    intros Hidx. unfold indexable in Hidx. rewrite all_pairs_In by lia. cbn [In Nat.add]. unfold box_at. split.
    - intros [[]|(x & y & a & b & L & H1 & H2 & O & [= -> ->])]. split; [lia|].
      exists a, b. now rewrite !Nat2N.id.
    - intros (L & a & b & H1 & H2 & O). right. exists (N.to_nat i), (N.to_nat j), a, b.
      repeat split; auto; [lia|]. now rewrite !N2Nat.id.
  Qed.

  Lemma trial_gen trial : forall bs i out,
    trial_overlaps overlaps i trial bs out =
    out ++ map N.of_nat (filter (fun x => match nth_error bs (x - i) with Some b => overlaps b trial | None => false end) (seq i (length bs))).
  Proof.
    induction bs as [|b bs IH]; intros i out; cbn [trial_overlaps length seq filter map].
    - now rewrite app_nil_r.
    - rewrite IH. rewrite Nat.sub_diag. cbn [nth_error].
      assert (E : filter (fun x => match nth_error (b :: bs) (x - i) with Some b => overlaps b trial | None => false end) (seq (Datatypes.S i) (length bs))
                = filter (fun x => match nth_error bs (x - Datatypes.S i) with Some b => overlaps b trial | None => false end) (seq (Datatypes.S i) (length bs))).
      { apply filter_ext_in. intros x Hx. apply in_seq in Hx.
        replace (x - i)%nat with (Datatypes.S (x - Datatypes.S i)) by lia. reflexivity. }
      rewrite E. destruct (overlaps b trial); cbn [map]; auto. now rewrite <- app_assoc.
  Qed.
End Reference.
