From Coq Require Import ZArith NArith QArith Bool Ascii String List Lia ZifyBool ZifyNat ZifyN Permutation Sorted.
From Verif Require Import Outcome Str_Model Str_Spec Str_Proofs Rational_Model RatParse_Model Scene_Text Scene_Model Scene_Spec Scene_TextProofs Scene_Proofs Scene_Write Scene_Thms Scene2_Model Scene2_Spec Scene2_Proofs Scene3_Model Scene3_Spec Scene3_Rend Scene3_Proofs.
From Verif Require State_Spec State_Proofs.
Import ListNotations.
Open Scope string_scope.
Open Scope list_scope.

(* ---------------------------------------------------------------- a file for given planes, portals and renderers *)
Lemma renumber_kept ix rs : NoDup ix -> ordered rs ->
  renumber (isort ix) (drop_renderers (isort ix) rs) = map (fun r => (rank (member ix) (fst r), snd r)) (filter (fun r => negb (member ix (fst r))) rs).
Proof.
  intros N OR. assert (forall i, member (isort ix) i = member ix i) as M.
  { apply member_same. intros i. split; intros K; eapply Permutation_in; try exact K; [apply isort_perm|symmetry; apply isort_perm]. }
  rewrite drop_renderers_filter, renumber_rank.
  - rewrite (filter_same _ (fun r : nat * (ext * ext) => negb (member ix (fst r)))) by (intros r; rewrite M; reflexivity).
    apply map_ext. intros [i w]. cbn [fst snd]. f_equal. clear -M. induction i as [|i IH]; [reflexivity|]. cbn [State_Proofs.rank]. rewrite M, IH. reflexivity.
  - eapply Permutation_NoDup; [symmetry; apply isort_perm|exact N].
  - apply filter_ordered, OR.
Qed.
Lemma rank_seq n j : rank (member (seq 0 n)) (n + j) = j.
Proof.
  assert (forall i, member (seq 0 n) i = (i <? n)%nat) as M.
  { intros i. apply eq_true_iff_eq. rewrite member_iff, in_seq. lia. }
  induction j as [|j IH].
  - rewrite Nat.add_0_r. assert (forall k, (k <= n)%nat -> rank (member (seq 0 n)) k = 0%nat) as G; [|apply G; lia].
    induction k as [|k IHk]; intros Hk; [reflexivity|]. cbn [State_Proofs.rank]. rewrite M. destruct (Nat.ltb_spec k n); [apply IHk; lia|lia].
  - rewrite Nat.add_succ_r. cbn [State_Proofs.rank]. rewrite M, IH. destruct (Nat.ltb_spec (n + j) n); lia.
Qed.
Lemma kept_none (rs : list (nat * (ext * ext))) : map (fun r => (rank (member []) (fst r), snd r)) (filter (fun r => negb (member [] (fst r))) rs) = rs.
Proof.
  assert (forall i, rank (member []) i = i) as G by (induction i as [|i IHi]; [reflexivity|]; cbn [State_Proofs.rank]; rewrite IHi; reflexivity).
  induction rs as [|[i w] rs IH]; [reflexivity|].
  change (map (fun r => (rank (member []) (fst r), snd r)) ((i, w) :: filter (fun r => negb (member [] (fst r))) rs) = (i, w) :: rs).
  cbn [map fst snd]. rewrite IH, G. reflexivity.
Qed.
Lemma draws_app_l a b k w : (forall w', ~ In (k, w') a) -> draws b k w -> draws (a ++ b) k w.
Proof.
  intros N [H|[H E]]; [left; apply in_or_app; auto|right]. split; [|exact E]. intros w' K. apply in_app_or in K as [K|K]; [exact (N _ K)|exact (H _ K)].
Qed.
Lemma draws_app_r a b k w : (forall w', ~ In (k, w') b) -> draws a k w -> draws (a ++ b) k w.
Proof.
  intros N [H|[H E]]; [left; apply in_or_app; auto|right]. split; [|exact E]. intros w' K. apply in_app_or in K as [K|K]; [exact (H _ K)|exact (N _ K)].
Qed.
(* renderers of the planes 2i and 2i+1 that draw the portals *)
Lemma side_renderers fp m : forall (pr : list (nat * ((ext * ext) * (ext * ext)))) k, StronglySorted lt (map fst pr) ->
  Forall (fun r => (k <= fst r < m)%nat /\ side_ok fp (fst (snd r)) /\ side_ok fp (snd (snd r))) pr ->
  exists prs, StronglySorted lt (map fst prs) /\ Forall (fun r => (2 * k <= fst r < 2 * m)%nat /\ width_ok fp (snd r)) prs /\
    (forall i h, In (i, h) pr -> draws prs (2 * i) (fst h) /\ draws prs (2 * i + 1) (snd h)) /\
    (forall i, (forall h, ~ In (i, h) pr) -> forall w, ~ In ((2 * i)%nat, w) prs /\ ~ In ((2 * i + 1)%nat, w) prs).
Proof.
  induction pr as [|[i [w1 w2]] pr IH]; intros k HS HF.
  - exists []. split; [constructor|]. split; [constructor|]. split; [intros i h []|]. intros i _ w. split; intros [].
  - cbn [map fst] in HS. inversion HS as [|? ? S1 S2]; subst. inversion HF as [|? ? (R & O1 & O2) F2]; subst. cbn [fst snd] in *.
    destruct (IH (S i)) as (prs & P1 & P2 & P3 & P4); [exact S1| |].
    { rewrite Forall_forall in *. intros r Hr. specialize (F2 r Hr). specialize (S2 _ (in_map fst _ _ Hr)). cbv beta in *. split; [lia|tauto]. }
    assert (forall (b : nat) (w : ext * ext), side_ok fp w -> exists o : list (nat * (ext * ext)), (o = [(b, w)] /\ width_ok fp w \/ o = [] /\ w = zero2)) as SO.
    { intros b w [->|W]; [exists []; right; auto|exists [(b, w)]; left; auto]. }
    destruct (SO (2 * i)%nat w1 O1) as (o1 & E1). destruct (SO (2 * i + 1)%nat w2 O2) as (o2 & E2). clear SO.
    assert (forall j w, In (j, w) prs -> (2 * S i <= j)%nat) as PG.
    { intros j w Hj. rewrite Forall_forall in P2. specialize (P2 _ Hj). cbn [fst] in P2. lia. }
    assert (forall j w, In (j, w) o1 -> j = (2 * i)%nat) as G1 by (intros j w Hj; destruct E1 as [[-> _]|[-> _]]; [destruct Hj as [Hj|[]]; congruence|destruct Hj]).
    assert (forall j w, In (j, w) o2 -> j = (2 * i + 1)%nat) as G2 by (intros j w Hj; destruct E2 as [[-> _]|[-> _]]; [destruct Hj as [Hj|[]]; congruence|destruct Hj]).
    exists (o1 ++ o2 ++ prs). split; [|split; [|split]].
    + rewrite !map_app. assert (StronglySorted lt (map fst (o2 ++ prs))) as Q2.
      { destruct E2 as [[-> _]|[-> _]]; [|exact P1]. cbn [app map fst]. constructor; [exact P1|]. apply Forall_map, Forall_forall.
        intros [j w] Hj. specialize (PG _ _ Hj). cbn [fst]. lia. }
      rewrite <- map_app. destruct E1 as [[-> _]|[-> _]]; [|exact Q2]. cbn [app map fst]. constructor; [exact Q2|]. apply Forall_map, Forall_forall.
      intros [j w] Hj. cbn [fst]. apply in_app_or in Hj as [Hj|Hj]; [apply G2 in Hj|apply PG in Hj]; lia.
    + apply Forall_app. split; [|apply Forall_app; split].
      * destruct E1 as [[-> W]|[-> _]]; [|constructor]. constructor; [cbn [fst snd]; split; [lia|exact W]|constructor].
      * destruct E2 as [[-> W]|[-> _]]; [|constructor]. constructor; [cbn [fst snd]; split; [lia|exact W]|constructor].
      * eapply Forall_impl; [|exact P2]. cbv beta. intros r [? ?]. split; [lia|assumption].
    + intros j h [E|Hj].
      * injection E as <- <-. cbn [fst snd]. split.
        -- apply draws_app_r.
           { intros w' K. apply in_app_or in K as [K|K]; [apply G2 in K|apply PG in K]; lia. }
           destruct E1 as [[-> _]|[-> ->]]; [left; left; reflexivity|right; split; [intros w' []|reflexivity]].
        -- apply draws_app_l; [intros w' K; apply G1 in K; lia|]. apply draws_app_r; [intros w' K; apply PG in K; lia|].
           destruct E2 as [[-> _]|[-> ->]]; [left; left; reflexivity|right; split; [intros w' []|reflexivity]].
      * pose proof (in_map fst _ _ Hj) as Hj'. rewrite Forall_forall in S2. specialize (S2 _ Hj'). cbn [fst] in S2.
        destruct (P3 _ _ Hj) as [D1 D2]. split; (apply draws_app_l; [intros w' K; apply G1 in K; lia|]; apply draws_app_l; [intros w' K; apply G2 in K; lia|assumption]).
    + intros j Hj w. assert (j <> i) as Nj by (intros ->; apply (Hj (w1, w2)); left; reflexivity).
      destruct (P4 j) with (w := w) as [Q1 Q2]; [intros h K; apply (Hj h); right; exact K|].
      split; intros K; (apply in_app_or in K as [K|K]; [apply G1 in K; lia|]; apply in_app_or in K as [K|K]; [apply G2 in K; lia|contradiction]).
Qed.
Lemma sorted_le {A} (l : list (nat * A)) : StronglySorted lt (map fst l) -> ordered l.
Proof.
  unfold ordered. generalize (map fst l). clear l. induction 1 as [|x l H IH F]; constructor; [exact IH|]. eapply Forall_impl; [|exact F]. cbv beta. intros; lia.
Qed.
Lemma sorted_key {A} (l : list (nat * A)) : StronglySorted lt (map fst l) -> forall k w1 w2, In (k, w1) l -> In (k, w2) l -> w1 = w2.
Proof.
  induction l as [|[j w] l IH]; intros HS k w1 w2; [intros []|]. cbn [map fst] in HS. inversion HS as [|? ? S1 S2]; subst. rewrite Forall_forall in S2.
  intros [E1|H1] [E2|H2].
  - congruence.
  - injection E1 as -> ->. specialize (S2 _ (in_map fst _ _ H2)). cbn [fst] in S2. lia.
  - injection E2 as -> ->. specialize (S2 _ (in_map fst _ _ H1)). cbn [fst] in S2. lia.
  - eapply IH; eassumption.
Qed.
Lemma ordered_app {A} (a b : list (nat * A)) n : ordered a -> ordered b -> Forall (fun r => (fst r <= n)%nat) a -> Forall (fun r => (n <= fst r)%nat) b -> ordered (a ++ b).
Proof.
  unfold ordered. rewrite map_app. intros HA HB FA FB. induction a as [|x a IH]; [exact HB|]. cbn [map app] in *. inversion HA as [|? ? A1 A2]; subst.
  inversion FA; subst. constructor; [auto|]. apply Forall_app. split; [exact A2|]. apply Forall_map. eapply Forall_impl; [|exact FB]. cbv beta. intros; lia.
Qed.
Lemma pairs_nth {E} (es : list E) i : nth_error (map fst (pairs_from 0 es)) i = if (i <? List.length es)%nat then Some (2 * i, 2 * i + 1)%nat else None.
Proof.
  assert (map fst (pairs_from 0 es) = map (fun i => (2 * i, 2 * i + 1)%nat) (seq 0 (List.length es))) as ->.
  { assert (forall k, map fst (pairs_from k es) = map (fun i => (2 * i, 2 * i + 1)%nat) (seq k (List.length es))) as G; [|apply G].
    unfold pairs_from. induction es as [|e es IH]; intros k; [reflexivity|]. cbn [List.length seq map combine fst]. rewrite IH. reflexivity. }
  rewrite nth_error_map. destruct (Nat.ltb_spec i (List.length es)) as [H|H].
  - rewrite (nth_error_nth' _ 0%nat) by (rewrite seq_length; exact H). rewrite seq_nth by exact H. reflexivity.
  - replace (nth_error (seq 0 (List.length es)) i) with (@None nat); [reflexivity|]. symmetry. apply nth_error_None. rewrite seq_length. exact H.
Qed.
Lemma multiplier_w e : (let '(x, y, z) := e in sign_unit x /\ sign_unit y /\ sign_unit z) ->
  exists pre, Forall (fun p : str * str => seqb (fst p) "planeA" = false /\ seqb (fst p) "planeB" = false) pre /\
    forall post, load_multiplier (Node "planar_portal" (pre ++ post) []) = accept e.
Proof.
  destruct e as [[x y] z]. intros (X & Y & Z0). unfold sign_unit in *.
  assert (exists t, (let? l := read_list read_ext_int 3 t in
    match l with
    | [x; y; z] => let? _ := guard (forallb (fun k => negb ((k <? -1) || (k =? 0) || (1 <? k)))%Z [x; y; z]) in accept (x, y, z)
    | _ => reject
    end) = accept (x, y, z)) as (t & E).
  { set (w := fun k : Z => if (k =? 1)%Z then lit "1" else lit "-1"). exists (join " "%char [w x; w y; w z]).
    destruct X as [-> | ->], Y as [-> | ->], Z0 as [-> | ->]; vm_compute; reflexivity. }
  exists [(lit "multiplier", t)]. split; [repeat constructor|]. intros post. cbn [app]. unfold load_multiplier. rewrite attr_hit, pbind_accept. exact E.
Qed.
Lemma portals3_w fp d : drawn_ok fp d -> (Z.of_nat (List.length (dr_planes d) + 2 * List.length (dr_portals d)) < 2 ^ 31)%Z ->
  exists planes rs pl, named "planar_portal" pl /\ planes = flat_map (fun p => [fst (fst p); snd (fst p)]) (dr_portals d) ++ dr_planes d /\
    ordered rs /\ Forall (rend_ok fp (List.length planes)) rs /\
    forall root, elements root "planar_portal" = pl -> load_portals3 root planes rs = accept d.
Proof.
  destruct d as [rest portals rend pr]. intros [O1 O2 O3 O4 O5 O6] HZ. cbn [dr_planes dr_portals dr_plane_rend dr_portal_rend] in *.
  set (m := List.length portals) in *.
  set (planes := flat_map (fun p => [fst (fst p); snd (fst p)]) portals ++ rest).
  assert (List.length planes = 2 * m + List.length rest)%nat as HL.
  { unfold planes. rewrite app_length, flat_map_length2. reflexivity. }
  destruct (side_renderers fp m pr 0 O5) as (prs & P1 & P2 & P3 & P4).
  { eapply Forall_impl; [|exact O6]. cbv beta. intros r (H1 & H2 & _). split; [lia|exact H2]. }
  set (shifted := map (fun r : nat * (ext * ext) => ((2 * m + fst r)%nat, snd r)) rend).
  set (rs := prs ++ shifted).
  assert (forall j w, In (j, w) shifted -> (2 * m <= j)%nat) as SG.
  { intros j w Hj. unfold shifted in Hj. apply in_map_iff in Hj as (r & E & _). injection E as <- _. lia. }
  assert (ordered rs) as OR.
  { apply ordered_app with (n := (2 * m)%nat).
    - apply sorted_le, P1.
    - unfold ordered, shifted. rewrite map_map. cbn [fst]. rewrite <- (map_map fst (fun i => (2 * m + i)%nat)). revert O3. generalize (map fst rend). clear.
      induction 1 as [|x l H IH F]; cbn [map]; constructor; [exact IH|]. apply Forall_map. eapply Forall_impl; [|exact F]. cbv beta. intros; lia.
    - eapply Forall_impl; [|exact P2]. cbv beta. intros; lia.
    - apply Forall_forall. intros [j w] Hj. apply SG in Hj. exact Hj. }
  assert (Forall (rend_ok fp (List.length planes)) rs) as HR.
  { apply Forall_app. split.
    - eapply Forall_impl; [|exact P2]. cbv beta. intros r [H1 H2]. split; [lia|exact H2].
    - unfold shifted. apply Forall_map. eapply Forall_impl; [|exact O4]. cbv beta. intros r [H1 H2]. split; cbn [fst snd]; [lia|exact H2]. }
  destruct (links_w load_multiplier "planar_portal" (List.length planes) (map snd portals) 0 []) as (pl & N1 & E1).
  { apply Forall_map. eapply Forall_impl; [|exact O2]. cbv beta. intros p (_ & _ & H). apply multiplier_w. exact H. }
  { reflexivity. } { rewrite map_length. fold m. lia. } { rewrite map_length. fold m. lia. }
  exists planes, rs, pl. split; [exact N1|]. split; [reflexivity|]. split; [exact OR|]. split; [exact HR|].
  set (links := pairs_from 0 (map snd portals)) in *.
  assert (flat (map fst links) = seq 0 (2 * m)) as EF by (unfold links; rewrite pairs_flat, map_length; reflexivity).
  assert (omapM (join_planes planes) links = Ok portals) as EJ.
  { apply omapM_iff. pose proof (picked_pairs rest portals 0 [] eq_refl) as K. cbn [app] in K. fold planes in K.
    eapply State_Proofs.forall2_impl; [|exact K]. intros x y. apply join_planes_iff. }
  assert (erase_all planes (flat (map fst links)) = Ok rest) as ER.
  { rewrite erase_all_without; rewrite EF.
    - f_equal. rewrite State_Proofs.without_keep. unfold planes. rewrite State_Proofs.keep_app, keep_all.
      + cbn [app]. apply keep_none. intros i Hi. rewrite flat_map_length2 in Hi. fold m in Hi.
        destruct (existsb _ _) eqn:X; [|reflexivity]. apply existsb_exists in X as (j & Hj & X). apply in_seq in Hj. apply Nat.eqb_eq in X. lia.
      + intros i Hi. rewrite flat_map_length2 in Hi. fold m in Hi. apply existsb_exists. exists i. split; [apply in_seq; lia|apply Nat.eqb_refl].
    - apply seq_NoDup.
    - apply Forall_forall. intros i Hi. apply in_seq in Hi. lia. }
  assert (map (fun r => (rank (member (seq 0 (2 * m))) (fst r), snd r)) (filter (fun r => negb (member (seq 0 (2 * m)) (fst r))) rs) = rend) as EK.
  { unfold rs. rewrite filter_app. assert (filter (fun r : nat * (ext * ext) => negb (member (seq 0 (2 * m)) (fst r))) prs = []) as ->.
    { clear -P2. induction P2 as [|r prs [H _] _ IH]; [reflexivity|]. cbn [filter]. assert (member (seq 0 (2 * m)) (fst r) = true) as -> by (apply member_iff, in_seq; lia). exact IH. }
    unfold shifted. cbn [app]. clear. induction rend as [|[i w] rend IH]; [reflexivity|]. cbn [map fst snd filter].
    assert (member (seq 0 (2 * m)) (2 * m + i) = false) as -> by (apply member_false; rewrite in_seq; lia). cbn [negb map fst snd]. rewrite rank_seq, IH. reflexivity. }
  assert (portal_renderers 0 (map fst links) rs = pr) as EP.
  { apply increasing_same; [apply portal_renderers_sorted|exact O5|]. intros i h. rewrite portal_renderers_in, Nat.sub_0_r. unfold links. rewrite pairs_nth, map_length. fold m.
    assert (forall j w, (j < 2 * m)%nat -> draws prs j w -> lastw j rs = w) as LW.
    { intros j w Hj D. apply draws_unique.
      - intros w1 w2 H1 H2. unfold rs in H1, H2. apply in_app_or in H1 as [H1|H1]; [|apply SG in H1; lia]. apply in_app_or in H2 as [H2|H2]; [|apply SG in H2; lia].
        eapply sorted_key; eassumption.
      - unfold rs. apply draws_app_r; [|exact D]. intros w' K. apply SG in K. lia. }
    split.
    - intros (ab & _ & E & -> & NZ). destruct (Nat.ltb_spec i m) as [Hi|]; [|discriminate]. assert (ab = (2 * i, 2 * i + 1)%nat) as -> by congruence. rewrite half_widths_last in NZ |- * by (cbn [fst snd]; lia). cbn [fst snd] in NZ |- *.
      destruct (in_dec Nat.eq_dec i (map fst pr)) as [Y|Y].
      + apply in_map_iff in Y as ([j [h1 h2]] & Ej & Hj). cbn [fst] in Ej. subst j. destruct (P3 _ _ Hj) as [D1 D2]. cbn [fst snd] in D1, D2.
        rewrite (LW (2 * i)%nat _ ltac:(lia) D1), (LW (2 * i + 1)%nat _ ltac:(lia) D2). exact Hj.
      + exfalso. apply NZ. assert (forall h, ~ In (i, h) pr) as NI by (intros h K; apply Y; exact (in_map fst _ _ K)).
        rewrite (LW (2 * i)%nat zero2), (LW (2 * i + 1)%nat zero2); try lia.
        * unfold no_width. cbn. repeat split; reflexivity.
        * right. split; [intros w; apply (P4 i NI w)|reflexivity].
        * right. split; [intros w; apply (P4 i NI w)|reflexivity].
    - intros Hi. rewrite Forall_forall in O6. destruct (O6 _ Hi) as (Hm & _ & NZ). cbn [fst snd] in Hm, NZ. destruct (Nat.ltb_spec i m) as [_|]; [|lia].
      exists (2 * i, 2 * i + 1)%nat. split; [lia|]. split; [reflexivity|]. split; [|exact NZ]. destruct (P3 _ _ Hi) as [D1 D2].
      rewrite half_widths_last by lia. rewrite (LW (2 * i)%nat _ ltac:(lia) D1), (LW (2 * i + 1)%nat _ ltac:(lia) D2). destruct h; reflexivity. }
  intros root R1. unfold load_portals3. rewrite R1. destruct pl as [|p0 pl].
  - cbn [load_links] in E1. apply (f_equal (fun x => match x with Ok (Some l) => List.length l | _ => 0%nat end)) in E1. cbn [accept] in E1.
    unfold links, pairs_from in E1. rewrite combine_length, !map_length, seq_length in E1. fold m in E1. cbn [List.length] in E1. rewrite Nat.min_id in E1.
    destruct portals as [|? ?]; [|discriminate]. assert (rs = rend) as ER2 by (rewrite <- EK; symmetry; apply kept_none).
    unfold planes. cbn [flat_map app]. rewrite ER2, <- EP. reflexivity.
  - assert (0 < m)%nat.
    { destruct portals; [|cbn; lia]. exfalso. cbn [map] in E1. cbn [load_links] in E1.
      apply pbind_inv in E1 as (? & _ & E1). apply pbind_inv in E1 as (? & _ & E1). apply pbind_inv in E1 as (? & _ & E1). discriminate. }
    cbv zeta. rewrite (guard_true (negb _)) by lia. wgo. rewrite E1. wgo. rewrite EJ. wgo. rewrite ER. wgo.
    rewrite renumber_kept; [|rewrite EF; apply seq_NoDup|exact OR]. rewrite EF, EK, EP. reflexivity.
Qed.

Lemma parse_rb3_complete ar bd sc : indexable sc -> rb3_scene_ok ar bd sc -> exists doc, parse_rb3 ar bd doc = Ok (Some sc).
Proof.
  intros (I1 & I2 & I3) [OE OG OC [OD1 OD2] OR OB OCy OCr ODr OGe (bodies & OBo & Eq & Ev & EM & EI & Eg & Ef)].
  destruct sc as [cb en gr cam ki dtt dt re bo cy cr dr ge q v M I gi fx]. cbn in *. subst q v M I gi fx.
  destruct (optional_w (load_end_time ar) "end_time" en) as (l1 & N1 & E1).
  { destruct en; [|exact Logic.I]. apply end_time_w; tauto. }
  destruct (each_w (load_gravity3 ar) "near_earth_gravity" gr) as (l2 & N2 & E2); [eapply forall_w; [|exact OG]; apply gravity3_w|].
  destruct (cameras_w _ _ OC) as (l3 & l3b & N3 & N3b & E3).
  set (l4 := [Node "integrator" [(lit "dt", dtt); (lit "type", match ki with SplitHam => lit "split_ham" | Dmv => lit "dmv" | ExponentialEuler => lit "exponential_euler" end)] []]).
  assert (named "integrator" l4) as N4 by (repeat constructor).
  destruct (response3_w _ _ _ OR) as (l5 & l6 & l7 & l8 & N5 & N6 & N7 & N8 & E5).
  destruct (optional_w (load_boundary ar) "simulation_boundary" bo) as (l9 & N9 & E9).
  { destruct bo; [|exact Logic.I]. apply boundary_w, OB. }
  destruct (portals3_w ar dr ODr I1) as (planes & rs & l10 & N10 & EP & OS & RS & E10).
  assert (List.length planes = List.length (dr_planes dr) + 2 * List.length (dr_portals dr))%nat as LP.
  { subst planes. rewrite app_length, flat_map_length2. lia. }
  assert (Forall (plane3_ok ar) planes) as OPl.
  { subst planes. apply Forall_app. split; [|apply ODr]. pose proof (okd_portals _ _ ODr) as X. clear -X.
    induction X as [|p po (H1 & H2 & _) _ IH]; [constructor|]. cbn [flat_map app]. constructor; [exact H1|]. constructor; [exact H2|exact IH]. }
  destruct (each_w (load_plane3 ar) "static_plane" planes) as (l11 & N11 & E11); [eapply forall_w; [|exact OPl]; apply plane3_w|].
  destruct (each_w (load_cylinder3 ar) "static_cylinder" cy) as (l12 & N12 & E12); [eapply forall_w; [|exact OCy]; apply cylinder3_w|].
  destruct (each_w (load_plane_renderer ar (List.length planes)) "static_plane_renderer" rs) as (l13 & N13 & E13).
  { eapply forall_w; [|exact RS]. intros r. apply plane_renderer_w. lia. }
  destruct (each_w (load_cylinder_renderer ar (List.length cy)) "static_cylinder_renderer" cr) as (l14 & N14 & E14).
  { eapply forall_w; [|exact OCr]. intros r. apply cylinder_renderer_w. lia. }
  destruct (each_w (load_geometry3 ar) "geometry" ge) as (l15 & N15 & E15); [eapply forall_w; [|exact OGe]; apply geometry3_w|].
  destruct (each_w (load_body3 ar (List.length ge)) "rigid_body_with_density" bodies) as (l16 & N16 & E16).
  { eapply forall_w; [|exact OBo]. intros b. apply body3_w. lia. }
  set (l0 := [Node "scripting" [(lit "callback", cb)] []]).
  assert (named "scripting" l0) as N0 by (repeat constructor).
  set (root := Node "rigidbody3d_scene" [] (l0 ++ l1 ++ l2 ++ l3 ++ l3b ++ l4 ++ l5 ++ l6 ++ l7 ++ l8 ++ l9 ++ l10 ++ l11 ++ l12 ++ l13 ++ l14 ++ l15 ++ l16)).
  assert (elements root "scripting" = l0) as R0 by elems.
  assert (elements root "end_time" = l1) as R1 by elems.
  assert (elements root "near_earth_gravity" = l2) as R2 by elems.
  assert (elements root "camera_perspective" = l3) as R3 by elems.
  assert (elements root "camera_orthographic" = l3b) as R3b by elems.
  assert (elements root "integrator" = l4) as R4 by elems.
  assert (elements root "impact_operator" = l5) as R5 by elems.
  assert (elements root "staggered_projections_friction_solver" = l6) as R6 by elems.
  assert (elements root "sobogus_friction_solver" = l7) as R7 by elems.
  assert (elements root "grr_friction_solver" = l8) as R8 by elems.
  assert (elements root "simulation_boundary" = l9) as R9 by elems.
  assert (elements root "planar_portal" = l10) as R10 by elems.
  assert (elements root "static_plane" = l11) as R11 by elems.
  assert (elements root "static_cylinder" = l12) as R12 by elems.
  assert (elements root "static_plane_renderer" = l13) as R13 by elems.
  assert (elements root "static_cylinder_renderer" = l14) as R14 by elems.
  assert (elements root "geometry" = l15) as R15 by elems.
  assert (elements root "rigid_body_with_density" = l16) as R16 by elems.
  exists [root]. match goal with |- ?l = _ => change l with (load_rb3_scene ar bd root) end.
  assert (load_integrator3 root = accept (ki, dtt, dt)) as EI.
  { unfold load_integrator3. rewrite first_node_hd, R4. subst l4. cbn [hd_error]. wgo.
    unfold load_dt, load_kind3. wgo. rewrite OD1, pbind_ok. rewrite (guard_true (positive dt)) by (unfold positive; lia). wgo. destruct ki; reflexivity. }
  unfold load_rb3_scene, load_scripting.
  rewrite (E3 root R3 R3b), EI, (E5 root R5 R6 R7 R8).
  rewrite !first_node_hd, R0, R1, R2, R9, R11, R12, R13, R14, R15, R16. unfold l0. cbn [hd_error]. wgo. rewrite E1. wgo. rewrite E2. wgo. rewrite E9. wgo.
  rewrite E11. wgo. rewrite E12. wgo. rewrite E13. wgo. rewrite E14. wgo. rewrite (sort_by_id rs OS), (E10 root R10). wgo. rewrite E15. wgo. rewrite E16. wgo.
  rewrite places_ok by (eapply Forall_impl; [|exact OBo]; intros b B; apply B). wgo. cbn [fst snd].
  rewrite !concat_flat_map, !flat_map_map, !map_map. reflexivity.
Qed.

(* ---------------------------------------------------------------- the order of elements *)
Lemma load_rb3_scene_elements ar bd r1 r2 : (forall a, elements r1 a = elements r2 a) ->
  load_rb3_scene ar bd r1 = load_rb3_scene ar bd r2.
Proof.
  intros H. unfold load_rb3_scene, load_scripting, load_integrator3, load_cameras, load_portals3.
  rewrite !first_node_hd, !H, (load_response_elements r1 r2 _ _ H). reflexivity.
Qed.

(* ---------------------------------------------------------------- undefined and exiting cases *)
Lemma load_smooth_safe fp bd w n : ~ fails w (load_smooth fp bd n).
Proof. unfold load_smooth. intros H. fstep H; [safe|]. fbranches H; all_safe H. Qed.
Lemma load_impact3_safe fp bd w n : ~ fails w (load_impact3 fp bd n).
Proof. unfold load_impact3. intros H. all_safe H. Qed.
Lemma load_grr_safe fp bd w n : ~ fails w (load_grr fp bd n).
Proof. unfold load_grr. intros H. do 5 (fstep H; [safe|]). fstep H; [destruct (load_smooth_safe _ _ _ _ H)|]. fstep H; [safe|]. fbranches H; safe. Qed.
Lemma load_sobogus3_fails fp w n : fails w (load_sobogus3 fp n) ->
  w = false /\ first_attribute n "staggering" = Some (lit "symplectic_euler") /\ exists t, first_attribute n "cache_impulses" = Some t /\ ~ caching_word t.
Proof.
  unfold load_sobogus3. intros H. do 6 (fstep H; [safe|]). apply of_option_inv in Ha4. fbranches H; try safe.
  fstep H; [safe|]. fstep H; [|safe]. apply load_caching_fails in H as [-> H]. apply seqb_true in B0. subst. split; [reflexivity|]. split; assumption.
Qed.
Lemma load_multiplier_fails w n : fails w (load_multiplier n) -> w = true /\ first_attribute n "multiplier" = Some [].
Proof.
  unfold load_multiplier. intros H. fstep H; [safe|]. apply of_option_inv in Ha. fstep H.
  - apply read_list_fails in H as [-> ->]. auto.
  - destruct a0 as [|x [|y [|z [|]]]]; try safe. fstep H; safe.
Qed.
Lemma load_links_fails {E} (extra : node -> parse E) w np : forall l used, fails w (load_links extra np used l) -> exists n, In n l /\ fails w (extra n).
Proof.
  induction l as [|n l IH]; intros used H; cbn [load_links] in H; [safe|].
  fstep H; [safe|]. fstep H; [exists n; split; [left; reflexivity|exact H]|].
  fstep H; [apply IH in H as (m & H1 & H2); exists m; split; [right; exact H1|exact H2]|]. safe.
Qed.
Lemma load_portals3_fails w root planes rs : fails w (load_portals3 root planes rs) ->
  exists n, In n (elements root "planar_portal") /\ w = true /\ first_attribute n "multiplier" = Some [].
Proof.
  intros H. unfold load_portals3 in H. destruct (elements root "planar_portal") as [|p0 pl]; [safe|]. cbv zeta in H.
  fstep H; [safe|]. fstep H; [apply load_links_fails in H as (n & Hn & H); exists n; split; [exact Hn|]; apply load_multiplier_fails, H|].
  pose proof (load_links_inv _ _ _ load_multiplier_inv _ [] _ (NoDup_nil _) Ha0) as (N & R & _). cbn [app] in N.
  assert (Forall (fun i => (i < List.length planes)%nat) (flat (map fst a0))) as R' by (eapply Forall_impl; [|exact R]; intros i [X _]; exact X).
  exfalso. destruct (joined_total planes a0 R') as (ps & E1). rewrite E1 in H. fstep H; [exact H|]. rewrite erase_all_without in H by assumption. fstep H; exact H.
Qed.
Lemma load_rb3_scene_fails ar bd w root : fails w (load_rb3_scene ar bd root) ->
  w = true /\ ((exists n t, first_node root "integrator" = Some n /\ first_attribute n "dt" = Some t /\ parse_rational t = UB) \/
     (exists e n a, In n (elements root e) /\ In a (vector_attributes3 e) /\ first_attribute n a = Some []) \/
     (exists n t, In n (elements root "rigid_body_with_density") /\ first_attribute n "geo_idx" = Some t /\ checked (read_int t) = Some int_min)) \/
  w = false /\ exists n t, first_node root "sobogus_friction_solver" = Some n /\ first_attribute n "staggering" = Some (lit "symplectic_euler") /\
     first_attribute n "cache_impulses" = Some t /\ ~ caching_word t.
Proof.
  assert (forall e n a, In n (elements root e) -> In a (vector_attributes3 e) -> fails w (vec3_attr ar n a) ->
    w = true /\ (exists e n a, In n (elements root e) /\ In a (vector_attributes3 e) /\ first_attribute n a = Some [])) as V.
  { intros e n a H1 H2 H3. apply vec3_attr_fails in H3 as [-> E]. split; [reflexivity|]. exists e, n, a. auto. }
  assert (forall e n, first_node root e = Some n -> In n (elements root e)) as FE.
  { intros e n H. rewrite first_node_hd in H. destruct (elements root e) as [|x l]; [discriminate|]. injection H as ->. left. reflexivity. }
  unfold load_rb3_scene. intros H. fstep H; [safe|]. fstep H.
  { destruct (first_node root "end_time"); cbn [optional] in H; [|safe]. all_safe H. }
  fstep H.
  { apply each_fails in H as (n & Hn & H). left. apply (V (lit "near_earth_gravity") n _ Hn) in H; [tauto|cbn; tauto]. }
  fstep H.
  { left. unfold load_cameras in H. fstep H.
    - destruct (first_node root "camera_perspective") as [n|] eqn:En; cbn [optional] in H; [|safe]. fstep H; [|safe]. unfold load_perspective in H.
      do 4 (fstep H; [safe|]). do 2 (fstep H; [apply (V (lit "camera_perspective") n _ (FE _ _ En)) in H; [tauto|cbn; tauto]|]). all_safe H.
    - fstep H; [|safe]. destruct (first_node root "camera_orthographic") as [n|] eqn:En; cbn [optional] in H; [|safe]. fstep H; [|safe]. unfold load_orthographic in H.
      do 2 (fstep H; [safe|]). fstep H; [apply (V (lit "camera_orthographic") n _ (FE _ _ En)) in H; [tauto|cbn; tauto]|]. all_safe H. }
  fstep H.
  { unfold load_integrator3 in H. fstep H; [safe|]. apply of_option_inv in Ha3.
    fstep H; [|fstep H; [|safe]].
    - apply load_dt_fails in H as (-> & t & E & U). left. split; [reflexivity|]. left. eauto.
    - unfold load_kind3 in H. fstep H; [safe|]. fbranches H; safe. }
  fstep H.
  { right. apply load_response_fails in H as (a' & f & n & Hin & En & H); [|apply load_impact3_safe].
    destruct Hin as [Hin|[Hin|[Hin|[]]]]; injection Hin as <- <-.
    - apply load_staggered_fails in H as [(c & _ & H)|(c & Ec & H)]; [safe|destruct (load_smooth_safe _ _ _ _ H)].
    - apply load_sobogus3_fails in H as (-> & K & t & Et & Ht). split; [reflexivity|]. exists n, t. auto.
    - destruct (load_grr_safe _ _ _ _ H). }
  fstep H.
  { left. destruct (first_node root "simulation_boundary") as [n|] eqn:En; cbn [optional] in H; [|safe]. fstep H; [|safe]. unfold load_boundary in H.
    do 2 (fstep H; [safe|]). do 2 (fstep H; [apply (V (lit "simulation_boundary") n _ (FE _ _ En)) in H; [tauto|cbn; tauto]|]). all_safe H. }
  fstep H.
  { apply each_fails in H as (n & Hn & H). left. unfold load_plane3 in H. do 2 (fstep H; [apply (V (lit "static_plane") n _ Hn) in H; [tauto|cbn; tauto]|]). safe. }
  fstep H.
  { apply each_fails in H as (n & Hn & H). left. unfold load_cylinder3 in H. do 2 (fstep H; [apply (V (lit "static_cylinder") n _ Hn) in H; [tauto|cbn; tauto]|]). all_safe H. }
  fstep H.
  { apply each_fails in H as (n & Hn & H). left. unfold load_plane_renderer in H. do 3 (fstep H; [safe|]). fstep H; [|all_safe H].
    apply vec2_attr_fails in H as [-> E]. split; [reflexivity|]. right. left. exists (lit "static_plane_renderer"), n, (lit "r"). split; [exact Hn|]. split; [cbn; tauto|exact E]. }
  fstep H.
  { apply each_fails in H as (n & Hn & H). unfold load_cylinder_renderer in H. all_safe H. }
  fstep H.
  { apply load_portals3_fails in H as (n & Hn & -> & E). left. split; [reflexivity|]. right. left. exists (lit "planar_portal"), n, (lit "multiplier").
    split; [exact Hn|]. split; [cbn; tauto|exact E]. }
  fstep H.
  { apply each_fails in H as (n & Hn & H). left. unfold load_geometry3 in H. fstep H; [safe|]. fbranches H; try (all_safe H; fail).
    fstep H; [|all_safe H]. apply (V (lit "geometry") n _ Hn) in H; [tauto|cbn; tauto]. }
  fstep H.
  { apply each_fails in H as (n & Hn & H). left. unfold load_body3 in H.
    do 3 (fstep H; [destruct (triple_attr_safe _ _ _ _ H)|]). do 2 (fstep H; [safe|]). fstep H.
    - unfold load_geo_idx in H. fstep H; [safe|]. fbranches H; try (all_safe H; fail). cbn in H. split; [exact H|]. right. right.
      match goal with K : int_attr n _ = Ok (Some ?g), B : (?g =? int_min)%Z = true |- _ => unfold int_attr in K; apply pbind_inv in K as (t & K1 & K2);
        apply of_option_inv in K1, K2; apply Z.eqb_eq in B; exists n, t; split; [exact Hn|]; split; [exact K1|]; rewrite K2, B; reflexivity end.
    - fstep H; [|safe]. destruct (first_attribute n "R") eqn:ER; [|safe]. fstep H; [|safe].
      apply (V (lit "rigid_body_with_density") n _ Hn) in H; [tauto|cbn; tauto]. }
  exfalso. match type of H with fails w (pbind (lift (omapM (place _ ?geo) ?b)) _) => assert (Forall (fun x => (r3_geo x < List.length geo)%nat) b) as HB end.
  { eapply each_forall; [|eassumption]. intros n b K. apply load_body3_inv in K. apply K. }
  rewrite places_ok in H by exact HB. fstep H; safe.
Qed.
