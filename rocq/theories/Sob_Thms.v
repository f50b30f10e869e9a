(* The So-bogus interface solves the problem posed on the user's numbering, for any simulator with the laws below. *)
From Coq Require Import List Reals Arith Bool Lia Lra.
From Verif Require Import Outcome Ccd_Model Lin_Model Lin_Proofs Sob_Model Sob_Spec Sob_Proofs.
Import ListNotations.
Open Scope R_scope.

(* body b of a system of nb bodies looks like body b' of a system of nb' *)
Definition same_body (w : nat) (slot : nat -> nat -> nat -> nat) (nb : nat) (x : dvec) (b nb' : nat) (x' : dvec) (b' : nat) : Prop :=
  forall o, (o < w)%nat -> x' (slot nb' b' o) = x (slot nb b o).
Definition both (P : nat -> nat -> Prop) (i : nat) (oj : option nat) (i' : nat) (oj' : option nat) : Prop :=
  P i i' /\ match oj, oj' with Some j, Some j' => P j j' | None, None => True | _, _ => False end.

Record sim_laws {C} (K : sim C) : Prop := {
  law_s : (0 < k_s K)%nat;
  law_d : (k_d K <= k_s K)%nat;
  law_v : slots_ok (k_s K) (k_vslot K);
  law_q : slots_ok (k_qs K) (k_qslot K);
  law_all : forall ng k, (k < k_s K * ng)%nat -> exists b o, (b < ng)%nat /\ (o < k_s K)%nat /\ k = k_vslot K ng b o;
  law_local : forall c i oj i' oj', k_bodies K c = Ok (i, oj) -> both (fun _ _ => True) i oj i' oj' ->
    exists c', k_bodies K c' = Ok (i', oj') /\
      (forall f, both (fun a b => f a = Ok b) i oj i' oj' -> remap K f c = Ok c') /\
      (forall f, both (fun a b => f a = Ok b) i' oj' i oj -> remap K f c' = Ok c) /\
      forall nb q v nb' q' v' E,
        both (fun b b' => same_body (k_qs K) (k_qslot K) nb q b nb' q' b' /\ same_body (k_s K) (k_vslot K) nb v b nb' v' b') i oj i' oj' ->
        k_H0 K q' c' E = k_H0 K q c E /\ k_H1 K q' c' E = k_H1 K q c E /\ k_ndotv K nb' q' c' v' = k_ndotv K nb q c v;
  law_shape : forall c i oj q E, k_bodies K c = Ok (i, oj) -> shaped (k_d K) (k_d K) E ->
    exists h0 oh1 kin, k_H0 K q c E = Ok h0 /\ k_H1 K q c E = Ok oh1 /\ k_kinvel K q c = Ok kin /\
      shaped (k_d K) (k_s K) h0 /\ map (firstn (k_d K)) h0 = E /\
      match oj, oh1 with Some _, Some h1 => shaped (k_d K) (k_s K) h1 /\ map (firstn (k_d K)) h1 = E | None, None => True | _, _ => False end }.

Section Main.
Context {C : Type} (K : sim C) (laws : sim_laws K).
Let s := k_s K. Let d := k_d K.

(* the columns of a contact in the user's numbering *)
Definition user_cols (ng : nat) (q0 : dvec) (it : item C) (l : list col) : Prop :=
  exists ij h0 h1, k_bodies K (it_c it) = Ok ij /\ k_H0 K q0 (it_c it) (it_E it) = Ok h0 /\ k_H1 K q0 (it_c it) (it_E it) = Ok h1 /\
    l = hcols K (k_vslot K ng) ij h0 h1.
Definition user_bias (ng : nat) (q0 v0 : dvec) (it : item C) (l : list R) : Prop :=
  exists kin, k_kinvel K q0 (it_c it) = Ok kin /\ l = bias (k_ndotv K ng q0 (it_c it) v0) kin it.

Lemma packed_inj : forall b o b' o' : nat, (o < s)%nat -> (o' < s)%nat -> packed K b o = packed K b' o' -> b = b' /\ o = o'.
Proof. intros b o b' o' H H' E. unfold packed in E. now apply (row_inj s). Qed.

Lemma packed_div : forall b o, (o < s)%nat -> (packed K b o / s = b /\ packed K b o mod s = o)%nat.
Proof.
  intros b o H. unfold packed. fold s. rewrite Nat.mul_comm, Nat.add_comm. split.
  - rewrite Nat.div_add by lia. now rewrite (Nat.div_small o s H).
  - rewrite Nat.mod_add by lia. now apply Nat.mod_small.
Qed.

Lemma block_mul_at : forall blk x b o, (o < s)%nat -> block_mul K blk x (packed K b o) = rsum s (fun p => blk b o p * x (packed K b p)).
Proof. intros blk x b o H. unfold block_mul. fold s. destruct (packed_div b o H) as [E1 E2]. now rewrite E1, E2. Qed.

Lemma frame_ortho : forall E, unit_frame d E -> orthonormal_cols d E.
Proof. intros E [H1 [H2 H3]]. split; [now split|exact H3]. Qed.

Lemma add_lists_at : forall a b k, (k < length a)%nat -> at_ (add_lists a b) k = at_ a k + at_ b k.
Proof. intros a b k H. unfold add_lists. now rewrite at_map_seq. Qed.
Lemma add_lists_length : forall a b, length (add_lists a b) = length a.
Proof. intros. unfold add_lists. now rewrite map_length, seq_length. Qed.

(* the forcing term, read along the basis, is the bias *)
Lemma kin_rel_ok : forall q0 it kin, k_kinvel K q0 (it_c it) = Ok kin -> well_sized d it ->
  exists rel, kin_rel K q0 it = Ok rel /\
    forall u, to_local (it_E it) (forcing K u (it_CoR it) (it_E it) rel) = bias u kin it.
Proof.
  intros q0 it kin Hk [F [_ X]]. unfold kin_rel. rewrite Hk. cbn [obind]. eexists. split; [reflexivity|]. intros u.
  unfold forcing. assert (O := frame_ortho _ F). destruct F as [L _].
  set (rel := match it_extra it with None => _ | Some x => _ end).
  assert (Lr : length rel = d).
  { unfold rel. destruct (it_extra it); [rewrite add_lists_length|]; now rewrite map_length. }
  rewrite (local_world d (it_E it)); [|exact O|destruct rel; cbn [length] in *; lia].
  assert (A : forall k, (k < d)%nat -> at_ rel k = - ldot (nth k (it_E it) []) kin + match it_extra it with Some x => at_ x k | None => 0 end).
  { intros k Hk'. assert (B : at_ (map (fun b => - ldot b kin) (it_E it)) k = - ldot (nth k (it_E it) []) kin).
    { unfold at_. rewrite (nth_indep _ 0 (- ldot [] kin)) by (rewrite map_length; lia).
      now rewrite (map_nth (fun b => - ldot b kin)). }
    unfold rel. destruct (it_extra it) as [x|].
    - rewrite add_lists_at by (rewrite map_length; lia). now rewrite B.
    - rewrite B. lra. }
  unfold bias. rewrite L.
  assert (Dp : match d with O => rel = [] | S _ => True end) by (destruct d; [now apply length_zero_iff_nil|exact Logic.I]).
  destruct d as [|n] eqn:Ed; [now rewrite Dp|].
  destruct rel as [|r0 rel']; [discriminate|]. f_equal.
  - specialize (A 0%nat ltac:(lia)). unfold at_ in A at 1. cbn [nth] in A. now rewrite A.
  - apply list_ext; [rewrite map_length, seq_length; cbn [length] in Lr; lia|].
    intros k Hk'. specialize (A (S k)). unfold at_ in A at 1. cbn [nth] in A. cbn [length] in Lr.
    unfold at_ at 1. rewrite A by lia. unfold at_ at 2.
    set (fk := fun k => - ldot (nth k (it_E it) []) kin + match it_extra it with Some x => at_ x k | None => 0 end).
    change (fk (S k) = nth k (map fk (seq 1 n)) 0). rewrite (nth_indep _ 0 (fk 0%nat)) by (rewrite map_length, seq_length; lia).
    rewrite map_nth, seq_nth by lia. reflexivity.
Qed.

(* what a prepared contact holds *)
Definition prepared (ng : nat) (q0 v0 : dvec) (ltg : list nat) (it : item C) (h : stored C) : Prop :=
  exists i oj i' oj' kin, st_it h = it /\ k_bodies K (it_c it) = Ok (i, oj) /\ st_ij h = (i', oj') /\
    both (fun b b' => (b' < length ltg)%nat /\ nth b' ltg 0%nat = b) i oj i' oj' /\
    k_H0 K q0 (it_c it) (it_E it) = Ok (st_h0 h) /\ k_H1 K q0 (it_c it) (it_E it) = Ok (st_h1 h) /\
    k_kinvel K q0 (it_c it) = Ok kin /\
    st_basis K h = it_E it /\
    match oj, st_h1 h with Some _, Some h1 => shaped d s h1 /\ map (firstn d) h1 = it_E it | None, None => True | _, _ => False end /\
    shaped d s (st_h0 h) /\
    to_local (it_E it) (st_w h) = bias (k_ndotv K ng q0 (it_c it) v0) kin it /\
    remap K (ltg_at ltg) (st_c h) = Ok (it_c it).

Lemma prepare_ok : forall ng ltg q0 v0 it,
  (forall b, touches K (it_c it) b -> In b ltg) -> placed K ng (it_c it) -> well_sized d it ->
  exists h, prepare K ltg q0 (extract (k_qs K) (k_qslot K) ng ltg q0) (extract s (k_vslot K) ng ltg v0) it = Ok h /\
    prepared ng q0 v0 ltg it h.
Proof.
  intros ng ltg q0 v0 it T [i [oj [B _]]] W. set (ql := extract _ _ ng ltg q0). set (vl := extract _ _ ng ltg v0).
  assert (Ti : In i ltg). { apply T. exists i, oj. tauto. }
  destruct (find_from_ok ltg i 0 Ti) as [i' [Fi [Li Ni]]].
  assert (Hj : exists oj', match oj, oj' with Some j, Some j' => find_from 0 ltg j = Ok j' /\ (j' < length ltg)%nat /\ nth j' ltg 0%nat = j | None, None => True | _, _ => False end).
  { destruct oj as [j|]; [|now exists None]. assert (Tj : In j ltg). { apply T. exists i, (Some j). tauto. }
    destruct (find_from_ok ltg j 0 Tj) as [j' H]. now exists (Some j'). }
  destruct Hj as [oj' Hj].
  destruct (law_local K laws (it_c it) i oj i' oj' B) as [c' [B' [R1 [R2 LOC]]]].
  { split; [exact Logic.I|]. destruct oj, oj'; tauto. }
  assert (W' := W). destruct W' as [F _]. destruct (frame_ortho _ F) as [SE _].
  destruct (law_shape K laws (it_c it) i oj q0 (it_E it) B SE) as [h0 [oh1 [kin [H0 [H1 [HK [S0 [M0 S1]]]]]]]].
  destruct (kin_rel_ok q0 it kin HK W) as [rel [Er Hr]].
  destruct (LOC ng q0 v0 (length ltg) ql vl (it_E it)) as [L0 [L1 L2]].
  { assert (G : forall b b', (b' < length ltg)%nat /\ nth b' ltg 0%nat = b ->
      same_body (k_qs K) (k_qslot K) ng q0 b (length ltg) ql b' /\ same_body (k_s K) (k_vslot K) ng v0 b (length ltg) vl b').
    { intros b b' [Hb <-]. split; intros o Ho.
      - apply (extract_in (k_qs K) (k_qslot K) (law_q K laws)); assumption.
      - apply (extract_in (k_s K) (k_vslot K) (law_v K laws)); assumption. }
    split; [now apply G|]. destruct oj, oj'; try tauto. apply G. tauto. }
  exists (Stored it c' (i', oj') h0 oh1 (forcing K (k_ndotv K (length ltg) ql c' vl) (it_CoR it) (it_E it) rel)). split.
  - unfold prepare. rewrite Er. cbn [obind]. rewrite (R1 (find_from 0 ltg)).
    + cbn [obind]. rewrite L0, H0, L1, H1, B'. reflexivity.
    + split; [exact Fi|]. destruct oj, oj'; tauto.
  - exists i, oj, i', oj', kin. cbn [st_it st_ij st_h0 st_h1 st_w st_c]. unfold st_basis. cbn [st_h0].
    do 3 (apply conj; [now auto|]).
    apply conj; [split; [now split|]; destruct oj, oj'; tauto|].
    apply conj; [exact H0|]. apply conj; [exact H1|]. apply conj; [exact HK|]. apply conj; [exact M0|].
    apply conj; [exact S1|]. apply conj; [exact S0|]. apply conj; [now rewrite L2, Hr|].
    apply R2. split; [rewrite ltg_at_ok by exact Li; now rewrite Ni|].
    destruct oj as [j|], oj' as [j'|]; try tauto. rewrite ltg_at_ok by tauto. f_equal. tauto.
Qed.

Lemma omapM_forall2 : forall {X Y} (f : X -> outcome Y) (P : X -> Y -> Prop) l,
  (forall x, In x l -> exists y, f x = Ok y /\ P x y) -> exists ys, omapM f l = Ok ys /\ Forall2 P l ys.
Proof.
  intros X Y f P. induction l as [|x l IH]; intros H; [now exists []|].
  destruct (H x (or_introl eq_refl)) as [y [Ey Py]]. destruct IH as [ys [Eys F]]; [intros; apply H; now right|].
  exists (y :: ys). cbn [omapM]. rewrite Ey. cbn [obind]. rewrite Eys. split; [reflexivity|now constructor].
Qed.

Lemma forall2_flat : forall {X Y A B} (P : X -> Y -> Prop) (Q : A -> B -> Prop) (f : X -> list A) (g : Y -> list B) l m,
  Forall2 P l m -> (forall x y, P x y -> Forall2 Q (f x) (g y)) -> Forall2 Q (flat_map f l) (flat_map g m).
Proof.
  intros X Y A B P Q f g l m F H. induction F as [|x y l m Hxy F IH]; [constructor|]. cbn [flat_map]. apply Forall2_app; auto.
Qed.

Lemma Forall2_length : forall {X Y} (P : X -> Y -> Prop) l m, Forall2 P l m -> length l = length m.
Proof. intros X Y P l m F. induction F; cbn [length]; auto. Qed.

Lemma Forall2_flip : forall {X Y} (P : X -> Y -> Prop) l m, Forall2 (fun x y => P y x) m l -> Forall2 P l m.
Proof. intros X Y P l m F. induction F; constructor; auto. Qed.

Lemma forall2_map_eq : forall {X Y A} (P : X -> Y -> Prop) (f : X -> A) (g : Y -> A) l m,
  Forall2 P l m -> (forall x y, P x y -> f x = g y) -> map f l = map g m.
Proof. intros X Y A P f g l m F H. induction F as [|x y l m Hxy F IH]; [reflexivity|]. cbn [map]. f_equal; auto. Qed.

Lemma forall2_combine : forall {X Y A} (P : X -> Y -> Prop) l m (r : list A),
  Forall2 P l m -> Forall2 (fun x y => P (fst x) (fst y) /\ snd x = snd y) (combine l r) (combine m r).
Proof.
  intros X Y A P l m r F. revert r. induction F as [|x y l m Hxy F IH]; intros [|a r]; cbn [combine]; constructor; auto.
Qed.

Lemma rsum_opp : forall n f, rsum n (fun i => - f i) = - rsum n f.
Proof. intros n f. induction n as [|n IH]; cbn [rsum]; [lra|]. rewrite IH. lra. Qed.

Lemma bias_length : forall u kin (it : item C), length (bias u kin it) = length (it_E it).
Proof. intros u kin it. unfold bias. destruct (length (it_E it)); [reflexivity|]. cbn [length]. now rewrite map_length, seq_length. Qed.

Lemma hcols_length : forall slot ij h0 h1, length (hcols K slot ij h0 h1) = d.
Proof. intros. unfold hcols. now rewrite map_length, seq_length. Qed.

Theorem sob_solves : forall inv gs tol ng M q0 v0 its Minv cols bias_of,
  (forall b, (b < ng)%nat -> inverts s (inv (k_mass K ng M b)) (k_mass K ng M b)) ->
  (forall x b o, (b < ng)%nat -> (o < s)%nat ->
     Minv x (k_vslot K ng b o) = rsum s (fun p => inv (k_mass K ng M b) o p * x (k_vslot K ng b p))) ->
  returns d gs ->
  (forall it, In it its -> placed K ng (it_c it) /\ well_sized d it /\ user_cols ng q0 it (cols it) /\ user_bias ng q0 v0 it (bias_of it)) ->
  exists r, sob_solve K inv gs tol ng M q0 v0 its = Ok r /\
    solves (k_mu0 K) (s * ng) Minv cols bias_of gs tol v0 its r.
Proof.
  intros inv gs tol ng M q0 v0 its Minv cols bias_of Hinv HM Hgs Hits.
  destruct (ltg_ok K ng (map it_c its)) as [ltg [El [ND [RG TL]]]].
  { apply Forall_forall. intros c Hc. apply in_map_iff in Hc. destruct Hc as [it [<- Hi]]. now apply Hits. }
  assert (TI : forall it b, In it its -> touches K (it_c it) b -> In b ltg).
  { intros it b Hi Ht. destruct (Hits it Hi) as [[i [oj [B [Bi Bj]]]] _]. apply TL.
    - destruct Ht as [i2 [oj2 [B2 H2]]]. rewrite B in B2. injection B2 as <- <-. destruct H2 as [->|H2]; [exact Bi|]. subst oj. exact Bj.
    - exists (it_c it). split; [now apply in_map|exact Ht]. }
  set (ql := extract (k_qs K) (k_qslot K) ng ltg q0). set (vl := extract s (k_vslot K) ng ltg v0).
  destruct (omapM_forall2 (prepare K ltg q0 ql vl) (fun it h => In it its /\ prepared ng q0 v0 ltg it h) its) as [hs [Eh Fh]].
  { intros it Hi. destruct (prepare_ok ng ltg q0 v0 it) as [h [E P]]; [now intros b; apply TI|now apply Hits|now apply Hits|].
    exists h. split; [exact E|]. split; [exact Hi|exact P]. }
  set (mass := fun l => k_mass K ng M (nth l ltg 0%nat)).
  set (minv := block_mul K (fun l => inv (mass l))).
  set (fin := fun k => - rsum s (fun o => mass (k / s)%nat (k mod s)%nat o * vl (k_vslot K (length ltg) (k / s)%nat o))).
  assert (VL : forall l o, (l < length ltg)%nat -> (o < s)%nat -> vl (k_vslot K (length ltg) l o) = v0 (k_vslot K ng (nth l ltg 0%nat) o)).
  { intros l o Hl Ho. apply (extract_in s (k_vslot K) (law_v K laws)); assumption. }
  assert (GL : forall l, (l < length ltg)%nat -> (nth l ltg 0 < ng)%nat) by (intros; apply RG; now apply nth_In).
  assert (MV : forall l o, (l < length ltg)%nat -> (o < s)%nat -> minv fin (packed K l o) = - v0 (k_vslot K ng (nth l ltg 0%nat) o)).
  { intros l o Hl Ho. unfold minv. rewrite block_mul_at by exact Ho.
    rewrite <- (Hinv (nth l ltg 0%nat) (GL l Hl) (fun p => v0 (k_vslot K ng (nth l ltg 0%nat) p)) o Ho).
    rewrite <- rsum_opp. apply rsum_ext. intros p Hp. unfold fin.
    destruct (packed_div l p Hp) as [E1 E2]. rewrite E1, E2. unfold mass.
    rewrite (rsum_ext s (fun o0 => k_mass K ng M (nth l ltg 0%nat) p o0 * vl (k_vslot K (length ltg) l o0))
                        (fun r => k_mass K ng M (nth l ltg 0%nat) p r * v0 (k_vslot K ng (nth l ltg 0%nat) r))).
    - ring.
    - intros r Hr. now rewrite VL. }
  assert (MI : forall x y, (forall l o, (l < length ltg)%nat -> (o < s)%nat -> x (packed K l o) = y (k_vslot K ng (nth l ltg 0%nat) o)) ->
    forall l o, (l < length ltg)%nat -> (o < s)%nat -> minv x (packed K l o) = Minv y (k_vslot K ng (nth l ltg 0%nat) o)).
  { intros x y H l o Hl Ho. unfold minv. rewrite block_mul_at by exact Ho. rewrite HM by auto. apply rsum_ext.
    intros p Hp. now rewrite H. }
  set (same := same_col s (length ltg) ng ltg (packed K) (k_vslot K ng)).
  assert (PI : forall b o b' o', (b < length ltg)%nat -> (o < s)%nat -> (b' < length ltg)%nat -> (o' < s)%nat ->
     packed K b o = packed K b' o' -> b = b' /\ o = o') by (intros; now apply packed_inj).
  assert (VI : forall n b o b' o', (b < n)%nat -> (o < s)%nat -> (b' < n)%nat -> (o' < s)%nat ->
     k_vslot K n b o = k_vslot K n b' o' -> b = b' /\ o = o') by (intros n; apply (law_v K laws n)).
  assert (CS : forall it h, In it its /\ prepared ng q0 v0 ltg it h -> Forall2 same (st_cols K h) (cols it)).
  { intros it h [Hi [i [oj [i' [oj' [kin [E1 [E2 [E3 [E4 [E5 [E6 _]]]]]]]]]]]]. destruct (Hits it Hi) as [_ [_ [[ij [h0 [h1 [U1 [U2 [U3 ->]]]]]] _]]].
    rewrite E2 in U1. injection U1 as <-. rewrite E5 in U2. injection U2 as <-. rewrite E6 in U3. injection U3 as <-.
    unfold st_cols. rewrite E3. apply hcols_same; try assumption; try apply VI.
    - apply E4.
    - apply E4.
    - destruct E4 as [_ E4]. destruct oj, oj'; tauto. }
  assert (FS : Forall2 same (flat_map (st_cols K) hs) (flat_map cols its)).
  { apply Forall2_flip. apply (forall2_flat (fun it h => In it its /\ prepared ng q0 v0 ltg it h) (fun a b => same b a)); [exact Fh|].
    intros it h P. apply Forall2_flip. now apply CS. }
  (* the matrix *)
  assert (EW : gs_matrix minv (flat_map (st_cols K) hs) = delassus Minv (flat_map cols its)).
  { unfold gs_matrix, delassus. apply (forall2_map_eq same); [exact FS|]. intros a a' Sa.
    apply (forall2_map_eq same); [exact FS|]. intros b b' Sb. apply Sa.
    apply MI. apply (impulse_same K ng ltg (packed K) (k_vslot K ng)). constructor; [split; [exact Sb|reflexivity]|constructor]. }
  (* the right-hand side *)
  assert (EB : map (gs_rhs K (minv fin)) hs = map (fun it => free_velocity (cols it) v0 (bias_of it)) its).
  { symmetry. apply (forall2_map_eq _ _ _ _ _ Fh). intros it h P. assert (CC := CS it h P).
    destruct P as [Hi [i [oj [i' [oj' [kin [E1 [E2 [E3 [E4 [E5 [E6 [E7 [E8 [E9 [E10 [E11 _]]]]]]]]]]]]]]]]].
    destruct (Hits it Hi) as [_ [[F [_ _]] [[ij [h0 [h1 [_ [_ [_ UC]]]]]] [kin' [U1 ->]]]]]. rewrite E7 in U1. injection U1 as <-.
    assert (L1 : length (cols it) = d) by (rewrite UC; apply hcols_length).
    assert (L2 : length (bias (k_ndotv K ng q0 (it_c it) v0) kin it) = d) by (rewrite bias_length; apply F).
    unfold gs_rhs, free_velocity. rewrite E1, E11.
    assert (L3 := Forall2_length _ _ _ CC).
    apply list_ext.
    - rewrite map_length, combine_length, add_lists_length. lia.
    - intros k Hk. rewrite map_length, combine_length in Hk. rewrite add_lists_at by lia.
      unfold at_ at 1. rewrite (nth_indep _ 0 ((fun p => col_dot (fst p) v0 + snd p) ([], 0))) by (rewrite map_length, combine_length; lia).
      rewrite (map_nth (fun p => col_dot (fst p) v0 + snd p)). rewrite combine_nth by (transitivity d; [exact L1|symmetry; exact L2]). cbn [fst snd].
      unfold at_ at 2. rewrite (nth_indep (map (fun c => - col_dot c (minv fin)) (st_cols K h)) 0 ((fun c => - col_dot c (minv fin)) [])) by (rewrite map_length; lia).
      rewrite (map_nth (fun c => - col_dot c (minv fin))). unfold at_.
      assert (Sk : same (nth k (st_cols K h) []) (nth k (cols it) [])).
      { clear - CC Hk L3. revert k Hk. induction CC as [|a b la lb Hab CC IH]; intros k Hk; [cbn in Hk; lia|].
        destruct k; cbn [nth]; [exact Hab|]. apply IH; cbn [length] in *; lia. }
      destruct Sk as [_ [_ Sk]].
      rewrite (Sk (minv fin) (fun k => - v0 k) MV).
      assert (N : forall (c : col) x, col_dot c (fun k => - x k) = - col_dot c x).
      { intros c x. induction c as [|e c IH]; [cbn; lra|]. unfold col_dot in *. cbn [fold_right]. rewrite IH. lra. }
      rewrite N, Ropp_involutive. apply Rplus_comm. }
  (* the start *)
  assert (ES : map (gs_start K) hs = map it_imp its).
  { symmetry. apply (forall2_map_eq _ _ _ _ _ Fh). intros it h [Hi P].
    destruct P as [i [oj [i' [oj' [kin [E1 [E2 [E3 [E4 [E5 [E6 [E7 [E8 _]]]]]]]]]]]]].
    destruct (Hits it Hi) as [_ [[F [LI _]] _]].
    unfold gs_start. rewrite E8, E1. symmetry. apply local_world; [now apply frame_ortho|exact LI]. }
  assert (Ebk : omapM (fun h => remap K (ltg_at ltg) (st_c h)) hs = Ok (map it_c its)).
  { clear - Fh. induction Fh as [|it h its' hs' [_ P] F IH]; [reflexivity|]. cbn [omapM map].
    destruct P as [i [oj [i' [oj' [kin P]]]]]. replace (remap K (ltg_at ltg) (st_c h)) with (Ok (it_c it)) by (symmetry; tauto).
    cbn [obind]. now rewrite IH. }
  unfold sob_solve. fold s. rewrite El. cbn [obind]. cbv zeta. fold ql vl. rewrite Eh. cbn [obind]. fold mass. change (block_mul K (fun l => inv (k_mass K ng M (nth l ltg 0%nat)))) with minv. change (fun k => - rsum s (fun o => k_mass K ng M (nth (k / s) ltg 0%nat) (k mod s)%nat o * vl (k_vslot K (length ltg) (k / s)%nat o))) with fin.
  rewrite EW, EB, ES.
  specialize (Hgs (delassus Minv (flat_map cols its)) (map (fun it => free_velocity (cols it) v0 (bias_of it)) its) (map it_mu its) (map it_imp its)).
  unfold solves.
  destruct (gs (delassus Minv (flat_map cols its)) (map (fun it => free_velocity (cols it) v0 (bias_of it)) its) (map it_mu its) (map it_imp its)) as [rloc err].
  cbn [fst] in Hgs. destruct Hgs as [GL1 GL2]. rewrite Ebk. cbn [obind].
  eexists. split; [reflexivity|]. cbn [sb_contacts sb_imps sb_f sb_v sb_ok sb_error].
  assert (EI : map (fun hr => read_imps K (fst hr) (snd hr)) (combine hs rloc) = map (fun p => reported (k_mu0 K) (fst p) (snd p)) (combine its rloc)).
  { symmetry. assert (FC := forall2_combine _ _ _ rloc Fh).
    assert (GI : forall x, In x (combine its rloc) -> length (snd x) = d).
    { intros [it r] Hx. apply in_combine_r in Hx. now apply GL2. }
    clear - FC GI Hits. induction FC as [|x y l m [[Hi P] Hxy] FC IH]; [reflexivity|]. cbn [map]. f_equal; [|apply IH; intros; apply GI; now right].
    destruct P as [i [oj [i' [oj' [kin [E1 [E2 [E3 [E4 [E5 [E6 [E7 [E8 _]]]]]]]]]]]]].
    unfold read_imps, reported. rewrite E8, E1, <- Hxy, local_world; [reflexivity| |apply GI; now left].
    apply frame_ortho. now apply (Hits (fst x) Hi). }
  repeat apply conj; try reflexivity.
  - exact EI.
  - (* velocities *)
    intros k Hk. destruct (law_all K laws ng k Hk) as [b [o [Hb [Ho ->]]]].
    assert (FP := forall2_combine _ _ _ (concat rloc) FS).
    destruct (impulse_same K ng ltg (packed K) (k_vslot K ng) (length ltg) _ _ FP) as [I1 I2].
    destruct (in_dec Nat.eq_dec b ltg) as [Ib|Nb].
    + destruct (In_nth ltg b 0%nat Ib) as [l [Hl <-]].
      rewrite (scatter_in s (k_vslot K) (law_v K laws)) by assumption.
      rewrite (reorder_in s (k_vslot K) (law_v K laws)) by auto.
      set (imp := impulse (combine (flat_map (st_cols K) hs) (concat rloc))).
      match goal with |- _ = ?rhs => change (minv (fun k => imp k - fin k) (packed K l o) = rhs) end.
      assert (A : minv (fun k => imp k - fin k) (packed K l o) = minv imp (packed K l o) - minv fin (packed K l o)).
      { unfold minv. rewrite !block_mul_at by exact Ho. unfold Rminus. rewrite <- rsum_opp, <- rsum_plus.
        apply rsum_ext. intros; ring. }
      rewrite A, MV by assumption. rewrite (MI imp (impulse (combine (flat_map cols its) (concat rloc)))) by assumption. ring.
    + rewrite (scatter_out s (k_vslot K) (law_v K laws)) by assumption. rewrite HM by assumption.
      rewrite (rsum_zero s); [ring|]. intros p Hp. rewrite I2 by assumption. ring.
  - (* the friction force *)
    intros k Hk. destruct (law_all K laws ng k Hk) as [b [o [Hb [Ho ->]]]]. rewrite EI.
    set (imps := map (fun p => reported (k_mu0 K) (fst p) (snd p)) (combine its rloc)).
    assert (FP : Forall2 (fun c c' => same_col s (length ltg) ng ltg (k_vslot K (length ltg)) (k_vslot K ng) (fst c) (fst c') /\ snd c = snd c')
      (flat_map (fun hi => force_cols K (k_vslot K (length ltg)) (fst hi) (snd hi)) (combine hs imps))
      (flat_map (fun p => combine (tl (cols (fst p))) (tl (snd p))) (combine its imps))).
    { apply Forall2_flip.
      assert (LI : forall x, In x (combine its imps) -> length (snd x) = d).
      { intros [it im] Hx. apply in_combine_r in Hx. cbn [snd]. unfold imps in Hx. apply in_map_iff in Hx. destruct Hx as [[it2 r] [<- Hr]].
        apply in_combine_r in Hr. cbn [fst snd]. specialize (GL2 r Hr). unfold reported. destruct r as [|a t]; [exact GL2|]. cbn [length] in *.
        destruct (k_mu0 K && Reqb (it_mu it2) 0); [now rewrite map_length|exact GL2]. }
      assert (FC := forall2_combine _ _ _ imps Fh). clear - FC LI Hits ND RG VI laws.
      induction FC as [|x y l m [[Hi P] Hxy] FC IH]; [constructor|]. cbn [flat_map]. apply Forall2_app; [|apply IH; intros; apply LI; now right].
      specialize (LI x (or_introl eq_refl)). destruct (Hits (fst x) Hi) as [_ [_ [[ij [h0 [h1 [U1 [U2 [U3 ->]]]]]] _]]].
      destruct P as [i [oj [i' [oj' [kin [E1 [E2 [E3 [E4 [E5 [E6 [E7 [E8 [E9 [E10 _]]]]]]]]]]]]]]].
      rewrite E2 in U1. injection U1 as <-. rewrite E5 in U2. injection U2 as <-. rewrite E6 in U3. injection U3 as <-.
      unfold force_cols. rewrite E3, Hxy in *. cbn [fst snd].
      assert (Em : forall (A : Type) (f : nat -> A), tl (map f (seq 0 d)) = map f (seq 1 (d - 1))).
      { intros A f. destruct d as [|n]; [reflexivity|]. cbn [seq map tl]. now replace (S n - 1)%nat with n by lia. }
      unfold hcols. fold d. rewrite Em.
      set (G := fun k => place K (k_vslot K ng) (fst (i, oj)) (nth k (st_h0 (fst y)) []) ++ _).
      assert (Ec : @combine col R (@map nat col G (seq 1 (d - 1))) (tl (snd y)) = map (fun k => (G k : col, at_ (snd y) k)) (seq 1 (d - 1))).
      { clear - LI. destruct (snd y) as [|a t]; cbn [length tl] in *.
        - destruct (d - 1)%nat eqn:Q; [reflexivity|lia].
        - replace (d - 1)%nat with (length t) by lia. clear. 
          transitivity (@combine col R (map (G : nat -> col) (seq 1 (length t))) (map (at_ (a :: t)) (seq 1 (length t)))).
          + f_equal. apply list_ext; [now rewrite map_length, seq_length|]. intros k Hk. unfold at_ at 2.
            rewrite (nth_indep _ 0 (at_ (a :: t) 0%nat)) by (rewrite map_length, seq_length; lia).
            rewrite map_nth, seq_nth by lia. reflexivity.
          + induction (seq 1 (length t)) as [|k ks IH]; [reflexivity|]. cbn [map combine]. now rewrite IH. }
      match goal with |- Forall2 ?Q _ ?rr => change (Forall2 Q (@combine col R (@map nat col G (seq 1 (d - 1))) (tl (snd y))) rr) end.
      rewrite Ec. subst G.
      assert (FW : forall ks, (forall k, In k ks -> (k < d)%nat) ->
        Forall2 (fun c c' => same_col s (length ltg) ng ltg (k_vslot K (length ltg)) (k_vslot K ng) (fst c) (fst c') /\ snd c = snd c')
         (map (fun k => (place K (k_vslot K (length ltg)) i' (nth k (st_h0 (fst y)) []) ++
            match oj', st_h1 (fst y) with Some j, Some h1 => place K (k_vslot K (length ltg)) j (lneg (firstn d (nth k (st_h0 (fst y)) []) ++ skipn d (nth k h1 []))) | _, _ => [] end, at_ (snd y) k)) ks)
         (map (fun k => (place K (k_vslot K ng) i (nth k (st_h0 (fst y)) []) ++
            match oj, st_h1 (fst y) with Some j, Some h1 => place K (k_vslot K ng) j (lneg (nth k h1 [])) | _, _ => [] end, at_ (snd y) k)) ks)).
      { intros ks Hks. induction ks as [|k ks IH2]; [constructor|]. cbn [map]. constructor; [|apply IH2; intros; apply Hks; now right].
        cbn [fst snd]. split; [|reflexivity]. destruct E4 as [[E4a E4b] E4c]. apply same_app.
        - rewrite <- E4b. apply place_same; try assumption; apply VI.
        - destruct oj as [j|], oj' as [j'|]; try contradiction; [|apply same_nil].
          destruct (st_h1 (fst y)) as [h1|]; [|contradiction]. destruct E9 as [Sh1 Mh1]. destruct E4c as [E4c <-].
          assert (Hk : (k < d)%nat) by (apply Hks; now left).
          assert (Ef : firstn d (nth k (st_h0 (fst y)) []) = firstn d (nth k h1 [])).
          { unfold st_basis in E8. fold d in E8. 
            assert (A : forall l : list (list R), nth k (map (firstn d) l) [] = firstn d (nth k l [])).
            { intros l1. rewrite <- (map_nth (firstn d)). f_equal. now rewrite firstn_nil. }
            rewrite <- !A, E8, Mh1. reflexivity. }
          rewrite Ef, firstn_skipn. apply place_same; try assumption; apply VI. }
      apply Forall2_flip. apply FW. intros k Hk'. apply in_seq in Hk'. lia. }
    destruct (impulse_same K ng ltg (k_vslot K (length ltg)) (k_vslot K ng) (length ltg) _ _ FP) as [I1 I2].
    destruct (in_dec Nat.eq_dec b ltg) as [Ib|Nb].
    + destruct (In_nth ltg b 0%nat Ib) as [l [Hl <-]].
      rewrite (scatter_in s (k_vslot K) (law_v K laws)) by assumption. now apply I1.
    + rewrite (scatter_out s (k_vslot K) (law_v K laws)) by assumption. rewrite I2 by assumption. reflexivity.
Qed.
End Main.
