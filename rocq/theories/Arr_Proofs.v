From Coq Require Import List Reals NArith Arith Lia Bool.
From Verif Require Import Outcome Arr_Model Arr_Spec.
Import ListNotations.
Open Scope R_scope.

Section Proofs.
Context {Mem : Type}.

Lemma which_eqb_spec : forall a b, reflect (a = b) (which_eqb a b).
Proof. intros [] []; constructor; congruence. Qed.
Lemma upd_same : forall f b l, upd f b l b = l.
Proof. intros f b l. unfold upd. rewrite Nat.eqb_refl. reflexivity. Qed.
Lemma upd_other : forall f b l x, x <> b -> upd f b l x = f x.
Proof. intros f b l x H. unfold upd. destruct (Nat.eqb_spec x b); [contradiction|reflexivity]. Qed.
Lemma set_nth_length : forall l i r, length (set_nth l i r) = length l.
Proof. induction l as [|a l IH]; intros [|i] r; cbn [set_nth length]; try reflexivity. rewrite IH. reflexivity. Qed.

Definition frame := list (nat * list R).
(* while a callback runs: the visible numbers are where the static variables point, everything else is in ex *)
Record Rel (ex : frame) (s : numbers) (m : mc) : Prop := {
  r_seen : forall w l, s w = Some l -> exists b, addr m w = Some b /\ mem m b = Some l;
  r_inj : forall w w' b, addr m w = Some b -> addr m w' = Some b -> w = w';
  r_live : forall w b, addr m w = Some b -> mem m b <> None;
  r_ex : forall b l, In (b, l) ex -> mem m b = Some l /\ forall w, addr m w <> Some b;
  r_low : forall b, mem m b <> None -> (b < nxt m)%nat;
  r_all : forall b, mem m b <> None -> (exists w, addr m w = Some b) \/ In b (map fst ex) }.
Definition told (c : clock) (m : mc) : Prop :=
  match c with None => True | Some (dt, it) => s_dt m = Some dt /\ s_it m = it end.
Definition meant (t : means) (s : numbers) (vs : vars) (m : mc) : Prop :=
  forall x w, t x = Some w -> exists b l, addr m w = Some b /\ s w = Some l /\ vs x = Some (b, length l).
Definition same (m m' : mc) : Prop :=
  s_state m' = s_state m /\ s_mu m' = s_mu m /\ s_cor m' = s_cor m /\ s_dt m' = s_dt m /\ s_it m' = s_it m /\
  (s_state m = false -> qb m' = qb m /\ vb m' = vb m).

Lemma same_trans : forall a b c, same a b -> same b c -> same a c.
Proof.
  intros a b c (H1 & H2 & H3 & H4 & H5 & H6) (G1 & G2 & G3 & G4 & G5 & G6).
  unfold same. rewrite G1, G2, G3, G4, G5. repeat (split; [assumption|]).
  intros F. destruct (H6 F) as [E1 E2]. rewrite <- H1 in F. destruct (G6 F) as [E3 E4]. split; congruence.
Qed.

(* writing to a visible number *)
Lemma write_rel : forall ex s m w b l l',
  Rel ex s m -> s w = Some l -> addr m w = Some b ->
  Rel ex (put s w l') (with_mem m (upd (mem m) b (Some l')) (nxt m)).
Proof.
  intros ex s m w b l l' H S A. destruct H as [H1 H2 H6 H3 H4 H5].
  assert (B : mem m b = Some l). { destruct (H1 w l S) as (b' & A' & M). rewrite A in A'. injection A' as <-. exact M. }
  split; cbn [with_mem mem nxt].
  - intros w' l0 E. unfold put in E. destruct (which_eqb_spec w' w) as [->|N].
    + injection E as <-. exists b. split; [exact A|]. apply upd_same.
    + destruct (H1 _ _ E) as (b' & A' & M). exists b'. split; [exact A'|]. rewrite upd_other; [exact M|].
      intros ->. apply N. eapply H2; eassumption.
  - exact H2.
  - intros w' b' A'. destruct (Nat.eq_dec b' b) as [->|D]; [rewrite upd_same; discriminate|].
    rewrite upd_other by exact D. exact (H6 _ _ A').
  - intros b' l0 I. destruct (H3 _ _ I) as [M N]. split; [|exact N]. rewrite upd_other; [exact M|].
    intros ->. apply (N w A).
  - intros b' N. destruct (Nat.eq_dec b' b) as [->|D]; [|apply H4; rewrite upd_other in N by exact D; exact N].
    apply H4. rewrite B. discriminate.
  - intros b' N. destruct (Nat.eq_dec b' b) as [->|D]; [left; exists w; exact A|].
    rewrite upd_other in N by exact D. exact (H5 _ N).
Qed.

Lemma push_rel : forall ex s m q v qx qy vx vy,
  Rel ex s m -> s Q = Some q -> s V = Some v ->
  s_state m = true /\ exists m', push_ball qx qy vx vy m = Ok m' /\
    Rel ex (put (put s Q (q ++ [qx; qy])) V (v ++ [vx; vy])) m' /\ same m m'.
Proof.
  intros ex s m q v qx qy vx vy H SQ SV. destruct H as [H1 H2 H6 H3 H4 H5].
  destruct (H1 _ _ SQ) as (b1 & A1 & M1). destruct (H1 _ _ SV) as (b2 & A2 & M2).
  assert (T : s_state m = true). { cbn [addr] in A1. destruct (s_state m); [reflexivity|discriminate]. }
  assert (Q1 : b1 = qb m) by (cbn [addr] in A1; rewrite T in A1; congruence). subst b1.
  assert (V1 : b2 = vb m) by (cbn [addr] in A2; rewrite T in A2; congruence). subst b2.
  assert (D : qb m <> vb m). { intros D. rewrite D in A1. specialize (H2 _ _ _ A1 A2). discriminate. }
  assert (L1 : (qb m < nxt m)%nat) by (apply H4; rewrite M1; discriminate).
  assert (L2 : (vb m < nxt m)%nat) by (apply H4; rewrite M2; discriminate).
  split; [exact T|]. unfold push_ball. rewrite M1, M2. cbn [alloc free with_mem with_bufs mem nxt qb vb s_state s_mu s_cor s_dt s_it].
  eexists. split; [reflexivity|].
  set (f := upd (upd (upd (upd (mem m) (nxt m) (Some (q ++ [qx; qy]))) (qb m) None) (S (nxt m)) (Some (v ++ [vx; vy]))) (vb m) None).
  assert (F1 : f (nxt m) = Some (q ++ [qx; qy])).
  { unfold f. rewrite upd_other by lia. rewrite upd_other by lia. rewrite upd_other by lia. apply upd_same. }
  assert (F2 : f (S (nxt m)) = Some (v ++ [vx; vy])).
  { unfold f. rewrite upd_other by lia. apply upd_same. }
  assert (F3 : forall b, b <> qb m -> b <> vb m -> (b < nxt m)%nat -> f b = mem m b).
  { intros b N1 N2 L. unfold f. rewrite !upd_other by lia. reflexivity. }
  assert (F4 : forall b, f b <> None -> b = nxt m \/ b = S (nxt m) \/ (mem m b <> None /\ b <> qb m /\ b <> vb m)).
  { intros b N. destruct (Nat.eq_dec b (nxt m)); [tauto|]. destruct (Nat.eq_dec b (S (nxt m))); [tauto|].
    destruct (Nat.eq_dec b (qb m)) as [->|Nq].
    - exfalso. apply N. unfold f. rewrite upd_other by exact D. rewrite upd_other by lia. apply upd_same.
    - destruct (Nat.eq_dec b (vb m)) as [->|Nv].
      + exfalso. apply N. unfold f. apply upd_same.
      + right. right. split; [|split; assumption]. unfold f in N. rewrite !upd_other in N by assumption. exact N. }
  set (m' := Mc f (S (S (nxt m))) (nxt m) (S (nxt m)) (s_state m) (s_mu m) (s_cor m) (s_dt m) (s_it m)).
  assert (AM : forall w b, w <> Q -> w <> V -> addr m' w = Some b -> addr m w = Some b).
  { intros [] b Nq Nv E; try contradiction; exact E. }
  assert (AQ : addr m' Q = Some (nxt m)) by (cbn [addr m' s_state qb]; rewrite T; reflexivity).
  assert (AV : addr m' V = Some (S (nxt m))) by (cbn [addr m' s_state vb]; rewrite T; reflexivity).
  assert (ME : forall w b, w <> Q -> w <> V -> addr m w = Some b -> b <> qb m /\ b <> vb m).
  { intros w b Nq Nv E. split; intros ->; [apply Nq|apply Nv]; eapply H2; eassumption. }
  assert (Z : forall w b, addr m' w = Some b -> (w = Q /\ b = nxt m) \/ (w = V /\ b = S (nxt m)) \/ (w <> Q /\ w <> V /\ addr m w = Some b)).
  { intros x c X. destruct x.
    - left. rewrite AQ in X. split; congruence.
    - right; left. rewrite AV in X. split; congruence.
    - right; right. repeat split; try discriminate. exact X.
    - right; right. repeat split; try discriminate. exact X. }
  split.
  2:{ unfold same. cbn [s_state s_mu s_cor s_dt s_it qb vb]. repeat split; trivial; intros; congruence. }
  split.
  - intros w l E. unfold put in E. destruct (which_eqb_spec w V) as [->|Nv].
    + injection E as <-. exists (S (nxt m)). split; [exact AV|exact F2].
    + destruct (which_eqb_spec w Q) as [->|Nq].
      * injection E as <-. exists (nxt m). split; [exact AQ|exact F1].
      * destruct (H1 _ _ E) as (b & A & M). exists b. split; [destruct w; try contradiction; exact A|].
        destruct (ME _ _ Nq Nv A). change (f b = Some l). rewrite F3; trivial. apply H4. rewrite M. discriminate.
  - intros w w' b E E'.
    destruct (Z _ _ E) as [[-> ->]|[[-> ->]|(N1 & N2 & X)]], (Z _ _ E') as [[-> X']|[[-> X']|(N1' & N2' & X')]]; trivial;
      try lia; try (apply H6, H4 in X'; lia); try (apply H6, H4 in X; lia).
    eapply H2; eassumption.
  - intros w b E. change (f b <> None). destruct (Z _ _ E) as [[-> ->]|[[-> ->]|(N1 & N2 & X)]].
    + rewrite F1. discriminate.
    + rewrite F2. discriminate.
    + destruct (ME _ _ N1 N2 X). pose proof (H6 _ _ X) as L. rewrite F3; trivial. apply H4, L.
  - intros b l I. destruct (H3 _ _ I) as [M N].
    assert (L : (b < nxt m)%nat) by (apply H4; rewrite M; discriminate).
    split.
    + change (f b = Some l). rewrite F3; trivial; intros ->; [apply (N Q A1)|apply (N V A2)].
    + intros w E. destruct (Z _ _ E) as [[_ ->]|[[_ ->]|(_ & _ & X)]]; try lia. exact (N _ X).
  - intros b N. change (b < S (S (nxt m)))%nat. destruct (F4 b N) as [->|[->|(X & _)]]; try lia.
    apply H4 in X. lia.
  - intros b N. destruct (F4 b N) as [->|[->|(X & N1 & N2)]].
    + left. exists Q. exact AQ.
    + left. exists V. exact AV.
    + destruct (H5 _ X) as [[w A]|I]; [|right; exact I]. left. exists w.
      destruct w; [rewrite A1 in A; congruence|rewrite A2 in A; congruence|exact A|exact A].
Qed.

Definition agrees (ex : frame) (m : mc) (o : outcome (Mem * numbers)) (r : outcome (Mem * vars * mc)) : Prop :=
  match o with
  | Ok (x, s') => exists vs' m', r = Ok (x, vs', m') /\ Rel ex s' m' /\ same m m'
  | Exit => r = Exit
  | UB => True
  end.
Lemma agrees_same : forall ex m m' o r, same m m' -> agrees ex m' o r -> agrees ex m o r.
Proof.
  intros ex m m' [[x s']| |] r S H; cbn [agrees] in *; trivial.
  destruct H as (vs' & m2 & E & R & S'). exists vs', m2. split; [exact E|]. split; [exact R|]. exact (same_trans _ _ _ S S').
Qed.
Lemma same_refl : forall m, same m m.
Proof. intros m. unfold same. repeat split. Qed.
Lemma told_same : forall c m m', same m m' -> told c m -> told c m'.
Proof. intros [[dt it]|] m m' (_ & _ & _ & H4 & H5 & _) H; [|exact I]. cbn [told] in *. rewrite H4, H5. exact H. Qed.

Theorem run_expect : forall p ex c t s vs m,
  Rel ex s m -> told c m -> meant t s vs m -> agrees ex m (expect p c t s) (run p vs m).
Proof.
  induction p as [x| |w x k IH|x i k IH|x i r k IH|qx qy vx vy k IH|k IH|k IH]; intros ex c t s vs m H C T; cbn [expect run].
  - exists vs, m. split; [reflexivity|]. split; [exact H|apply same_refl].
  - reflexivity.
  - destruct (s w) as [l|] eqn:E; [|exact I].
    destruct (r_seen _ _ _ H _ _ E) as (b & A & M). rewrite A, M. apply IH; trivial.
    intros y w' Y. destruct (Nat.eqb_spec y x) as [->|N].
    + injection Y as <-. exists b, l. split; [exact A|]. split; [exact E|]. unfold set_var. rewrite Nat.eqb_refl. reflexivity.
    + destruct (T _ _ Y) as (b' & l' & A' & E' & V'). exists b', l'. split; [exact A'|]. split; [exact E'|].
      unfold set_var. destruct (Nat.eqb_spec y x); [contradiction|exact V'].
  - destruct (t x) as [w|] eqn:Tx; [|exact I]. destruct (T _ _ Tx) as (b & l & A & E & Vx). rewrite E, Vx.
    destruct (r_seen _ _ _ H _ _ E) as (b' & A' & M). rewrite A in A'. injection A' as <-. rewrite M.
    destruct (nth_error l i) as [r|] eqn:N.
    + assert (L : (i < length l)%nat) by (apply nth_error_Some; rewrite N; discriminate).
      destruct (Nat.ltb_spec i (length l)); [|lia]. rewrite (nth_error_nth l i 0 N). apply IH; assumption.
    + apply nth_error_None in N. destruct (Nat.ltb_spec i (length l)); [lia|reflexivity].
  - destruct (t x) as [w|] eqn:Tx; [|exact I]. destruct (T _ _ Tx) as (b & l & A & E & Vx). rewrite E, Vx.
    destruct (r_seen _ _ _ H _ _ E) as (b' & A' & M). rewrite A in A'. injection A' as <-. rewrite M.
    destruct (Nat.ltb i (length l)); [|reflexivity].
    apply (agrees_same ex m (with_mem m (upd (mem m) b (Some (set_nth l i r))) (nxt m))).
    { unfold same. cbn [with_mem s_state s_mu s_cor s_dt s_it qb vb]. repeat split. }
    apply IH.
    + eapply write_rel; eassumption.
    + destruct c as [[]|]; exact C.
    + intros y w' Y. destruct (T _ _ Y) as (b' & l' & A' & E' & V'). exists b'. unfold put.
      destruct (which_eqb_spec w' w) as [->|N].
      * exists (set_nth l i r). split; [exact A'|]. split; [reflexivity|]. rewrite set_nth_length.
        rewrite E in E'. injection E' as <-. exact V'.
      * exists l'. split; [exact A'|]. split; [exact E'|exact V'].
  - destruct (s Q) as [q|] eqn:EQ; [|exact I]. destruct (s V) as [v|] eqn:EV; [|exact I].
    destruct (push_rel ex s m q v qx qy vx vy H EQ EV) as (St & m' & P & R & S). rewrite St, P. cbn [obind].
    apply (agrees_same ex m m' _ _ S). apply IH; [exact R|exact (told_same _ _ _ S C)|]. intros y w Y. discriminate.
  - destruct c as [[dt it]|]; [|exact I]. destruct C as [C1 C2]. rewrite C1. apply IH; trivial. split; assumption.
  - destruct c as [[dt it]|]; [|exact I]. destruct C as [C1 C2]. rewrite C2. apply IH; trivial. split; assumption.
Qed.

(* between callbacks *)
Record Idle (ex : frame) (q v : list R) (m : mc) : Prop := {
  i_state : s_state m = false; i_mu : s_mu m = None; i_cor : s_cor m = None;
  i_q : mem m (qb m) = Some q; i_v : mem m (vb m) = Some v; i_ne : qb m <> vb m;
  i_ex : forall b l, In (b, l) ex -> mem m b = Some l /\ b <> qb m /\ b <> vb m;
  i_dup : NoDup (map fst ex);
  i_low : forall b, mem m b <> None -> (b < nxt m)%nat;
  i_all : forall b, mem m b <> None -> b = qb m \/ b = vb m \/ In b (map fst ex) }.

Lemma in_fst : forall (ex : frame) b, In b (map fst ex) -> exists l, In (b, l) ex.
Proof. intros ex b H. apply in_map_iff in H. destruct H as ([b' l] & <- & H). exists l. exact H. Qed.

Lemma Idle_time : forall ex q v m dt it, Idle ex q v m -> Idle ex q v (set_time m dt it).
Proof. intros ex q v m dt it []. split; assumption. Qed.

Lemma Idle_alloc : forall ex q v m l, Idle ex q v m -> Idle ((nxt m, l) :: ex) q v (snd (alloc l m)).
Proof.
  intros ex q v m l [H1 H2 H3 H4 H5 H6 H7 H8 H9 H10].
  assert (Lq : (qb m < nxt m)%nat) by (apply H9; rewrite H4; discriminate).
  assert (Lv : (vb m < nxt m)%nat) by (apply H9; rewrite H5; discriminate).
  assert (LX : forall b c, In (b, c) ex -> (b < nxt m)%nat).
  { intros b c I. destruct (H7 _ _ I) as [M _]. apply H9. rewrite M. discriminate. }
  split; cbn [alloc snd with_mem mem nxt qb vb s_state s_mu s_cor map fst]; trivial.
  - rewrite upd_other by lia. exact H4.
  - rewrite upd_other by lia. exact H5.
  - intros b c [E|I].
    + injection E as <- <-. rewrite upd_same. split; [reflexivity|]. lia.
    + pose proof (LX _ _ I). rewrite upd_other by lia. exact (H7 _ _ I).
  - constructor; [|exact H8]. intros I. destruct (in_fst _ _ I) as [c J]. apply LX in J. lia.
  - intros b N. destruct (Nat.eq_dec b (nxt m)) as [->|D]; [lia|]. rewrite upd_other in N by exact D. apply H9 in N. lia.
  - intros b N. destruct (Nat.eq_dec b (nxt m)) as [->|D]; [right; right; left; reflexivity|].
    rewrite upd_other in N by exact D. destruct (H10 _ N) as [?|[?|?]]; [tauto|tauto|right; right; right; assumption].
Qed.

Lemma Idle_free : forall ex q v m b l, Idle ((b, l) :: ex) q v m -> Idle ex q v (free b m).
Proof.
  intros ex q v m b l [H1 H2 H3 H4 H5 H6 H7 H8 H9 H10]. cbn [map fst] in H8. inversion H8 as [|? ? N1 N2]; subst.
  destruct (H7 b l (or_introl eq_refl)) as (M & Nq & Nv).
  split; cbn [free with_mem mem nxt qb vb s_state s_mu s_cor]; trivial.
  - rewrite upd_other by congruence. exact H4.
  - rewrite upd_other by congruence. exact H5.
  - intros c k I. rewrite upd_other; [exact (H7 _ _ (or_intror I))|]. intros ->. apply N1. apply (in_map fst) in I. exact I.
  - intros c N. destruct (Nat.eq_dec c b) as [->|D]; [rewrite upd_same in N; contradiction|]. rewrite upd_other in N by exact D. exact (H9 _ N).
  - intros c N. destruct (Nat.eq_dec c b) as [->|D]; [rewrite upd_same in N; contradiction|]. rewrite upd_other in N by exact D.
    destruct (H10 _ N) as [?|[?|[E|?]]]; [tauto|tauto|cbn [fst] in E; congruence|tauto].
Qed.

(* the swap at the end of a step: the new vectors become the state and the old ones the locals *)
Lemma Idle_swap : forall q v m a b q' v',
  Idle [(b, v'); (a, q')] q v m -> Idle [(vb m, v); (qb m, q)] q' v' (with_bufs m a b).
Proof.
  intros q v m a b q' v' [H1 H2 H3 H4 H5 H6 H7 H8 H9 H10].
  destruct (H7 b v' (or_introl eq_refl)) as (Mb & Nbq & Nbv).
  destruct (H7 a q' (or_intror (or_introl eq_refl))) as (Ma & Naq & Nav).
  cbn [map fst] in H8, H10. inversion H8 as [|? ? N1 N2]; subst.
  assert (D : a <> b) by (intros ->; apply N1; left; reflexivity).
  split; cbn [with_bufs mem nxt qb vb s_state s_mu s_cor map fst]; trivial.
  - intros c l [E|[E|[]]]; injection E as <- <-; repeat split; trivial; congruence.
  - constructor; [intros [E|[]]; congruence|]. constructor; [intros []|constructor].
  - intros c N. destruct (H10 _ N) as [->|[->|[<-|[<-|[]]]]]; cbn [In]; tauto.
Qed.

Lemma Idle_state_Rel : forall ex q v m, Idle ex q v m -> Rel ex (state_numbers q v) (set_state m true).
Proof.
  intros ex q v m [H1 H2 H3 H4 H5 H6 H7 H8 H9 H10].
  assert (Z : forall w b, addr (set_state m true) w = Some b -> (w = Q /\ b = qb m) \/ (w = V /\ b = vb m)).
  { intros [] b E; cbn in E; try (rewrite H2 in E); try (rewrite H3 in E); try discriminate; injection E as <-; tauto. }
  split.
  - intros [] l E; cbn in E; try discriminate; injection E as <-.
    + exists (qb m). split; [reflexivity|exact H4].
    + exists (vb m). split; [reflexivity|exact H5].
  - intros w w' b E E'. destruct (Z _ _ E) as [[-> ->]|[-> ->]], (Z _ _ E') as [[-> F]|[-> F]]; congruence.
  - intros w b E. change (mem m b <> None). destruct (Z _ _ E) as [[-> ->]|[-> ->]]; [rewrite H4|rewrite H5]; discriminate.
  - intros b l I. destruct (H7 _ _ I) as (M & Nq & Nv). split; [exact M|]. intros w E.
    destruct (Z _ _ E) as [[-> ->]|[-> ->]]; congruence.
  - exact H9.
  - intros b N. destruct (H10 _ N) as [->|[->|I]]; [left; exists Q; reflexivity|left; exists V; reflexivity|right; exact I].
Qed.
Lemma Rel_state_Idle : forall ex s m q v, Rel ex s m -> NoDup (map fst ex) -> s_state m = true -> s_mu m = None -> s_cor m = None ->
  s Q = Some q -> s V = Some v -> Idle ex q v (set_state m false).
Proof.
  intros ex s m q v [H1 H2 H3 H4 H5 H6] D T Hm Hc SQ SV.
  assert (AQ : addr m Q = Some (qb m)) by (cbn [addr]; rewrite T; reflexivity).
  assert (AV : addr m V = Some (vb m)) by (cbn [addr]; rewrite T; reflexivity).
  split; cbn [set_state s_state s_mu s_cor mem qb vb nxt]; trivial.
  - destruct (H1 _ _ SQ) as (b & A & M). rewrite AQ in A. injection A as <-. exact M.
  - destruct (H1 _ _ SV) as (b & A & M). rewrite AV in A. injection A as <-. exact M.
  - intros E. rewrite E in AQ. specialize (H2 _ _ _ AQ AV). discriminate.
  - intros b l I. destruct (H4 _ _ I) as [M N]. split; [exact M|]. split; intros ->; [exact (N _ AQ)|exact (N _ AV)].
  - intros b N. destruct (H6 _ N) as [[w A]|I]; [|tauto]. destruct w.
    + rewrite AQ in A. injection A as <-. tauto.
    + rewrite AV in A. injection A as <-. tauto.
    + cbn [addr] in A. congruence.
    + cbn [addr] in A. congruence.
Qed.

Definition coef_of (w : which) (m : mc) (b : nat) : mc :=
  match w with Mu => set_coefs m (Some b) (s_cor m) | _ => set_coefs m (s_mu m) (Some b) end.
Definition coef_off (w : which) (m : mc) : mc :=
  match w with Mu => set_coefs m None (s_cor m) | _ => set_coefs m (s_mu m) None end.
Lemma Idle_coef_Rel : forall w ex q v m b l, w = Mu \/ w = Cor -> Idle ((b, l) :: ex) q v m ->
  Rel ((qb m, q) :: (vb m, v) :: ex) (only w l) (coef_of w m b).
Proof.
  intros w ex q v m b l W [H1 H2 H3 H4 H5 H6 H7 H8 H9 H10].
  destruct (H7 b l (or_introl eq_refl)) as (M & Nq & Nv). cbn [map fst] in H8, H10. inversion H8 as [|? ? N1 N2]; subst.
  assert (ME : mem (coef_of w m b) = mem m) by (destruct w; reflexivity).
  assert (NX : nxt (coef_of w m b) = nxt m) by (destruct w; reflexivity).
  assert (AW : addr (coef_of w m b) w = Some b) by (destruct W as [-> | ->]; reflexivity).
  assert (Z : forall x c, addr (coef_of w m b) x = Some c -> x = w /\ c = b).
  { intros x c E. destruct W as [-> | ->], x; cbn [coef_of addr set_coefs s_state s_mu s_cor] in E;
      rewrite ?H1, ?H2, ?H3 in E; try discriminate; injection E as <-; split; reflexivity. }
  split; rewrite ?ME, ?NX.
  - intros x c E. unfold only in E. destruct (which_eqb_spec x w) as [->|]; [|discriminate]. injection E as <-.
    exists b. split; [exact AW|exact M].
  - intros x y c E E'. destruct (Z _ _ E), (Z _ _ E'). congruence.
  - intros x c E. destruct (Z _ _ E) as [_ ->]. rewrite M. discriminate.
  - intros c k I.
    assert (K : mem m c = Some k /\ c <> b).
    { destruct I as [E|[E|I]].
      - injection E as <- <-. split; [exact H4|congruence].
      - injection E as <- <-. split; [exact H5|congruence].
      - split; [apply H7; right; exact I|]. intros ->. apply N1. apply (in_map fst) in I. exact I. }
    destruct K as [K1 K2]. split; [exact K1|]. intros x E. destruct (Z _ _ E). contradiction.
  - exact H9.
  - intros c N. destruct (H10 _ N) as [->|[->|[<-|I]]]; cbn [map fst In]; [tauto|tauto|left; exists w; exact AW|tauto].
Qed.
Lemma Rel_coef_Idle : forall w ex q v m m' b l l' s', w = Mu \/ w = Cor -> Idle ((b, l) :: ex) q v m ->
  Rel ((qb m, q) :: (vb m, v) :: ex) s' m' -> same (coef_of w m b) m' -> s' w = Some l' ->
  Idle ((b, l') :: ex) q v (coef_off w m').
Proof.
  intros w ex q v m m' b l l' s' W [H1 H2 H3 H4 H5 H6 H7 H8 H9 H10] [R1 R2 R3 R4 R5 R6] (S1 & S2 & S3 & S4 & S5 & S6) E.
  assert (T : s_state (coef_of w m b) = false) by (destruct w; exact H1).
  assert (QV : qb m' = qb m /\ vb m' = vb m). { destruct (S6 T) as [-> ->]. destruct w; split; reflexivity. }
  destruct QV as [Eq Ev].
  assert (ME : mem (coef_off w m') = mem m') by (destruct w; reflexivity).
  assert (NX : nxt (coef_off w m') = nxt m') by (destruct w; reflexivity).
  assert (QB : qb (coef_off w m') = qb m) by (rewrite <- Eq; destruct w; reflexivity).
  assert (VB : vb (coef_off w m') = vb m) by (rewrite <- Ev; destruct w; reflexivity).
  assert (AW : addr m' w = Some b).
  { destruct W as [-> | ->]; cbn [addr]; [rewrite S2|rewrite S3]; reflexivity. }
  assert (Z : forall x c, addr m' x = Some c -> x = w).
  { intros x c A. destruct W as [-> | ->], x; cbn [addr] in A; trivial; rewrite ?S1, ?S2, ?S3 in A;
      cbn [coef_of set_coefs s_state s_mu s_cor] in A; rewrite ?H1, ?H2, ?H3 in A; discriminate. }
  assert (Mb : mem m' b = Some l').
  { destruct (R1 _ _ E) as (c & A & M). rewrite AW in A. injection A as <-. exact M. }
  destruct (H7 b l (or_introl eq_refl)) as (_ & Nq & Nv).
  split; rewrite ?ME, ?NX, ?QB, ?VB.
  - destruct w; cbn [coef_off set_coefs s_state]; rewrite S1; exact T.
  - destruct W as [-> | ->]; cbn [coef_off set_coefs s_mu]; [reflexivity|]. rewrite S2. exact H2.
  - destruct W as [-> | ->]; cbn [coef_off set_coefs s_cor]; [|reflexivity]. rewrite S3. exact H3.
  - apply R4. left. reflexivity.
  - apply R4. right. left. reflexivity.
  - exact H6.
  - intros c k [F|I].
    + injection F as <- <-. repeat split; assumption.
    + split; [apply R4; right; right; exact I|]. apply (H7 c k (or_intror I)).
  - exact H8.
  - exact R5.
  - intros c N. destruct (R6 _ N) as [[x A]|I].
    + rewrite (Z _ _ A) in A. rewrite AW in A. injection A as <-. right. right. left. reflexivity.
    + cbn [map fst In] in *. destruct I as [<-|[<-|I]]; tauto.
Qed.

Lemma no_meant : forall s vs m, meant no_means s vs m.
Proof. intros s vs m x w H. discriminate. Qed.

(* what a callback does, between two idle moments *)
Definition idles (ex : frame) (o : outcome (Mem * (list R * list R))) (r : outcome (Mem * vars * mc)) : Prop :=
  match o with
  | Ok (x, (q, v)) => exists vs m, r = Ok (x, vs, m) /\ Idle ex q v m
  | Exit => r = Exit
  | UB => True
  end.
Lemma step_hook_ok : forall h ex dt it x vs q v m, Idle ex q v m ->
  idles ex (expect_state h (Some (dt, it)) x q v) (step_hook h dt it (x, vs) m).
Proof.
  intros h ex dt it x vs q v m H. unfold expect_state, step_hook. destruct h as [f|].
  2:{ exists vs, (set_state (set_state m true) false). split; [reflexivity|]. destruct H. split; first [assumption | reflexivity]. }
  cbn [fst snd].
  pose proof (Idle_state_Rel _ _ _ _ (Idle_time _ _ _ _ (Some dt) it H)) as R.
  pose proof (run_expect (f x) ex (Some (dt, it)) no_means (state_numbers q v) vs (set_time (set_state m true) (Some dt) it)
    R (conj eq_refl eq_refl) (no_meant _ _ _)) as A.
  destruct (expect (f x) (Some (dt, it)) no_means (state_numbers q v)) as [[y s']| |]; cbn [obind agrees] in *; [| |exact I].
  2:{ rewrite A. reflexivity. }
  destruct A as (vs' & m' & E & R' & (S1 & S2 & S3 & _)). rewrite E. cbn [obind fst snd].
  destruct (s' Q) as [q'|] eqn:SQ; [|exact I]. destruct (s' V) as [v'|] eqn:SV; [|exact I].
  exists vs', (set_state (set_time m' None 0%N) false). split; [reflexivity|].
  apply (Idle_time ex q' v' (set_state m' false) None 0%N).
  apply (Rel_state_Idle ex s'); trivial.
  - exact (i_dup _ _ _ _ H).
  - rewrite S2. exact (i_mu _ _ _ _ H).
  - rewrite S3. exact (i_cor _ _ _ _ H).
Qed.
Lemma sim_hook_ok : forall h ex x vs q v m, Idle ex q v m ->
  idles ex (expect_state h None x q v) (sim_hook h (x, vs) m).
Proof.
  intros h ex x vs q v m H. unfold expect_state, sim_hook. destruct h as [f|].
  2:{ exists vs, (set_state (set_state m true) false). split; [reflexivity|]. destruct H. split; first [assumption | reflexivity]. }
  cbn [fst snd].
  pose proof (Idle_state_Rel _ _ _ _ H) as R.
  pose proof (run_expect (f x) ex None no_means (state_numbers q v) vs (set_state m true) R I (no_meant _ _ _)) as A.
  destruct (expect (f x) None no_means (state_numbers q v)) as [[y s']| |]; cbn [obind agrees] in *; [| |exact I].
  2:{ rewrite A. reflexivity. }
  destruct A as (vs' & m' & E & R' & (S1 & S2 & S3 & _)). rewrite E. cbn [obind fst snd].
  destruct (s' Q) as [q'|] eqn:SQ; [|exact I]. destruct (s' V) as [v'|] eqn:SV; [|exact I].
  exists vs', (set_state m' false). split; [reflexivity|].
  apply (Rel_state_Idle ex s'); trivial.
  - exact (i_dup _ _ _ _ H).
  - rewrite S2. exact (i_mu _ _ _ _ H).
  - rewrite S3. exact (i_cor _ _ _ _ H).
Qed.
Definition coef_hook (w : which) := match w with Mu => @mu_hook Mem | _ => @cor_hook Mem end.
Lemma coef_hook_ok : forall w h ex x vs q v m b l, w = Mu \/ w = Cor -> Idle ((b, l) :: ex) q v m ->
  match expect_coefficients h w x l with
  | Ok (y, l') => exists vs' m', coef_hook w h b (x, vs) m = Ok (y, vs', m') /\ Idle ((b, l') :: ex) q v m'
  | Exit => coef_hook w h b (x, vs) m = Exit
  | UB => True
  end.
Proof.
  intros w h ex x vs q v m b l W H. unfold expect_coefficients. destruct h as [f|].
  2:{ exists vs, m. split; [destruct w; reflexivity|exact H]. }
  assert (EQ : coef_hook w (Some f) b (x, vs) m = (let! r := run (f x) vs (coef_of w m b) in Ok (fst r, coef_off w (snd r)))).
  { destruct W as [-> | ->]; reflexivity. }
  rewrite EQ.
  pose proof (Idle_coef_Rel w ex q v m b l W H) as R.
  pose proof (run_expect (f x) _ None no_means (only w l) vs _ R I (no_meant _ _ _)) as A.
  destruct (expect (f x) None no_means (only w l)) as [[y s']| |]; cbn [obind agrees fst snd] in *; [| |exact I].
  2:{ rewrite A. reflexivity. }
  destruct A as (vs' & m' & E & R' & S). rewrite E. cbn [obind fst snd].
  destruct (s' w) as [l'|] eqn:Sw; [|exact I].
  exists vs', (coef_off w m'). split; [reflexivity|]. exact (Rel_coef_Idle w ex q v m m' b l l' s' W H R' S Sw).
Qed.

Lemma coefficients_ok : forall E (sc : script Mem) x vs q v m, Idle [] q v m ->
  let n := contacts E q v in
  match (if Nat.eqb n 0 then Ok (x, ([], []))
         else let! a := expect_coefficients (friction sc) Mu x (repeat (e_mu E) n) in
              let! b := expect_coefficients (restitution sc) Cor (fst a) (repeat (e_cor E) n) in
              Ok (fst b, (snd a, snd b))) with
  | Ok (y, l) => exists vs' m', coefficients E sc q v (x, vs) m = Ok (y, vs', m', l) /\ Idle [] q v m'
  | Exit => coefficients E sc q v (x, vs) m = Exit
  | UB => True
  end.
Proof.
  intros E sc x vs q v m H n. unfold coefficients. fold n. destruct (Nat.eqb n 0).
  { exists vs, m. split; [reflexivity|exact H]. }
  pose proof (Idle_alloc [] q v m (repeat (e_mu E) n) H) as H1. cbn [alloc snd] in H1. cbn [alloc].
  set (m1 := with_mem m (upd (mem m) (nxt m) (Some (repeat (e_mu E) n))) (S (nxt m))) in *.
  pose proof (coef_hook_ok Mu (friction sc) [] x vs q v m1 (nxt m) _ (or_introl eq_refl) H1) as A. cbn [coef_hook] in A.
  destruct (expect_coefficients (friction sc) Mu x (repeat (e_mu E) n)) as [[y mu]| |]; cbn [obind fst snd]; [| |exact I].
  2:{ rewrite A. reflexivity. }
  destruct A as (vs1 & m2 & E2 & H2). rewrite E2. cbn [obind fst snd].
  pose proof (Idle_alloc _ q v m2 (repeat (e_cor E) n) H2) as H3. cbn [alloc snd] in H3.
  set (m3 := with_mem m2 (upd (mem m2) (nxt m2) (Some (repeat (e_cor E) n))) (S (nxt m2))) in *.
  pose proof (coef_hook_ok Cor (restitution sc) _ y vs1 q v m3 (nxt m2) _ (or_intror eq_refl) H3) as A. cbn [coef_hook] in A.
  destruct (expect_coefficients (restitution sc) Cor y (repeat (e_cor E) n)) as [[z cor]| |]; cbn [obind fst snd]; [| |exact I].
  2:{ rewrite A. reflexivity. }
  destruct A as (vs2 & m4 & E4 & H4). rewrite E4. cbn [obind fst snd].
  destruct (i_ex _ _ _ _ H4 (nxt m) mu (or_intror (or_introl eq_refl))) as [M1 _].
  destruct (i_ex _ _ _ _ H4 (nxt m2) cor (or_introl eq_refl)) as [M2 _].
  rewrite M1, M2. exists vs2. eexists. split; [reflexivity|].
  eapply Idle_free. eapply Idle_free. exact H4.
Qed.

Lemma flow_ok : forall E (sc : script Mem) it dt x vs q v m, Idle [] q v m ->
  idles [] (expect_flow E sc it dt x q v) (flow E sc it dt (x, vs) m).
Proof.
  intros E sc it dt x vs q v m H. unfold expect_flow, flow.
  pose proof (step_hook_ok (start_step sc) [] dt it x vs q v m H) as A.
  destruct (expect_state (start_step sc) (Some (dt, it)) x q v) as [[x1 [q1 v1]]| |]; cbn [obind fst snd idles] in *; [| |exact I].
  2:{ rewrite A. reflexivity. }
  destruct A as (vs1 & m1 & E1 & H1). rewrite E1. cbn [obind fst snd].
  rewrite (i_q _ _ _ _ H1), (i_v _ _ _ _ H1).
  pose proof (coefficients_ok E sc x1 vs1 q1 v1 m1 H1) as A. cbv zeta in A.
  match type of A with match ?T with Ok _ => _ | Exit => _ | UB => _ end => destruct T as [[x2 [mu cor]]| |] end;
    cbn [obind fst snd] in *; [| |exact I].
  2:{ rewrite A. reflexivity. }
  destruct A as (vs2 & m2 & E2 & H2). rewrite E2. cbn [obind fst snd].
  destruct (advance E q1 v1 mu cor) as [qn vn]. cbn [fst snd].
  pose proof (Idle_alloc _ _ _ _ vn (Idle_alloc _ _ _ _ qn H2)) as H3. cbn [alloc snd] in H3. cbn [alloc].
  match type of H3 with Idle _ _ _ ?M => set (m3 := M) in * end.
  pose proof (Idle_swap _ _ _ _ _ _ _ H3) as H4.
  pose proof (step_hook_ok (end_step sc) _ dt it x2 vs2 qn vn _ H4) as A.
  destruct (expect_state (end_step sc) (Some (dt, it)) x2 qn vn) as [[x5 [q5 v5]]| |]; cbn [obind fst snd idles] in *; [| |exact I].
  2:{ rewrite A. reflexivity. }
  destruct A as (vs5 & m5 & E5 & H5). rewrite E5. cbn [obind fst snd].
  exists vs5. eexists. split; [reflexivity|]. eapply Idle_free. eapply Idle_free. exact H5.
Qed.

Lemma flows_ok : forall E (sc : script Mem) n it dt x vs q v m, Idle [] q v m ->
  idles [] (expect_flows E sc n it dt x q v) (flows E sc n it dt (x, vs) m).
Proof.
  intros E sc. induction n as [|n IH]; intros it dt x vs q v m H; cbn [expect_flows flows].
  - exists vs, m. split; [reflexivity|exact H].
  - pose proof (flow_ok E sc it dt x vs q v m H) as A.
    destruct (expect_flow E sc it dt x q v) as [[x1 [q1 v1]]| |]; cbn [obind fst snd idles] in *; [| |exact I].
    + destruct A as (vs1 & m1 & E1 & H1). rewrite E1. cbn [obind fst snd]. apply IH, H1.
    + rewrite A. reflexivity.
Qed.
Lemma Idle_start : forall q v, Idle [] q v (start q v).
Proof.
  intros q v. split; try reflexivity; cbn [start mem qb vb nxt map].
  - discriminate.
  - intros b l [].
  - constructor.
  - intros b N. unfold upd in N. destruct (Nat.eqb_spec b 1); [lia|]. destruct (Nat.eqb_spec b 0); [lia|]. contradiction.
  - intros b N. unfold upd in N. destruct (Nat.eqb_spec b 1); [tauto|]. destruct (Nat.eqb_spec b 0); [tauto|]. contradiction.
Qed.
Lemma simulate_ok : forall E (sc : script Mem) n dt x q v,
  idles [] (expect_run E sc n dt x q v) (simulate E sc n dt x q v).
Proof.
  intros E sc n dt x q v. unfold expect_run, simulate.
  pose proof (sim_hook_ok (start_sim sc) [] x no_vars q v _ (Idle_start q v)) as A.
  destruct (expect_state (start_sim sc) None x q v) as [[x1 [q1 v1]]| |]; cbn [obind fst snd idles] in *; [| |exact I].
  2:{ rewrite A. reflexivity. }
  destruct A as (vs1 & m1 & E1 & H1). rewrite E1. cbn [obind fst snd].
  pose proof (flows_ok E sc n 1%N dt x1 vs1 q1 v1 m1 H1) as A.
  destruct (expect_flows E sc n 1%N dt x1 q1 v1) as [[x2 [q2 v2]]| |]; cbn [obind fst snd idles] in *; [| |exact I].
  2:{ rewrite A. reflexivity. }
  destruct A as (vs2 & m2 & E2 & H2). rewrite E2. cbn [obind fst snd]. apply sim_hook_ok, H2.
Qed.
Lemma Idle_holds : forall q v m, Idle [] q v m -> holds m q v.
Proof.
  intros q v m H. destruct H. unfold holds. split; [assumption|]. split; [assumption|]. split; [assumption|].
  intros b N. destruct (i_all0 _ N) as [?|[?|[]]]; tauto.
Qed.

(* scripts that keep to the rules *)
Lemma proper_expect : forall (p : prog Mem) timed there t c s,
  proper p timed there t -> (timed = true -> c <> None) -> (forall w, there w = true -> s w <> None) ->
  (forall x w, t x = Some w -> s w <> None) ->
  match expect p c t s with UB => False | Exit => True | Ok (_, s') => forall w, there w = true -> s' w <> None end.
Proof.
  induction p as [x| |w x k IH|x i k IH|x i r k IH|qx qy vx vy k IH|k IH|k IH]; intros timed there t c s P C S T; cbn [expect proper] in *.
  - exact S.
  - exact I.
  - destruct P as [P1 P2]. destruct (s w) as [l|] eqn:E; [|exact (S _ P1 E)].
    apply (IH timed there); trivial. intros y w' Y. destruct (Nat.eqb y x); [injection Y as <-; rewrite E; discriminate|exact (T _ _ Y)].
  - destruct P as [P1 P2]. destruct (t x) as [w|] eqn:Tx; [|contradiction].
    destruct (s w) as [l|] eqn:E; [|exact (T _ _ Tx E)]. destruct (nth_error l i); [|exact I]. apply (IH r timed there); trivial.
  - destruct P as [P1 P2]. destruct (t x) as [w|] eqn:Tx; [|contradiction].
    destruct (s w) as [l|] eqn:E; [|exact (T _ _ Tx E)]. destruct (Nat.ltb i (length l)); [|exact I].
    apply (IH timed there); trivial; unfold put.
    + intros w' W. destruct (which_eqb w' w); [discriminate|exact (S _ W)].
    + intros y w' Y. destruct (which_eqb w' w); [discriminate|exact (T _ _ Y)].
  - destruct P as (P1 & P2 & P3). destruct (s Q) as [q|] eqn:EQ; [|exact (S _ P1 EQ)].
    destruct (s V) as [v|] eqn:EV; [|exact (S _ P2 EV)]. apply (IH timed there); trivial.
    + intros w' W. unfold put. destruct (which_eqb w' V); [discriminate|]. destruct (which_eqb w' Q); [discriminate|exact (S _ W)].
    + intros y w' Y. discriminate.
  - destruct P as [P1 P2]. destruct c as [[dt it]|]; [|exact (C P1 eq_refl)]. apply (IH _ timed there); trivial.
  - destruct P as [P1 P2]. destruct c as [[dt it]|]; [|exact (C P1 eq_refl)]. apply (IH _ timed there); trivial.
Qed.
Lemma proper_state : forall (h : option (Mem -> prog Mem)) timed c x q v,
  proper_in timed the_state h -> (timed = true -> c <> None) -> expect_state h c x q v <> UB.
Proof.
  intros [f|] timed c x q v P C; cbn [expect_state proper_in] in *; [|discriminate].
  pose proof (proper_expect (f x) timed the_state no_means c (state_numbers q v) (P x) C) as A.
  destruct (expect (f x) c no_means (state_numbers q v)) as [[y s']| |]; cbn [obind fst snd]; [|discriminate|].
  - assert (B : forall w, the_state w = true -> s' w <> None).
    { apply A; [intros [] W; cbn in *; congruence|discriminate]. }
    destruct (s' Q) eqn:EQ; [|exfalso; exact (B Q eq_refl EQ)]. destruct (s' V) eqn:EV; [|exfalso; exact (B V eq_refl EV)]. discriminate.
  - exfalso. apply A; [intros [] W; cbn in *; congruence|discriminate].
Qed.
Lemma proper_coefficients : forall (h : option (Mem -> prog Mem)) w x l,
  proper_in false (which_eqb w) h -> expect_coefficients h w x l <> UB.
Proof.
  intros [f|] w x l P; cbn [expect_coefficients proper_in] in *; [|discriminate].
  pose proof (proper_expect (f x) false (which_eqb w) no_means None (only w l) (P x)) as A.
  assert (O : forall y, which_eqb w y = true -> only w l y <> None).
  { intros y Y. unfold only. destruct (which_eqb_spec w y) as [->|]; [|discriminate]. destruct (which_eqb_spec y y); congruence. }
  destruct (expect (f x) None no_means (only w l)) as [[y s']| |]; cbn [obind fst snd]; [|discriminate|].
  - assert (B : forall z, which_eqb w z = true -> s' z <> None) by (apply A; [discriminate|exact O|discriminate]).
    destruct (s' w) eqn:E; [discriminate|]. exfalso. apply (B w); [|exact E]. destruct w; reflexivity.
  - exfalso. apply A; [discriminate|exact O|discriminate].
Qed.
Lemma proper_flow : forall E (sc : script Mem) it dt x q v, proper_script sc -> expect_flow E sc it dt x q v <> UB.
Proof.
  intros E sc it dt x q v (P1 & P2 & P3 & P4 & P5 & P6). unfold expect_flow.
  pose proof (proper_state (start_step sc) true (Some (dt, it)) x q v P3 ltac:(discriminate)) as A.
  destruct (expect_state (start_step sc) (Some (dt, it)) x q v) as [[x1 [q1 v1]]| |]; cbn [obind fst snd]; [|discriminate|congruence].
  destruct (Nat.eqb (contacts E q1 v1) 0); cbn [obind fst snd].
  - apply (proper_state _ true); [exact P4|discriminate].
  - pose proof (proper_coefficients (friction sc) Mu x1 (repeat (e_mu E) (contacts E q1 v1)) P5) as B.
    destruct (expect_coefficients (friction sc) Mu x1 (repeat (e_mu E) (contacts E q1 v1))) as [[x2 mu]| |]; cbn [obind fst snd]; [|discriminate|congruence].
    pose proof (proper_coefficients (restitution sc) Cor x2 (repeat (e_cor E) (contacts E q1 v1)) P6) as D.
    destruct (expect_coefficients (restitution sc) Cor x2 (repeat (e_cor E) (contacts E q1 v1))) as [[x3 cor]| |]; cbn [obind fst snd]; [|discriminate|congruence].
    apply (proper_state _ true); [exact P4|discriminate].
Qed.
Lemma proper_flows : forall E (sc : script Mem) n it dt x q v, proper_script sc -> expect_flows E sc n it dt x q v <> UB.
Proof.
  intros E sc n. induction n as [|n IH]; intros it dt x q v P; cbn [expect_flows]; [discriminate|].
  pose proof (proper_flow E sc it dt x q v P) as A.
  destruct (expect_flow E sc it dt x q v) as [[x1 [q1 v1]]| |]; cbn [obind]; [apply IH, P|discriminate|congruence].
Qed.
Lemma proper_run : forall E (sc : script Mem) n dt x q v, proper_script sc -> expect_run E sc n dt x q v <> UB.
Proof.
  intros E sc n dt x q v P. unfold expect_run.
  pose proof (proper_state (start_sim sc) false None x q v (proj1 P) ltac:(discriminate)) as A.
  destruct (expect_state (start_sim sc) None x q v) as [[x1 [q1 v1]]| |]; cbn [obind fst snd]; [|discriminate|congruence].
  pose proof (proper_flows E sc n 1%N dt x1 q1 v1 P) as B.
  destruct (expect_flows E sc n 1%N dt x1 q1 v1) as [[x2 [q2 v2]]| |]; cbn [obind fst snd]; [|discriminate|congruence].
  apply (proper_state _ false); [exact (proj1 (proj2 P))|discriminate].
Qed.
End Proofs.
