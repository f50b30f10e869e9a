(* Lemmas about single impacts and about Gauss-Seidel. *)
From Coq Require Import List Reals Arith Bool Lia Lra Psatz ZArith.
From Verif Require Import Outcome Ccd_Model Lin_Model ContactBall_Model ContactRb3_Model Lin_Proofs Contact_Spec Contact_Proofs Impact_Model.
Import ListNotations.
Open Scope R_scope.

(* ---------- columns against the first N coordinates ---------- *)
Lemma col_dot_rsum : forall N g w, Forall (fun e => (fst e < N)%nat) g -> rsum N (fun k => entry g k * w k) = col_dot g w.
Proof.
  intros N g w H. induction H as [|[r x] g Hr _ IH].
  - apply rsum_zero. intros. cbn. lra.
  - cbn [col_dot fold_right fst snd]. change (fold_right (fun e s => snd e * w (fst e) + s) 0 g) with (col_dot g w).
    rewrite <- IH.
    rewrite (rsum_ext N _ (fun k => (if Nat.eqb r k then x else 0) * w k + entry g k * w k)).
    2:{ intros k Hk. cbn [entry fold_right fst snd]. fold (entry g k). lra. }
    rewrite rsum_plus. f_equal. cbn [fst] in Hr.
    rewrite (rsum_one N _ r Hr). { rewrite Nat.eqb_refl. reflexivity. }
    intros k Hk Hne. destruct (Nat.eqb_spec r k); [congruence|lra].
Qed.

Lemma col_dot_ext : forall N g v w, Forall (fun e => (fst e < N)%nat) g -> (forall k, (k < N)%nat -> v k = w k) ->
  col_dot g v = col_dot g w.
Proof.
  intros N g v w H E. rewrite <- (col_dot_rsum N g v H), <- (col_dot_rsum N g w H). apply rsum_ext. intros k Hk. rewrite E by exact Hk. reflexivity.
Qed.

Lemma col_dot_lin : forall g v w a, col_dot g (fun k => v k + a * w k) = col_dot g v + a * col_dot g w.
Proof. induction g as [|e g IH]; intros v w a; cbn [col_dot fold_right]; [lra|]. unfold col_dot in IH. rewrite IH. lra. Qed.

(* energy of the difference to w *)
Definition energy (N : nat) (m w v : dvec) : R := / 2 * rsum N (fun k => (v k - w k) * (m k * (v k - w k))).

Lemma energy_nonneg : forall N m w v, (forall k, (k < N)%nat -> 0 < m k) -> 0 <= energy N m w v.
Proof.
  intros N m w v H. unfold energy. apply Rmult_le_pos; [lra|]. apply rsum_nonneg. intros k Hk. specialize (H k Hk).
  replace ((v k - w k) * (m k * (v k - w k))) with (m k * ((v k - w k) * (v k - w k))) by ring.
  apply Rmult_le_pos; [lra|]. apply Rle_0_sqr.
Qed.

Definition gram (m : dvec) (g : col) : R := col_dot g (fun k => 1 / m k * entry g k).

Lemma energy_step : forall N m w v v' g a, (forall k, (k < N)%nat -> 0 < m k) -> Forall (fun e => (fst e < N)%nat) g ->
  (forall k, (k < N)%nat -> v' k = v k + 1 / m k * (entry g k * a)) ->
  energy N m w v' = energy N m w v + a * (col_dot g v - col_dot g w) + / 2 * (a * a) * gram m g.
Proof.
  intros N m w v v' g a Hm Hg Hv. unfold energy, gram.
  rewrite (rsum_ext N _ (fun k => (v k - w k) * (m k * (v k - w k))
     + (2 * a) * (entry g k * v k) + (- (2 * a)) * (entry g k * w k) + (a * a) * (entry g k * (1 / m k * entry g k)))).
  2:{ intros k Hk. rewrite Hv by exact Hk. specialize (Hm k Hk). field. lra. }
  rewrite !rsum_plus, !rsum_scal, !col_dot_rsum by exact Hg. lra.
Qed.

(* ---------- contacts whose impact is an impulse along their gradient ---------- *)
Section Generic.
Context {C : Type}.
Variable N : nat.
Variable m : dvec.
Variable nd : C -> dvec -> R.
Variable resolve : R -> R -> C -> dvec -> outcome (dvec * R).
Variable grad : C -> col.
Variable off : C -> R.

Definition moved (g : col) (a : R) (v v' : dvec) : Prop :=
  (forall k, (k < N)%nat -> v' k = v k + 1 / m k * (entry g k * a)) /\ (forall k, (N <= k)%nat -> v' k = v k).

Definition good (c : C) : Prop :=
  Forall (fun e => (fst e < N)%nat) (grad c)
  /\ (forall v, nd c v = col_dot (grad c) v + off c)
  /\ 0 < gram m (grad c)
  /\ (forall CoR v, exists v', resolve CoR (nd c v) c v = Ok (v', - (1 + CoR) * nd c v / gram m (grad c))
        /\ moved (grad c) (- (1 + CoR) * nd c v / gram m (grad c)) v v').

Hypothesis Hm : forall k, (k < N)%nat -> 0 < m k.

Lemma good_after : forall c CoR v v' a, good c -> resolve CoR (nd c v) c v = Ok (v', a) -> nd c v' = - CoR * nd c v.
Proof.
  intros c CoR v v' a (Hg & Hn & HW & Hr) H. destruct (Hr CoR v) as (u & E & Hu & _). rewrite E in H.
  injection H as <- <-. rewrite Hn.
  rewrite (col_dot_ext N (grad c) u (fun k => v k + (- (1 + CoR) * nd c v / gram m (grad c)) * (1 / m k * entry (grad c) k)) Hg).
  2:{ intros k Hk. rewrite (Hu k Hk). ring. }
  rewrite col_dot_lin. fold (gram m (grad c)). set (W := gram m (grad c)) in *.
  replace (- (1 + CoR) * nd c v / W * W) with (- (1 + CoR) * nd c v) by (field; lra).
  rewrite (Hn v). ring.
Qed.

Lemma good_alpha : forall c CoR v v' a, good c -> 0 <= CoR -> nd c v < 0 -> resolve CoR (nd c v) c v = Ok (v', a) -> 0 < a.
Proof.
  intros c CoR v v' a (Hg & Hn & HW & Hr) Hc Hv H. destruct (Hr CoR v) as (u & E & _). rewrite E in H.
  injection H as _ <-. unfold Rdiv. apply Rmult_lt_0_compat; [|apply Rinv_0_lt_compat; exact HW]. nra.
Qed.

(* the energy measured against any velocity w *)
Lemma good_energy : forall c CoR v v' a w, good c -> resolve CoR (nd c v) c v = Ok (v', a) ->
  energy N m w v' = energy N m w v - (1 + CoR) / gram m (grad c) * (nd c v * (nd c v * (1 - CoR) / 2 - nd c w)).
Proof.
  intros c CoR v v' a w (Hg & Hn & HW & Hr) H. destruct (Hr CoR v) as (u & E & Hu & _). rewrite E in H. injection H as <- _.
  rewrite (energy_step N m w v u (grad c) _ Hm Hg Hu).
  replace (col_dot (grad c) v) with (nd c v - off c) by (rewrite Hn; ring).
  replace (col_dot (grad c) w) with (nd c w - off c) by (rewrite Hn; ring).
  set (W := gram m (grad c)) in *. field. lra.
Qed.

Lemma good_energy_le : forall c CoR v v' a w, good c -> 0 <= CoR <= 1 -> nd c v < 0 -> 0 <= nd c w ->
  resolve CoR (nd c v) c v = Ok (v', a) -> energy N m w v' <= energy N m w v.
Proof.
  intros c CoR v v' a w Hg Hc Hv Hw H. rewrite (good_energy c CoR v v' a w Hg H).
  assert (HW : 0 < gram m (grad c)) by apply Hg.
  assert (0 <= (1 + CoR) / gram m (grad c)) by (apply Rmult_le_pos; [lra|left; apply Rinv_0_lt_compat; exact HW]).
  assert (0 <= nd c v * (nd c v * (1 - CoR) / 2 - nd c w)).
  { replace (nd c v * (nd c v * (1 - CoR) / 2 - nd c w)) with ((- nd c v) * ((- nd c v) * ((1 - CoR) / 2) + nd c w)) by field.
    apply Rmult_le_pos; [lra|]. apply Rplus_le_le_0_compat; [|exact Hw]. apply Rmult_le_pos; lra. }
  assert (0 <= (1 + CoR) / gram m (grad c) * (nd c v * (nd c v * (1 - CoR) / 2 - nd c w))) by (apply Rmult_le_pos; assumption).
  lra.
Qed.

(* the amount by which one impact lowers it *)
Definition drop (tol CoR : R) (c : C) (w : dvec) : R :=
  (1 + CoR) / gram m (grad c) * (tol * (tol * ((1 - CoR) / 2) + nd c w)).

Lemma drop_pos : forall tol CoR c w, good c -> 0 < tol -> 0 <= CoR <= 1 -> 0 <= nd c w -> (CoR < 1 \/ 0 < nd c w) -> 0 < drop tol CoR c w.
Proof.
  intros tol CoR c w Hg Ht Hc Hw Hs. unfold drop. apply Rmult_lt_0_compat.
  - apply Rmult_lt_0_compat; [lra|]. apply Rinv_0_lt_compat. apply Hg.
  - apply Rmult_lt_0_compat; [exact Ht|]. destruct Hs as [Hs|Hs].
    + apply Rplus_lt_le_0_compat; [|exact Hw]. apply Rmult_lt_0_compat; lra.
    + apply Rplus_le_lt_0_compat; [|exact Hs]. apply Rmult_le_pos; lra.
Qed.

Lemma good_energy_drop : forall tol c CoR v v' a w, good c -> 0 < tol -> 0 <= CoR <= 1 -> nd c v < - tol -> 0 <= nd c w ->
  resolve CoR (nd c v) c v = Ok (v', a) -> energy N m w v' <= energy N m w v - drop tol CoR c w.
Proof.
  intros tol c CoR v v' a w Hg Ht Hc Hv Hw H. rewrite (good_energy c CoR v v' a w Hg H). unfold drop.
  assert (HW : 0 < gram m (grad c)) by apply Hg.
  assert (Hk : 0 <= (1 + CoR) / gram m (grad c)) by (apply Rmult_le_pos; [lra|left; apply Rinv_0_lt_compat; exact HW]).
  assert (tol * (tol * ((1 - CoR) / 2) + nd c w) <= nd c v * (nd c v * (1 - CoR) / 2 - nd c w)).
  { replace (nd c v * (nd c v * (1 - CoR) / 2 - nd c w)) with ((- nd c v) * ((- nd c v) * ((1 - CoR) / 2) + nd c w)) by field.
    apply Rmult_le_compat; [lra| |lra|].
    - apply Rplus_le_le_0_compat; [|exact Hw]. apply Rmult_le_pos; lra.
    - apply Rplus_le_compat_r. apply Rmult_le_compat_r; lra. }
  assert ((1 + CoR) / gram m (grad c) * (tol * (tol * ((1 - CoR) / 2) + nd c w))
     <= (1 + CoR) / gram m (grad c) * (nd c v * (nd c v * (1 - CoR) / 2 - nd c w))) by (apply Rmult_le_compat_l; assumption).
  lra.
Qed.

(* ---------- the sweep ---------- *)
Variable tol : R.
Notation sweep := (gs_sweep nd resolve tol).
Notation loop := (gs_loop nd resolve tol).

Lemma sweep_quiet : forall cons al v v' al', length al = length cons -> sweep cons al v = Ok (v', al', false) ->
  v' = v /\ al' = al /\ Forall (fun c => - tol <= nd (fst c) v) cons.
Proof.
  induction cons as [|[c CoR] cons IH]; intros [|a al] v v' al' Hl H; try discriminate Hl; cbn [gs_sweep] in H.
  - injection H as <- <-. auto.
  - destruct (Rlt_dec (nd c v) (- tol)) as [Hlt|Hge].
    + apply obind_Ok_inv in H. destruct H as ([v1 da] & _ & H).
      apply obind_Ok_inv in H. destruct H as ([[v2 al2] h] & _ & H). discriminate H.
    + apply obind_Ok_inv in H. destruct H as ([[v2 al2] h] & E & H). injection H as -> <- ->.
      destruct (IH al v v' al2 ltac:(cbn in Hl; lia) E) as (-> & -> & HF).
      split; [reflexivity|]. split; [reflexivity|]. constructor; [cbn; lra|exact HF].
Qed.

Lemma sweep_length : forall cons al v v' al' h, length al = length cons -> sweep cons al v = Ok (v', al', h) -> length al' = length cons.
Proof.
  induction cons as [|[c CoR] cons IH]; intros [|a al] v v' al' h Hl H; try discriminate Hl; cbn [gs_sweep] in H.
  - injection H as <- <- _. reflexivity.
  - destruct (Rlt_dec (nd c v) (- tol)) as [Hlt|Hge].
    + apply obind_Ok_inv in H. destruct H as ([v1 da] & _ & H).
      apply obind_Ok_inv in H. destruct H as ([[v2 al2] h2] & E & H). injection H as _ <- _. cbn.
      rewrite (IH al v1 v2 al2 h2 ltac:(cbn in Hl; lia) E). reflexivity.
    + apply obind_Ok_inv in H. destruct H as ([[v2 al2] h2] & E & H). injection H as _ <- _. cbn.
      rewrite (IH al v v2 al2 h2 ltac:(cbn in Hl; lia) E). reflexivity.
Qed.

(* anything kept by every impact is kept by the sweep *)
Lemma sweep_keeps : forall (P : dvec -> Prop) cons,
  (forall c CoR v v' a, In (c, CoR) cons -> nd c v < - tol -> resolve CoR (nd c v) c v = Ok (v', a) -> P v -> P v') ->
  forall al v v' al' h, sweep cons al v = Ok (v', al', h) -> P v -> P v'.
Proof.
  intros P cons. induction cons as [|[c CoR] cons IH]; intros HP al v v' al' h H Hv; cbn [gs_sweep] in H.
  - injection H as <- _ _. exact Hv.
  - destruct al as [|a al]; [injection H as <- _ _; exact Hv|].
    destruct (Rlt_dec (nd c v) (- tol)) as [Hlt|Hge].
    + apply obind_Ok_inv in H. destruct H as ([v1 da] & E1 & H).
      apply obind_Ok_inv in H. destruct H as ([[v2 al2] h2] & E & H). injection H as <- _ _.
      apply (IH ltac:(intros; eapply HP; eauto; right; assumption) al v1 v2 al2 h2 E).
      eapply HP; [left; reflexivity|exact Hlt|exact E1|exact Hv].
    + apply obind_Ok_inv in H. destruct H as ([[v2 al2] h2] & E & H). injection H as <- _ _.
      apply (IH ltac:(intros; eapply HP; eauto; right; assumption) al v v2 al2 h2 E Hv).
Qed.

Lemma loop_keeps : forall (P : dvec -> Prop) cons,
  (forall c CoR v v' a, In (c, CoR) cons -> nd c v < - tol -> resolve CoR (nd c v) c v = Ok (v', a) -> P v -> P v') ->
  forall fuel al v v' al', loop fuel cons al v = Some (Ok (v', al')) -> P v -> P v'.
Proof.
  intros P cons HP. induction fuel as [|k IH]; intros al v v' al' H Hv; [discriminate|]. cbn [gs_loop] in H.
  destruct (sweep cons al v) as [[[v1 al1] h]| |] eqn:E; try discriminate.
  pose proof (sweep_keeps P cons HP al v v1 al1 h E Hv) as H1.
  destruct h; [exact (IH _ _ _ _ H H1)|]. injection H as <- _. exact H1.
Qed.

Lemma loop_quiet : forall cons fuel al v v' al', length al = length cons -> loop fuel cons al v = Some (Ok (v', al')) ->
  Forall (fun c => - tol <= nd (fst c) v') cons.
Proof.
  intros cons. induction fuel as [|k IH]; intros al v v' al' Hl H; [discriminate|]. cbn [gs_loop] in H.
  destruct (sweep cons al v) as [[[v1 al1] h]| |] eqn:E; try discriminate. destruct h.
  - apply (IH al1 v1 v' al' (sweep_length _ _ _ _ _ _ Hl E) H).
  - injection H as <- _. destruct (sweep_quiet cons al v v1 al1 Hl E) as (-> & _ & HF). exact HF.
Qed.

(* the velocity is the initial one plus Minv N (change of alpha), and alpha only grows *)
Definition grads (cons : list (C * R)) : list col := map (fun c => grad (fst c)) cons.

Lemma sweep_moved : forall cons, Forall (fun c => good (fst c) /\ 0 <= snd c) cons -> 0 <= tol ->
  forall al v v' al' h, length al = length cons -> sweep cons al v = Ok (v', al', h) ->
  (forall k, (k < N)%nat -> v' k = v k + 1 / m k * (impulse (combine (grads cons) al') k - impulse (combine (grads cons) al) k))
  /\ (forall k, (N <= k)%nat -> v' k = v k) /\ Forall2 Rle al al'.
Proof.
  intros cons HG Ht. induction HG as [|[c CoR] cons [Hg Hc] HG IH]; intros [|a al] v v' al' h Hl H; try discriminate Hl; cbn [gs_sweep] in H.
  - injection H as <- <- _. cbn. split; [intros; lra|]. split; [reflexivity|constructor].
  - cbn [fst snd] in Hg, Hc. assert (Hl' : length al = length cons) by (cbn in Hl; lia).
    destruct (Rlt_dec (nd c v) (- tol)) as [Hlt|Hge].
    + apply obind_Ok_inv in H. destruct H as ([v1 da] & E1 & H).
      apply obind_Ok_inv in H. destruct H as ([[v2 al2] h2] & E & H). injection H as <- <- _.
      destruct (IH al v1 v2 al2 h2 Hl' E) as (H1 & H2 & H3).
      assert (Hmv : moved (grad c) da v v1).
      { destruct Hg as (_ & _ & _ & Hr). destruct (Hr CoR v) as (u & Eu & Hu). rewrite Eu in E1. injection E1 as <- <-. exact Hu. }
      destruct Hmv as [Hm1 Hm2].
      pose proof (good_alpha c CoR v v1 da Hg Hc ltac:(lra) E1).
      split; [|split].
      * intros k Hk. rewrite (H1 k Hk), (Hm1 k Hk). cbn [grads map combine fst]. unfold impulse. cbn [fold_right fst snd].
        unfold grads. ring.
      * intros k Hk. rewrite (H2 k Hk). apply Hm2. exact Hk.
      * constructor; [lra|exact H3].
    + apply obind_Ok_inv in H. destruct H as ([[v2 al2] h2] & E & H). injection H as <- <- _.
      destruct (IH al v v2 al2 h2 Hl' E) as (H1 & H2 & H3).
      split; [|split].
      * intros k Hk. rewrite (H1 k Hk). cbn [grads map combine fst]. unfold impulse. cbn [fold_right fst snd].
        unfold grads. ring.
      * exact H2.
      * constructor; [lra|exact H3].
Qed.

Lemma Forall2_Rle_refl : forall l, Forall2 Rle l l.
Proof. induction l; constructor; [lra|assumption]. Qed.
Lemma Forall2_Rle_trans : forall a b c, Forall2 Rle a b -> Forall2 Rle b c -> Forall2 Rle a c.
Proof.
  intros a b c H. revert c. induction H; intros c Hc; inversion Hc; subst; constructor; [lra|]. apply IHForall2. assumption.
Qed.

Lemma loop_moved : forall cons, Forall (fun c => good (fst c) /\ 0 <= snd c) cons -> 0 <= tol ->
  forall fuel al v v' al', length al = length cons -> loop fuel cons al v = Some (Ok (v', al')) ->
  (forall k, (k < N)%nat -> v' k = v k + 1 / m k * (impulse (combine (grads cons) al') k - impulse (combine (grads cons) al) k))
  /\ (forall k, (N <= k)%nat -> v' k = v k) /\ Forall2 Rle al al'.
Proof.
  intros cons HG Ht. induction fuel as [|k IH]; intros al v v' al' Hl H; [discriminate|]. cbn [gs_loop] in H.
  destruct (sweep cons al v) as [[[v1 al1] h]| |] eqn:E; try discriminate.
  destruct (sweep_moved cons HG Ht al v v1 al1 h Hl E) as (H1 & H2 & H3).
  destruct h.
  - destruct (IH al1 v1 v' al' (sweep_length _ _ _ _ _ _ Hl E) H) as (G1 & G2 & G3).
    split; [|split].
    + intros i Hi. rewrite (G1 i Hi), (H1 i Hi). ring.
    + intros i Hi. rewrite (G2 i Hi). apply H2. exact Hi.
    + exact (Forall2_Rle_trans _ _ _ H3 G3).
  - injection H as <- <-. auto.
Qed.

Lemma combine_zeros : forall gs (al : list R) k, Forall (fun a => a = 0) al -> impulse (combine gs al) k = 0.
Proof.
  unfold impulse. induction gs as [|g gs IH]; intros [|a al] k H; cbn [combine fold_right]; try reflexivity.
  inversion H as [|? ? Ha HF]; subst. cbn [fst snd]. rewrite IH by exact HF. lra.
Qed.

(* ---------- termination ---------- *)
Section Terminates.
Variable cons : list (C * R).
Variable w : dvec.
Hypothesis Ht : 0 < tol.
Hypothesis HG : Forall (fun c => good (fst c) /\ 0 <= snd c <= 1 /\ 0 <= nd (fst c) w /\ (snd c < 1 \/ 0 < nd (fst c) w)) cons.

Lemma drop_bound : exists d, 0 < d /\ Forall (fun c => d <= drop tol (snd c) (fst c) w) cons.
Proof.
  revert HG. generalize cons as l. clear cons. induction l as [|[c CoR] l IH]; intros H.
  - exists 1. split; [lra|constructor].
  - inversion H as [|? ? [Hg [Hc [Hw Hs]]] H']; subst. destruct (IH H') as (d & Hd & HF). cbn [fst snd] in *. exists (Rmin d (drop tol CoR c w)). split.
    + apply Rmin_glb_lt; [exact Hd|]. apply drop_pos; assumption.
    + constructor; [apply Rmin_r|]. eapply Forall_impl; [|exact HF]. intros e He. cbn in *. eapply Rle_trans; [apply Rmin_l|exact He].
Qed.

Lemma sweep_total_gen : forall d l, Forall (fun c => good (fst c) /\ 0 <= snd c <= 1 /\ 0 <= nd (fst c) w) l ->
  Forall (fun c => d <= drop tol (snd c) (fst c) w) l -> 0 < d ->
  forall al v, length al = length l -> exists v' al' h, sweep l al v = Ok (v', al', h)
    /\ energy N m w v' <= energy N m w v - (if h then d else 0).
Proof.
  intros d l HL HD Hd. induction l as [|[c CoR] l IH]; intros [|a al] v Hl; try discriminate Hl; cbn [gs_sweep].
  - exists v, [], false. split; [reflexivity|]. change (if false then d else 0) with 0. lra.
  - inversion HL as [|? ? [Hg [Hc Hw]] HL']; subst. inversion HD as [|? ? Hdc HD']; subst. cbn [fst snd] in *.
    assert (Hl' : length al = length l) by (cbn [length] in Hl; lia).
    destruct (Rlt_dec (nd c v) (- tol)) as [Hlt|Hge].
    + destruct Hg as (Hg1 & Hg2 & Hg3 & Hg4). destruct (Hg4 CoR v) as (u & Eu & Hu). rewrite Eu. cbn [obind].
      destruct (IH HL' HD' al u Hl') as (v' & al' & h & E & He). rewrite E. cbn [obind].
      exists v', ((a + - (1 + CoR) * nd c v / gram m (grad c)) :: al'), true. split; [reflexivity|].
      pose proof (good_energy_drop tol c CoR v u _ w (conj Hg1 (conj Hg2 (conj Hg3 Hg4))) Ht Hc Hlt Hw Eu).
      destruct h; lra.
    + destruct (IH HL' HD' al v Hl') as (v' & al' & h & E & He). rewrite E. cbn [obind].
      exists v', (a :: al'), h. split; [reflexivity|exact He].
Qed.

Lemma loop_total : forall al v, length al = length cons -> exists fuel v' al', loop fuel cons al v = Some (Ok (v', al')).
Proof.
  intros al v Hl. destruct drop_bound as (d & Hd & HD).
  assert (HL : Forall (fun c => good (fst c) /\ 0 <= snd c <= 1 /\ 0 <= nd (fst c) w) cons).
  { eapply Forall_impl; [|exact HG]. intros c (H1 & H2 & H3 & _). auto. }
  assert (K : forall n al v, length al = length cons -> energy N m w v < INR n * d ->
    exists fuel v' al', loop fuel cons al v = Some (Ok (v', al'))).
  { induction n as [|n IH]; intros al1 v1 Hl1 He.
    - exfalso. cbn [INR] in He. pose proof (energy_nonneg N m w v1 Hm). lra.
    - destruct (sweep_total_gen d cons HL HD Hd al1 v1 Hl1) as (v' & al' & h & E & Hen).
      destruct h.
      + destruct (IH al' v' (sweep_length _ _ _ _ _ _ Hl1 E)) as (fuel & v2 & al2 & E2).
        { rewrite S_INR in He. lra. }
        exists (S fuel), v2, al2. cbn [gs_loop]. rewrite E. exact E2.
      + exists 1%nat, v', al'. cbn [gs_loop]. rewrite E. reflexivity. }
  destruct (archimed (energy N m w v / d)) as [Hup _].
  assert (Hz : (0 <= up (energy N m w v / d))%Z).
  { apply le_IZR. pose proof (energy_nonneg N m w v Hm).
    assert (0 <= energy N m w v / d) by (apply Rmult_le_pos; [assumption|left; apply Rinv_0_lt_compat; exact Hd]). lra. }
  apply (K (Z.to_nat (up (energy N m w v / d))) al v Hl).
  rewrite INR_IZR_INZ, Z2Nat.id by exact Hz.
  apply Rmult_lt_reg_r with (r := / d); [apply Rinv_0_lt_compat; exact Hd|].
  replace (IZR (up (energy N m w v / d)) * d * / d) with (IZR (up (energy N m w v / d))) by (field; lra). exact Hup.
Qed.
End Terminates.
End Generic.
