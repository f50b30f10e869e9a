(* Sums of updates, momenta and the two integrators. *)
From Coq Require Import List Reals Arith Bool Lia Lra FunctionalExtensionality.
From Verif Require Import Ccd_Model Lin_Model Lin_Proofs ContactBall_Model ContactRb2_Model Integr_Model Integr_Spec.
Import ListNotations.
Open Scope R_scope.

Lemma vec_eq : forall (a b : vec), fst a = fst b -> snd a = snd b -> a = b.
Proof. intros [a1 a2] [b1 b2]; cbn; intros; subst; reflexivity. Qed.

Lemma rsum_minus : forall n f g, rsum n (fun i => f i - g i) = rsum n f - rsum n g.
Proof. induction n as [|n IH]; intros f g; cbn [rsum]; [lra|]. rewrite IH. lra. Qed.

Lemma rsum_scal_r : forall n a f, rsum n (fun i => f i * a) = rsum n f * a.
Proof. induction n as [|n IH]; intros a f; cbn [rsum]; [lra|]. rewrite IH. lra. Qed.

Lemma rsum_pairs : forall n f, rsum (2 * n) f = rsum n (fun i => f (2 * i)%nat + f (2 * i + 1)%nat).
Proof.
  induction n as [|n IH]; intros f; [reflexivity|].
  replace (2 * S n)%nat with (S (S (2 * n))) by lia. cbn [rsum]. rewrite IH.
  replace (2 * n + 1)%nat with (S (2 * n)) by lia. lra.
Qed.

Lemma rsum_triples : forall n f,
  rsum (3 * n) f = rsum n (fun i => f (3 * i)%nat + f (3 * i + 1)%nat + f (3 * i + 2)%nat).
Proof.
  induction n as [|n IH]; intros f; [reflexivity|].
  replace (3 * S n)%nat with (S (S (S (3 * n)))) by lia. cbn [rsum]. rewrite IH.
  replace (3 * n + 1)%nat with (S (3 * n)) by lia. replace (3 * n + 2)%nat with (S (S (3 * n))) by lia. lra.
Qed.

(* ---------- updates ---------- *)
Definition comp (u : update) (k : nat) : R :=
  if Nat.eqb k (fst u + 0) then fst (snd u) else if Nat.eqb k (fst u + 1) then snd (snd u) else 0.
Definition upd_sum (us : list update) (k : nat) : R := fold_right (fun u s => comp u k + s) 0 us.

Lemma apply_updates_value : forall us F k, apply_updates us F k = F k + upd_sum us k.
Proof.
  induction us as [|u us IH]; intros F k; cbn [apply_updates fold_left upd_sum fold_right]; [lra|].
  fold (apply_updates us (add_seg2 F (fst u) (snd u))). rewrite IH.
  change (fold_right (fun u s => comp u k + s) 0 us) with (upd_sum us k). unfold add_seg2, comp. destruct (Nat.eqb k (fst u + 0)); destruct (Nat.eqb k (fst u + 1)); lra.
Qed.

Lemma upd_sum_app : forall a b k, upd_sum (a ++ b) k = upd_sum a k + upd_sum b k.
Proof.
  induction a as [|u a IH]; intros b k; [change (upd_sum [] k) with 0; cbn [app]; lra|].
  change (upd_sum ((u :: a) ++ b) k) with (comp u k + upd_sum (a ++ b) k).
  change (upd_sum (u :: a) k) with (comp u k + upd_sum a k). rewrite IH. lra.
Qed.

Lemma upd_sum_seq : forall (f : nat -> update) n k, upd_sum (map f (seq 0 n)) k = rsum n (fun i => comp (f i) k).
Proof.
  induction n as [|n IH]; intros k; [reflexivity|].
  rewrite seq_S, map_app, upd_sum_app, IH. cbn [map upd_sum fold_right rsum plus]. lra.
Qed.

(* the updates touch the translational entries of bodies below n *)
Definition on_bodies (s n : nat) (us : list update) : Prop :=
  forall u, In u us -> exists j, (j < n)%nat /\ fst u = (s * j)%nat.

Definition wsum (s : nat) (w : nat -> vec) (us : list update) : R :=
  fold_right (fun u t => vdot (w (fst u / s)%nat) (snd u) + t) 0 us.

Lemma wsum_app : forall s w a b, wsum s w (a ++ b) = wsum s w a + wsum s w b.
Proof.
  induction a as [|u a IH]; intros b; [change (wsum s w []) with 0; cbn [app]; lra|].
  change (wsum s w ((u :: a) ++ b)) with (vdot (w (fst u / s)%nat) (snd u) + wsum s w (a ++ b)).
  change (wsum s w (u :: a)) with (vdot (w (fst u / s)%nat) (snd u) + wsum s w a). rewrite IH. lra.
Qed.

Lemma comp_body : forall s j x i, (2 <= s)%nat ->
  body s (comp ((s * j)%nat, x)) i = if Nat.eqb i j then x else vzero.
Proof.
  intros s j x i Hs. unfold body, comp. cbn [fst snd].
  destruct (Nat.eqb_spec i j) as [->|Hne].
  - rewrite Nat.add_0_r, Nat.eqb_refl.
    destruct (Nat.eqb_spec (s * j + 1) (s * j)); [lia|]. rewrite Nat.eqb_refl. destruct x; reflexivity.
  - assert (forall a b, (a < s)%nat -> (b < s)%nat -> (s * i + a)%nat <> (s * j + b)%nat) as Hn.
    { intros a b Ha Hb E. apply row_inj in E; [|assumption|assumption]. destruct E; contradiction. }
    destruct (Nat.eqb_spec (s * i) (s * j + 0)) as [E|_]; [exfalso; apply (Hn 0%nat 0%nat); lia|].
    destruct (Nat.eqb_spec (s * i) (s * j + 1)) as [E|_]; [exfalso; apply (Hn 0%nat 1%nat); lia|].
    destruct (Nat.eqb_spec (s * i + 1) (s * j + 0)) as [E|_]; [exfalso; apply (Hn 1%nat 0%nat); lia|].
    destruct (Nat.eqb_spec (s * i + 1) (s * j + 1)) as [E|_]; [exfalso; apply (Hn 1%nat 1%nat); lia|].
    reflexivity.
Qed.

Lemma wsum_total : forall s n w us, (2 <= s)%nat -> on_bodies s n us ->
  rsum n (fun i => vdot (w i) (body s (upd_sum us) i)) = wsum s w us.
Proof.
  intros s n w us Hs. induction us as [|u us IH]; intros H.
  - cbn [wsum fold_right]. apply rsum_zero. intros i _. unfold vdot, body. cbn. lra.
  - cbn [wsum fold_right]. fold (wsum s w us). rewrite <- IH by (intros v Hv; apply H; right; exact Hv).
    destruct (H u (or_introl eq_refl)) as (j & Hj & E). destruct u as [k x]. cbn [fst snd] in *. subst k.
    rewrite (rsum_ext n _ (fun i => vdot (w i) (body s (comp ((s * j)%nat, x)) i) + vdot (w i) (body s (upd_sum us) i)))
      by (intros i _; unfold vdot, body, upd_sum; cbn [fold_right fst snd]; ring).
    rewrite rsum_plus. f_equal.
    rewrite (rsum_one n _ j Hj).
    + rewrite comp_body by exact Hs. rewrite Nat.eqb_refl.
      replace (s * j / s)%nat with j by (rewrite Nat.mul_comm, Nat.div_mul; lia). reflexivity.
    + intros i _ Hne. rewrite comp_body by exact Hs. destruct (Nat.eqb_spec i j); [contradiction|].
      unfold vdot, vzero. cbn. lra.
Qed.

(* ---------- gravity ---------- *)
Definition gravity_updates (s n : nat) (M : dvec) (g : vec) : list update :=
  map (fun i => ((s * i)%nat, vscale (M (s * i)%nat) g)) (seq 0 n).

Lemma gravity_on : forall s n M g, on_bodies s n (gravity_updates s n M g).
Proof.
  intros s n M g u H. apply in_map_iff in H. destruct H as (i & <- & Hi). apply in_seq in Hi. exists i. split; [lia|reflexivity].
Qed.

Lemma gravity_value : forall s n M g i, (2 <= s)%nat -> (i < n)%nat ->
  body s (upd_sum (gravity_updates s n M g)) i = vscale (M (s * i)%nat) g.
Proof.
  intros s n M g i Hs Hi. unfold gravity_updates.
  assert (forall k, body s (upd_sum (map (fun i => ((s * i)%nat, vscale (M (s * i)%nat) g)) (seq 0 n))) k
          = (rsum n (fun j => fst (body s (comp ((s * j)%nat, vscale (M (s * j)%nat) g)) k)),
             rsum n (fun j => snd (body s (comp ((s * j)%nat, vscale (M (s * j)%nat) g)) k)))) as E.
  { intros k. unfold body. cbn [fst snd]. rewrite !upd_sum_seq. reflexivity. }
  rewrite E. apply vec_eq; cbn [fst snd].
  - rewrite (rsum_one n _ i Hi).
    + rewrite comp_body by exact Hs. rewrite Nat.eqb_refl. reflexivity.
    + intros j _ Hne. rewrite comp_body by exact Hs. destruct (Nat.eqb_spec i j); [congruence|reflexivity].
  - rewrite (rsum_one n _ i Hi).
    + rewrite comp_body by exact Hs. rewrite Nat.eqb_refl. reflexivity.
    + intros j _ Hne. rewrite comp_body by exact Hs. destruct (Nat.eqb_spec i j); [congruence|reflexivity].
Qed.

Lemma gravity_spin : forall n M g i, upd_sum (gravity_updates 3 n M g) (3 * i + 2)%nat = 0.
Proof.
  intros n M g i. unfold gravity_updates. rewrite upd_sum_seq. apply rsum_zero. intros j _. unfold comp. cbn [fst snd].
  destruct (Nat.eqb_spec (3 * i + 2) (3 * j + 0)); [lia|]. destruct (Nat.eqb_spec (3 * i + 2) (3 * j + 1)); [lia|]. reflexivity.
Qed.

Lemma wsum_gravity : forall s n M g w, (2 <= s)%nat ->
  wsum s w (gravity_updates s n M g) = rsum n (fun i => M (s * i)%nat * vdot (w i) g).
Proof.
  intros s n M g w Hs. rewrite <- (wsum_total s n) by (try exact Hs; apply gravity_on).
  apply rsum_ext. intros i Hi. rewrite gravity_value by assumption. unfold vdot, vscale. cbn [fst snd]. ring.
Qed.

(* ---------- the ball forces ---------- *)
Lemma in_pairs_lt : forall n p, In p (pairs_lt n) -> (fst p < snd p < n)%nat.
Proof.
  intros n p H. unfold pairs_lt in H. apply in_flat_map in H. destruct H as (i & Hi & H).
  apply in_map_iff in H. destruct H as (j & <- & Hj). apply in_seq in Hi. apply in_seq in Hj. cbn [fst snd]. lia.
Qed.

Lemma pairs_lt_in : forall n i j, (i < j < n)%nat -> In (i, j) (pairs_lt n).
Proof.
  intros n i j H. unfold pairs_lt. apply in_flat_map. exists i. split; [apply in_seq; lia|].
  apply in_map_iff. exists j. split; [reflexivity|]. apply in_seq. lia.
Qed.

Lemma collect_ind : forall {A B} (P : list B -> Prop) (f : A -> option (list B)) l us,
  P [] -> (forall a b, P a -> P b -> P (a ++ b)) -> (forall x us, In x l -> f x = Some us -> P us) ->
  collect f l = Some us -> P us.
Proof.
  intros A B P f l. induction l as [|x l IH]; intros us Hn Ha Hf E; cbn [collect] in E.
  - injection E as <-. exact Hn.
  - destruct (f x) as [a|] eqn:Ea; [|discriminate]. destruct (collect f l) as [b|] eqn:Eb; [|discriminate].
    injection E as <-. apply Ha.
    + apply (Hf x); [left; reflexivity|exact Ea].
    + apply IH; try assumption; [|reflexivity]. intros y vs Hy. apply Hf. right. exact Hy.
Qed.

Lemma on_app : forall s n a b, on_bodies s n a -> on_bodies s n b -> on_bodies s n (a ++ b).
Proof. intros s n a b Ha Hb u H. apply in_app_iff in H. destruct H; auto. Qed.

Lemma div2 : forall j, (2 * j / 2)%nat = j.
Proof. intros j. rewrite Nat.mul_comm, Nat.div_mul; lia. Qed.

Lemma penalty_pair_facts : forall k power r q n p us, (fst p < snd p < n)%nat -> penalty_pair k power r q p = Some us ->
  on_bodies 2 n us
  /\ (forall c, wsum 2 (fun _ => c) us = 0)
  /\ wsum 2 (fun i => vperp (body 2 q i)) us = 0.
Proof.
  intros k power r q n p us Hp E. unfold penalty_pair in E.
  destruct (Rlt_dec _ _) as [Hs|Hs] in E.
  { injection E as <-. repeat split; try reflexivity. intros u []. }
  destruct (Req_EM_T _ 0) as [Hd|Hd] in E; [discriminate|].
  destruct (cpow _ _) as [w|] eqn:Ew in E; [|discriminate]. injection E as <-.
  split; [|split].
  - intros u [<-|[<-|[]]]; cbn [fst]; eexists; (split; [|reflexivity]); lia.
  - intros c. cbn [wsum fold_right fst snd]. unfold vdot, vneg, vscale. cbn [fst snd]. ring.
  - cbn [wsum fold_right fst snd]. change (snd p + (snd p + 0))%nat with (2 * snd p)%nat.
    change (fst p + (fst p + 0))%nat with (2 * fst p)%nat. rewrite !div2. unfold vdot, vneg, vscale, vperp, vsub, body, seg2. cbn [fst snd].
    rewrite !Nat.add_0_r. ring.
Qed.

Lemma force_facts : forall n M r q f us, force_updates n M r q f = Some us ->
  on_bodies 2 n us
  /\ (forall c, wsum 2 (fun _ => c) us = total_mass 2 n M * vdot c (gravity_of f))
  /\ wsum 2 (fun i => vperp (body 2 q i)) us = rsum n (fun i => M (2 * i)%nat * vcross (body 2 q i) (gravity_of f)).
Proof.
  intros n M r q [g|k power] us E; cbn [force_updates] in E.
  - injection E as <-. change (map _ (seq 0 n)) with (gravity_updates 2 n M g). split; [apply gravity_on|]. split.
    + intros c. rewrite wsum_gravity by lia. cbn [gravity_of]. unfold total_mass. rewrite rsum_scal_r. reflexivity.
    + rewrite wsum_gravity by lia. cbn [gravity_of]. apply rsum_ext. intros i _. unfold vdot, vperp, vcross. cbn [fst snd]. ring.
  - cbn [gravity_of]. revert E.
    apply (collect_ind (fun us => on_bodies 2 n us
       /\ (forall c, wsum 2 (fun _ => c) us = total_mass 2 n M * vdot c vzero)
       /\ wsum 2 (fun i => vperp (body 2 q i)) us = rsum n (fun i => M (2 * i)%nat * vcross (body 2 q i) vzero))).
    + split; [intros u []|]. split; [intros c; unfold vdot, vzero; cbn; ring|].
      cbn. symmetry. apply rsum_zero. intros i _. unfold vcross, vzero. cbn. ring.
    + intros a b (A1 & A2 & A3) (B1 & B2 & B3). split; [apply on_app; assumption|].
      split; [intros c; rewrite wsum_app, A2, B2; unfold vdot, vzero; cbn; ring|].
      rewrite wsum_app, A3, B3, <- rsum_plus. apply rsum_ext. intros i _. unfold vcross, vzero. cbn. ring.
    + intros p vs Hp Ep. apply in_pairs_lt in Hp. destruct (penalty_pair_facts _ _ _ _ _ _ _ Hp Ep) as (A1 & A2 & A3).
      split; [exact A1|]. split; [intros c; rewrite A2; unfold vdot, vzero; cbn; ring|].
      rewrite A3. symmetry. apply rsum_zero. intros i _. unfold vcross, vzero. cbn. ring.
Qed.

Lemma forces_facts : forall n M r q fs us, collect (force_updates n M r q) fs = Some us ->
  on_bodies 2 n us
  /\ (forall c, wsum 2 (fun _ => c) us = total_mass 2 n M * vdot c (vsum (map gravity_of fs)))
  /\ wsum 2 (fun i => vperp (body 2 q i)) us
     = rsum n (fun i => M (2 * i)%nat * vcross (body 2 q i) (vsum (map gravity_of fs))).
Proof.
  intros n M r q fs. induction fs as [|f fs IH]; intros us E; cbn [collect] in E.
  - injection E as <-. split; [intros u []|]. split; [intros c; unfold vdot, vsum, vzero; cbn; ring|].
    cbn. symmetry. apply rsum_zero. intros i _. unfold vcross, vzero. cbn. ring.
  - destruct (force_updates n M r q f) as [a|] eqn:Ea; [|discriminate].
    destruct (collect _ fs) as [b|] eqn:Eb; [|discriminate]. injection E as <-.
    destruct (force_facts _ _ _ _ _ _ Ea) as (A1 & A2 & A3). destruct (IH b eq_refl) as (B1 & B2 & B3).
    split; [apply on_app; assumption|]. cbn [map vsum fold_right]. fold (vsum (map gravity_of fs)).
    split.
    + intros c. rewrite wsum_app, A2, B2. unfold vdot, vadd. cbn [fst snd]. ring.
    + rewrite wsum_app, A3, B3, <- rsum_plus. apply rsum_ext. intros i _. unfold vcross, vadd. cbn [fst snd]. ring.
Qed.

Lemma apply_zero : forall us, apply_updates us (fun _ => 0) = upd_sum us.
Proof. intros us. apply functional_extensionality. intros k. rewrite apply_updates_value. lra. Qed.

(* net force and net torque about the origin *)
Lemma ball_force_net : forall w q v F, ball_compute_force w q v = Some F ->
  (forall c, rsum (bl_n w) (fun i => vdot c (body 2 F i))
             = total_mass 2 (bl_n w) (bl_M w) * vdot c (vsum (map gravity_of (bl_forces w))))
  /\ rsum (bl_n w) (fun i => vcross (body 2 q i) (body 2 F i))
     = rsum (bl_n w) (fun i => bl_M w (2 * i)%nat * vcross (body 2 q i) (vsum (map gravity_of (bl_forces w)))).
Proof.
  intros w q v F E. unfold ball_compute_force in E. destruct (collect _ _) as [us|] eqn:Eu; [|discriminate].
  injection E as <-. rewrite apply_zero. destruct (forces_facts _ _ _ _ _ _ Eu) as (A1 & A2 & A3). split.
  - intros c. rewrite <- A2, <- (wsum_total 2 (bl_n w)) by (try exact A1; lia). reflexivity.
  - rewrite <- A3, <- (wsum_total 2 (bl_n w)) by (try exact A1; lia).
    apply rsum_ext. intros i _. unfold vcross, vdot, vperp. cbn [fst snd]. ring.
Qed.

(* ---------- kicks and drifts ---------- *)
Lemma momentum_kick : forall s n M v h F, masses_ok s n M ->
  momentum s n M (axpy v h (diag_minv M F))
  = vadd (momentum s n M v) (vscale h (rsum n (fun i => fst (body s F i)), rsum n (fun i => snd (body s F i)))).
Proof.
  intros s n M v h F HM. unfold momentum. apply vec_eq; cbn [fst snd vadd vscale].
  - rewrite <- rsum_scal, <- rsum_plus. apply rsum_ext. intros i Hi. destruct (HM i Hi) as [Hp Hq].
    unfold body, axpy, diag_minv. cbn [fst snd]. field. lra.
  - rewrite <- rsum_scal, <- rsum_plus. apply rsum_ext. intros i Hi. destruct (HM i Hi) as [Hp Hq].
    unfold body, axpy, diag_minv. cbn [fst snd]. rewrite Hq. field. lra.
Qed.

Lemma orbital_kick : forall s n M q v h F, masses_ok s n M ->
  orbital s n M q (axpy v h (diag_minv M F)) = orbital s n M q v + h * rsum n (fun i => vcross (body s q i) (body s F i)).
Proof.
  intros s n M q v h F HM. unfold orbital. rewrite <- rsum_scal, <- rsum_plus. apply rsum_ext. intros i Hi.
  destruct (HM i Hi) as [Hp Hq]. unfold vcross, body, axpy, diag_minv. cbn [fst snd]. rewrite Hq. field. lra.
Qed.

Lemma orbital_drift : forall s n M q v h, orbital s n M (axpy q h v) v = orbital s n M q v.
Proof. intros. unfold orbital. apply rsum_ext. intros i _. unfold vcross, body, axpy. cbn [fst snd]. ring. Qed.

Lemma axpy_body : forall s v h u i, body s (axpy v h u) i = vadd (body s v i) (vscale h (body s u i)).
Proof. reflexivity. Qed.

Lemma net_pair : forall n (F : nat -> vec) c, (forall x, rsum n (fun i => vdot x (F i)) = vdot x c) ->
  (rsum n (fun i => fst (F i)), rsum n (fun i => snd (F i))) = c.
Proof.
  intros n F c H. apply vec_eq; cbn [fst snd].
  - specialize (H (1, 0)). unfold vdot in H. cbn [fst snd] in H. rewrite Rmult_1_l, Rmult_0_l, Rplus_0_r in H. rewrite <- H.
    apply rsum_ext. intros; ring.
  - specialize (H (0, 1)). unfold vdot in H. cbn [fst snd] in H. rewrite Rmult_1_l, Rmult_0_l, Rplus_0_l in H. rewrite <- H.
    apply rsum_ext. intros; ring.
Qed.

Lemma ball_net : forall w q v F, ball_compute_force w q v = Some F ->
  (rsum (bl_n w) (fun i => fst (body 2 F i)), rsum (bl_n w) (fun i => snd (body 2 F i)))
  = vscale (total_mass 2 (bl_n w) (bl_M w)) (vsum (map gravity_of (bl_forces w))).
Proof.
  intros w q v F E. destruct (ball_force_net _ _ _ _ E) as [H _]. apply (net_pair _ (body 2 F)). intros x. rewrite H.
  unfold vdot, vscale. cbn [fst snd]. ring.
Qed.

(* ---------- momentum over any number of steps ---------- *)
Lemma steps_invariant : forall (P : nat -> phase -> Prop) step,
  (forall k s s', P k s -> step s = Some s' -> P (S k) s') ->
  forall k s s', P 0%nat s -> steps step k s = Some s' -> P k s'.
Proof.
  intros P step H. induction k as [|k IH]; intros s s' H0 E; cbn [steps] in E.
  - injection E as <-. exact H0.
  - destruct (steps step k s) as [s1|] eqn:E1; [|discriminate]. apply (H k s1); [|exact E]. apply (IH s); [exact H0|exact E1].
Qed.

Lemma ball_euler_momentum1 : forall w dt s s', masses_ok 2 (bl_n w) (bl_M w) -> ball_euler w dt s = Some s' ->
  momentum 2 (bl_n w) (bl_M w) (snd s')
  = vadd (momentum 2 (bl_n w) (bl_M w) (snd s)) (vscale (dt * total_mass 2 (bl_n w) (bl_M w)) (vsum (map gravity_of (bl_forces w)))).
Proof.
  intros w dt s s' HM E. unfold ball_euler in E. destruct (ball_compute_force w (fst s) (snd s)) as [F|] eqn:EF; [|discriminate].
  injection E as <-. cbn [snd]. rewrite momentum_kick by exact HM. rewrite (ball_net _ _ _ _ EF).
  unfold vadd, vscale. cbn [fst snd]. f_equal; ring.
Qed.

Lemma ball_verlet_momentum1 : forall w dt s s', masses_ok 2 (bl_n w) (bl_M w) -> ball_verlet w dt s = Some s' ->
  momentum 2 (bl_n w) (bl_M w) (snd s')
  = vadd (momentum 2 (bl_n w) (bl_M w) (snd s)) (vscale (dt * total_mass 2 (bl_n w) (bl_M w)) (vsum (map gravity_of (bl_forces w)))).
Proof.
  intros w dt s s' HM E. unfold ball_verlet in E. destruct (ball_compute_force w (fst s) (snd s)) as [F|] eqn:EF; [|discriminate].
  cbv zeta in E. destruct (ball_compute_force w (axpy _ _ _) _) as [F1|] eqn:EF1 in E; [|discriminate].
  injection E as <-. cbn [snd]. rewrite !momentum_kick by exact HM. rewrite (ball_net _ _ _ _ EF), (ball_net _ _ _ _ EF1).
  unfold vadd, vscale. cbn [fst snd]. f_equal; field.
Qed.

Lemma momentum_many : forall w dt step, masses_ok 2 (bl_n w) (bl_M w) ->
  (forall s s', step s = Some s' -> momentum 2 (bl_n w) (bl_M w) (snd s')
     = vadd (momentum 2 (bl_n w) (bl_M w) (snd s)) (vscale (dt * total_mass 2 (bl_n w) (bl_M w)) (vsum (map gravity_of (bl_forces w))))) ->
  forall k s s', steps step k s = Some s' ->
  momentum 2 (bl_n w) (bl_M w) (snd s')
  = vadd (momentum 2 (bl_n w) (bl_M w) (snd s))
         (vscale (INR k * dt * total_mass 2 (bl_n w) (bl_M w)) (vsum (map gravity_of (bl_forces w)))).
Proof.
  intros w dt step HM H k s s' E.
  apply (steps_invariant (fun k t => momentum 2 (bl_n w) (bl_M w) (snd t)
     = vadd (momentum 2 (bl_n w) (bl_M w) (snd s))
         (vscale (INR k * dt * total_mass 2 (bl_n w) (bl_M w)) (vsum (map gravity_of (bl_forces w)))))) with (step := step) (s := s).
  - intros j t t' IH Et. rewrite (H t t' Et), IH, S_INR. unfold vadd, vscale. cbn [fst snd]. f_equal; ring.
  - cbn [INR]. unfold vadd, vscale. apply vec_eq; cbn [fst snd]; ring.
  - exact E.
Qed.

(* ---------- angular momentum ---------- *)
Lemma ball_euler_orbital1 : forall w dt s s', masses_ok 2 (bl_n w) (bl_M w) -> ball_euler w dt s = Some s' ->
  orbital 2 (bl_n w) (bl_M w) (fst s') (snd s')
  = orbital 2 (bl_n w) (bl_M w) (fst s) (snd s)
    + dt * rsum (bl_n w) (fun i => bl_M w (2 * i)%nat * vcross (body 2 (fst s) i) (vsum (map gravity_of (bl_forces w)))).
Proof.
  intros w dt s s' HM E. unfold ball_euler in E. destruct (ball_compute_force w (fst s) (snd s)) as [F|] eqn:EF; [|discriminate].
  injection E as <-. cbn [fst snd]. rewrite orbital_drift, orbital_kick by exact HM.
  destruct (ball_force_net _ _ _ _ EF) as [_ ->]. reflexivity.
Qed.

Lemma ball_verlet_orbital1 : forall w dt s s', masses_ok 2 (bl_n w) (bl_M w) -> ball_verlet w dt s = Some s' ->
  orbital 2 (bl_n w) (bl_M w) (fst s') (snd s')
  = orbital 2 (bl_n w) (bl_M w) (fst s) (snd s)
    + dt / 2 * (rsum (bl_n w) (fun i => bl_M w (2 * i)%nat * vcross (body 2 (fst s) i) (vsum (map gravity_of (bl_forces w))))
              + rsum (bl_n w) (fun i => bl_M w (2 * i)%nat * vcross (body 2 (fst s') i) (vsum (map gravity_of (bl_forces w))))).
Proof.
  intros w dt s s' HM E. unfold ball_verlet in E. destruct (ball_compute_force w (fst s) (snd s)) as [F|] eqn:EF; [|discriminate].
  cbv zeta in E. destruct (ball_compute_force w (axpy _ _ _) _) as [F1|] eqn:EF1 in E; [|discriminate].
  injection E as <-. cbn [fst snd]. rewrite orbital_kick by exact HM. rewrite orbital_drift, orbital_kick by exact HM.
  destruct (ball_force_net _ _ _ _ EF) as [_ ->]. destruct (ball_force_net _ _ _ _ EF1) as [_ ->]. field.
Qed.

Lemma cross_zero_sum : forall n (M q : dvec), rsum n (fun i => M (2 * i)%nat * vcross (body 2 q i) vzero) = 0.
Proof. intros. apply rsum_zero. intros i _. unfold vcross, vzero. cbn. ring. Qed.

Lemma orbital_many : forall w step,
  (forall s s', step s = Some s' -> orbital 2 (bl_n w) (bl_M w) (fst s') (snd s') = orbital 2 (bl_n w) (bl_M w) (fst s) (snd s)) ->
  forall k s s', steps step k s = Some s' ->
  orbital 2 (bl_n w) (bl_M w) (fst s') (snd s') = orbital 2 (bl_n w) (bl_M w) (fst s) (snd s).
Proof.
  intros w step H k s s' E.
  apply (steps_invariant (fun _ t => orbital 2 (bl_n w) (bl_M w) (fst t) (snd t) = orbital 2 (bl_n w) (bl_M w) (fst s) (snd s)))
    with (step := step) (k := k) (s := s); [|reflexivity|exact E].
  intros _ t t' IH Et. rewrite (H t t' Et). exact IH.
Qed.

(* ---------- reversibility ---------- *)
Lemma steps_front : forall step k s, steps step (S k) s = match step s with Some s' => steps step k s' | None => None end.
Proof.
  intros step k. induction k as [|k IH]; intros s.
  - cbn [steps]. destruct (step s); reflexivity.
  - change (steps step (S (S k)) s) with (match steps step (S k) s with Some s' => step s' | None => None end).
    rewrite IH. destruct (step s) as [s'|]; [|reflexivity]. reflexivity.
Qed.

Lemma reverse_many : forall step, (forall s s', step s = Some s' -> step (reverse s') = Some (reverse s)) ->
  forall k s s', steps step k s = Some s' -> steps step k (reverse s') = Some (reverse s).
Proof.
  intros step H. induction k as [|k IH]; intros s s' E.
  - cbn [steps] in *. injection E as <-. reflexivity.
  - cbn [steps] in E. destruct (steps step k s) as [s1|] eqn:E1; [|discriminate].
    rewrite steps_front, (H s1 s' E). apply IH. exact E1.
Qed.

Lemma ball_force_no_v : forall w q v v', ball_compute_force w q v = ball_compute_force w q v'.
Proof. reflexivity. Qed.

Lemma ball_verlet_reverse : forall w dt s s', ball_verlet w dt s = Some s' -> ball_verlet w dt (reverse s') = Some (reverse s).
Proof.
  intros w dt [q v] s' E. unfold ball_verlet in E. cbn [fst snd] in E.
  destruct (ball_compute_force w q v) as [F|] eqn:EF; [|discriminate].
  cbv zeta in E. destruct (ball_compute_force w (axpy _ _ _) _) as [F1|] eqn:EF1 in E; [|discriminate].
  injection E as <-. unfold ball_verlet, reverse. cbn [fst snd].
  rewrite (ball_force_no_v w _ _ v), EF1. cbv zeta.
  match goal with |- context [ball_compute_force w ?x _] => replace x with q end.
  - rewrite (ball_force_no_v w _ _ v), EF. f_equal. f_equal.
    apply functional_extensionality. intros k. unfold axpy, opposite, diag_minv. ring.
  - apply functional_extensionality. intros k. unfold axpy, opposite, diag_minv. ring.
Qed.

Lemma rb2_force_no_v : forall w q v q' v', rb2_compute_force w q v = rb2_compute_force w q' v'.
Proof. reflexivity. Qed.

Lemma rb2_verlet_reverse : forall w dt s s', rb2_verlet w dt s = Some s' -> rb2_verlet w dt (reverse s') = Some (reverse s).
Proof.
  intros w dt [q v] s' E. unfold rb2_verlet in *. cbv zeta in *. injection E as <-. unfold reverse. cbn [fst snd].
  f_equal. f_equal; apply functional_extensionality; intros k; unfold axpy, opposite, diag_minv, rb2_compute_force; ring.
Qed.
