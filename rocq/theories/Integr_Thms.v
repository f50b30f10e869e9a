(* Closed forms under gravity, fixed bodies, energies. *)
From Coq Require Import List Reals Arith Bool Lia Lra FunctionalExtensionality.
From Verif Require Import Ccd_Model Lin_Model Lin_Proofs ContactBall_Model ContactRb2_Model Integr_Model Integr_Spec Integr_Proofs.
Import ListNotations.
Open Scope R_scope.

(* ---------- gravity only ---------- *)
Lemma collect_gravity : forall n M r q gs,
  collect (force_updates n M r q) (map Gravity gs) = Some (flat_map (gravity_updates 2 n M) gs).
Proof.
  intros n M r q gs. induction gs as [|g gs IH]; [reflexivity|]. cbn [map collect flat_map]. rewrite IH. reflexivity.
Qed.

Lemma gravities_value : forall s n M gs i, (2 <= s)%nat -> (i < n)%nat ->
  body s (upd_sum (flat_map (gravity_updates s n M) gs)) i = vscale (M (s * i)%nat) (vsum gs).
Proof.
  intros s n M gs i Hs Hi. induction gs as [|g gs IH].
  - unfold body, vscale, vsum, vzero. cbn. f_equal; ring.
  - cbn [flat_map vsum fold_right]. fold (vsum gs).
    assert (forall a b, body s (upd_sum (a ++ b)) i = vadd (body s (upd_sum a) i) (body s (upd_sum b) i)) as E
      by (intros a b; unfold body, vadd; cbn [fst snd]; rewrite !upd_sum_app; reflexivity).
    rewrite E, IH, gravity_value by assumption. unfold vadd, vscale. cbn [fst snd]. f_equal; ring.
Qed.

Lemma gravities_spin : forall n M gs i, upd_sum (flat_map (gravity_updates 3 n M) gs) (3 * i + 2)%nat = 0.
Proof.
  intros n M gs i. induction gs as [|g gs IH]; [reflexivity|].
  cbn [flat_map]. rewrite upd_sum_app, IH, gravity_spin. lra.
Qed.

(* the accelerations gravity gives *)
Definition ball_gravity_acc (w : balls) (gs : list vec) : dvec :=
  diag_minv (bl_M w) (upd_sum (flat_map (gravity_updates 2 (bl_n w) (bl_M w)) gs)).

Lemma ball_gravity_force : forall w gs q v, bl_forces w = map Gravity gs ->
  ball_compute_force w q v = Some (upd_sum (flat_map (gravity_updates 2 (bl_n w) (bl_M w)) gs)).
Proof. intros w gs q v E. unfold ball_compute_force. rewrite E, collect_gravity, apply_zero. reflexivity. Qed.

Lemma ball_gravity_acc_value : forall w gs i, masses_ok 2 (bl_n w) (bl_M w) -> (i < bl_n w)%nat ->
  body 2 (ball_gravity_acc w gs) i = vsum gs.
Proof.
  intros w gs i HM Hi. pose proof (gravities_value 2 (bl_n w) (bl_M w) gs i ltac:(lia) Hi) as E.
  destruct (HM i Hi) as [Hp Hq]. unfold ball_gravity_acc, diag_minv, body in *.
  pose proof (f_equal fst E) as E1. pose proof (f_equal snd E) as E2. unfold vscale in E1, E2. cbn [fst snd] in E1, E2.
  rewrite Hq, E1, E2. apply vec_eq; cbn [fst snd]; field; lra.
Qed.

Lemma ball_euler_gravity1 : forall w gs dt s, bl_forces w = map Gravity gs ->
  ball_euler w dt s = Some (axpy (fst s) dt (axpy (snd s) dt (ball_gravity_acc w gs)), axpy (snd s) dt (ball_gravity_acc w gs)).
Proof. intros w gs dt s E. unfold ball_euler. rewrite (ball_gravity_force _ _ _ _ E). reflexivity. Qed.

Lemma ball_verlet_gravity1 : forall w gs dt s, bl_forces w = map Gravity gs ->
  ball_verlet w dt s = Some (axpy (fst s) dt (axpy (snd s) (/ 2 * dt) (ball_gravity_acc w gs)),
                             axpy (axpy (snd s) (/ 2 * dt) (ball_gravity_acc w gs)) (/ 2 * dt) (ball_gravity_acc w gs)).
Proof.
  intros w gs dt s E. unfold ball_verlet. rewrite (ball_gravity_force _ _ _ _ E). cbv zeta.
  rewrite (ball_gravity_force _ _ _ _ E). reflexivity.
Qed.

(* the k-step closed forms for any step of the Euler or Verlet form with a constant acceleration *)
Lemma euler_closed : forall s step (acc : dvec) dt,
  (forall p, step p = Some (axpy (fst p) dt (axpy (snd p) dt acc), axpy (snd p) dt acc)) ->
  forall k q0 v0, exists q v, steps step k (q0, v0) = Some (q, v)
  /\ (forall j, v j = v0 j + INR k * dt * acc j)
  /\ (forall j, q j = q0 j + INR k * dt * v0 j + (INR k * dt) * (INR k * dt + dt) / 2 * acc j)
  /\ (forall i, body s v i = straight (body s v0 i) (body s acc i) (INR k * dt))
  /\ (forall i, body s q i = vadd (parabola (body s q0 i) (body s v0 i) (body s acc i) (INR k * dt))
                               (vscale (INR k * dt * dt / 2) (body s acc i))).
Proof.
  intros s step acc dt H. intros k q0 v0.
  assert (exists q v, steps step k (q0, v0) = Some (q, v)
    /\ (forall j, v j = v0 j + INR k * dt * acc j)
    /\ (forall j, q j = q0 j + INR k * dt * v0 j + (INR k * dt) * (INR k * dt + dt) / 2 * acc j)) as (q & v & E & Hv & Hq).
  { induction k as [|k (q & v & E & Hv & Hq)].
    - exists q0, v0. split; [reflexivity|]. cbn [INR]. split; intros j; field.
    - cbn [steps]. rewrite E, H. cbn [fst snd]. eexists. eexists. split; [reflexivity|]. rewrite S_INR. split; intros j; unfold axpy.
      + rewrite Hv. ring.
      + rewrite Hv, Hq. field. }
  exists q, v. split; [exact E|]. split; [exact Hv|]. split; [exact Hq|]. split; intros i; unfold body, straight, parabola, vadd, vscale; cbn [fst snd].
  - rewrite !Hv. reflexivity.
  - rewrite !Hq. f_equal; field.
Qed.

Lemma verlet_closed : forall s step (acc : dvec) dt,
  (forall p, step p = Some (axpy (fst p) dt (axpy (snd p) (/ 2 * dt) acc), axpy (axpy (snd p) (/ 2 * dt) acc) (/ 2 * dt) acc)) ->
  forall k q0 v0, exists q v, steps step k (q0, v0) = Some (q, v)
  /\ (forall j, v j = v0 j + INR k * dt * acc j)
  /\ (forall j, q j = q0 j + INR k * dt * v0 j + (INR k * dt) * (INR k * dt) / 2 * acc j)
  /\ (forall i, body s v i = straight (body s v0 i) (body s acc i) (INR k * dt))
  /\ (forall i, body s q i = parabola (body s q0 i) (body s v0 i) (body s acc i) (INR k * dt)).
Proof.
  intros s step acc dt H. intros k q0 v0.
  assert (exists q v, steps step k (q0, v0) = Some (q, v)
    /\ (forall j, v j = v0 j + INR k * dt * acc j)
    /\ (forall j, q j = q0 j + INR k * dt * v0 j + (INR k * dt) * (INR k * dt) / 2 * acc j)) as (q & v & E & Hv & Hq).
  { induction k as [|k (q & v & E & Hv & Hq)].
    - exists q0, v0. split; [reflexivity|]. cbn [INR]. split; intros j; field.
    - cbn [steps]. rewrite E, H. cbn [fst snd]. eexists. eexists. split; [reflexivity|]. rewrite S_INR. split; intros j; unfold axpy.
      + rewrite Hv. field.
      + rewrite Hv, Hq. field. }
  exists q, v. split; [exact E|]. split; [exact Hv|]. split; [exact Hq|]. split; intros i; unfold body, straight, parabola; cbn [fst snd].
  - rewrite !Hv. reflexivity.
  - rewrite !Hq. reflexivity.
Qed.

Lemma ball_verlet_parabola : forall w gs dt q0 v0 k, masses_ok 2 (bl_n w) (bl_M w) -> bl_forces w = map Gravity gs ->
  exists q v, steps (ball_verlet w dt) k (q0, v0) = Some (q, v)
  /\ forall i, (i < bl_n w)%nat ->
     body 2 q i = parabola (body 2 q0 i) (body 2 v0 i) (vsum gs) (INR k * dt)
     /\ body 2 v i = straight (body 2 v0 i) (vsum gs) (INR k * dt).
Proof.
  intros w gs dt q0 v0 k HM E.
  destruct (verlet_closed 2 (ball_verlet w dt) (ball_gravity_acc w gs) dt (fun p => ball_verlet_gravity1 w gs dt p E) k q0 v0)
    as (q & v & Es & _ & _ & Hv & Hq).
  exists q, v. split; [exact Es|]. intros i Hi. rewrite Hq, Hv, ball_gravity_acc_value by assumption. split; reflexivity.
Qed.

Lemma ball_euler_parabola : forall w gs dt q0 v0 k, masses_ok 2 (bl_n w) (bl_M w) -> bl_forces w = map Gravity gs ->
  exists q v, steps (ball_euler w dt) k (q0, v0) = Some (q, v)
  /\ forall i, (i < bl_n w)%nat ->
     body 2 q i = vadd (parabola (body 2 q0 i) (body 2 v0 i) (vsum gs) (INR k * dt)) (vscale (INR k * dt * dt / 2) (vsum gs))
     /\ body 2 v i = straight (body 2 v0 i) (vsum gs) (INR k * dt).
Proof.
  intros w gs dt q0 v0 k HM E.
  destruct (euler_closed 2 (ball_euler w dt) (ball_gravity_acc w gs) dt (fun p => ball_euler_gravity1 w gs dt p E) k q0 v0)
    as (q & v & Es & _ & _ & Hv & Hq).
  exists q, v. split; [exact Es|]. intros i Hi. rewrite Hq, Hv, ball_gravity_acc_value by assumption. split; reflexivity.
Qed.

(* ---------- rigid bodies ---------- *)
Lemma zero_seg3_value : forall F j i c, (c < 3)%nat -> zero_seg3 F (3 * j) (3 * i + c)%nat = if Nat.eqb i j then 0 else F (3 * i + c)%nat.
Proof.
  intros F j i c Hc. unfold zero_seg3. destruct (Nat.eqb_spec i j) as [->|Hne].
  - destruct c as [|[|[|c]]]; [| | |lia]; rewrite Nat.eqb_refl; rewrite ?orb_true_r; reflexivity.
  - destruct (Nat.eqb_spec (3 * i + c) (3 * j + 0)); [lia|]. destruct (Nat.eqb_spec (3 * i + c) (3 * j + 1)); [lia|].
    destruct (Nat.eqb_spec (3 * i + c) (3 * j + 2)); [lia|]. reflexivity.
Qed.

Lemma zero_scripted_value : forall w F i c, (i < rb_n w)%nat -> (c < 3)%nat ->
  zero_scripted w F (3 * i + c)%nat = if rb_fixed w i then 0 else F (3 * i + c)%nat.
Proof.
  intros w F i c Hi Hc. unfold zero_scripted.
  assert (forall m, fold_left (fun F j => if rb2_scripted w j then zero_seg3 F (3 * j) else F) (seq 0 m) F (3 * i + c)%nat
          = if (i <? m)%nat && rb_fixed w i then 0 else F (3 * i + c)%nat) as G.
  { induction m as [|m IH]; [reflexivity|].
    rewrite seq_S, fold_left_app. cbn [fold_left plus]. unfold rb2_scripted at 1. destruct (rb_fixed w m) eqn:Em.
    - rewrite zero_seg3_value by exact Hc. destruct (Nat.eqb_spec i m) as [->|Hne].
      + rewrite Em. destruct (Nat.ltb_spec m (S m)); [reflexivity|lia].
      + rewrite IH. destruct (Nat.ltb_spec i m); destruct (Nat.ltb_spec i (S m)); try lia; reflexivity.
    - rewrite IH. destruct (Nat.ltb_spec i m); destruct (Nat.ltb_spec i (S m)); try lia; try reflexivity.
      replace i with m by lia. rewrite Em. reflexivity. }
  rewrite G. destruct (Nat.ltb_spec i (rb_n w)); [reflexivity|lia].
Qed.

Definition rb2_acc (w : bodies) : dvec :=
  diag_minv (rb_M w) (zero_scripted w (upd_sum (flat_map (gravity_updates 3 (rb_n w) (rb_M w)) (rb_gravity w)))).

Lemma rb2_force_value : forall w q v, rb2_compute_force w q v = upd_sum (flat_map (gravity_updates 3 (rb_n w) (rb_M w)) (rb_gravity w)).
Proof. intros w q v. unfold rb2_compute_force. rewrite apply_zero. reflexivity. Qed.

Lemma rb2_euler_gravity1 : forall w dt s,
  rb2_euler w dt s = Some (axpy (fst s) dt (axpy (snd s) dt (rb2_acc w)), axpy (snd s) dt (rb2_acc w)).
Proof. intros w dt s. unfold rb2_euler. rewrite rb2_force_value. reflexivity. Qed.

Lemma rb2_verlet_gravity1 : forall w dt s,
  rb2_verlet w dt s = Some (axpy (fst s) dt (axpy (snd s) (/ 2 * dt) (rb2_acc w)), axpy (axpy (snd s) (/ 2 * dt) (rb2_acc w)) (/ 2 * dt) (rb2_acc w)).
Proof. intros w dt s. unfold rb2_verlet. rewrite !rb2_force_value. reflexivity. Qed.

Lemma rb2_acc_body : forall w i, masses_ok 3 (rb_n w) (rb_M w) -> (i < rb_n w)%nat ->
  body 3 (rb2_acc w) i = if rb_fixed w i then vzero else vsum (rb_gravity w).
Proof.
  intros w i HM Hi. pose proof (gravities_value 3 (rb_n w) (rb_M w) (rb_gravity w) i ltac:(lia) Hi) as E.
  destruct (HM i Hi) as [Hp Hq]. unfold rb2_acc, diag_minv, body in *.
  pose proof (f_equal fst E) as E1. pose proof (f_equal snd E) as E2. unfold vscale in E1, E2. cbn [fst snd] in E1, E2.
  pose proof (fun F => zero_scripted_value w F i 0 Hi ltac:(lia)) as Z0.
  rewrite Nat.add_0_r in Z0. rewrite Z0, (zero_scripted_value w _ i 1 Hi) by lia.
  destruct (rb_fixed w i).
  - apply vec_eq; cbn [fst snd vzero]; ring.
  - rewrite Hq, E1, E2. apply vec_eq; cbn [fst snd]; field; lra.
Qed.

Lemma rb2_acc_spin : forall w i, (i < rb_n w)%nat -> rb2_acc w (3 * i + 2)%nat = 0.
Proof.
  intros w i Hi. unfold rb2_acc, diag_minv. rewrite zero_scripted_value by (try exact Hi; lia).
  rewrite gravities_spin. destruct (rb_fixed w i); ring.
Qed.

Lemma parabola_zero : forall x u t, parabola x u vzero t = straight x u t.
Proof. intros. unfold parabola, straight, vzero. cbn [fst snd]. f_equal; ring. Qed.

Lemma straight_zero : forall x t, straight x vzero t = x.
Proof. intros [a b] t. unfold straight, vzero. cbn [fst snd]. f_equal; ring. Qed.

Lemma rb2_verlet_closed : forall w dt q0 v0 k, masses_ok 3 (rb_n w) (rb_M w) ->
  exists q v, steps (rb2_verlet w dt) k (q0, v0) = Some (q, v)
  /\ forall i, (i < rb_n w)%nat ->
     (rb_fixed w i = false ->
        body 3 q i = parabola (body 3 q0 i) (body 3 v0 i) (vsum (rb_gravity w)) (INR k * dt)
        /\ body 3 v i = straight (body 3 v0 i) (vsum (rb_gravity w)) (INR k * dt))
     /\ (rb_fixed w i = true -> body 3 q i = straight (body 3 q0 i) (body 3 v0 i) (INR k * dt) /\ body 3 v i = body 3 v0 i)
     /\ q (3 * i + 2)%nat = q0 (3 * i + 2)%nat + INR k * dt * v0 (3 * i + 2)%nat
     /\ v (3 * i + 2)%nat = v0 (3 * i + 2)%nat.
Proof.
  intros w dt q0 v0 k HM.
  destruct (verlet_closed 3 (rb2_verlet w dt) (rb2_acc w) dt (rb2_verlet_gravity1 w dt) k q0 v0) as (q & v & Es & Hjv & Hjq & Hv & Hq).
  exists q, v. split; [exact Es|]. intros i Hi. rewrite Hq, Hv, rb2_acc_body by assumption. split; [|split].
  - intros ->. split; reflexivity.
  - intros ->. rewrite parabola_zero, straight_zero. split; reflexivity.
  - rewrite Hjq, Hjv, rb2_acc_spin by exact Hi. split; field.
Qed.

Lemma rb2_euler_closed : forall w dt q0 v0 k, masses_ok 3 (rb_n w) (rb_M w) ->
  exists q v, steps (rb2_euler w dt) k (q0, v0) = Some (q, v)
  /\ forall i, (i < rb_n w)%nat ->
     (rb_fixed w i = false ->
        body 3 q i = vadd (parabola (body 3 q0 i) (body 3 v0 i) (vsum (rb_gravity w)) (INR k * dt))
                          (vscale (INR k * dt * dt / 2) (vsum (rb_gravity w)))
        /\ body 3 v i = straight (body 3 v0 i) (vsum (rb_gravity w)) (INR k * dt))
     /\ (rb_fixed w i = true -> body 3 q i = straight (body 3 q0 i) (body 3 v0 i) (INR k * dt) /\ body 3 v i = body 3 v0 i)
     /\ q (3 * i + 2)%nat = q0 (3 * i + 2)%nat + INR k * dt * v0 (3 * i + 2)%nat
     /\ v (3 * i + 2)%nat = v0 (3 * i + 2)%nat.
Proof.
  intros w dt q0 v0 k HM.
  destruct (euler_closed 3 (rb2_euler w dt) (rb2_acc w) dt (rb2_euler_gravity1 w dt) k q0 v0) as (q & v & Es & Hjv & Hjq & Hv & Hq).
  exists q, v. split; [exact Es|]. intros i Hi. rewrite Hq, Hv, rb2_acc_body by assumption. split; [|split].
  - intros ->. split; reflexivity.
  - intros ->. rewrite parabola_zero, straight_zero. split; [|reflexivity].
    unfold vadd, vscale, vzero, straight. cbn [fst snd]. f_equal; ring.
  - rewrite Hjq, Hjv, rb2_acc_spin by exact Hi. split; field.
Qed.

(* ---------- energies ---------- *)
Lemma seg2_body : forall s v i, seg2 v (s * i) = body s v i.
Proof. intros. unfold seg2, body. rewrite Nat.add_0_r. reflexivity. Qed.

Lemma b_kinetic_spec : forall n M v, masses_ok 2 n M -> b_kinetic n M v = kinetic 2 n M v.
Proof.
  intros n M v HM. unfold b_kinetic, kinetic. rewrite rsum_pairs, <- rsum_scal. apply rsum_ext. intros i Hi.
  destruct (HM i Hi) as [_ Hq]. unfold vdot, body. cbn [fst snd]. rewrite Hq. ring.
Qed.

Lemma rb2_kinetic_spec : forall n M v, masses_ok 3 n M ->
  rb2_kinetic n M v = kinetic 3 n M v + rsum n (fun i => / 2 * M (3 * i + 2)%nat * (v (3 * i + 2)%nat * v (3 * i + 2)%nat)).
Proof.
  intros n M v HM. unfold rb2_kinetic, kinetic. rewrite rsum_triples, <- rsum_scal, <- rsum_plus. apply rsum_ext. intros i Hi.
  destruct (HM i Hi) as [_ Hq]. unfold vdot, body. cbn [fst snd]. rewrite Hq. ring.
Qed.

Lemma osum_app : forall {A} (f : A -> option R) a b,
  osum f (a ++ b) = match osum f a, osum f b with Some x, Some y => Some (x + y) | _, _ => None end.
Proof.
  intros A f a b. induction a as [|x a IH]; cbn [app osum].
  - destruct (osum f b); [|reflexivity]. f_equal. lra.
  - rewrite IH. destruct (f x); [|reflexivity]. destruct (osum f a); [|reflexivity]. destruct (osum f b); [|reflexivity].
    f_equal. lra.
Qed.

Lemma osum_seq : forall (f : nat -> R) n, osum (fun i => Some (f i)) (seq 0 n) = Some (rsum n f).
Proof.
  intros f n. induction n as [|n IH]; [reflexivity|]. rewrite seq_S, osum_app, IH. cbn [osum rsum plus]. f_equal. lra.
Qed.

Lemma gravity_potential_vadd : forall s n M g h q,
  gravity_potential s n M (vadd g h) q = gravity_potential s n M g q + gravity_potential s n M h q.
Proof.
  intros. unfold gravity_potential. rewrite <- rsum_plus. apply rsum_ext. intros i _. unfold vdot, vadd. cbn [fst snd]. ring.
Qed.

Lemma gravity_potential_zero : forall s n M q, gravity_potential s n M vzero q = 0.
Proof. intros. unfold gravity_potential. apply rsum_zero. intros i _. unfold vdot, vzero. cbn. ring. Qed.

Lemma osum_gravities : forall s n M gs q,
  osum (fun g => osum (fun i => Some (- M (s * i)%nat * vdot g (seg2 q (s * i)))) (seq 0 n)) gs = Some (gravity_potential s n M (vsum gs) q).
Proof.
  intros s n M gs q. induction gs as [|g gs IH]; cbn [osum vsum fold_right].
  - rewrite gravity_potential_zero. reflexivity.
  - rewrite IH, osum_seq. fold (vsum gs). rewrite gravity_potential_vadd. f_equal. f_equal.
    unfold gravity_potential. apply rsum_ext. intros i _. rewrite seg2_body. ring.
Qed.

Lemma ball_potential_gravity : forall w gs q, bl_forces w = map Gravity gs ->
  ball_potential w q = Some (gravity_potential 2 (bl_n w) (bl_M w) (vsum gs) q).
Proof.
  intros w gs q E. unfold ball_potential. rewrite E, <- osum_gravities.
  clear E. induction gs as [|g gs IH]; [reflexivity|]. cbn [map osum]. rewrite IH. reflexivity.
Qed.

Lemma rb2_potential_spec : forall w q, rb2_potential w q = Some (gravity_potential 3 (rb_n w) (rb_M w) (vsum (rb_gravity w)) q).
Proof. intros w q. unfold rb2_potential. apply osum_gravities. Qed.

(* ½ m v² - m g·q along a parabola *)
Lemma parabola_energy : forall m g x u t,
  / 2 * m * vdot (straight u g t) (straight u g t) + - (m * vdot g (parabola x u g t))
  = / 2 * m * vdot u u + - (m * vdot g x).
Proof. intros. unfold vdot, straight, parabola. cbn [fst snd]. field. Qed.

Lemma ball_verlet_energy : forall w gs dt k s s', masses_ok 2 (bl_n w) (bl_M w) -> bl_forces w = map Gravity gs ->
  steps (ball_verlet w dt) k s = Some s' -> ball_energy w s' = ball_energy w s.
Proof.
  intros w gs dt k [q0 v0] s' HM E Es.
  destruct (ball_verlet_parabola w gs dt q0 v0 k HM E) as (q & v & Es' & H). rewrite Es' in Es. injection Es as <-.
  unfold ball_energy. cbn [fst snd]. rewrite !(ball_potential_gravity w gs) by exact E. f_equal.
  rewrite !b_kinetic_spec by exact HM. unfold kinetic, gravity_potential. rewrite <- !rsum_plus. apply rsum_ext.
  intros i Hi. destruct (H i Hi) as [-> ->]. apply parabola_energy.
Qed.

(* the energy symplectic Euler loses: ½ m |g|² dt per unit of time *)
Lemma ball_euler_energy : forall w gs dt k s s', masses_ok 2 (bl_n w) (bl_M w) -> bl_forces w = map Gravity gs ->
  steps (ball_euler w dt) k s = Some s' ->
  exists e e', ball_energy w s = Some e /\ ball_energy w s' = Some e'
  /\ e' = e - INR k * dt * dt / 2 * (total_mass 2 (bl_n w) (bl_M w) * vdot (vsum gs) (vsum gs)).
Proof.
  intros w gs dt k [q0 v0] s' HM E Es.
  destruct (ball_euler_parabola w gs dt q0 v0 k HM E) as (q & v & Es' & H). rewrite Es' in Es. injection Es as <-.
  unfold ball_energy. cbn [fst snd]. rewrite !(ball_potential_gravity w gs) by exact E.
  eexists. eexists. split; [reflexivity|]. split; [reflexivity|].
  rewrite !b_kinetic_spec by exact HM. unfold kinetic, gravity_potential, total_mass. rewrite <- !rsum_plus.
  rewrite <- rsum_scal_r, <- rsum_scal, <- rsum_minus. apply rsum_ext.
  intros i Hi. destruct (H i Hi) as [-> ->]. rewrite <- (parabola_energy _ (vsum gs) (body 2 q0 i) (body 2 v0 i) (INR k * dt)).
  unfold vdot, vadd, vscale. cbn [fst snd]. field.
Qed.

Lemma rb2_verlet_energy : forall w dt k s s', masses_ok 3 (rb_n w) (rb_M w) ->
  (forall i, (i < rb_n w)%nat -> rb_fixed w i = true -> vdot (vsum (rb_gravity w)) (body 3 (snd s) i) = 0) ->
  steps (rb2_verlet w dt) k s = Some s' -> rb2_energy w s' = rb2_energy w s.
Proof.
  intros w dt k [q0 v0] s' HM Hfix Es. cbn [snd] in Hfix.
  destruct (rb2_verlet_closed w dt q0 v0 k HM) as (q & v & Es' & H). rewrite Es' in Es. injection Es as <-.
  unfold rb2_energy. cbn [fst snd]. rewrite !rb2_potential_spec. f_equal.
  rewrite !rb2_kinetic_spec by exact HM. unfold kinetic, gravity_potential. rewrite <- !rsum_plus. apply rsum_ext.
  intros i Hi. destruct (H i Hi) as (Hm & Hf & _ & ->). destruct (rb_fixed w i) eqn:Ef.
  - destruct (Hf eq_refl) as [-> ->]. pose proof (Hfix i Hi Ef) as Z. 
    assert (vdot (vsum (rb_gravity w)) (straight (body 3 q0 i) (body 3 v0 i) (INR k * dt))
            = vdot (vsum (rb_gravity w)) (body 3 q0 i)) as ->.
    { transitivity (vdot (vsum (rb_gravity w)) (body 3 q0 i) + INR k * dt * vdot (vsum (rb_gravity w)) (body 3 v0 i)).
      - unfold vdot, straight. cbn [fst snd]. ring.
      - rewrite Z. ring. }
    reflexivity.
  - destruct (Hm eq_refl) as [-> ->]. pose proof (parabola_energy (rb_M w (3 * i)%nat) (vsum (rb_gravity w)) (body 3 q0 i) (body 3 v0 i) (INR k * dt)). lra.
Qed.
