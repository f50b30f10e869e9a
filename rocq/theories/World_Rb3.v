(* Whole runs of 3D rigid body scenes with nothing but free bodies in them. *)
From Coq Require Import List Reals Arith NArith Bool Lia Lra.
From Verif Require Import Outcome Grid_Model Grid_Spec Grid_Dim Ccd_Model Ccd_Proofs Flow_Model Flow_Spec Flow_Proofs Quad_Model Stagger_Model Integr_Model Integr_Spec
  Wall_Model Wall_Thms Geom_Model Narrow_Model Narrow_Spec Narrow_Proofs Narrow_Thms ContactBall_Model ContactRb3_Model Contact_Spec Contact_Proofs Contact3_Proofs Frame_Model
  Rot_Model Rot_Spec Rot_Alg Rot_Proofs Rot_Thms Lin_Model Lin_Proofs Sob_Model Sob_Spec Sob_Proofs Sob_Thms Sob_Sims Sob_Final World_Model World_Spec World_Proofs World_Thms World_Ball.
Import ListNotations.
Open Scope R_scope.

Lemma rb3_dispatch_free : forall o nb fixed shape q0 q1 i j cs c, fixed i = false -> fixed j = false -> dispatch3 o nb fixed shape q0 q1 i j = Ok cs -> In c cs ->
  (exists ra rb, c = mk_sphere_sphere i j q0 ra rb) \/ exists p n, c = mk_body_body3 i j p n q0.
Proof.
  intros o nb fixed shape q0 q1 i j cs c Fi Fj D I. unfold dispatch3 in D. rewrite Fi, Fj in D. cbn [andb] in D.
  assert (C3 : forall ps, In c (contacts3 fixed i j q0 ps) -> exists p n, c = mk_body_body3 i j p n q0).
  { intros ps H. apply in_map_iff in H. destruct H as [pn [H _]]. rewrite Fj in H. cbn [negb] in H. now exists (fst pn), (snd pn). }
  destruct (shape i), (shape j); try discriminate.
  - apply ok_eq in D. subst cs. right. eapply C3. exact I.
  - apply ok_eq in D. subst cs. unfold sphere_sphere_narrow in I. destruct (balls_active _ _ _ _); [|destruct I].
    destruct I as [<-|[]]. left. eexists _, _. reflexivity.
  - destruct (staple_staple _ _ _ _ _ _); [discriminate|]. apply ok_eq in D. subst cs. destruct I.
  - apply ok_eq in D. subst cs. right. eapply C3. exact I.
Qed.

Lemma rb3_active_closed : forall o n fixed shape q0 q1 cs c, (N.of_nat n <= 4294967296)%N -> (forall i, (i < n)%nat -> fixed i = false) ->
  rb3_active_set o n fixed shape [] [] q0 q1 = Ok cs -> In c cs ->
  exists i j, (i < n)%nat /\ (j < n)%nat /\ ((exists ra rb, c = mk_sphere_sphere i j q0 ra rb) \/ exists p m, c = mk_body_body3 i j p m q0).
Proof.
  intros o n fixed shape q0 q1 cs c Hn HF E I. unfold rb3_active_set in E. step_let E.
  change (rb3_plane_set n q0 q1 fixed shape []) with (Ok (@nil (nat * rb3_contact))) in E.
  change (rb3_cylinder_set n q0 q1 fixed shape []) with (Ok (@nil (nat * rb3_contact))) in E.
  cbn [obind map app] in E. apply ok_eq in E. subst cs. rewrite app_nil_r in I.
  unfold body_body_set3 in E0. step_let E0. pose proof (gather_ok _ _ E0) as Gk. apply Gk in I. destruct I as [l [Il Ic]]. apply in_map_iff in Il. destruct Il as [[a b] [D Iab]]. cbn [fst snd] in D.
  apply (any_sound3 real _ _ _ a b) in E; [|unfold indexable; rewrite !map_length, seq_length; exact Hn|exact Iab].
  destruct E as [[]|[_ [y [z [Ha [Hb _]]]]]]. apply box_at_seq in Ha, Hb. destruct Ha as [Ha _]. destruct Hb as [Hb _].
  exists (N.to_nat a), (N.to_nat b). split; [exact Ha|]. split; [exact Hb|].
  exact (rb3_dispatch_free o n fixed shape q0 q1 _ _ l c (HF _ Ha) (HF _ Hb) D Ic).
Qed.

(* mass_mul reads the entries of one row *)
Lemma rsum_pick3 : forall n a b c i j k x, (i < n)%nat -> (j < n)%nat -> (k < n)%nat ->
  rsum n (fun l => (a * (if Nat.eqb i l then 1 else 0) + b * (if Nat.eqb j l then 1 else 0) + c * (if Nat.eqb k l then 1 else 0)) * x l) = a * x i + b * x j + c * x k.
Proof.
  intros n a b c i j k x Hi Hj Hk. rewrite <- (rsum_pick n i x Hi), <- (rsum_pick n j x Hj), <- (rsum_pick n k x Hk), <- !rsum_scal, <- !rsum_plus.
  apply rsum_ext. intros l _. ring.
Qed.
Lemma mass_mul_mat : forall n V x k, (k < 6 * n)%nat -> mv (6 * n) (fun i j => mass_mul n V (fun l => if Nat.eqb l j then 1 else 0) i) x k = mass_mul n V x k.
Proof.
  intros n V x k Hk. unfold mv, mass_mul. destruct (Nat.ltb_spec k (3 * n)).
  - rewrite <- (rsum_pick (6 * n) k (fun j => V k * x j) Hk). apply rsum_ext. intros j _. destruct (Nat.eqb k j); ring.
  - cbv zeta. set (i := ((k - 3 * n) / 3)%nat). set (A := tr (mat_at V (3 * n + 9 * i))).
    assert (Hi : (i < n)%nat) by (apply Nat.div_lt_upper_bound; lia).
    assert (Q : forall r : v3, rsum (6 * n) (fun j => (c0 r * (if Nat.eqb (3 * n + 3 * i + 0) j then 1 else 0) + c1 r * (if Nat.eqb (3 * n + 3 * i + 1) j then 1 else 0) + c2 r * (if Nat.eqb (3 * n + 3 * i + 2) j then 1 else 0)) * x j)
                = c0 r * x (3 * n + 3 * i + 0)%nat + c1 r * x (3 * n + 3 * i + 1)%nat + c2 r * x (3 * n + 3 * i + 2)%nat) by (intros r; apply rsum_pick3; lia).
    unfold mul3, dot3, seg3. cbn [c0 c1 c2]. destruct ((k - 3 * n) mod 3)%nat as [|[|m]]; apply Q.
Qed.

Section Rb3.
Context (o : narrow3) (n : nat) (shape : nat -> shape3) (map_ : rb3 -> R -> dvec * dvec) (box : option (v3 * v3)) (dt : R) (gs : list v3) (ms : nat -> R).
Let U := rb3_simulator o n shape [] [] map_ box dt.
Hypothesis Hn : (N.of_nat n <= 4294967296)%N.

(* the bodies are free, their mass arrays belong to the orientations, which are rotations *)
Definition closed3 (s : rb3) : Prop := consistent s /\ s3_n s = n /\ (forall i, (i < n)%nat -> s3_fixed s i = false) /\ s3_g s = gs /\ forall i, (i < n)%nat -> mass s i = ms i.

Lemma rb3_mass : forall s, closed3 s -> mass_rb3_ok n (s3_M s) (inertia_of n (s3_M s)) (fun i => mat_at (s3_Minv s) (3 * n + 9 * i)).
Proof.
  intros s ((HC & HR & HU) & <- & _) i Hi. destruct (HC i Hi) as (P & PI & _ & _ & _ & EM & _). destruct (HU i Hi) as [EI EV].
  assert (E0 := f_equal c0 EM). assert (E1 := f_equal c1 EM). assert (E2 := f_equal c2 EM). unfold seg3, all3 in E0, E1, E2. cbn [c0 c1 c2] in E0, E1, E2. rewrite Nat.add_0_r in E0.
  rewrite E0, E1, E2. split; [lra|]. split; [reflexivity|]. split; [reflexivity|]. intros x. rewrite EV.
  assert (T : inertia_of (s3_n s) (s3_M s) i = turned (orientation s i) (inertia0 s i)).
  { rewrite <- turned_tr, <- EI. unfold inertia_of, mat_at, tr, seg3. cbn [row0 row1 row2_ c0 c1 c2]. rewrite <- !Nat.add_assoc. reflexivity. }
  rewrite T, <- mul3_mm, turned_inv; [apply mul3_id|now apply HR|exact PI].
Qed.
Lemma rb3_minv_same : forall s, closed3 s -> forall x k, (k < 6 * n)%nat ->
  mass_mul n (s3_Minv s) x k = rb3_minv n (s3_M s) (fun i => mat_at (s3_Minv s) (3 * n + 9 * i)) x k.
Proof.
  intros s ((HC & HR & HU) & <- & _) x k Hk. unfold mass_mul, rb3_minv. destruct (Nat.ltb_spec k (3 * s3_n s)).
  - assert (Hi : (k / 3 < s3_n s)%nat) by (apply Nat.div_lt_upper_bound; lia). destruct (HC _ Hi) as (P & _ & _ & _ & _ & EM & EV).
    assert (X : s3_Minv s k = / mass s (k / 3) /\ s3_M s k = mass s (k / 3)).
    { pose proof (Nat.div_mod k 3 ltac:(lia)) as D. pose proof (Nat.mod_upper_bound k 3 ltac:(lia)).
      assert (E0 := f_equal c0 EM). assert (E1 := f_equal c1 EM). assert (E2 := f_equal c2 EM). assert (F0 := f_equal c0 EV). assert (F1 := f_equal c1 EV). assert (F2 := f_equal c2 EV).
      unfold seg3, all3 in *. cbn [c0 c1 c2] in *. assert (S : forall V : dvec, V k = V (3 * (k / 3) + k mod 3)%nat) by (intros V; f_equal; exact D).
      rewrite (S (s3_Minv s)), (S (s3_M s)). destruct (k mod 3)%nat as [|[|[|r]]]; [| | |lia]; split; assumption. }
    destruct X as [-> ->]. field. lra.
  - cbv zeta. set (i := ((k - 3 * s3_n s) / 3)%nat). assert (Hi : (i < s3_n s)%nat) by (apply Nat.div_lt_upper_bound; lia).
    destruct (HU i Hi) as [_ EV]. rewrite EV, turned_tr. replace (3 * (s3_n s + i))%nat with (3 * s3_n s + 3 * i)%nat by lia. reflexivity.
Qed.

Lemma rb3_sound : sound U closed3.
Proof.
  split.
  - exact rb3_laws.
  - reflexivity.
  - intros s x i _ Hi. apply mass_mul_mat. exact Hi.
  - intros s x b k Hs Hb Hk. cbn [U rb3_simulator u_sim u_n u_M u_minv rb3_sim k_s k_vslot k_mass] in *.
    rewrite <- (rb3_block_inverse n (s3_M s) _ (rb3_mass s Hs) x b k Hb Hk). apply rsum_ext. intros r Hr. f_equal. apply rb3_minv_same; [exact Hs|].
    unfold slot3. destruct (Nat.ltb_spec r 3); lia.
  - intros s q0 q1 v cs c [_ [_ [HF _]]] HA Hc. destruct (rb3_active_closed o n (s3_fixed s) shape q0 q1 cs c Hn HF HA Hc) as [i [j [Hi [Hj [[ra [rb ->]]|[p [m ->]]]]]]];
      exists i, (Some j); repeat split; assumption.
  - intros q v c E H. cbn [U rb3_simulator u_basis] in H. step_let H. destruct x as [[x y] z]. apply ok_eq in H. subst E. split; [reflexivity|]. intros r [<-|[<-|[<-|[]]]]; reflexivity.
Qed.

Lemma to3_of3 : forall v, to3 (of3 v) = v.
Proof. intros [x y z]. reflexivity. Qed.
Lemma rb3_push_columns : forall friction q v cs imps fixed q1, (forall i, (i < n)%nat -> fixed i = false) -> rb3_active_set o n fixed shape [] [] q q1 = Ok cs -> pushed U friction q v cs imps ->
  Forall (fun ci => exists c, in_range n (rb3_bodies c) /\ rb3_made_at q c /\ rb3_conserves_p c = true /\ rb3_conserves_L_friction c = true
    /\ rb3_column n q c (fst ci) /\ rb3_contact_column n q c (fst ci)) imps.
Proof.
  intros friction q v cs imps fixed q1 HF HA HP. eapply Forall_impl; [|exact HP]. clear HP imps. intros [g x] [c [Hc Hg]]. cbn [fst] in *. exists c.
  destruct (rb3_active_closed o n fixed shape q q1 cs c Hn HF HA Hc) as [i [j [Hi [Hj K]]]].
  assert (X : in_range n (rb3_bodies c) /\ rb3_made_at q c /\ rb3_conserves_p c = true /\ rb3_conserves_L_friction c = true /\ not_sphere_body c).
  { destruct K as [[ra [rb ->]]|[p [m ->]]]; (split; [split; assumption|]); (split; [constructor|]); (split; [reflexivity|]); (split; [reflexivity|]); exact Logic.I. }
  destruct X as [X1 [X2 [X3 [X4 X5]]]]. do 4 (split; [assumption|]).
  destruct Hg as [g Hg|t g F Hg|E ij h0 h1 g F HE HB H0 H1 Hg].
  - split; [apply r3col_normal; exact Hg|]. apply r3cc_normal. apply r3ncol_gradg. exact Hg.
  - split; [eapply r3col_friction; exact Hg|]. eapply r3cc_friction. exact Hg.
  - cbn [U rb3_simulator u_basis] in HE. step_let HE. unfold rb3_basis in E0. step_let E0. apply ok_eq in E0. subst x0.
    destruct (contact_basis (rb3_normal q c) x1) as [[a s] t] eqn:EB.
    assert (Ea : a = rb3_normal q c) by (unfold contact_basis in EB; now injection EB).
    apply ok_eq in HE. subst E a.
    assert (GG : exists l, rb3_hcols n q c (rb3_normal q c) s t = Ok l /\ In g l).
    { cbn [U rb3_simulator u_sim u_n rb3_sim k_bodies k_H0 k_H1] in HB, H0, H1, Hg. unfold b3 in H0, H1. cbn [nth] in H0, H1. rewrite !to3_of3 in H0, H1.
      destruct K as [[ra [rb ->]]|[p [m ->]]]; unfold mk_sphere_sphere, mk_body_body3 in *; cbn [rb3_sim_bodies rb3_bodies] in HB; cbn [rb3_H0 obind] in H0; cbn [rb3_H1 obind] in H1;
        apply ok_eq in HB, H0, H1; subst ij h0 h1; unfold rb3_hcols; cbn [rb3_H0 rb3_H1 obind rb3_bodies];
        (eexists; split; [reflexivity|]); unfold sphere_rows, arm_rows in *; cbn [map combine fst snd] in *; rewrite ?hrow3_place, ?neg_row3_of;
        unfold hcols in Hg; cbn [rb3_sim k_d k_vslot seq map fst snd nth] in Hg; exact Hg. }
    destruct GG as [l [G1 G2]]. split; [eapply r3col_h; eassumption|]. eapply r3cc_h; eassumption.
Qed.

Lemma closed_put : forall s q v, closed3 s -> (forall i, (i < n)%nat -> rotation (mat_at q (3 * n + 9 * i))) -> closed3 (update_mass (rb3_put s q v)).
Proof.
  intros s q v ((HC & _ & _) & En & HF & Eg & Em) HR. split; [|split; [exact En|split; [exact HF|split; [exact Eg|exact Em]]]].
  apply update_consistent; [exact HC|]. intros i Hi. unfold orientation. cbn [rb3_put s3_n s3_q] in *. rewrite En in *. now apply HR.
Qed.
Lemma put_closed : forall s v, closed3 s -> closed3 (rb3_put s (s3_q s) v).
Proof. intros s v H. exact H. Qed.
Lemma step_next : forall s q v q1 v1, map_ (rb3_put s q v) dt = (q1, v1) -> rb3_step map_ dt (rb3_put s q v) = next U false s q1 v1.
Proof. intros s q v q1 v1 E. unfold rb3_step. rewrite E. reflexivity. Qed.
Lemma drift_closed : forall s v, closed3 s -> closed3 (next U false s (u_linear U s (u_q U s) v) v).
Proof.
  intros s v Hs. apply closed_put; [exact Hs|]. intros i Hi. cbn [U rb3_simulator u_linear u_q].
  destruct Hs as ((_ & HR & _) & En & HF & _). destruct (exponential_euler_views n (s3_fixed s) (s3_q s) v dt (fun _ => 0) i Hi) as [_ E]. cbv zeta in E. rewrite E, (HF i Hi).
  apply update_orientation_rotation. rewrite <- En. apply HR. now rewrite En.
Qed.
Lemma no_fixed_force : forall s F, closed3 s -> rb3_zero_fixed s F = F.
Proof.
  intros s F (_ & En & HF & _). unfold rb3_zero_fixed. rewrite En. apply (loop_keep (fun F => F)). intros i x Hi. now rewrite (HF i Hi).
Qed.

Lemma sum3_ext : forall k f g, (forall i, (i < k)%nat -> f i = g i) -> sum3 k f = sum3 k g.
Proof. intros k f g H. unfold sum3. f_equal; apply rsum_ext; intros i Hi; now rewrite H. Qed.
Lemma sum3_add : forall k f g, sum3 k (fun i => add3 (f i) (g i)) = add3 (sum3 k f) (sum3 k g).
Proof. intros k f g. unfold sum3, add3. cbn [c0 c1 c2]. rewrite !rsum_plus. reflexivity. Qed.
Lemma sum3_scale : forall k a v, sum3 k (fun i => scale3 (a i) v) = scale3 (rsum k a) v.
Proof. intros k a [x y z]. unfold sum3, scale3. cbn [c0 c1 c2]. rewrite !(Rmult_comm (rsum k a)), <- !rsum_scal. f_equal; apply rsum_ext; intros; ring. Qed.
Definition put3 (s : rb3) (v : dvec) : rb3 := rb3_put s (s3_q s) v.
Lemma linear_as : forall s v, closed3 s -> linear3 (put3 s v) = rb3_momentum n (s3_M s) v.
Proof.
  intros s v ((HC & _) & En & _). unfold linear3, rb3_momentum, sum3. cbn [put3 rb3_put s3_n]. rewrite En.
  assert (X : forall i, (i < n)%nat -> linear_momentum (put3 s v) i = scale3 (s3_M s (3 * i)%nat) (seg3 v (3 * i))).
  { intros i Hi. unfold linear_momentum. f_equal. rewrite <- En in Hi. destruct (HC i Hi) as (_ & _ & _ & _ & _ & EM & _). assert (E0 := f_equal c0 EM).
    unfold seg3, all3 in E0. cbn [c0] in E0. rewrite Nat.add_0_r in E0. now rewrite E0. }
  f_equal; apply rsum_ext; intros i Hi; now rewrite X.
Qed.
Lemma angular_as : forall s v, closed3 s -> angular3 (put3 s v) = rb3_angular n (s3_M s) (inertia_of n (s3_M s)) (s3_q s) v.
Proof.
  intros s v ((HC & HR & HU) & En & _). unfold angular3, rb3_angular. rewrite <- sum3_add. cbn [put3 rb3_put s3_n]. rewrite En.
  assert (X : forall i, (i < n)%nat -> add3 (cross3 (position (put3 s v) i) (linear_momentum (put3 s v) i)) (angular_momentum (put3 s v) i)
    = add3 (cross3 (scale3 (s3_M s (3 * i)%nat) (seg3 (s3_q s) (3 * i))) (seg3 v (3 * i))) (mul3 (inertia_of n (s3_M s) i) (seg3 v (3 * (n + i))))).
  { intros i Hi. unfold linear_momentum, angular_momentum. rewrite <- En in Hi. destruct (HC i Hi) as (_ & _ & _ & _ & _ & EM & _). assert (E0 := f_equal c0 EM).
    unfold seg3, all3 in E0. cbn [c0] in E0. rewrite Nat.add_0_r in E0. rewrite E0.
    assert (T : inertia_of n (s3_M s) i = turned (orientation s i) (inertia0 s i)).
    { rewrite <- turned_tr, <- (proj1 (HU i Hi)), En. unfold inertia_of, mat_at, tr, seg3. cbn [row0 row1 row2_ c0 c1 c2]. rewrite <- !Nat.add_assoc. reflexivity. }
    rewrite T. f_equal.
    - change (position (put3 s v) i) with (seg3 (s3_q s) (3 * i)). change (velocity (put3 s v) i) with (seg3 v (3 * i)). change (mass (put3 s v) i) with (mass s i).
      unfold cross3, scale3. cbn [c0 c1 c2]. f_equal; ring.
    - change (orientation (put3 s v) i) with (orientation s i). change (inertia0 (put3 s v) i) with (inertia0 s i). unfold spin. cbn [put3 rb3_put s3_n s3_v]. rewrite En.
      replace (3 * (n + i))%nat with (3 * n + 3 * i)%nat by lia. reflexivity. }
  apply sum3_ext. exact X.
Qed.
Lemma seg3_ext : forall v v' k, (forall j, (j < 3)%nat -> v (k + j)%nat = v' (k + j)%nat) -> seg3 v k = seg3 v' k.
Proof. intros v v' k H. unfold seg3. rewrite !H by lia. reflexivity. Qed.
Lemma linear_ext : forall s v v', closed3 s -> (forall k, (k < 6 * n)%nat -> v k = v' k) -> linear3 (put3 s v) = linear3 (put3 s v').
Proof.
  intros s v v' Hs H. rewrite !linear_as by exact Hs. unfold rb3_momentum, sum3. f_equal; apply rsum_ext; intros i Hi; rewrite (seg3_ext v v' (3 * i)); (reflexivity || (intros j Hj; apply H; lia)).
Qed.
Lemma angular_ext : forall s v v', closed3 s -> (forall k, (k < 6 * n)%nat -> v k = v' k) -> angular3 (put3 s v) = angular3 (put3 s v').
Proof.
  intros s v v' Hs H. rewrite !angular_as by exact Hs. unfold rb3_angular, sum3. f_equal; f_equal; apply rsum_ext; intros i Hi;
    (rewrite (seg3_ext v v' (3 * i)) || rewrite (seg3_ext v v' (3 * (n + i)))); (reflexivity || (intros j Hj; apply H; lia)).
Qed.

Definition kick3 (p : v3) : v3 := add3 p (scale3 (dt * rsum n ms) (total gs)).
Lemma linear_kick : forall s v v', closed3 s -> (forall i, (i < n)%nat -> seg3 v' (3 * i) = add3 (seg3 v (3 * i)) (scale3 dt (total gs))) -> linear3 (put3 s v') = kick3 (linear3 (put3 s v)).
Proof.
  intros s v v' (_ & En & _ & _ & Em) H. unfold kick3, linear3. cbn [put3 rb3_put s3_n]. rewrite En.
  assert (X : forall i, (i < n)%nat -> linear_momentum (put3 s v') i = add3 (linear_momentum (put3 s v) i) (scale3 (ms i * dt) (total gs))).
  { intros i Hi. unfold linear_momentum. change (mass (put3 s v') i) with (mass s i). change (mass (put3 s v) i) with (mass s i). rewrite (Em i Hi).
    change (velocity (put3 s v') i) with (seg3 v' (3 * i)). change (velocity (put3 s v) i) with (seg3 v (3 * i)). rewrite (H i Hi). unfold add3, scale3. cbn [c0 c1 c2]. f_equal; ring. }
  rewrite (sum3_ext n _ _ X), sum3_add, sum3_scale. f_equal. f_equal. rewrite <- rsum_scal. apply rsum_ext. intros. ring.
Qed.

(* what the unconstrained map does to a free body *)
Definition steps_ok : Prop := forall s, closed3 s -> let s' := rb3_step map_ dt s in
  consistent s' /\ forall i, (i < n)%nat -> velocity s' i = add3 (velocity s i) (scale3 dt (total gs)).

Lemma linear_follows : forall {K} (G : settings rb3_contact rb3 K) m, steps_ok -> g_dt G = dt ->
  (with_friction m = true -> forall s, closed3 s -> inverts_masses U G (s3_M s)) ->
  follows U G false m closed3 (fun s v => linear3 (put3 s v)) kick3.
Proof.
  intros K G m HS Hd HV. split.
  - exact rb3_sound.
  - exact HV.
  - exact linear_ext.
  - intros s q1 v vb cs imps v0 Hs HA HP. cbn [U rb3_simulator u_q u_minv u_active] in *.
    rewrite (linear_ext s _ (vplus v0 (rb3_minv n (s3_M s) (fun i => mat_at (s3_Minv s) (3 * n + 9 * i)) (impulse imps))) Hs)
      by (intros k Hk; unfold vplus; f_equal; now apply rb3_minv_same).
    rewrite !linear_as by exact Hs. apply (rb3_momentum_kept n (s3_M s) (inertia_of n (s3_M s)) _ (s3_q s)); [now apply rb3_mass|].
    eapply Forall_impl; [|exact (rb3_push_columns _ _ _ _ _ _ _ (proj1 (proj2 (proj2 Hs))) HA HP)]. cbn beta. intros ci [c H]. exists c. tauto.
  - reflexivity.
  - intros s s' H. cbn [U rb3_simulator u_boundary] in H. destruct box as [[lo hi]|]; [|now apply ok_eq in H]. step_let H. now apply ok_eq in H.
  - intros _ s v q1 v1 Hs E. cbn [U rb3_simulator u_step u_q] in E. injection E as E.
    destruct (HS _ (put_closed s v Hs)) as [S1 S2]. rewrite (step_next s _ v q1 v1 E) in S1, S2.
    assert (C1 : closed3 (next U false s q1 v1)) by (destruct Hs as (_ & En & HF & Eg & Em); split; [exact S1|split; [exact En|split; [exact HF|split; [exact Eg|exact Em]]]]).
    split; [exact C1|].
    assert (X : linear3 (put3 s v1) = kick3 (linear3 (put3 s v))) by (apply linear_kick; [exact Hs|exact S2]).
    split; [exact X|]. intros _. exact X.
  - intros _ s v Hs. split; [now apply drift_closed|reflexivity].
  - intros _ s v0 F v Hs E. cbn [U rb3_simulator u_force u_minv] in *. apply ok_eq in E. subst F. rewrite (no_fixed_force s _ Hs), Hd. apply linear_kick; [exact Hs|]. intros i Hi.
    destruct Hs as (HC & En & HF & Eg & Em). rewrite <- En in *. destruct (force_segs s i HC Hi) as [FL _]. destruct (consistent_segs s (rb3_force s) i HC Hi) as (_ & G1 & _).
    destruct (proj1 HC i Hi) as (Hm & _). rewrite FL, (proj2 (scale_inv _ _ Hm)), Eg in G1. rewrite <- G1. reflexivity.
Qed.

Definition turns_ok : Prop := forall s, closed3 s -> let s' := rb3_step map_ dt s in
  consistent s' /\ forall i, (i < n)%nat -> velocity s' i = velocity s i /\ position s' i = add3 (position s i) (scale3 dt (velocity s i)) /\ angular_momentum s' i = angular_momentum s i.

Lemma angular_follows : forall {K} (G : settings rb3_contact rb3 K) m, turns_ok -> moves_linearly m = false ->
  (with_friction m = true -> forall s, closed3 s -> inverts_masses U G (s3_M s)) ->
  follows U G false m closed3 (fun s v => angular3 (put3 s v)) (fun L => L).
Proof.
  intros K G m HS Hl HV. split.
  - exact rb3_sound.
  - exact HV.
  - exact angular_ext.
  - intros s q1 v vb cs imps v0 Hs HA HP. cbn [U rb3_simulator u_q u_minv u_active] in *.
    rewrite (angular_ext s _ (vplus v0 (rb3_minv n (s3_M s) (fun i => mat_at (s3_Minv s) (3 * n + 9 * i)) (impulse imps))) Hs)
      by (intros k Hk; unfold vplus; f_equal; now apply rb3_minv_same).
    rewrite !angular_as by exact Hs. apply (rb3_angular_gen n (s3_M s) (inertia_of n (s3_M s)) _ (s3_q s)); [now apply rb3_mass|]. intros d Hd.
    eapply Forall_impl; [|exact (rb3_push_columns _ _ _ _ _ _ _ (proj1 (proj2 (proj2 Hs))) HA HP)]. cbn beta. intros ci [c [H1 [H2 [_ [H4 [_ H6]]]]]].
    exact (rb3_contact_L n (s3_q s) c (fst ci) d Hd H1 H2 H4 H6).
  - reflexivity.
  - intros s s' H. cbn [U rb3_simulator u_boundary] in H. destruct box as [[lo hi]|]; [|now apply ok_eq in H]. step_let H. now apply ok_eq in H.
  - intros Hm s v q1 v1 Hs E. cbn [U rb3_simulator u_step u_q] in E. injection E as E.
    destruct (HS _ (put_closed s v Hs)) as [S1 S2]. rewrite (step_next s _ v q1 v1 E) in S1, S2.
    assert (C1 : closed3 (next U false s q1 v1)) by (destruct Hs as (_ & En & HF & Eg & Em); split; [exact S1|split; [exact En|split; [exact HF|split; [exact Eg|exact Em]]]]).
    split; [exact C1|]. split; [|intros ->; discriminate].
    change (put3 (next U false s q1 v1) v1) with (next U false s q1 v1). unfold angular3. cbn [next U rb3_simulator u_set u_update update_mass rb3_put put3 s3_n].
    destruct Hs as (_ & En & _). rewrite En. apply sum3_ext. intros i Hi. destruct (S2 i Hi) as [V [X L]].
    fold (put3 s v) in V, X, L. unfold next in V, X, L. cbn [U rb3_simulator u_set u_update] in V, X, L. fold (rb3_put s q1 v1). rewrite X, L. f_equal. unfold linear_momentum. rewrite V.
    change (mass (update_mass (rb3_put s q1 v1)) i) with (mass s i). change (mass (put3 s v) i) with (mass s i). fold (put3 s v).
    set (a := position (put3 s v) i). set (b := velocity (put3 s v) i). unfold cross3, add3, scale3. cbn [c0 c1 c2]. f_equal; ring.
  - intros X. rewrite X in Hl. discriminate.
  - intros ->. discriminate.
Qed.
End Rb3.

Lemma free_closed : forall s, free_bodies s -> closed3 (s3_n s) (s3_g s) (mass s) s.
Proof. intros s [H F]. repeat split; try assumption; apply H; assumption. Qed.

Lemma moves_steps : forall n map_ dt gs ms, moves_bodies map_ -> steps_ok n map_ dt gs ms.
Proof.
  intros n map_ dt gs ms H s (HC & En & HF & Eg & Em). assert (HH : forall rotate, keeps_rotations rotate -> consistent (rb3_step (hamiltonian_flow rotate) dt s)
    /\ forall i, (i < n)%nat -> velocity (rb3_step (hamiltonian_flow rotate) dt s) i = add3 (velocity s i) (scale3 dt (total gs))).
  { intros rotate HK. split; [now apply ham_step_consistent|]. intros i Hi. rewrite <- Eg. apply (ham_step_free rotate dt s i HK HC); [now rewrite En|now apply HF]. }
  destruct H as [[-> | ->]|[svd [HV ->]]].
  - apply (HH _ split_keeps).
  - apply (HH _ dmv_keeps).
  - split; [now apply exp_step_consistent|]. intros i Hi. rewrite <- Eg. apply (exp_step_views svd dt s i HC). now rewrite En.
Qed.
Lemma rotates_turns : forall n map_ dt gs ms, rotates_bodies map_ -> total gs = zero3 -> turns_ok n map_ dt gs ms.
Proof.
  intros n map_ dt gs ms H Hg s (HC & En & HF & Eg & Em). assert (HH : forall rotate, keeps_rotations rotate -> let s' := rb3_step (hamiltonian_flow rotate) dt s in consistent s'
    /\ forall i, (i < n)%nat -> velocity s' i = velocity s i /\ position s' i = add3 (position s i) (scale3 dt (velocity s i)) /\ angular_momentum s' i = angular_momentum s i).
  { intros rotate HK s'. split; [now apply ham_step_consistent|]. intros i Hi.
    destruct (ham_step_free rotate dt s i HK HC ltac:(now rewrite En) (HF i Hi)) as (X & V & _ & L). rewrite Eg, Hg in X, V. unfold s'. rewrite X, V, L.
    set (a := position s i). set (b := velocity s i). destruct a as [a0 a1 a2]. destruct b as [b0 b1 b2]. unfold add3, scale3, zero3. cbn [c0 c1 c2].
    split; [f_equal; ring|]. split; [f_equal; ring|reflexivity]. }
  destruct H as [-> | ->].
  - apply (HH _ split_keeps).
  - apply (HH _ dmv_keeps).
Qed.

Lemma kicks3 : forall n dt gs ms k p, Nat.iter k (kick3 n dt gs ms) p = add3 p (scale3 (INR k * dt * rsum n ms) (total gs)).
Proof.
  intros n dt gs ms k p. induction k as [|k IH].
  - cbn [Nat.iter nat_rect INR]. destruct p as [p0 p1 p2]. unfold add3, scale3. cbn [c0 c1 c2]. f_equal; ring.
  - change (kick3 n dt gs ms (Nat.iter k (kick3 n dt gs ms) p) = add3 p (scale3 (INR (S k) * dt * rsum n ms) (total gs))). rewrite IH, S_INR. unfold kick3, add3, scale3. cbn [c0 c1 c2]. f_equal; ring.
Qed.
Lemma put3_same : forall s, put3 s (s3_v s) = s.
Proof. intros []. reflexivity. Qed.

Theorem rb3_run_linear : forall {K Mem} o n shape map_ box dt (G : settings rb3_contact rb3 K) (sc : script (rb3 * K) rb3_contact Mem) m steps it s c f lv s' c' f' lv',
  (N.of_nat n <= 4294967296)%N -> moves_bodies map_ -> g_dt G = dt -> hands_off sc -> s3_n s = n -> free_bodies s ->
  let U := rb3_simulator o n shape [] [] map_ box dt in
  (with_friction m = true -> forall t, free_bodies t -> s3_n t = n -> inverts_masses U G (s3_M t)) ->
  run U G sc false m steps it (s, c, f, lv) = Ok (s', c', f', lv') ->
  free_bodies s' /\ linear3 s' = add3 (linear3 s) (scale3 (INR steps * dt * rsum n (mass s)) (total (s3_g s))).
Proof.
  intros K Mem o n shape map_ box dt G sc m steps it s c f lv s' c' f' lv' Hn Hmap Hd Off En Hs U HV HR.
  assert (C0 : closed3 n (s3_g s) (mass s) s) by (rewrite <- En; now apply free_closed).
  assert (HV' : with_friction m = true -> forall t, closed3 n (s3_g s) (mass s) t -> inverts_masses U G (s3_M t)).
  { intros Hm t (A & B & D & _). apply (HV Hm); [split; [exact A|now rewrite B]|exact B]. }
  destruct (run_follows U G false m _ _ _ (linear_follows o n shape map_ box dt (s3_g s) (mass s) Hn G m (moves_steps _ _ _ _ _ Hmap) Hd HV') sc Off steps it (s, c) f lv (s', c') f' lv' C0 HR) as [(A & B & D & _) Q].
  cbn [fst U rb3_simulator u_v] in *. rewrite !put3_same, kicks3 in Q. split; [split; [exact A|now rewrite B]|exact Q].
Qed.

Theorem rb3_run_angular : forall {K Mem} o n shape map_ box dt (G : settings rb3_contact rb3 K) (sc : script (rb3 * K) rb3_contact Mem) m steps it s c f lv s' c' f' lv',
  (N.of_nat n <= 4294967296)%N -> rotates_bodies map_ -> moves_linearly m = false -> hands_off sc -> s3_n s = n -> free_bodies s -> total (s3_g s) = zero3 ->
  let U := rb3_simulator o n shape [] [] map_ box dt in
  (with_friction m = true -> forall t, free_bodies t -> s3_n t = n -> inverts_masses U G (s3_M t)) ->
  run U G sc false m steps it (s, c, f, lv) = Ok (s', c', f', lv') -> angular3 s' = angular3 s.
Proof.
  intros K Mem o n shape map_ box dt G sc m steps it s c f lv s' c' f' lv' Hn Hmap Hl Off En Hs Hg U HV HR.
  assert (C0 : closed3 n (s3_g s) (mass s) s) by (rewrite <- En; now apply free_closed).
  assert (HV' : with_friction m = true -> forall t, closed3 n (s3_g s) (mass s) t -> inverts_masses U G (s3_M t)).
  { intros Hm t (A & B & D & _). apply (HV Hm); [split; [exact A|now rewrite B]|exact B]. }
  destruct (run_follows U G false m _ _ _ (angular_follows o n shape map_ box dt (s3_g s) (mass s) Hn G m (rotates_turns _ _ _ _ _ Hmap Hg) Hl HV') sc Off steps it (s, c) f lv (s', c') f' lv' C0 HR) as [_ Q].
  cbn [fst U rb3_simulator u_v] in *. rewrite !put3_same in Q. rewrite Q. clear. generalize (angular3 s). induction steps as [|k IH]; intros r; [reflexivity|apply IH].
Qed.
