(* Whole runs of planar rigid body scenes with nothing but free bodies in them. *)
From Coq Require Import List Reals Arith NArith Bool Lia Lra.
From Verif Require Import Outcome Grid_Model Grid_Spec Grid_Dim Ccd_Model Ccd_Proofs Flow_Model Flow_Spec Flow_Proofs Quad_Model Stagger_Model Integr_Model Integr_Spec Integr_Proofs Integr_Thms
  Wall_Model Wall_Thms Geom_Model Narrow_Model Narrow_Spec Narrow_Proofs Narrow_Thms ContactBall_Model ContactRb2_Model ContactRb3_Model Contact_Spec Contact_Proofs
  Lin_Model Lin_Proofs Sob_Model Sob_Spec Sob_Proofs Sob_Thms Sob_Sims Sob_Final World_Model World_Spec World_Proofs World_Thms World_Ball.
Import ListNotations.
Open Scope R_scope.

Lemma rb2_dispatch_free : forall fixed shape q0 q1 v i j cs c, fixed i = false -> fixed j = false -> dispatch2 fixed shape q0 q1 v i j = Ok cs -> In c cs ->
  exists a b, ((a = i /\ b = j) \/ (a = j /\ b = i)) /\ ((exists ra rb, c = mk_circle_circle a b q0 ra rb) \/ exists p n, c = mk_body_body2 a b p n q0).
Proof.
  intros fixed shape q0 q1 v i j cs c Fi Fj D I. unfold dispatch2 in D. rewrite Fi, Fj in D. cbn [andb] in D.
  destruct (shape i) as [ra|wi]; destruct (shape j) as [rb|wj].
  - apply ok_eq in D. subst cs. unfold circle_circle_narrow2 in I. destruct (ccd _ _ _ _ _ _); [|destruct I]. rewrite Fj in I. cbn [negb] in I.
    destruct I as [<-|[]]. exists i, j. split; [now left|]. left. now exists ra, rb.
  - unfold box_circle_narrow2 in D. rewrite Fi in D. destruct (circle_box _ _ _ _ _) as [[n p]|]; [|apply ok_eq in D; subst cs; destruct I].
    rewrite Fj in D. cbn [negb] in D. destruct (Nat.ltb i j); apply ok_eq in D; subst cs; destruct I as [<-|[]].
    + exists i, j. split; [now left|]. right. now exists p, n.
    + exists j, i. split; [now right|]. right. now exists p, (vneg n).
  - unfold box_circle_narrow2 in D. rewrite Fj in D. destruct (circle_box _ _ _ _ _) as [[n p]|]; [|apply ok_eq in D; subst cs; destruct I].
    rewrite Fi in D. cbn [negb] in D. destruct (Nat.ltb j i); apply ok_eq in D; subst cs; destruct I as [<-|[]].
    + exists j, i. split; [now right|]. right. now exists p, n.
    + exists i, j. split; [now left|]. right. now exists p, (vneg n).
  - unfold box_box_narrow2 in D. rewrite Fi, Fj in D. cbn [orb] in D. step_let D. destruct x as [[n ps]|]; apply ok_eq in D; subst cs; [|destruct I].
    apply in_map_iff in I. destruct I as [p [<- _]]. exists i, j. split; [now left|]. right. now exists p, n.
Qed.

Lemma rb2_active_closed : forall n fixed shape q0 q1 v cs c, (N.of_nat n <= 4294967296)%N -> (forall i, (i < n)%nat -> fixed i = false) ->
  rb2_active_set n fixed shape [] q0 q1 v = Ok cs -> In c cs ->
  exists i j, (i < n)%nat /\ (j < n)%nat /\ ((exists ra rb, c = mk_circle_circle i j q0 ra rb) \/ exists p m, c = mk_body_body2 i j p m q0).
Proof.
  intros n fixed shape q0 q1 v cs c Hn HF E I. unfold rb2_active_set in E. step_let E. apply ok_eq in E. subst cs.
  assert (D : rb2_plane_set q1 fixed shape n [] = []) by reflexivity. rewrite D, app_nil_r in I. clear D.
  unfold body_body_set2 in E0. step_let E0. pose proof (gather_ok _ _ E0) as Gk. apply Gk in I. destruct I as [l [Il Ic]]. apply in_map_iff in Il. destruct Il as [[a b] [D Iab]]. cbn [fst snd] in D.
  apply (any_sound2 real _ _ _ a b) in E; [|unfold indexable; rewrite !map_length, seq_length; exact Hn|exact Iab].
  destruct E as [[]|[_ [y [z [Ha [Hb _]]]]]]. apply box_at_seq in Ha, Hb. destruct Ha as [Ha _]. destruct Hb as [Hb _].
  destruct (rb2_dispatch_free fixed shape q0 q1 v _ _ l c (HF _ Ha) (HF _ Hb) D Ic) as [i [j [Hij Hc]]]. exists i, j.
  destruct Hij as [[-> ->]|[-> ->]]; repeat split; assumption.
Qed.

(* the moment about the origin of all momenta, with the spins *)
Section Rb2.
Context (w : bodies) (shape : nat -> shape2) (verlet : bool) (dt : R).
Let U := rb2_simulator w shape [] verlet dt.
Let n := rb_n w. Let M := rb_M w.
Hypothesis HM : masses_ok 3 n M.
Hypothesis HI : forall i, (i < n)%nat -> 0 < M (3 * i + 2)%nat.
Hypothesis Hn : (N.of_nat n <= 4294967296)%N.
Hypothesis Free : forall i, (i < n)%nat -> rb_fixed w i = false.

Lemma rb2_mass : mass_rb2_ok n M.
Proof. intros i Hi. destruct (HM i Hi) as [A B]. pose proof (HI i Hi). split; [lra|]. split; [exact B|lra]. Qed.

Lemma rb2_sound : sound U (fun _ => True).
Proof.
  split.
  - exact rb2_laws.
  - reflexivity.
  - intros s x i _ Hi. apply (diag_mat (3 * rb_n w)). exact Hi.
  - intros s x b o _ Hb Ho. destruct (rb2_mass b Hb) as [N0 [E N2]]. cbn [U rb2_simulator u_sim u_n u_M u_minv rb2_sim k_s k_vslot k_mass] in *. unfold rb2_block, diag_minv, slot_of.
    fold M. assert (N1 : M (3 * b + 1)%nat <> 0) by (rewrite E; exact N0).
    destruct o as [|[|[|o]]]; [| | |lia]; cbn [rsum Nat.eqb]; rewrite ?Nat.add_0_r; field; repeat split; assumption.
  - intros s q0 q1 v cs c _ HA Hc. destruct (rb2_active_closed n (rb_fixed w) shape q0 q1 v cs c Hn Free HA Hc) as [i [j [Hi [Hj [[ra [rb ->]]|[p [m ->]]]]]]];
      exists i, (Some j); repeat split; assumption.
  - intros q v c E H. apply ok_eq in H. subst E. split; [reflexivity|]. intros r [<-|[<-|[]]]; reflexivity.
Qed.

Lemma rb2_push_columns : forall friction q v cs imps q1 v', rb2_active_set n (rb_fixed w) shape [] q q1 v' = Ok cs -> pushed U friction q v cs imps ->
  Forall (fun ci => exists c, in_range n (rb2_bodies c) /\ rb2_made_at q c /\ rb2_conserves_p c = true /\ rb2_conserves_L_friction c = true
    /\ rb2_column q c (fst ci) /\ rb2_contact_column q c (fst ci)) imps.
Proof.
  intros friction q v cs imps q1 v' HA HP. eapply Forall_impl; [|exact HP]. clear HP imps. intros [g x] [c [Hc Hg]]. cbn [fst] in *. exists c.
  destruct (rb2_active_closed n (rb_fixed w) shape q q1 v' cs c Hn Free HA Hc) as [i [j [Hi [Hj K]]]].
  assert (X : in_range n (rb2_bodies c) /\ rb2_made_at q c /\ rb2_conserves_p c = true /\ rb2_conserves_L_friction c = true
              /\ exists i' j' H0 H1, rb2_bodies c = (i', Some j') /\ rb2_H0 q c (rb2_basis c) = H0 /\ rb2_H1 q c (rb2_basis c) = Some H1).
  { destruct K as [[ra [rb ->]]|[p [m ->]]]; (split; [split; assumption|]); (split; [constructor|]); (split; [reflexivity|]); (split; [reflexivity|]);
      eexists _, _, _, _; (split; [reflexivity|]); split; reflexivity. }
  destruct X as [X1 [X2 [X3 [X4 [i' [j' [[n0 t0] [[n1 t1] [B [Z0 Z1]]]]]]]]]]. do 4 (split; [assumption|]).
  assert (HH : rb2_hcols q c (rb2_basis c) = (hrow2 i' n0 ++ hrow2 j' (neg_row2 n1), hrow2 i' t0 ++ hrow2 j' (neg_row2 t1))) by (unfold rb2_hcols; rewrite B, Z0, Z1; reflexivity).
  destruct Hg as [g Hg|t g F Hg|E ij h0 h1 g F HE HB H0 H1 Hg].
  - split; [apply r2col_normal; exact Hg|]. apply r2cc_normal. apply r2ncol_gradg. exact Hg.
  - split; [eapply r2col_friction; exact Hg|]. eapply r2cc_friction. exact Hg.
  - apply ok_eq in HE, HB, H0, H1. subst E ij h0 h1. cbn [U rb2_simulator u_sim u_n rb2_sim k_bodies k_H0 k_H1] in Hg.
    assert (BB : basis2 (list_of2 (rb2_basis c)) = rb2_basis c) by (destruct (rb2_basis c) as [[x0 x1] [y0 y1]]; reflexivity).
    rewrite BB, Z0, Z1, B in Hg. cbn [fst snd] in Hg.
    assert (GG : g = fst (rb2_hcols q c (rb2_basis c)) \/ g = snd (rb2_hcols q c (rb2_basis c))).
    { rewrite HH. cbn [fst snd]. unfold hcols in Hg. cbn [rb2_sim k_d seq map fst snd nth In] in Hg. unfold hrow2.
      destruct n0 as [[n00 n01] n02], t0 as [[t00 t01] t02], n1 as [[n10 n11] n12], t1 as [[t10 t11] t12].
      destruct Hg as [Hg|[Hg|[]]]; subst g; [left|right]; unfold place, slot_of; cbn; rewrite ?Nat.add_0_r; reflexivity. }
    destruct GG as [-> | ->].
    + split; [apply r2col_h_normal|]. apply r2cc_normal. apply r2ncol_h.
    + split; [apply r2col_h_tangent|]. apply r2cc_h_tangent.
Qed.

Lemma seg2_body3 : forall v i, seg2 v (3 * i) = body 3 v i.
Proof. intros v i. unfold seg2, body. now rewrite Nat.add_0_r. Qed.
Lemma rb2_momentum_spec : forall v, rb2_momentum n M v = momentum 3 n M v.
Proof. intros v. unfold rb2_momentum, momentum. f_equal; apply rsum_ext; intros; rewrite seg2_body3; reflexivity. Qed.

Definition rb2_kick (p : vec) : vec := vadd p (vscale (dt * total_mass 3 n M) (vsum (rb_gravity w))).

Lemma rb2_step_body : forall q v q1 v1, (if verlet then rb2_verlet else rb2_euler) w dt (q, v) = Some (q1, v1) ->
  forall i, (i < n)%nat ->
  body 3 v1 i = straight (body 3 v i) (vsum (rb_gravity w)) dt
  /\ body 3 q1 i = vadd (straight (body 3 q i) (body 3 v i) dt) (vscale (if verlet then dt * dt / 2 else dt * dt) (vsum (rb_gravity w)))
  /\ v1 (3 * i + 2)%nat = v (3 * i + 2)%nat.
Proof.
  intros q v q1 v1 E i Hi. destruct verlet.
  - destruct (rb2_verlet_closed w dt q v 1 HM) as [q' [v' [Es Hc]]]. cbn [steps] in Es. rewrite E in Es. injection Es as <- <-.
    destruct (Hc i Hi) as [H1 [_ [_ H4]]]. destruct (H1 (Free i Hi)) as [H5 H6]. rewrite H6, H5, H4. cbn [INR]. rewrite !Rmult_1_l. split; [reflexivity|]. split; [|reflexivity].
    unfold parabola, vadd, straight, vscale. cbn [fst snd]. f_equal; ring.
  - destruct (rb2_euler_closed w dt q v 1 HM) as [q' [v' [Es Hc]]]. cbn [steps] in Es. rewrite E in Es. injection Es as <- <-.
    destruct (Hc i Hi) as [H1 [_ [_ H4]]]. destruct (H1 (Free i Hi)) as [H5 H6]. rewrite H6, H5, H4. cbn [INR]. rewrite !Rmult_1_l. split; [reflexivity|]. split; [|reflexivity].
    unfold parabola, vadd, straight, vscale. cbn [fst snd]. f_equal; field.
Qed.

Lemma rb2_momentum_follows : forall {K} (G : settings rb2_contact phase K) m, (with_friction m = true -> inverts_masses U G M) ->
  follows U G true m (fun _ => True) (fun _ v => momentum 3 n M v) rb2_kick.
Proof.
  intros K G m HV. split.
  - exact rb2_sound.
  - intros Hf s _. exact (HV Hf).
  - intros s v v' _ H. unfold momentum. f_equal; apply rsum_ext; intros i Hi; unfold body; cbn [fst snd]; rewrite H by (cbn; unfold n in *; lia); reflexivity.
  - intros s q1 v vb cs imps v0 _ HA HP. rewrite <- !rb2_momentum_spec. apply (rb2_momentum_kept n M (u_q U s)); [exact rb2_mass|].
    eapply Forall_impl; [|exact (rb2_push_columns _ _ _ _ _ _ _ HA HP)]. cbn beta. intros ci [c H]. exists c. tauto.
  - reflexivity.
  - intros s s' H. now apply ok_eq in H.
  - intros _ s v q1 v1 _ E. cbn [U rb2_simulator u_step u_q] in E.
    assert (X : momentum 3 n M v1 = rb2_kick (momentum 3 n M v)).
    { unfold rb2_kick, momentum, vadd, vscale, total_mass. cbn [fst snd]. 
      f_equal; rewrite ?(Rmult_comm dt), ?Rmult_assoc, ?(Rmult_comm (rsum n (fun i => M (3 * i)%nat))), <- rsum_scal, <- rsum_plus; apply rsum_ext; intros i Hi;
        destruct (rb2_step_body _ _ _ _ E i Hi) as [-> _]; unfold straight; cbn [fst snd]; ring. }
    repeat split; intros; exact X.
  - intros _ s v _. split; [exact Logic.I|reflexivity].
  - intros _ s v0 F v _ E. discriminate.
Qed.

Lemma rb2_kicks : forall k p, Nat.iter k rb2_kick p = vadd p (vscale (INR k * dt * total_mass 3 n M) (vsum (rb_gravity w))).
Proof.
  intros k p. induction k as [|k IH].
  - cbn [Nat.iter nat_rect INR]. unfold vadd, vscale. destruct p as [p0 p1]. cbn [fst snd]. f_equal; ring.
  - change (rb2_kick (Nat.iter k rb2_kick p) = vadd p (vscale (INR (S k) * dt * total_mass 3 n M) (vsum (rb_gravity w)))). rewrite IH, S_INR. unfold rb2_kick, vadd, vscale. cbn [fst snd]. f_equal; ring.
Qed.

Theorem rb2_run_momentum : forall {K Mem} (G : settings rb2_contact phase K) (sc : script (phase * K) rb2_contact Mem) m steps it x c f lv x' c' f' lv',
  (with_friction m = true -> inverts_masses U G M) -> hands_off sc ->
  run U G sc true m steps it (x, c, f, lv) = Ok (x', c', f', lv') ->
  momentum 3 n M (snd x') = vadd (momentum 3 n M (snd x)) (vscale (INR steps * dt * total_mass 3 n M) (vsum (rb_gravity w))).
Proof.
  intros K Mem G sc m steps it x c f lv x' c' f' lv' HV Off HR. rewrite <- rb2_kicks.
  destruct (run_follows U G true m _ _ _ (rb2_momentum_follows G m HV) sc Off steps it (x, c) f lv (x', c') f' lv' Logic.I HR) as [_ Q]. exact Q.
Qed.

(* angular momentum about the origin *)
Definition moment (q v : dvec) : R := orbital 3 n M q v + rsum n (fun i => M (3 * i + 2)%nat * v (3 * i + 2)%nat).
Lemma rb2_angular_spec : forall q v, rb2_angular n M q v = moment q v.
Proof. intros q v. unfold rb2_angular, moment, orbital. f_equal. apply rsum_ext; intros; rewrite !seg2_body3; reflexivity. Qed.

Lemma rb2_angular_follows : forall {K} (G : settings rb2_contact phase K) m, (with_friction m = true -> inverts_masses U G M) -> vsum (rb_gravity w) = vzero ->
  follows U G true m (fun _ => True) (fun s v => moment (fst s) v) (fun L => L).
Proof.
  intros K G m HV Hg. split.
  - exact rb2_sound.
  - intros Hf s _. exact (HV Hf).
  - intros s v v' _ H. unfold moment, orbital. f_equal; apply rsum_ext; intros i Hi; unfold body; rewrite !H by (cbn; unfold n in *; lia); reflexivity.
  - intros s q1 v vb cs imps v0 _ HA HP. rewrite <- !rb2_angular_spec. apply rb2_angular_gen; [exact rb2_mass|].
    eapply Forall_impl; [|exact (rb2_push_columns _ _ _ _ _ _ _ HA HP)]. cbn beta. intros ci [c [H1 [H2 [_ [H3 [_ H4]]]]]]. eapply rb2_column_Lf; eassumption.
  - reflexivity.
  - intros s s' H. now apply ok_eq in H.
  - intros _ s v q1 v1 _ E. cbn [U rb2_simulator u_step u_q next u_set fst] in *. split; [exact Logic.I|].
    assert (B : forall i, (i < n)%nat -> body 3 v1 i = body 3 v i /\ vcross (body 3 q1 i) (body 3 v i) = vcross (body 3 (fst s) i) (body 3 v i) /\ v1 (3 * i + 2)%nat = v (3 * i + 2)%nat).
    { intros i Hi. destruct (rb2_step_body _ _ _ _ E i Hi) as [B1 [B2 B3]]. rewrite Hg in B1, B2. rewrite B1, B2, B3. unfold straight, vadd, vscale, vcross, vzero. cbn [fst snd].
      split; [|split; [ring|reflexivity]]. destruct (body 3 v i) as [a b]. cbn [fst snd]. f_equal; ring. }
    split.
    + unfold moment, orbital. f_equal; apply rsum_ext; intros i Hi; destruct (B i Hi) as [B1 [B2 B3]]; [rewrite B1, B2|rewrite B3]; reflexivity.
    + intros _. unfold moment, orbital. f_equal; apply rsum_ext; intros i Hi; destruct (B i Hi) as [B1 [B2 B3]]; [rewrite B1|rewrite B3]; reflexivity.
  - intros _ s v _. split; [exact Logic.I|]. cbn [U rb2_simulator next u_set u_linear u_q fst]. unfold moment, orbital. f_equal. apply rsum_ext. intros i _.
    unfold body, axpy, vcross. cbn [fst snd]. ring.
  - intros _ s v0 F v _ E. discriminate.
Qed.

Theorem rb2_run_angular : forall {K Mem} (G : settings rb2_contact phase K) (sc : script (phase * K) rb2_contact Mem) m steps it x c f lv x' c' f' lv',
  (with_friction m = true -> inverts_masses U G M) -> vsum (rb_gravity w) = vzero -> hands_off sc ->
  run U G sc true m steps it (x, c, f, lv) = Ok (x', c', f', lv') ->
  moment (fst x') (snd x') = moment (fst x) (snd x).
Proof.
  intros K Mem G sc m steps it x c f lv x' c' f' lv' HV Hg Off HR.
  destruct (run_follows U G true m _ _ _ (rb2_angular_follows G m HV Hg) sc Off steps it (x, c) f lv (x', c') f' lv' Logic.I HR) as [_ Q].
  cbn [fst snd U rb2_simulator u_v] in Q. rewrite Q. clear. generalize (moment (fst x) (snd x)). induction steps as [|k IH]; intros r; [reflexivity|apply IH].
Qed.
End Rb2.

(* the symplectic Euler friction map cannot be used with planar bodies *)
Theorem rb2_symplectic_exits : forall {K Mem} w shape planes verlet dt (G : settings rb2_contact phase K) (sc : script (phase * K) rb2_contact Mem) steps it x,
  hands_off sc -> run (rb2_simulator w shape planes verlet dt) G sc true MSymplectic (S steps) it x = Exit.
Proof.
  intros K Mem w shape planes verlet dt G sc steps it [[y f] lv] [O1 O2]. cbn [run]. unfold sim_flow, startOfStep, state_hook. unfold runs in O1.
  destruct (sc_named sc); [|reflexivity]. destruct (sc_start_step sc); [discriminate|]. reflexivity.
Qed.
