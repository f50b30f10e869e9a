From Coq Require Import String Ascii List Reals Arith Bool ZArith Lia Lra ZifyBool ZifyNat ZifyN.
Import ListNotations.
From Verif Require Import Outcome Ccd_Model Lin_Model Lin_Proofs ContactBall_Model ContactRb2_Model ContactRb3_Model Contact_Spec Contact_Proofs Contact3_Proofs Sob_Model Sob_Spec Sob_Proofs Sob_Thms Sob_Sims Sob_Final.
From Verif Require Import Hdf_Model Hdf_Spec Force_Model Force_Spec Force_Proofs Force_Thms Force_Mom.
Local Open Scope list_scope. Local Open Scope R_scope.

(* ---------- what the constraints answer ---------- *)
Lemma sim_pair_decode ij : (Z.of_nat (fst ij) < 2147483648)%Z -> match snd ij with Some j => (Z.of_nat j < 2147483648)%Z | None => True end ->
  sim_pair ij = (Z.of_nat (fst ij), match snd ij with Some j => Z.of_nat j | None => (-1)%Z end).
Proof. intros H0 H1. unfold sim_pair. rewrite int_of_small by lia. destruct (snd ij); [rewrite int_of_small by lia|]; reflexivity. Qed.
Section Answer.
Context {C : Type} (W : asked C).
Lemma answer_body c i j ij : a_bodies W c = Ok (Z.of_nat i, Z.of_nat j) -> collision_indices W c = Ok ij -> decode (fst ij) = Some (Body i) /\ decode (snd ij) = Some (Body j).
Proof. intros E X. rewrite (indices_body W c i j E) in X. injection X as <-. cbn [fst snd]. split; apply decode_body. Qed.
Lemma answer_obstacle c i k ij : a_bodies W c = Ok (Z.of_nat i, (-1)%Z) -> a_static W c = Ok (N.of_nat k) -> (Z.of_nat k < 2147483647)%Z ->
  collision_indices W c = Ok ij -> decode (fst ij) = Some (Body i) /\ decode (snd ij) = Some (Obstacle k).
Proof. intros E S L X. rewrite (indices_obstacle W c i k E S L) in X. injection X as <-. cbn [fst snd]. split; [apply decode_body|apply decode_obstacle]. Qed.
End Answer.
Ltac settle_small H := destruct H as (H & H'); unfold one_or_obstacle in *; cbn [fst snd] in *.
Lemma ball_answers q c : small (ball_parties c) -> answers ball_asked ball_parties q c.
Proof.
  intros H. split; [|intros p E; cbn in E; injection E as <-; reflexivity]. intros ij. destruct c as [c k]. destruct H as (H0 & H1).
  unfold ball_parties, one_or_obstacle in *. cbn [fst snd] in *.
  assert (B : a_bodies ball_asked (c, k) = Ok (Z.of_nat (fst (b_bodies c)), match snd (b_bodies c) with Some j => Z.of_nat j | None => (-1)%Z end)).
  { cbn [ball_asked a_bodies fst]. f_equal. apply sim_pair_decode; [exact H0|destruct (snd (b_bodies c)); [exact H1|exact Logic.I]]. }
  destruct c; cbn [b_bodies fst snd] in *.
  - apply answer_body. exact B.
  - apply answer_body. exact B.
  - apply answer_obstacle; [exact B|cbn; f_equal; lia|exact H1].
  - apply answer_obstacle; [exact B|cbn; f_equal; lia|exact H1].
Qed.
Lemma rb2_answers q c : small (rb2_parties c) -> answers rb2_asked rb2_parties q c.
Proof.
  intros H. split; [|intros p E; cbn in E; injection E as <-; reflexivity]. intros ij. destruct c as [c k]. destruct H as (H0 & H1).
  unfold rb2_parties, one_or_obstacle in *.
  destruct c; cbn [rb2_bodies fst snd] in *;
  first [apply answer_body; cbn [rb2_asked a_bodies fst rb2_bodies]; unfold sim_pair; cbn [fst snd]; rewrite ?int_of_small by lia; reflexivity
        |apply answer_obstacle; [cbn [rb2_asked a_bodies fst rb2_bodies]; unfold sim_pair; cbn [fst snd]; rewrite ?int_of_small by lia; reflexivity|cbn; f_equal; lia|exact H1]].
Qed.
Lemma rb3_answers q c : small (rb3_parties c) -> answers rb3_asked rb3_parties q c.
Proof.
  intros H. split; [|intros p E; cbn [rb3_asked a_point] in E; destruct (rb3_contact_point q (fst c)); cbn in E; try discriminate; injection E as <-; reflexivity].
  intros ij. destruct c as [c k]. destruct H as (H0 & H1).
  unfold rb3_parties, one_or_obstacle in *.
  destruct c; cbn [rb3_bodies fst snd] in *;
  first [intros X; discriminate X
        |apply answer_body; cbn [rb3_asked a_bodies fst rb3_bodies]; unfold sim_pair; cbn [fst snd]; rewrite ?int_of_small by lia; reflexivity
        |apply answer_obstacle; [cbn [rb3_asked a_bodies fst rb3_bodies]; unfold sim_pair; cbn [fst snd]; rewrite ?int_of_small by lia; reflexivity|cbn; f_equal; lia|exact H1]].
Qed.

(* when the export returns *)
Lemma columns_work {C} (W : asked C) q cs : (forall c, In c cs -> (exists ij, collision_indices W c = Ok ij) /\ exists p, a_point W q c = Ok p) ->
  exists is ps, index_columns W cs = Ok is /\ point_columns W q cs = Ok ps.
Proof.
  induction cs as [|c cs IH]; intros H; [exists [], []; split; reflexivity|].
  destruct IH as (is & ps & Ei & Ep); [intros; apply H; right; assumption|]. destruct (H c (or_introl eq_refl)) as ((ij & E1) & (p & E2)).
  unfold index_columns, point_columns in *. cbn [omapM]. rewrite E1, E2, Ei, Ep. cbn [obind]. eauto.
Qed.
Lemma obstacle_ok {C} (W : asked C) c i k : a_bodies W c = Ok (Z.of_nat i, (-1)%Z) -> a_static W c = Ok (N.of_nat k) -> (Z.of_nat k < 2147483647)%Z -> exists ij, collision_indices W c = Ok ij.
Proof. intros E S L. rewrite (indices_obstacle W c i k E S L). eauto. Qed.
Lemma body_ok {C} (W : asked C) c i j : a_bodies W c = Ok (Z.of_nat i, Z.of_nat j) -> exists ij, collision_indices W c = Ok ij.
Proof. intros E. rewrite (indices_body W c i j E). eauto. Qed.
Lemma rb3_fine q c : small (rb3_parties c) -> (exists p, rb3_contact_point q (fst c) = Ok p) -> (exists ij, collision_indices rb3_asked c = Ok ij) /\ exists p, a_point rb3_asked q c = Ok p.
Proof.
  intros (H0 & H1) (p & Ep). split; [|cbn [rb3_asked a_point]; rewrite Ep; cbn; eauto]. destruct c as [c k]. unfold rb3_parties, one_or_obstacle in *.
  destruct c; cbn [rb3_bodies fst snd] in *; try discriminate Ep;
  first [eapply body_ok; cbn [rb3_asked a_bodies fst rb3_bodies]; unfold sim_pair; cbn [fst snd]; rewrite ?int_of_small by lia; reflexivity
        |eapply obstacle_ok; [cbn [rb3_asked a_bodies fst rb3_bodies]; unfold sim_pair; cbn [fst snd]; rewrite ?int_of_small by lia; reflexivity| |exact H1]; cbn; f_equal; lia].
Qed.
Lemma rb2_fine q c : small (rb2_parties c) -> (exists ij, collision_indices rb2_asked c = Ok ij) /\ exists p, a_point rb2_asked q c = Ok p.
Proof.
  intros (H0 & H1). split; [|cbn; eauto]. destruct c as [c k]. unfold rb2_parties, one_or_obstacle in *.
  destruct c; cbn [rb2_bodies fst snd] in *;
  first [eapply body_ok; cbn [rb2_asked a_bodies fst rb2_bodies]; unfold sim_pair; cbn [fst snd]; rewrite ?int_of_small by lia; reflexivity
        |eapply obstacle_ok; [cbn [rb2_asked a_bodies fst rb2_bodies]; unfold sim_pair; cbn [fst snd]; rewrite ?int_of_small by lia; reflexivity| |exact H1]; cbn; f_equal; lia].
Qed.
Lemma ball_fine q c : small (ball_parties c) -> (exists ij, collision_indices ball_asked c = Ok ij) /\ exists p, a_point ball_asked q c = Ok p.
Proof.
  intros (H0 & H1). split; [|cbn; eauto]. destruct c as [c k]. unfold ball_parties, one_or_obstacle in *.
  destruct c; cbn [b_bodies fst snd] in *;
  first [eapply body_ok; cbn [ball_asked a_bodies fst b_bodies]; unfold sim_pair; cbn [fst snd]; rewrite ?int_of_small by lia; reflexivity
        |eapply obstacle_ok; [cbn [ball_asked a_bodies fst b_bodies]; unfold sim_pair; cbn [fst snd]; rewrite ?int_of_small by lia; reflexivity| |exact H1]; cbn; f_equal; lia].
Qed.

(* ---------- the components of the force in the frame of the contact ---------- *)
Lemma components {C} d parties point (a : acting C) r : unit_frame d (ac_E a) -> length (ac_imp a) = d -> reports d parties point a r ->
  forall k, (k < d)%nat -> ldot (nth k (ac_E a) []) (rp_force r) = at_ (ac_imp a) k.
Proof.
  intros (U1 & U2 & U3) L Rp k Hk. pose proof Rp as (_ & _ & _ & Lf & F).
  unfold ldot. assert (Lk : length (nth k (ac_E a) []) = d) by (apply U2, nth_In; lia). rewrite Lk.
  transitivity (rsum d (fun e => rsum d (fun j => at_ (ac_imp a) j * (at_ (nth k (ac_E a) []) e * at_ (nth j (ac_E a) []) e)))).
  { apply rsum_ext. intros e He. rewrite (F e He), <- rsum_scal. apply rsum_ext. intros; ring. }
  rewrite rsum_swap. transitivity (rsum d (fun j => at_ (ac_imp a) j * (if Nat.eqb k j then 1 else 0))).
  { apply rsum_ext. intros j Hj. rewrite rsum_scal. f_equal. rewrite <- (U3 k j Hk Hj). unfold ldot. rewrite Lk. reflexivity. }
  clear - Hk. induction d as [|d IH]; [lia|]. cbn [rsum]. destruct (Nat.eq_dec k d) as [->|Ne].
  - rewrite Nat.eqb_refl. rewrite rsum_zero; [lra|]. intros j Hj. destruct (Nat.eqb_spec d j); [lia|lra].
  - rewrite IH by lia. destruct (Nat.eqb_spec k d); [lia|lra].
Qed.

(* ---------- from a call of the friction solver ---------- *)
Lemma combine_app {X Y} (a b : list X) (c d : list Y) : length a = length c -> combine (a ++ b) (c ++ d) = combine a c ++ combine b d.
Proof. revert c; induction a as [|x a IH]; intros [|y c] H; cbn in *; try discriminate; [reflexivity|]. rewrite IH by lia. reflexivity. Qed.
Lemma solved_columns {C} (its : list (item C)) imps acts (cols : item C -> list col) (cols' : acting (C * N) -> list col) d :
  solved its imps acts -> (forall it a, In it its -> fst (ac_c a) = it_c it -> ac_E a = it_E it -> cols' a = cols it /\ length (cols it) = d) -> (forall x, In x imps -> length x = d) ->
  combine (flat_map cols its) (concat imps) = flat_map (fun a => combine (cols' a) (ac_imp a)) acts.
Proof.
  unfold solved. revert its imps. induction acts as [|a acts IH]; intros [|it its] [|x imps] (E1 & E2 & E3) H1 H2; cbn in *; try discriminate; [reflexivity|].
  injection E1 as A1 B1. injection E2 as A2 B2. injection E3 as A3 B3. destruct (H1 it a (or_introl eq_refl) A1 A2) as (X & L).
  rewrite combine_app by (rewrite L, H2 by (left; reflexivity); reflexivity). rewrite X, A3. f_equal. apply IH; auto.
Qed.
Lemma reported_lengths {C} planar n Minv (cols : item C -> list col) bias_of gs tol v0 its r d : (0 < d)%nat ->
  solves planar n Minv cols bias_of gs tol v0 its r -> returns d gs -> forall x, In x (sb_imps r) -> length x = d.
Proof.
  intros Hd S HR x I. unfold solves in S. specialize (HR (delassus Minv (flat_map cols its)) (map (fun it => free_velocity (cols it) v0 (bias_of it)) its) (map it_mu its) (map it_imp its)).
  destruct (gs _ _ _ _) as [rloc err]. cbn [fst] in HR. destruct S as (_ & E & _). rewrite E in I. apply in_map_iff in I. destruct I as ((it & y) & <- & I).
  apply in_combine_r in I. cbn [fst snd]. rewrite <- (proj2 HR y I). unfold reported. destruct y as [|z y]; [reflexivity|]. cbn [length]. destruct (planar && _); [rewrite map_length|]; reflexivity.
Qed.
Lemma reported_spatial {C} n Minv (cols : item C -> list col) bias_of gs tol v0 its r d :
  solves false n Minv cols bias_of gs tol v0 its r -> returns d gs -> forall k, (k < n)%nat -> sb_v r k = v0 k + Minv (impulse (combine (flat_map cols its) (concat (sb_imps r)))) k.
Proof.
  intros S HR k Hk. unfold solves in S. specialize (HR (delassus Minv (flat_map cols its)) (map (fun it => free_velocity (cols it) v0 (bias_of it)) its) (map it_mu its) (map it_imp its)).
  destruct (gs _ _ _ _) as [rloc err]. cbn [fst] in HR. destruct S as (_ & E & V & _). destruct HR as (HL & _). rewrite map_length in HL.
  assert (X : sb_imps r = rloc).
  { rewrite E. clear - HL. revert its HL. induction rloc as [|y rloc IH]; intros [|it its] H; cbn in *; try discriminate; [reflexivity|]. rewrite IH by lia. f_equal. destruct y; reflexivity. }
  rewrite X. apply V. exact Hk.
Qed.
Lemma imps_solved {C} its imps (acts : list (acting (C * N))) a : solved its imps acts -> In a acts -> In (ac_imp a) imps /\ exists it, In it its /\ fst (ac_c a) = it_c it /\ ac_E a = it_E it.
Proof.
  unfold solved. revert its imps; induction acts as [|b acts IH]; intros [|it its] [|x imps] (E1 & E2 & E3) I; cbn in *; try discriminate; try contradiction.
  injection E1 as A1 B1. injection E2 as A2 B2. injection E3 as A3 B3. destruct I as [->|I].
  - split; [left; auto|exists it; auto].
  - destruct (IH its imps (conj B1 (conj B2 B3)) I) as (X & it' & Y & Z). split; [right; exact X|exists it'; auto].
Qed.
Lemma Forall2_lift {X Y} (P Q : X -> Y -> Prop) l m : Forall2 P l m -> (forall x y, In x l -> P x y -> Q x y) -> Forall2 Q l m.
Proof. induction 1 as [|x y l m Pxy F IH]; intros H; constructor; [apply H; [left; reflexivity|exact Pxy]|apply IH; intros; apply H; [right; assumption|assumption]]. Qed.

Section Accounts.
Variables (its_ng : nat).
Let ng := its_ng.
Theorem ball_accounts inv gs tol M q0 v0 its r acts point rs b e :
  mass2_ok ng M -> blocks_inverted ball_sim inv ng M -> returns 2 gs -> frictionless_ok gs -> ball_ready ng its ->
  sob_solve ball_sim inv gs tol ng M q0 v0 its = Ok r -> solved its (sb_imps r) acts -> Forall2 (reports 2 ball_parties point) acts rs ->
  (b < ng)%nat -> (e < 2)%nat ->
  M (2 * b)%nat * (sb_v r (2 * b + e)%nat - v0 (2 * b + e)%nat) = force_on b e rs.
Proof.
  intros Mo Bi Re Fr Rd E So Rp Hb He. destruct (ball_final inv gs tol ng M q0 v0 its Mo Bi Re Rd) as (r' & E' & S). assert (r' = r) by congruence. subst r'.
  pose proof (reported_lengths _ _ _ _ _ _ _ _ _ _ 2%nat ltac:(lia) S Re) as Ls.
  apply (ball_momentum ng M ball_framed point acts); auto.
  - intros k Hk. rewrite (solves_reported _ _ _ _ _ _ _ _ _ _ 2 S Re Fr k Hk). do 2 f_equal.
    rewrite (solved_columns its (sb_imps r) acts ball_cols ball_framed 2 So); [reflexivity| |exact Ls].
    intros it a _ A1 A2. unfold ball_framed, ball_cols. rewrite A1, A2. destruct (b_hcols _ _). split; reflexivity.
  - apply (Forall2_lift _ _ _ _ Rp). intros a x Ia Rx. apply ball_one with (point := point); auto. apply Ls. apply (imps_solved its _ acts a So Ia).
Qed.
Theorem rb2_accounts inv gs tol M q0 v0 its r acts rs b :
  mass_rb2_ok ng M -> blocks_inverted rb2_sim inv ng M -> returns 2 gs -> frictionless_ok gs -> rb2_ready ng its ->
  (forall it, In it its -> rb2_made_at q0 (it_c it) /\ to2 (nth 0 (it_E it) []) = rb2_normal (it_c it) /\ not_scripted2 b (it_c it)) ->
  sob_solve rb2_sim inv gs tol ng M q0 v0 its = Ok r -> solved its (sb_imps r) acts -> Forall2 (reports 2 rb2_parties (a_point rb2_asked q0)) acts rs ->
  (b < ng)%nat ->
  (forall e, (e < 2)%nat -> M (3 * b)%nat * (sb_v r (3 * b + e)%nat - v0 (3 * b + e)%nat) = force_on b e rs) /\
  ((forall it, In it its -> not_through_portal2 b (it_c it)) -> M (3 * b + 2)%nat * (sb_v r (3 * b + 2)%nat - v0 (3 * b + 2)%nat) = torque_on2 b (seg2 q0 (3 * b)) rs).
Proof.
  intros Mo Bi Re Fr Rd Ok E So Rp Hb. destruct (rb2_final inv gs tol ng M q0 v0 its Mo Bi Re Rd) as (r' & E' & S). assert (r' = r) by congruence. subst r'.
  pose proof (reported_lengths _ _ _ _ _ _ _ _ _ _ 2%nat ltac:(lia) S Re) as Ls.
  assert (Mv : moved (3 * ng) (diag_minv M) (rb2_framed q0) acts v0 (sb_v r)).
  { intros k Hk. rewrite (solves_reported _ _ _ _ _ _ _ _ _ _ 2 S Re Fr k Hk). do 2 f_equal.
    rewrite (solved_columns its (sb_imps r) acts (rb2_cols q0) (rb2_framed q0) 2 So); [reflexivity| |exact Ls].
    intros it a _ A1 A2. unfold rb2_framed, rb2_cols. rewrite A1, A2. destruct (rb2_hcols _ _ _). split; reflexivity. }
  destruct (rb2_momentum ng M (rb2_framed q0) acts rs v0 (sb_v r) b Mo Mv Hb) as (P1 & P2).
  assert (O : forall a x, In a acts -> reports 2 rb2_parties (a_point rb2_asked q0) a x -> 
     (forall e, (e < 2)%nat -> impulse (combine (rb2_framed q0 a) (ac_imp a)) (3 * b + e) = signed b x (at_ (rp_force x) e)) /\
     (not_through_portal2 b (fst (ac_c a)) -> impulse (combine (rb2_framed q0 a) (ac_imp a)) (3 * b + 2) = signed b x (vcross (vsub (to2 (rp_point x)) (seg2 q0 (3 * b))) (to2 (rp_force x))))).
  { intros a x Ia Rx. destruct (imps_solved its _ acts a So Ia) as (I1 & it & I2 & A1 & A2). destruct (Ok it I2) as (O1 & O2 & O3).
    apply rb2_one; rewrite ?A1, ?A2; auto. }
  split.
  - intros e He. apply P1; [exact He|]. apply (Forall2_lift _ _ _ _ Rp). intros a x Ia Rx. apply (O a x Ia Rx). exact He.
  - intros Np. apply P2. apply (Forall2_lift _ _ _ _ Rp). intros a x Ia Rx. apply (O a x Ia Rx).
    destruct (imps_solved its _ acts a So Ia) as (_ & it & I2 & A1 & _). rewrite A1. apply Np. exact I2.
Qed.
Theorem rb3_accounts inv gs tol M Iinv q0 v0 its r acts rs b :
  mass_rb3_ok ng M (inertia_of ng M) Iinv -> blocks_inverted rb3_sim inv ng M -> returns 3 gs -> rb3_ready ng its ->
  (forall it, In it its -> rb3_made_at q0 (it_c it) /\ to3 (nth 0 (it_E it) []) = rb3_normal q0 (it_c it) /\ not_scripted3 b (it_c it)) ->
  sob_solve rb3_sim inv gs tol ng M q0 v0 its = Ok r -> solved its (sb_imps r) acts -> Forall2 (reports 3 rb3_parties (a_point rb3_asked q0)) acts rs ->
  (b < ng)%nat ->
  (forall e, (e < 3)%nat -> M (3 * b)%nat * (sb_v r (3 * b + e)%nat - v0 (3 * b + e)%nat) = force_on b e rs) /\
  ((forall it, In it its -> not_through_portal3 b (it_c it)) ->
     mul3 (inertia_of ng M b) (sub3 (seg3 (sb_v r) (3 * (ng + b))) (seg3 v0 (3 * (ng + b)))) = torque_on3 b (seg3 q0 (3 * b)) rs).
Proof.
  intros Mo Bi Re Rd Ok E So Rp Hb. destruct (rb3_final inv gs tol ng M Iinv q0 v0 its Mo Bi Re Rd) as (r' & E' & S). assert (r' = r) by congruence. subst r'.
  pose proof (reported_lengths _ _ _ _ _ _ _ _ _ _ 3%nat ltac:(lia) S Re) as Ls.
  assert (Mv : moved (6 * ng) (rb3_minv ng M Iinv) (rb3_framed ng q0) acts v0 (sb_v r)).
  { intros k Hk. rewrite (reported_spatial _ _ _ _ _ _ _ _ _ 3 S Re k Hk). do 2 f_equal.
    rewrite (solved_columns its (sb_imps r) acts (rb3_cols ng q0) (rb3_framed ng q0) 3 So); [reflexivity| |exact Ls].
    intros it a Hi A1 A2. unfold rb3_framed, rb3_cols. rewrite A1, A2. destruct (Rd it Hi) as (Nsb & _).
    unfold rb3_hcols. destruct (it_c it); cbn [not_sphere_body] in Nsb; try contradiction; cbn [rb3_H0 rb3_H1 rb3_bodies obind only_ok concat]; rewrite app_nil_r; split; reflexivity. }
  destruct (rb3_momentum ng M (inertia_of ng M) Iinv (rb3_framed ng q0) acts rs v0 (sb_v r) b Mo Mv Hb) as (P1 & P2).
  assert (O : forall a x, In a acts -> reports 3 rb3_parties (a_point rb3_asked q0) a x -> 
     (forall e, (e < 3)%nat -> impulse (combine (rb3_framed ng q0 a) (ac_imp a)) (3 * b + e) = signed b x (at_ (rp_force x) e)) /\
     (not_through_portal3 b (fst (ac_c a)) -> forall e, (e < 3)%nat -> impulse (combine (rb3_framed ng q0 a) (ac_imp a)) (3 * (ng + b) + e) = signed b x (comp e (moment3 (seg3 q0 (3 * b)) x)))).
  { intros a x Ia Rx. destruct (imps_solved its _ acts a So Ia) as (I1 & it & I2 & A1 & A2). destruct (Ok it I2) as (O1 & O2 & O3). destruct (Rd it I2) as (_ & O4 & _).
    apply rb3_one; rewrite ?A1, ?A2; auto. }
  split.
  - intros e He. apply P1; [exact He|]. apply (Forall2_lift _ _ _ _ Rp). intros a x Ia Rx. apply (O a x Ia Rx). exact He.
  - intros Np. apply P2. intros e He. apply (Forall2_lift _ _ _ _ Rp). intros a x Ia Rx. apply (O a x Ia Rx); [|exact He].
    destruct (imps_solved its _ acts a So Ia) as (_ & it & I2 & A1 & _). rewrite A1. apply Np. exact I2.
Qed.
End Accounts.

(* ---------- impacts ---------- *)
Section Impacts.
Variable ng : nat.
Theorem ball_impacts M v0 v1 acts point rs b e :
  mass2_ok ng M -> moved (2 * ng) (diag_minv M) (fun a => [b_gradg (fst (ac_c a))]) acts v0 v1 ->
  (forall a, In a acts -> length (ac_imp a) = 1%nat /\ to2 (nth 0 (ac_E a) []) = fst (b_basis (fst (ac_c a)))) ->
  Forall2 (reports 2 ball_parties point) acts rs -> (b < ng)%nat -> (e < 2)%nat ->
  M (2 * b)%nat * (v1 (2 * b + e)%nat - v0 (2 * b + e)%nat) = force_on b e rs.
Proof.
  intros Mo Mv H Rp Hb He. apply (ball_momentum ng M (fun a => [b_gradg (fst (ac_c a))]) point acts); auto.
  apply (Forall2_lift _ _ _ _ Rp). intros a x Ia Rx. destruct (H a Ia). apply ball_one_normal with (point := point); auto.
Qed.
Theorem rb2_impacts M q0 v0 v1 acts rs b :
  mass_rb2_ok ng M -> moved (3 * ng) (diag_minv M) (fun a => only_ok (rb2_gradg (fst (ac_c a)))) acts v0 v1 ->
  (forall a, In a acts -> length (ac_imp a) = 1%nat /\ to2 (nth 0 (ac_E a) []) = rb2_normal (fst (ac_c a)) /\ rb2_made_at q0 (fst (ac_c a)) /\
     not_scripted2 b (fst (ac_c a)) /\ exists g, rb2_gradg (fst (ac_c a)) = Ok g) ->
  Forall2 (reports 2 rb2_parties (a_point rb2_asked q0)) acts rs -> (b < ng)%nat ->
  (forall e, (e < 2)%nat -> M (3 * b)%nat * (v1 (3 * b + e)%nat - v0 (3 * b + e)%nat) = force_on b e rs) /\
  ((forall a, In a acts -> not_through_portal2 b (fst (ac_c a))) -> M (3 * b + 2)%nat * (v1 (3 * b + 2)%nat - v0 (3 * b + 2)%nat) = torque_on2 b (seg2 q0 (3 * b)) rs).
Proof.
  intros Mo Mv H Rp Hb. destruct (rb2_momentum ng M _ acts rs v0 v1 b Mo Mv Hb) as (P1 & P2). split.
  - intros e He. apply P1; [exact He|]. apply (Forall2_lift _ _ _ _ Rp). intros a x Ia Rx. destruct (H a Ia) as (A1 & A2 & A3 & A4 & A5). apply (rb2_one_normal q0 b a x); auto.
  - intros Np. apply P2. apply (Forall2_lift _ _ _ _ Rp). intros a x Ia Rx. destruct (H a Ia) as (A1 & A2 & A3 & A4 & A5). apply (rb2_one_normal q0 b a x); auto.
Qed.
Theorem rb3_impacts M I Iinv q0 v0 v1 acts rs b :
  mass_rb3_ok ng M I Iinv -> moved (6 * ng) (rb3_minv ng M Iinv) (fun a => only_ok (rb3_gradg ng q0 (fst (ac_c a)))) acts v0 v1 ->
  (forall a, In a acts -> length (ac_imp a) = 1%nat /\ to3 (nth 0 (ac_E a) []) = rb3_normal q0 (fst (ac_c a)) /\ rb3_made_at q0 (fst (ac_c a)) /\
     in_range ng (rb3_bodies (fst (ac_c a))) /\ not_scripted3 b (fst (ac_c a)) /\ exists g, rb3_gradg ng q0 (fst (ac_c a)) = Ok g) ->
  Forall2 (reports 3 rb3_parties (a_point rb3_asked q0)) acts rs -> (b < ng)%nat ->
  (forall e, (e < 3)%nat -> M (3 * b)%nat * (v1 (3 * b + e)%nat - v0 (3 * b + e)%nat) = force_on b e rs) /\
  ((forall a, In a acts -> not_through_portal3 b (fst (ac_c a))) ->
     mul3 (I b) (sub3 (seg3 v1 (3 * (ng + b))) (seg3 v0 (3 * (ng + b)))) = torque_on3 b (seg3 q0 (3 * b)) rs).
Proof.
  intros Mo Mv H Rp Hb. destruct (rb3_momentum ng M I Iinv _ acts rs v0 v1 b Mo Mv Hb) as (P1 & P2). split.
  - intros e He. apply P1; [exact He|]. apply (Forall2_lift _ _ _ _ Rp). intros a x Ia Rx. destruct (H a Ia) as (A1 & A2 & A3 & A4 & A5 & A6). apply (rb3_one_normal ng q0 b Hb a x); auto.
  - intros Np. apply P2. intros e He. apply (Forall2_lift _ _ _ _ Rp). intros a x Ia Rx. destruct (H a Ia) as (A1 & A2 & A3 & A4 & A5 & A6). apply (rb3_one_normal ng q0 b Hb a x); auto.
Qed.
End Impacts.

(* a contact the constraint class cannot describe stops every export *)
Lemma omapM_stop {X Y} (f : X -> outcome Y) l x : In x l -> (forall y, f x <> Ok y) -> forall m, omapM f l <> Ok m.
Proof.
  induction l as [|a l IH]; intros I N m E; [contradiction|]. cbn in E. destruct (f a) as [y| |] eqn:Ea; cbn in E; try discriminate.
  destruct (omapM f l) as [m'| |] eqn:E'; cbn in E; try discriminate. destruct I as [->|I]; [exact (N y Ea)|exact (IH I N m' eq_refl)].
Qed.
Lemma export_stops q cs bases alpha beta h c : In c cs -> (match fst c with SphereBody _ _ _ _ _ | CylBody _ _ _ => True | _ => False end) ->
  forall h', export_forces rb3_asked q cs bases alpha beta h <> (h', Ok tt).
Proof.
  intros I B h' E. destruct (export_inv rb3_asked _ _ _ _ _ _ _ E) as (is & ps & Ei & _). unfold index_columns in Ei. revert Ei. apply omapM_stop with (x := c); [exact I|].
  intros y Y. unfold collision_indices in Y. cbn [rb3_asked a_bodies] in Y. destruct (fst c); try contradiction; discriminate.
Qed.
