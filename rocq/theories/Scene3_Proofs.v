From Coq Require Import ZArith NArith QArith Bool Ascii String List Lia ZifyBool ZifyNat ZifyN Permutation Sorted.
From Verif Require Import Outcome Str_Model Str_Spec Str_Proofs Rational_Model RatParse_Model Scene_Text Scene_Model Scene_Spec Scene_TextProofs Scene_Proofs Scene_Write Scene_Thms Scene2_Model Scene2_Spec Scene2_Proofs Scene3_Model Scene3_Spec Scene3_Rend.
From Verif Require State_Spec State_Proofs.
Import ListNotations.
Open Scope string_scope.
Open Scope list_scope.

(* ---------------------------------------------------------------- vectors *)
Lemma vec3_attr_text fp n a p : vec3_attr fp n a = Ok (Some p) -> vec3_text fp n a p.
Proof.
  unfold vec3_attr. intros H. pstep H. apply of_option_inv in Ha. pstep H. apply read_list_inv in Ha0 as (toks & _ & J & N & L & F).
  destruct toks as [|t1 [|t2 [|t3 [|]]]]; try discriminate. inversion F as [|? x ? l1 E1 F1]; subst. inversion F1 as [|? y ? l2 E2 F2]; subst.
  inversion F2 as [|? z ? l3 E3 F3]; subst. inversion F3; subst.
  apply accept_inv in H. subst p. inversion N as [|? ? N1 N2]; subst. inversion N2 as [|? ? N3 N4]; subst. inversion N4; subst. exists t1, t2, t3. repeat split; assumption.
Qed.
Lemma vec3_attr_inv fp n a p : vec3_attr fp n a = Ok (Some p) -> numbers3 fp p.
Proof.
  intros H. apply vec3_attr_text in H as (t1 & t2 & t3 & _ & _ & _ & _ & E). destruct p as [[x y] z]. destruct E as (E1 & E2 & E3).
  repeat split; eapply read_ext_number; eassumption.
Qed.
Lemma vec3_writable fp p : numbers3 fp p -> exists t, forall nm at' ch a, vec3_attr fp (Node nm ((a, t) :: at') ch) a = accept p.
Proof.
  destruct p as [[x y] z]. intros (Hx & Hy & Hz). destruct (ext_writable _ _ Hx) as (t1 & W1 & E1). destruct (ext_writable _ _ Hy) as (t2 & W2 & E2).
  destruct (ext_writable _ _ Hz) as (t3 & W3 & E3).
  exists (join " "%char [t1; t2; t3]). intros nm at' ch a. unfold vec3_attr. wgo.
  change 3%nat with (List.length [t1; t2; t3]).
  rewrite (read_list_ok (read_ext fp) [t1; t2; t3] [x; y; z]); [reflexivity|discriminate| | |].
  - cbn [join]. destruct W1 as [W1 _]. destruct t1; [contradiction|discriminate].
  - repeat (constructor; [apply word_no_space; assumption|]). constructor.
  - repeat (constructor; [assumption|]). constructor.
Qed.
Lemma vec3_skip fp nm a b t at' ch : seqb b a = false -> vec3_attr fp (Node nm ((b, t) :: at') ch) a = vec3_attr fp (Node nm at' ch) a.
Proof. intros H. unfold vec3_attr. rewrite attr_skip by exact H. reflexivity. Qed.
Ltac vec3 H := let t := fresh "t" in let E := fresh "E" in destruct (vec3_writable _ _ H) as (t & E).
Lemma vec3_attr_fails fp w n a : fails w (vec3_attr fp n a) -> w = true /\ first_attribute n a = Some [].
Proof.
  unfold vec3_attr. intros H. fstep H; [safe|]. apply of_option_inv in Ha. fstep H.
  - apply read_list_fails in H as [-> ->]. auto.
  - destruct a1 as [|x [|y [|z [|]]]]; safe.
Qed.
Lemma triple_attr_text fp n a p : triple_attr fp n a = Ok (Some p) -> triple_text fp n a p.
Proof.
  unfold triple_attr. intros H. pstep H. apply of_option_inv in Ha. exists a0. split; [exact Ha|].
  destruct (read_scalars fp a0) as [|x [|y [|z [|]]]]; pgo H. subst. reflexivity.
Qed.
Lemma triple_attr_inv fp n a p : triple_attr fp n a = Ok (Some p) -> decimals3 fp p.
Proof.
  intros H. apply triple_attr_text in H as (t & _ & E). pose proof (read_scalars_decimal fp (List.length t) t) as D.
  fold (read_scalars fp t) in D. rewrite E in D. destruct p as [[x y] z]. cbn [entries3] in D.
  inversion D as [|? ? D1 D2]; subst. inversion D2 as [|? ? D3 D4]; subst. inversion D4; subst. repeat split; assumption.
Qed.
Lemma triple_writable fp p : decimals3 fp p -> exists t, forall nm at' ch a, triple_attr fp (Node nm ((a, t) :: at') ch) a = accept p.
Proof.
  destruct p as [[x y] z]. intros (H1 & H2 & H3). destruct (scalars_writable fp [x; y; z]) as (t & E); [repeat constructor; assumption|].
  exists t. intros nm at' ch a. unfold triple_attr. wgo. rewrite E. reflexivity.
Qed.
Lemma triple_skip fp nm a b t at' ch : seqb b a = false -> triple_attr fp (Node nm ((b, t) :: at') ch) a = triple_attr fp (Node nm at' ch) a.
Proof. intros H. unfold triple_attr. rewrite attr_skip by exact H. reflexivity. Qed.
Lemma triple_attr_safe fp w n a : ~ fails w (triple_attr fp n a).
Proof. unfold triple_attr. intros H. fstep H; [safe|]. destruct (read_scalars fp a0) as [|x [|y [|z [|]]]]; safe. Qed.
Ltac tri H := let t := fresh "t" in let E := fresh "E" in destruct (triple_writable _ _ H) as (t & E).
Ltac ugo := repeat (first [wstep | rewrite vec3_skip by reflexivity | rewrite vec2_skip by reflexivity | rewrite triple_skip by reflexivity |
  match goal with
  | H : forall nm at' ch a, vec3_attr _ _ a = accept _ |- _ => rewrite H
  | H : forall nm at' ch a, vec2_attr _ _ a = accept _ |- _ => rewrite H
  | H : forall nm at' ch a, triple_attr _ _ a = accept _ |- _ => rewrite H
  end]).

Lemma ext_lt_iff a b : ext_lt a b = true <-> below a b.
Proof. destruct a, b; cbn; try tauto; try apply qlt_iff; split; try discriminate; tauto. Qed.
Lemma ext_neg_iff e : ext_neg e = false <-> ext_nonneg e.
Proof.
  destruct e as [q| |]; cbn; [|split; auto|split; [discriminate|tauto]]. pose proof (qlt_not q 0) as K. destruct (qlt q 0); cbn [negb] in K.
  - split; [discriminate|]. intros H. apply K in H. discriminate.
  - split; [intros _; now apply K|reflexivity].
Qed.

(* ---------------------------------------------------------------- soundness *)
Lemma load_perspective_inv fp n c : load_perspective fp n = Ok (Some c) -> c3_view c <> NoView /\ view_ok fp (c3_view c) /\ (0 <= c3_fps c < 2 ^ 32)%Z.
Proof.
  unfold load_perspective. intros H. pgo H. subst. cbn [c3_view c3_fps view_ok].
  apply scalar_attr_inv in Ha, Ha0, Ha1. apply qle_not in Ha2. apply vec3_attr_inv in Ha3, Ha4. apply unsigned_attr_inv in Ha5.
  split; [discriminate|]. tauto.
Qed.
Lemma load_orthographic_inv fp n c : load_orthographic fp n = Ok (Some c) -> c3_view c <> NoView /\ view_ok fp (c3_view c) /\ (0 <= c3_fps c < 2 ^ 32)%Z.
Proof.
  unfold load_orthographic. intros H. pgo H. subst. cbn [c3_view c3_fps view_ok].
  apply scalar_attr_inv in Ha2. apply qle_not in Ha3. apply vec3_attr_inv in Ha1. apply unsigned_attr_inv in Ha4.
  rewrite !orb_true_iff, !seqb_true in Ha0. cbn [map In]. split; [discriminate|]. split; [|tauto]. split; [intuition congruence|tauto].
Qed.
Lemma load_cameras_inv fp root c : load_cameras fp root = Ok (Some c) -> camera3_ok fp c.
Proof.
  unfold load_cameras. intros H. pgo H. subst. apply optional_inv in Ha, Ha0. destruct a0 as [c|].
  - right. destruct Ha0 as (n & _ & E). eapply load_orthographic_inv, E.
  - destruct a as [c|]; [right; destruct Ha as (n & _ & E); eapply load_perspective_inv, E|left; reflexivity].
Qed.
Lemma load_smooth_inv fp bd n f : load_smooth fp bd n = Ok (Some f) -> smooth_ok fp bd f.
Proof.
  unfold load_smooth. intros H. pstep H. branches H; subst. apply andb_prop in B as [B _]. apply load_words_inv in Ha0.
  apply scalar_attr_inv in Ha1. apply qlt_not in Ha2. cbn [smooth_ok]. unfold tolerance. tauto.
Qed.
Definition fsolver3_ok fp bd (x : friction_solver * friction_map * Q * Q) : Prop :=
  let '(s, m, mu, cor) := x in friction_coefficients fp mu cor /\ rb3_solver_ok fp bd s m cor.
Lemma load_staggered3_inv fp bd n x : load_staggered fp (load_lcp fp bd false) (load_smooth fp bd) n = Ok (Some x) -> fsolver3_ok fp bd x.
Proof.
  intros H. eapply load_staggered_inv in H; [|apply load_lcp_inv|apply load_smooth_inv].
  destruct x as [[[s m] mu] cor]. unfold staggered_ok, fsolver3_ok in *. destruct H as (H1 & H2 & H3 & H4).
  split; [exact H1|]. destruct s as [wa wb l f| |]; [|contradiction H3..]. cbn [rb3_solver_ok]. tauto.
Qed.
Lemma load_sobogus3_inv fp bd n x : load_sobogus3 fp n = Ok (Some x) -> fsolver3_ok fp bd x.
Proof.
  unfold load_sobogus3. intros H. do 6 pstep H.
  apply load_mu_inv in Ha. apply load_cor_inv in Ha0. apply load_max_iters_inv in Ha1.
  apply load_eval_every_inv in Ha2. apply load_tol_inv in Ha3.
  destruct (seqb a4 "geometric"); [pgo H; subst; unfold fsolver3_ok, friction_coefficients, map_ok; cbn [rb3_solver_ok map_iterations map_ok]; tauto|].
  destruct (seqb a4 "symplectic_euler").
  - pgo H. subst. destruct a5 as [b p]. apply load_stabilization_inv in Ha5.
    unfold fsolver3_ok, friction_coefficients, map_ok; cbn [rb3_solver_ok map_iterations map_ok fst snd]; tauto.
  - destruct (seqb a4 "stabilized"); [|pgo H]. pgo H. subst.
    unfold fsolver3_ok, friction_coefficients, map_ok; cbn [rb3_solver_ok map_iterations map_ok fst snd]; tauto.
Qed.
Lemma load_grr_inv fp bd n x : load_grr fp bd n = Ok (Some x) -> fsolver3_ok fp bd x.
Proof.
  unfold load_grr. intros H. do 7 pstep H. apply load_mu_inv in Ha. apply load_cor_inv in Ha0. apply load_impact_inv in Ha2. apply load_smooth_inv in Ha4.
  branches H; subst; unfold fsolver3_ok, friction_coefficients; cbn [rb3_solver_ok]; tauto.
Qed.
Lemma load_impact3_inv fp bd n op cor c : load_impact3 fp bd n = Ok (Some (op, cor, c)) -> impact_ok fp bd false op /\ decimal fp cor /\ c = None.
Proof. unfold load_impact3. intros H. pgo H. injection H as -> -> <-. apply scalar_attr_inv in Ha. apply load_impact_inv in Ha0. auto. Qed.
Lemma rb3_response_inv fp bd root r :
  load_response (load_impact3 fp bd) (rb3_solvers fp bd) root = Ok (Some r) -> rb3_response_ok fp bd r.
Proof.
  intros H. eapply load_response_inv with (fok := fsolver3_ok fp bd)
    (iok := fun x => let '(op, cor, c) := x in impact_ok fp bd false op /\ decimal fp cor /\ c = None) in H.
  - destruct r as [|op cor c|s m mu cor]; exact H.
  - intros n [[op cor] c] K. eapply load_impact3_inv, K.
  - unfold rb3_solvers. constructor; [|constructor; [|constructor; [|constructor]]]; cbn [snd]; intros n x K.
    + apply load_staggered3_inv in K. exact K.
    + eapply load_sobogus3_inv, K.
    + eapply load_grr_inv, K.
Qed.
Lemma load_boundary_inv fp n b : load_boundary fp n = Ok (Some b) -> boundary_ok fp b.
Proof.
  unfold load_boundary. intros H. pgo H. subst. apply vec3_attr_inv in Ha1, Ha2. unfold boundary_ok. cbn [bd_min bd_max].
  split; [exact Ha1|]. split; [exact Ha2|]. destruct a1 as [[x y] z], a2 as [[x' y'] z']. cbn [below3].
  rewrite !andb_true_iff, !ext_lt_iff in Ha3. tauto.
Qed.
Lemma load_plane3_inv fp n p : load_plane3 fp n = Ok (Some p) -> plane3_ok fp p.
Proof. unfold load_plane3. intros H. pgo H. subst. apply vec3_attr_inv in Ha, Ha0. split; assumption. Qed.
Lemma load_cylinder3_inv fp n c : load_cylinder3 fp n = Ok (Some c) -> cylinder3_ok fp c.
Proof.
  unfold load_cylinder3. intros H. pgo H. subst. apply vec3_attr_inv in Ha, Ha0. apply scalar_attr_inv in Ha1. apply qle_not in Ha2.
  cbn [cylinder3_ok]. auto.
Qed.
Definition rend_ok (fp : fpmode) (np : nat) (r : nat * (ext * ext)) : Prop := (fst r <= np)%nat /\ width_ok fp (snd r).
Lemma load_plane_renderer_inv fp np n r : load_plane_renderer fp np n = Ok (Some r) -> rend_ok fp np r.
Proof.
  unfold load_plane_renderer. intros H. pgo H. subst. unfold rend_ok, width_ok. cbn [fst snd]. apply vec2_attr_inv in Ha2.
  apply andb_prop in Ha3 as [P1 P2]. apply negb_true_iff in P1, P2. apply ext_neg_iff in P1, P2. split; [lia|]. auto.
Qed.
Lemma load_cylinder_renderer_inv fp nc n r : load_cylinder_renderer fp nc n = Ok (Some r) ->
  (fst r <= nc)%nat /\ decimal fp (snd r) /\ (0 <= snd r)%Q.
Proof.
  unfold load_cylinder_renderer. intros H. pgo H. subst. cbn [fst snd]. apply scalar_attr_inv in Ha2. apply qlt_not in Ha3. split; [lia|]. auto.
Qed.
Lemma load_multiplier_inv n m : load_multiplier n = Ok (Some m) -> let '(x, y, z) := m in sign_unit x /\ sign_unit y /\ sign_unit z.
Proof.
  unfold load_multiplier. intros H. pstep H. pstep H. destruct a0 as [|x [|y [|z [|]]]]; try discriminate. pgo H. subst. cbn [forallb] in Ha1.
  unfold sign_unit. lia.
Qed.
Lemma load_geometry3_inv ar n s : load_geometry3 ar n = Ok (Some s) -> shape3_ok ar s.
Proof.
  unfold load_geometry3. intros H. pstep H. branches H; subst; cbn [shape3_ok].
  - apply scalar_attr_inv in Ha0. apply qle_not in Ha1. auto.
  - apply vec3_attr_inv in Ha0. split; [exact Ha0|]. destruct a0 as [[x y] z]. rewrite !negb_orb, !andb_true_iff, !negb_true_iff, !ext_nonpos_iff in Ha1.
    cbn [pos3]. tauto.
  - apply scalar_attr_inv in Ha0, Ha2, Ha4. apply qle_not in Ha1, Ha3, Ha5. rewrite negb_orb in Ha6. apply andb_prop in Ha6 as [Q1 Q2].
    apply qlt_not in Q1, Q2. repeat split; assumption.
  - exact Ha1.
Qed.
Lemma load_geo_idx_inv k n g : load_geo_idx k n = Ok (Some g) -> (g < k)%nat /\ names_geometry n k g.
Proof.
  unfold load_geo_idx, int_attr. intros H. apply pbind_inv in H as (z & HZ & H). apply pbind_inv in HZ as (t & Et & HZ). apply of_option_inv in Et, HZ.
  destruct (z <? 0)%Z eqn:B.
  - destruct (z =? int_min)%Z; [discriminate|]. pgo H. subst. split; [lia|]. exists t, z. split; [exact Et|]. split; [exact HZ|]. lia.
  - pgo H. subst. split; [lia|]. exists t, z. split; [exact Et|]. split; [exact HZ|]. lia.
Qed.
Lemma load_body3_inv fp k n b : load_body3 fp k n = Ok (Some b) -> body3_ok fp k b.
Proof.
  unfold load_body3. intros H. repeat pstep H. apply accept_inv in H. subst b.
  apply triple_attr_inv in Ha, Ha0, Ha1. apply scalar_attr_inv in Ha2. apply load_geo_idx_inv in Ha4.
  unfold body3_ok. cbn [r3_x r3_v r3_omega r3_rho r3_geo r3_R]. do 4 (split; [assumption|]). split; [tauto|].
  destruct (first_attribute n "R"); [|apply accept_inv in Ha5; subst; exact Logic.I].
  pstep Ha5. apply accept_inv in Ha5. subst a5. eapply vec3_attr_inv; eassumption.
Qed.
Lemma load_integrator3_inv root k t d : load_integrator3 root = Ok (Some (k, t, d)) ->
  parse_rational t = Ok (Some d) /\ (0 < num d)%Z.
Proof. unfold load_integrator3. intros H. pgo H. destruct a0 as [t' d']. injection H as -> -> ->. eapply load_dt_inv, Ha0. Qed.

(* what the planes, portals and renderers of a scene are *)
Record portal3_links (planes : list plane3) (rs : list (nat * (ext * ext))) (d : drawn)
  (links : list (nat * nat * (Z * Z * Z))) : Prop := {
  p3_range : Forall (in_range (List.length planes)) (flat (map fst links));
  p3_nodup : NoDup (flat (map fst links));
  p3_mult : Forall (fun l => let '(x, y, z) := snd l in sign_unit x /\ sign_unit y /\ sign_unit z) links;
  p3_picked : Forall2 (picked planes) links (dr_portals d);
  p3_rest : dr_planes d = without (flat (map fst links)) planes;
  p3_rend : dr_plane_rend d = map (fun r => (rank (member (flat (map fst links))) (fst r), snd r))
              (filter (fun r => negb (member (flat (map fst links)) (fst r))) rs);
  p3_prend : dr_portal_rend d = portal_renderers 0 (map fst links) rs }.
Lemma load_portals3_inv root planes rs d : ordered rs -> load_portals3 root planes rs = Ok (Some d) ->
  exists links, load_links load_multiplier (List.length planes) [] (elements root "planar_portal") = Ok (Some links) /\ portal3_links planes rs d links.
Proof.
  intros OR H. unfold load_portals3 in H. destruct (elements root "planar_portal") as [|p0 pl] eqn:E1.
  - apply accept_inv in H. subst d. exists []. split; [reflexivity|]. constructor; cbn [map flat concat dr_planes dr_portals dr_plane_rend dr_portal_rend]; try constructor.
    + rewrite State_Proofs.without_keep, keep_none; reflexivity.
    + cbn [member existsb negb]. clear. induction rs as [|[i w] rs IH]; [reflexivity|]. cbn [filter map fst snd]. f_equal; [|exact IH]. f_equal.
      induction i as [|i IHi]; [reflexivity|]. cbn [State_Proofs.rank]. rewrite <- IHi. reflexivity.
  - cbv zeta in H. repeat pstep H. apply lift_inv in Ha1, Ha2. apply accept_inv in H. subst d. exists a0. split; [exact Ha0|].
    pose proof (load_links_inv _ _ _ load_multiplier_inv _ [] _ (NoDup_nil _) Ha0) as (N & R & S). cbn [app] in N.
    assert (Forall (fun i => (i < List.length planes)%nat) (flat (map fst a0))) as R' by (eapply Forall_impl; [|exact R]; intros i [X _]; exact X).
    rewrite erase_all_without in Ha2 by assumption. injection Ha2 as <-.
    constructor; cbn [dr_planes dr_portals dr_plane_rend dr_portal_rend]; try assumption; try reflexivity.
    + apply omapM_iff in Ha1. eapply State_Proofs.forall2_impl; [|exact Ha1]. intros x y X. apply join_planes_iff. exact X.
    + assert (forall i, member (isort (flat (map fst a0))) i = member (flat (map fst a0)) i) as M.
      { apply member_same. intros i. split; intros K; eapply Permutation_in; try exact K; [apply isort_perm|symmetry; apply isort_perm]. }
      rewrite drop_renderers_filter, renumber_rank.
      * rewrite (filter_same _ (fun r : nat * (ext * ext) => negb (member (flat (map fst a0)) (fst r)))) by (intros r; rewrite M; reflexivity).
        apply map_ext. intros [i w]. cbn [fst snd]. f_equal. clear -M. induction i as [|i IH]; [reflexivity|]. cbn [State_Proofs.rank]. rewrite M, IH. reflexivity.
      * eapply Permutation_NoDup; [symmetry; apply isort_perm|exact N].
      * apply filter_ordered, OR.
Qed.
Lemma zero_side fp : side_ok fp zero2.
Proof. left. reflexivity. Qed.
Lemma load_portals3_ok fp root planes rs d : Forall (plane3_ok fp) planes -> Forall (rend_ok fp (List.length planes)) rs -> ordered rs ->
  load_portals3 root planes rs = Ok (Some d) -> drawn_ok fp d.
Proof.
  intros HP HR OR H. apply load_portals3_inv in H as (links & _ & [K1 K2 K3 K4 K5 K6 K7]); [|exact OR].
  assert (Forall (fun l => fst l <> snd l) (map fst links)) as ND.
  { clear -K2. induction links as [|[[a b] e] links IH]; [constructor|]. cbn [map fst snd flat concat app] in *. inversion K2 as [|? ? N1 N2]; subst.
    inversion N2; subst. constructor; [|auto]. cbn [fst snd]. intros ->. apply N1. left. reflexivity. }
  constructor.
  - rewrite K5. apply without_forall, HP.
  - clear -HP K3 K4. revert K3. induction K4 as [|l p ls ps (H1 & H2 & E) _ IH]; intros K3; [constructor|]. inversion K3; subst. constructor; [|auto].
    rewrite Forall_forall in HP. rewrite <- E. repeat split; try (eapply HP, nth_error_In; eassumption). assumption.
  - rewrite K6. apply rank_ordered, filter_ordered, OR.
  - rewrite K6, K5, without_length. apply Forall_map. apply Forall_forall. intros r Hr. apply filter_In in Hr as [Hr _].
    rewrite Forall_forall in HR. destruct (HR _ Hr) as [X1 X2]. cbn [fst snd]. split; [apply rank_mono, X1|exact X2].
  - rewrite K7. apply portal_renderers_sorted.
  - rewrite K7. apply Forall_forall. intros [i h] Hr. apply portal_renderers_in in Hr as (ab & _ & E & -> & N). rewrite Nat.sub_0_r in E. cbn [fst snd].
    assert (fst ab <> snd ab) as D by (rewrite Forall_forall in ND; eapply ND, nth_error_In, E).
    assert (forall k, side_ok fp (lastw k rs)) as SD.
    { intros k. destruct (lastw_cases k rs) as [X|[_ ->]]; [|apply zero_side]. right. rewrite Forall_forall in HR. apply (HR _ X). }
    destruct ab as [a b]. rewrite half_widths_last in * by exact D. cbn [fst snd] in *. split; [|split; [split; apply SD|exact N]].
    apply Forall2_len in K4. rewrite <- K4, <- (map_length fst links). apply nth_error_Some. congruence.
Qed.

(* the placed bodies: every body has a shape *)
Definition moment_of (ar : arith3) (geometry : list shape3) (b : body3) : moments :=
  match nth_error geometry (r3_geo b) with
  | Some s => moment ar s (r3_rho b)
  | None => mkMoments 0 (0, 0, 0) (0, 0, 0) ((0, 0, 0), (0, 0, 0), (0, 0, 0))
  end%Q.
Definition placed_of (ar : arith3) (geometry : list shape3) (b : body3) : placed :=
  let mo := moment_of ar geometry b in
  mkPlaced (plus3 ar (r3_x b) (mo_CM mo)) (turn ar (r3_R b) (mo_R mo)) (mo_M mo) (mo_I mo).
Lemma places_ok ar geometry bodies : Forall (fun b => (r3_geo b < List.length geometry)%nat) bodies ->
  omapM (place ar geometry) bodies = Ok (map (placed_of ar geometry) bodies).
Proof.
  induction 1 as [|b bodies Hb _ E]; [reflexivity|]. cbn [omapM map]. rewrite E.
  assert (place ar geometry b = Ok (placed_of ar geometry b)) as ->; [|reflexivity]. unfold place, placed_of, moment_of.
  destruct (nth_error geometry (r3_geo b)) eqn:En; [reflexivity|apply nth_error_None in En; lia].
Qed.
Lemma concat_flat_map {A B} (f : A -> list B) l : concat (map f l) = flat_map f l.
Proof. symmetry. apply flat_map_concat_map. Qed.
Lemma flat_map_map {A B C} (f : B -> list C) (g : A -> B) l : flat_map f (map g l) = flat_map (fun a => f (g a)) l.
Proof. induction l as [|a l IH]; [reflexivity|]. cbn [map flat_map]. rewrite IH. reflexivity. Qed.

Lemma load_rb3_scene_sound ar bd root sc : load_rb3_scene ar bd root = Ok (Some sc) -> rb3_scene_ok ar bd sc.
Proof.
  unfold load_rb3_scene. intros H. repeat pstep H. apply accept_inv in H. subst sc. apply lift_inv in Ha13.
  destruct a3 as [[k t] d]. cbn [fst snd]. apply load_integrator3_inv in Ha3.
  assert (Forall (body3_ok ar (List.length a11)) a12) as HB by (eapply each_forall; [apply load_body3_inv|exact Ha12]).
  rewrite places_ok in Ha13 by (eapply Forall_impl; [|exact HB]; intros b B; apply B). injection Ha13 as <-.
  constructor; cbn [r3s_end r3s_gravity r3s_camera r3s_dt_text r3s_dt r3s_response r3s_boundary r3s_cylinders r3s_cylinder_rend r3s_drawn r3s_geometry r3s_q r3s_v r3s_M r3s_I r3s_geo r3s_fixed].
  - apply optional_inv in Ha0. destruct a0; [|exact Logic.I]. destruct Ha0 as (n & _ & E). eapply load_end_time_inv, E.
  - eapply each_forall; [|exact Ha1]. intros n p. apply vec3_attr_inv.
  - eapply load_cameras_inv, Ha2.
  - exact Ha3.
  - eapply rb3_response_inv, Ha4.
  - apply optional_inv in Ha5. destruct a5; [|exact Logic.I]. destruct Ha5 as (n & _ & E). eapply load_boundary_inv, E.
  - eapply each_forall; [apply load_cylinder3_inv|exact Ha7].
  - eapply each_forall; [apply load_cylinder_renderer_inv|exact Ha9].
  - eapply load_portals3_ok; [| | |exact Ha10].
    + eapply each_forall; [apply load_plane3_inv|exact Ha6].
    + eapply forall_perm; [symmetry; apply sort_by_perm|]. eapply each_forall; [apply load_plane_renderer_inv|exact Ha8].
    + apply sort_by_sorted.
  - eapply each_forall; [apply load_geometry3_inv|exact Ha11].
  - exists a12. split; [exact HB|]. cbv zeta. rewrite !concat_flat_map, !flat_map_map, !map_map. unfold placed_of, moment_of.
    cbn [pl_x pl_R pl_M pl_I]. repeat split.
Qed.

(* ---------------------------------------------------------------- completeness *)
Lemma perspective_w fp th ph rho la up f a l : view_ok fp (Perspective th ph rho la up) -> (0 <= f < 2 ^ 32)%Z ->
  writable (load_perspective fp) (mkCam3 (Perspective th ph rho la up) f a l).
Proof.
  cbn [view_ok]. intros (D1 & D2 & D3 & P & V1 & V2) F. dec D1. dec D2. dec D3. vec3 V1. vec3 V2. destruct (unsigned_writable 32 f F) as (w & Ew).
  destruct (bool_writable a) as (u & Eu & _). destruct (bool_writable l) as (v & Ev & _).
  exists [(lit "theta", t); (lit "phi", t0); (lit "rho", t1); (lit "lookat", t2); (lit "up", t3); (lit "fps", w); (lit "render_at_fps", u); (lit "locked", v)], [].
  intros nm. unfold load_perspective, scalar_attr, bool_attr, unsigned_attr. ugo. wguard. ugo. reflexivity.
Qed.
Lemma orthographic_w fp p x s f a l : view_ok fp (Orthographic p x s) -> (0 <= f < 2 ^ 32)%Z ->
  writable (load_orthographic fp) (mkCam3 (Orthographic p x s) f a l).
Proof.
  cbn [view_ok]. intros (P & V & D & Ps) F. dec D. vec3 V. destruct (unsigned_writable 32 f F) as (w & Ew).
  destruct (bool_writable a) as (u & Eu & _). destruct (bool_writable l) as (v & Ev & _).
  exists [(lit "projection_plane", p); (lit "x", t0); (lit "scale", t); (lit "fps", w); (lit "render_at_fps", u); (lit "locked", v)], [].
  intros nm. unfold load_orthographic, scalar_attr, bool_attr, unsigned_attr. ugo.
  rewrite (guard_true (_ || _ || _)) by (cbn [map In] in P; destruct P as [<- | [<- | [<- | []]]]; reflexivity).
  ugo. wguard. ugo. reflexivity.
Qed.
Lemma cameras_w fp c : camera3_ok fp c -> exists lp lo, named "camera_perspective" lp /\ named "camera_orthographic" lo /\
  forall root, elements root "camera_perspective" = lp -> elements root "camera_orthographic" = lo -> load_cameras fp root = accept c.
Proof.
  intros [->|(N & V & F)].
  - exists [], []. split; [constructor|]. split; [constructor|]. intros root R1 R2. unfold load_cameras. rewrite !first_node_hd, R1, R2. reflexivity.
  - destruct c as [v f a l]. cbn [c3_view c3_fps] in *. destruct v as [|th ph rho la up|p x s]; [contradiction| |].
    + destruct (perspective_w fp _ _ _ _ _ f a l V F) as (at' & ch & E). exists [Node "camera_perspective" at' ch], []. split; [repeat constructor|].
      split; [constructor|]. intros root R1 R2. unfold load_cameras. rewrite !first_node_hd, R1, R2. cbn [hd_error optional]. rewrite E. reflexivity.
    + destruct (orthographic_w fp _ _ _ f a l V F) as (at' & ch & E). exists [], [Node "camera_orthographic" at' ch]. split; [constructor|].
      split; [repeat constructor|]. intros root R1 R2. unfold load_cameras. rewrite !first_node_hd, R1, R2. cbn [hd_error optional]. ugo. reflexivity.
Qed.
Lemma smooth_w fp bd f : smooth_ok fp bd f -> writable (load_smooth fp bd) f.
Proof.
  destruct f as [|ws t]; cbn [smooth_ok]; [contradiction|]. intros (Q & N & W & D & P). dec D. destruct (words_writable ws W) as (u & Eu).
  exists [(lit "name", lit "ipopt"); (lit "tol", t0); (lit "linear_solvers", u)], []. intros nm.
  unfold load_smooth, scalar_attr, load_words. wgo. rewrite Q. wgo. rewrite Eu. destruct ws as [|w ws]; [contradiction|]. wgo. wguard. wgo. reflexivity.
Qed.
Lemma sobogus3_w fp e m mu cor : friction_coefficients fp mu cor -> map_ok fp cor m -> (0 < e <= map_iterations m)%Z ->
  match m with Geometric _ _ c => c = CacheNone | _ => True end -> writable (load_sobogus3 fp) (Sobogus e, m, mu, cor).
Proof.
  intros (D1 & P1 & D2 & P2) HM He HC. dec D1. dec D2.
  assert (exists tol, tolerance fp tol /\ iterations (map_iterations m) /\
     match m with Geometric t _ _ => t = tol | SymplecticEulerMap t _ _ _ _ => t = tol | Stabilized t _ => t = tol end) as (tol & [D3 P3] & I & Et).
  { destruct m as [tol k c|tol k c b p|tol k]; cbn [map_ok map_iterations] in *; exists tol; tauto. }
  dec D3. destruct (iter_w _ I) as (w & Ew). unfold iterations in I.
  destruct (int_writable e) as (x & Ex); [unfold int_min, int_max; lia|].
  set (cache := match m with SymplecticEulerMap _ _ c _ _ => c | _ => CacheNone end).
  set (ctext := match cache with CacheNone => lit "none" | CacheNormal => lit "normal" | CacheBoth => lit "normal_and_friction" end).
  assert (exists st pt, match m with SymplecticEulerMap _ _ _ b p => checked (read_bool st) = Some b /\ checked (read_scalar fp pt) = Some p | _ => True end) as (st & pt & Es).
  { destruct m as [| tol' k c b p |]; try (exists [], []; exact Logic.I). cbn [map_ok] in HM. destruct HM as (_ & _ & [Dp _] & _).
    destruct (bool_writable b) as (st & Hs & _). destruct (checked_writable _ _ Dp) as (pt & Hp). exists st, pt. auto. }
  set (kind := match m with Geometric _ _ _ => lit "geometric" | SymplecticEulerMap _ _ _ _ _ => lit "symplectic_euler" | _ => lit "stabilized" end).
  exists [(lit "mu", t); (lit "CoR", t0); (lit "max_iters", w); (lit "eval_every", x); (lit "tol", t1);
          (lit "cache_impulses", ctext); (lit "staggering", kind); (lit "stabilization", st); (lit "penetration_threshold", pt)], [].
  intros nm. unfold load_sobogus3, load_mu, load_cor, load_tol, load_max_iters, load_eval_every, scalar_attr, int_attr.
  wgo. wguard. wgo. rewrite guard_true by (apply cor_guard, P2). wgo. wguard. wgo. wguard. wgo. wguard. wgo. wguard. wgo.
  assert (forall nm at', load_caching (Node nm ((lit "cache_impulses", ctext) :: at') []) = accept cache) as EC.
  { intros nm' at'. unfold load_caching. wgo. subst ctext. destruct cache; wgo; reflexivity. }
  assert (forall nm at' ch b u, seqb b "cache_impulses" = false -> load_caching (Node nm ((b, u) :: at') ch) = load_caching (Node nm at' ch)) as ES.
  { intros. unfold load_caching. rewrite attr_skip by assumption. reflexivity. }
  rewrite !ES by reflexivity. rewrite EC. subst kind cache. destruct m as [tol' k c|tol' k c b p|tol' k]; subst tol'; wgo.
  - subst c. reflexivity.
  - cbn [map_ok] in HM. destruct HM as (_ & _ & [_ Pp] & Z). destruct Es as [Es Ep].
    unfold load_stabilization, bool_attr, scalar_attr. rewrite guard_true by (apply Qeq_bool_iff, Z). wgo. wguard. wgo. reflexivity.
  - reflexivity.
Qed.
Lemma grr_w fp bd op f m mu cor : friction_coefficients fp mu cor -> impact_ok fp bd false op -> smooth_ok fp bd f ->
  m = Geometric 0 0 CacheNone \/ m = Stabilized 0 0 -> writable (load_grr fp bd) (GrrFriction op f, m, mu, cor).
Proof.
  intros (D1 & P1 & D2 & P2) HI HS Em. dec D1. dec D2. destruct (smooth_w _ _ _ HS) as (a2 & c2 & E2).
  destruct (impact_w _ _ _ _ HI) as (a1 & c1 & E1). specialize (E1 "impact_operator" [] (Forall_nil _)). cbn [app] in E1.
  set (kind := match m with Geometric _ _ _ => lit "geometric" | _ => lit "stabilized" end).
  exists [(lit "mu", t); (lit "CoR", t0); (lit "staggering", kind)], [Node "impact_operator" a1 c1; Node "friction_operator" a2 c2]. intros nm.
  unfold load_grr, load_mu, load_cor, scalar_attr. wgo. wguard. wgo. rewrite guard_true by (apply cor_guard, P2). wgo. rewrite E1. wgo.
  subst kind. destruct Em as [-> | ->]; wgo; reflexivity.
Qed.
Lemma impact3_w fp bd op cor : impact_ok fp bd false op -> decimal fp cor -> writable (load_impact3 fp bd) (op, cor, None).
Proof.
  intros H D. dec D. destruct (impact_w _ _ _ _ H) as (a1 & c1 & E1).
  exists ((lit "CoR", t) :: a1), c1. intros nm. unfold load_impact3, scalar_attr. wgo.
  specialize (E1 nm [(lit "CoR", t)]). cbn [app] in E1. rewrite E1; [reflexivity|]. constructor; [left; reflexivity|constructor].
Qed.
Lemma response3_w fp bd r : rb3_response_ok fp bd r -> exists li ls lb lg,
  named "impact_operator" li /\ named "staggered_projections_friction_solver" ls /\ named "sobogus_friction_solver" lb /\ named "grr_friction_solver" lg /\
  forall root, elements root "impact_operator" = li -> elements root "staggered_projections_friction_solver" = ls ->
    elements root "sobogus_friction_solver" = lb -> elements root "grr_friction_solver" = lg ->
    load_response (load_impact3 fp bd) (rb3_solvers fp bd) root = accept r.
Proof.
  destruct r as [|op cor c|s m mu cor]; cbn [rb3_response_ok].
  - intros _. exists [], [], [], []. do 4 (split; [constructor|]). intros root R1 R2 R3 R4.
    unfold load_response, rb3_solvers. cbn [load_solvers]. rewrite !first_node_hd, R1, R2, R3, R4. reflexivity.
  - intros (H1 & H2 & ->). destruct (impact3_w _ _ _ _ H1 H2) as (at' & ch & E).
    exists [Node "impact_operator" at' ch], [], [], []. split; [repeat constructor|]. do 3 (split; [constructor|]). intros root R1 R2 R3 R4.
    unfold load_response, rb3_solvers. cbn [load_solvers]. rewrite !first_node_hd, R1, R2, R3, R4. cbn [hd_error]. rewrite E. reflexivity.
  - intros (H1 & H3). destruct s as [wa wb l f|e|op f]; cbn [rb3_solver_ok] in H3.
    + destruct H3 as (L & SM & H2 & M).
      destruct (staggered_w fp _ _ wa wb _ _ _ _ _ (lcp_w _ _ _ _ L) (smooth_w _ _ _ SM) H1 H2 M) as (at' & ch & E).
      exists [], [Node "staggered_projections_friction_solver" at' ch], [], []. split; [constructor|]. split; [repeat constructor|]. do 2 (split; [constructor|]).
      intros root R1 R2 R3 R4. unfold load_response, rb3_solvers. cbn [load_solvers]. rewrite !first_node_hd, R1, R2, R3, R4. cbn [hd_error]. rewrite E. reflexivity.
    + destruct H3 as (He & H2 & M). destruct (sobogus3_w fp _ _ _ _ H1 H2 He M) as (at' & ch & E).
      exists [], [], [Node "sobogus_friction_solver" at' ch], []. do 2 (split; [constructor|]). split; [repeat constructor|]. split; [constructor|].
      intros root R1 R2 R3 R4. unfold load_response, rb3_solvers. cbn [load_solvers]. rewrite !first_node_hd, R1, R2, R3, R4. cbn [hd_error]. rewrite E. reflexivity.
    + destruct H3 as (HI & HS & M). destruct (grr_w fp _ _ _ _ _ _ H1 HI HS M) as (at' & ch & E).
      exists [], [], [], [Node "grr_friction_solver" at' ch]. do 3 (split; [constructor|]). split; [repeat constructor|].
      intros root R1 R2 R3 R4. unfold load_response, rb3_solvers. cbn [load_solvers]. rewrite !first_node_hd, R1, R2, R3, R4. cbn [hd_error]. rewrite E. reflexivity.
Qed.
Lemma gravity3_w fp g : numbers3 fp g -> writable (load_gravity3 fp) g.
Proof. intros V. vec3 V. exists [(lit "f", t)], []. intros nm. unfold load_gravity3. ugo. reflexivity. Qed.
Lemma boundary_w fp b : boundary_ok fp b -> writable (load_boundary fp) b.
Proof.
  destruct b as [e lo hi]. unfold boundary_ok. cbn [bd_min bd_max]. intros (V1 & V2 & L). vec3 V1. vec3 V2.
  exists [(lit "violation_behavior", if e then lit "exit" else lit "none"); (lit "min", t); (lit "max", t0)], []. intros nm.
  unfold load_boundary. ugo. replace (of_option _) with (accept e) by (destruct e; reflexivity). ugo. destruct lo as [[x y] z], hi as [[x' y'] z'].
  destruct L as (L1 & L2 & L3). apply ext_lt_iff in L1, L2, L3. rewrite L1, L2, L3. reflexivity.
Qed.
Lemma plane3_w fp p : plane3_ok fp p -> writable (load_plane3 fp) p.
Proof. destruct p as [x n]. intros [V1 V2]. cbn [fst snd] in *. vec3 V1. vec3 V2. exists [(lit "x", t); (lit "n", t0)], []. intros nm. unfold load_plane3. ugo. reflexivity. Qed.
Lemma cylinder3_w fp c : cylinder3_ok fp c -> writable (load_cylinder3 fp) c.
Proof.
  destruct c as [[x a] r]. cbn [cylinder3_ok]. intros (V1 & V2 & D & P). vec3 V1. vec3 V2. dec D.
  exists [(lit "x", t); (lit "axis", t0); (lit "R", t1)], []. intros nm. unfold load_cylinder3, scalar_attr. ugo. wguard. ugo. reflexivity.
Qed.
Lemma plane_renderer_w fp np r : (Z.of_nat np < 2 ^ 31)%Z -> rend_ok fp np r -> writable (load_plane_renderer fp np) r.
Proof.
  destruct r as [i w]. intros B [H (V & P1 & P2)]. cbn [fst snd] in *. vec V. destruct (unsigned_writable 64 (Z.of_nat i)) as (u & Eu); [lia|].
  exists [(lit "plane", u); (lit "r", t)], []. intros nm. unfold load_plane_renderer. ugo. wguard. ugo.
  apply ext_neg_iff in P1, P2. rewrite P1, P2. rewrite Nat2Z.id. reflexivity.
Qed.
Lemma cylinder_renderer_w fp nc r : (Z.of_nat nc < 2 ^ 31)%Z -> (fst r <= nc)%nat /\ decimal fp (snd r) /\ (0 <= snd r)%Q -> writable (load_cylinder_renderer fp nc) r.
Proof.
  destruct r as [i l]. cbn [fst snd]. intros B (H & D & P). dec D. destruct (unsigned_writable 64 (Z.of_nat i)) as (u & Eu); [lia|].
  exists [(lit "cylinder_idx", u); (lit "L", t)], []. intros nm. unfold load_cylinder_renderer, scalar_attr. ugo. wguard. ugo. wguard. ugo. rewrite Nat2Z.id. reflexivity.
Qed.
Lemma geometry3_w ar s : shape3_ok ar s -> writable (load_geometry3 ar) s.
Proof.
  destruct s as [r|r|w l d|f]; cbn [shape3_ok].
  - intros [D P]. dec D. exists [(lit "type", lit "sphere"); (lit "r", t)], []. intros nm. unfold load_geometry3, scalar_attr. ugo. wguard. ugo. reflexivity.
  - intros [V P]. vec3 V. exists [(lit "type", lit "box"); (lit "r", t)], []. intros nm. unfold load_geometry3. ugo. destruct r as [[x y] z].
    destruct P as (P1 & P2 & P3). apply ext_nonpos_iff in P1, P2, P3. rewrite P1, P2, P3. reflexivity.
  - intros (D1 & D2 & D3 & P & L1 & L2). dec D1. dec D2. dec D3.
    exists [(lit "type", lit "staple"); (lit "w", t); (lit "l", t0); (lit "D", t1)], []. intros nm. unfold load_geometry3, scalar_attr. ugo.
    rewrite (guard_true (negb (qle w 0))) by (apply qle_not; eapply Qlt_le_trans; eassumption). ugo.
    rewrite (guard_true (negb (qle l 0))) by (apply qle_not; eapply Qlt_le_trans; eassumption). ugo. wguard. ugo.
    apply qlt_not in L1, L2. rewrite negb_orb, L1, L2. reflexivity.
  - intros R. exists [(lit "type", lit "mesh"); (lit "filename", f)], []. intros nm. unfold load_geometry3. ugo. rewrite R. reflexivity.
Qed.
Lemma geo_skip k nm b t at' ch : seqb b "geo_idx" = false -> load_geo_idx k (Node nm ((b, t) :: at') ch) = load_geo_idx k (Node nm at' ch).
Proof. intros H. unfold load_geo_idx, int_attr. rewrite attr_skip by exact H. reflexivity. Qed.
Lemma body3_w fp k b : (Z.of_nat k < 2 ^ 31)%Z -> body3_ok fp k b -> writable (load_body3 fp k) b.
Proof.
  destruct b as [x v om rho f g R]. unfold body3_ok. cbn [r3_x r3_v r3_omega r3_rho r3_geo r3_R]. intros B (T1 & T2 & T3 & D & G & V).
  tri T1. tri T2. tri T3. dec D. destruct (bool_writable f) as (u & Eu & _). destruct (int_writable (Z.of_nat g)) as (w & Ew); [unfold int_min, int_max; lia|].
  assert (forall nm at' ch, load_geo_idx k (Node nm ((lit "geo_idx", w) :: at') ch) = accept g) as EG.
  { intros nm at' ch. unfold load_geo_idx, int_attr. wgo. destruct (Z.of_nat g <? 0)%Z eqn:X; [lia|]. wguard. wgo. rewrite Nat2Z.id. reflexivity. }
  destruct R as [r|].
  - vec3 V. exists [(lit "x", t); (lit "v", t0); (lit "omega", t1); (lit "rho", t2); (lit "fixed", u); (lit "geo_idx", w); (lit "R", t3)], []. intros nm.
    unfold load_body3, scalar_attr, bool_attr. ugo. rewrite !geo_skip by reflexivity. rewrite EG. ugo. reflexivity.
  - exists [(lit "x", t); (lit "v", t0); (lit "omega", t1); (lit "rho", t2); (lit "fixed", u); (lit "geo_idx", w)], []. intros nm.
    unfold load_body3, scalar_attr, bool_attr. ugo. rewrite !geo_skip by reflexivity. rewrite EG. ugo. reflexivity.
Qed.
