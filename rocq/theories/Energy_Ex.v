(* Runs with impacts resolved exactly, and a step that makes energy. *)
From Coq Require Import List Reals Arith NArith Bool Lia Lra FunctionalExtensionality.
From Verif Require Cache_Thms.
From Verif Require Import Outcome Grid_Model Ccd_Model Ccd_Spec Ccd_Proofs Ccd_Props Flow_Model Flow_Spec Flow_Proofs Quad_Model Stagger_Model Integr_Model Integr_Spec Integr_Proofs
  Wall_Model Geom_Model Geom_Spec Geom_Sets Geom_Aabb Wall_Spec Wall_Geo Wall_Thms Geom_Circle Narrow_Model Narrow_Spec Narrow_Proofs Narrow_Thms Narrow_Total Narrow_Space Narrow_Ex
  ContactBall_Model ContactRb2_Model ContactRb3_Model Contact_Spec
  Rot_Model Rot_Spec Rot_Alg Rot_Proofs Rot_Thms Lin_Model Lin_Proofs Sob_Model Sob_Spec World_Model World_Spec World_Proofs World_Thms World_Ball World_Rb2 World_Rb3 World_Ex
  Energy_Spec Energy_Proofs Energy_Planar Energy_Space.
Import ListNotations.
Open Scope R_scope.

(* the impact operator for a single contact; it gives up on anything else *)
Definition one_contact {C S} (U : simulator C S) : S -> list C -> list R -> list R -> dvec -> outcome dvec := fun s cs nrel cor _ =>
  let! N := omapM (u_normal U (u_q U s)) cs in
  match N with
  | [g] =>
      let w := rsum (u_nv U) (fun k => entry g k * u_minv U s (entry g) k) in
      if Rlt_dec 0 w then Ok (fun _ => Rmax 0 (- (1 + nth 0 cor 0) * opening U N nrel 0 (u_v U s) / w)) else Exit
  | _ => Exit
  end.
Lemma one_contact_resolves : forall {C S K} (U : simulator C S) (G : settings C S K), g_impact G = one_contact U ->
  (forall s p a k, u_minv U s (fun k => p k * a) k = u_minv U s p k * a) -> resolves_impacts U G.
Proof.
  intros C S K U G EG Lin s cs N nrel cor a alpha EN EM EA i Hi rest. rewrite EG in EA. unfold one_contact in EA. rewrite EN in EA. cbn [obind] in EA.
  pose proof (omapM_length _ _ _ EN) as L. destruct N as [|g [|g' N]]; try discriminate. cbn [length] in L. assert (i = 0%nat) by lia. subst i.
  set (w := rsum (u_nv U) (fun k => entry g k * u_minv U s (entry g) k)) in *. cbv zeta in EA. destruct (Rlt_dec 0 w) as [P|]; [|discriminate].
  apply ok_eq in EA. set (o := opening U [g] nrel 0 (u_v U s)) in *. set (c := nth 0 cor 0) in *.
  assert (R : rest = o + w * alpha 0%nat + c * o).
  { unfold rest. fold o. f_equal. unfold o, opening, struck. cbn [length]. change (nth 0 [g] []) with g.
    assert (X : (fun k => rsum 1 (fun i => entry (nth i [g] []) k * alpha i)) = (fun k => entry g k * alpha 0%nat)) by (extensionality k; cbn [rsum nth]; ring).
    rewrite X. clear X.
    transitivity (rsum (u_nv U) (fun k => entry g k * u_v U s k + entry g k * u_minv U s (entry g) k * alpha 0%nat) + nth 0 nrel 0).
    { f_equal. apply rsum_ext. intros k _. unfold vplus. rewrite Lin. ring. }
    rewrite rsum_plus, rsum_scal_r. fold w. ring. }
  rewrite R. assert (Ea : alpha 0%nat = Rmax 0 (- (1 + c) * o / w)) by (rewrite <- EA; reflexivity). rewrite Ea.
  unfold Rmax. destruct (Rle_dec 0 (- (1 + c) * o / w)) as [Q|Q].
  - replace (o + w * (- (1 + c) * o / w) + c * o) with 0 by (field; lra). split; [exact Q|]. split; [lra|ring].
  - split; [lra|]. split; [|ring]. assert (X : - (1 + c) * o < 0).
    { destruct (Rlt_dec (- (1 + c) * o) 0) as [Y|Y]; [exact Y|]. exfalso. apply Q. apply Rmult_le_pos; [lra|]. left. now apply Rinv_0_lt_compat. }
    lra.
Qed.
Lemma diag_linear : forall M p a k, diag_minv M (fun k => p k * a) k = diag_minv M p k * a.
Proof. intros. unfold diag_minv. ring. Qed.
Lemma mass_mul_linear : forall n V p a k, mass_mul n V (fun k => p k * a) k = mass_mul n V p k * a.
Proof.
  intros n V p a k. unfold mass_mul. destruct (Nat.ltb k (3 * n)); [ring|]. cbv zeta. unfold mul3, dot3, seg3. cbn [c0 c1 c2]. destruct ((k - 3 * n) mod 3)%nat as [|[|r]]; ring.
Qed.
Lemma impact_runs_at : forall {C S Mem} (U : simulator C S) dt imp sol planar it s f lv,
  (forall v, exists q1 v1, u_step U s (u_q U s) v = Some (q1, v1)) ->
  (forall q1 v1, u_step U s (u_q U s) (u_v U s) = Some (q1, v1) -> exists cs, u_active U s (u_q U s) q1 (u_v U s) = Ok cs
     /\ (forall c, In c cs -> (exists g, u_normal U (u_q U s) c = Ok g) /\ exists x, u_gdotN U (u_q U s) c = Ok x)
     /\ forall nrel cor a, exists x, imp s cs nrel cor a = Ok x) ->
  (forall s, u_boundary U s = Ok s) ->
  exists r, run U (plain dt imp sol) (silent _ C Mem) planar MImpact 1 it (s, tt, f, lv) = Ok r.
Proof.
  intros C S Mem U dt imp sol planar it s f lv HS HA HB. cbn [run]. unfold sim_flow, startOfStep, endOfStep, state_hook. cbn [silent sc_named obind].
  assert (HF : exists q1 v1 w' lv', map_flow (world_engine U (plain dt imp sol)) (silent _ C Mem) MImpact it (s, tt) f lv = Ok (q1, v1, w', f, lv')).
  { unfold map_flow, impact_flow. cbn [world_engine e_q e_v e_umap e_active e_clear e_warm plain g_warm fst snd].
    destruct (HS (u_v U s)) as [q1 [v1 E]]. rewrite E. cbn [obind]. destruct (HA q1 v1 E) as [cs [EA [Hc HI]]]. rewrite EA. cbn [obind].
    destruct cs as [|c cs]; [eexists _, _, _, _; reflexivity|]. unfold restitutionCoefficient. cbn [silent sc_named obind e_impact world_engine e_CoR].
    unfold impact_part, form_N. cbn [fst snd].
    destruct (omapM_total (u_normal U (u_q U s)) (c :: cs)) as [N EN]; [intros x Hx; apply (Hc x Hx)|]. rewrite EN. cbn [obind].
    destruct (omapM_total (u_gdotN U (u_q U s)) (c :: cs)) as [M EM]; [intros x Hx; apply (Hc x Hx)|]. rewrite EM. cbn [obind plain g_impact].
    match goal with |- context [imp s (c :: cs) ?b ?d ?e] => destruct (HI b d e) as [al Ea]; rewrite Ea end. cbn [obind e_umap world_engine fst].
    match goal with |- context [u_step U s (u_q U s) ?v] => destruct (HS v) as [q2 [v2 E2]]; rewrite E2 end. cbn [obind]. eexists _, _, _, _. reflexivity. }
  destruct HF as [q1 [v1 [w' [lv' HF]]]].
  cbn [world_engine e_start e_periodic e_mass e_boundary e_set] in *. destruct planar; cbn [obind fst snd]; rewrite HF; cbn [obind fst snd]; rewrite ?HB; cbn [obind]; eexists; reflexivity.
Qed.
Lemma silent_scene : forall W C Mem, scene_restitution (silent W C Mem).
Proof. reflexivity. Qed.

(* ---------- two balls ---------- *)
Example ball_hit : resolves_impacts ex_ball_sim (plain 1 (one_contact ex_ball_sim) no_solver)
  /\ exists r, run ex_ball_sim (plain 1 (one_contact ex_ball_sim) no_solver) (silent _ _ unit) true MImpact 1 0 (ex_ball_state, tt, (0%nat, fun _ => 0), mkLive tt []) = Ok r.
Proof.
  split; [apply one_contact_resolves; [reflexivity|intros; apply diag_linear]|]. apply impact_runs_at.
  - intros v. eexists _, _. exact (ex_ball_step v).
  - intros q1 v1 E. exists [BallBall 0 1 (-1, 0) 1 1 false]. change (ball_euler ex_balls 1 (fst ex_ball_state, snd ex_ball_state) = Some (q1, v1)) in E. rewrite ex_ball_step in E.
    apply some_eq in E. assert (E' := f_equal fst E). cbn [fst] in E'. split; [|split].
    + apply ex_ball_active; rewrite <- E'; unfold seg2, axpy, diag_minv; cbn; f_equal; field.
    + intros c [<-|[]]. split; eexists; reflexivity.
    + intros nrel cor a. unfold one_contact. cbn [omapM obind ex_ball_sim ball_simulator u_normal b_gradg].
      match goal with |- context [Rlt_dec 0 ?w] => assert (W : w = 2) by (unfold entry, ins2; cbn; unfold diag_minv; cbn; field); rewrite W end. destruct (Rlt_dec 0 2); [|lra]. eexists. reflexivity.
  - reflexivity.
Qed.

(* ---------- two discs, one of them spinning ---------- *)
Lemma swapping_grid : getPotentialOverlaps2 real (map swept_box swapping) [] = Ok [(0%N, 1%N)].
Proof.
  unfold getPotentialOverlaps2. destruct swapping_init as (mx & my & -> & Ex & Ey). rewrite swapping_boxes.
  assert (C : cells2 real (mx, my) 6 (2%N, 1%N) (Grid_Model.Box2 (ar := real) (-1, -1) (5, 1)) = Ok [0%N; 1%N]).
  { unfold cells2, cell_lo, cell_up. cbn [lo2 up2 fst snd].
    rewrite (real_cell_is _ mx 6 0), (real_cell_is _ my 6 0), (real_cell_is _ mx 6 1), (real_cell_is _ my 6 0);
      try (cbn [real asub aadd a1em6]; lra); try lia; try reflexivity. }
  assert (O : overlaps2 (ar := real) (Grid_Model.Box2 (ar := real) (-1, -1) (5, 1)) (Grid_Model.Box2 (ar := real) (-1, -1) (5, 1)) = true).
  { unfold overlaps2. cbn [real alt lo2 up2 fst snd].
    repeat match goal with |- context [Rltb ?a ?b] => destruct (Rltb_spec a b); [exfalso; lra|] end. reflexivity. }
  unfold obind at 1. cbn [fst snd]. exact (two_in_two_cells _ _ _ _ C O).
Qed.
Lemma ex_disc_one : rb2_active_set 2 (fun _ => false) (fun _ => Circle2 1) [] (fst ex_disc_state) ex_disc_end (snd ex_disc_state) = Ok [mk_circle_circle 0 1 (fst ex_disc_state) 1 1].
Proof.
  unfold rb2_active_set, body_body_set2.
  assert (B : map (collision_box2 (fun _ => Circle2 1) (fst ex_disc_state) ex_disc_end) (seq 0 2) = map swept_box swapping).
  { rewrite swapping_boxes. cbn [seq map]. unfold collision_box2, circle_collision_aabb, seg2, ex_disc_state, ex_disc_end, vals. cbn [fst snd nth Nat.mul Nat.add].
    rewrite (Rmin_left 0 4), (Rmin_right 4 0), (Rmin_left 0 0), (Rmax_right 0 4), (Rmax_left 4 0), (Rmax_left 0 0) by lra.
    replace (0 - 1) with (-1) by lra. replace (4 + 1) with 5 by lra. replace (0 + 1) with 1 by lra. reflexivity. }
  rewrite B, swapping_grid. cbn [obind map fst snd]. change (N.to_nat 0) with 0%nat. change (N.to_nat 1) with 1%nat.
  unfold dispatch2. cbn [andb]. unfold circle_circle_narrow2.
  assert (K : ccd (seg2 (fst ex_disc_state) (3 * 0)) (seg2 ex_disc_end (3 * 0)) 1 (seg2 (fst ex_disc_state) (3 * 1)) (seg2 ex_disc_end (3 * 1)) 1 = Some (1 / 4)) by exact ccd_swap_places.
  rewrite K. reflexivity.
Qed.
Lemma ex_disc_normal : vnormalized (vsub (seg2 (fst ex_disc_state) 0) (seg2 (fst ex_disc_state) 3)) = (-1, 0).
Proof.
  unfold vnormalized, vsub, vdot, seg2, ex_disc_state, vals. cbn [fst snd nth Nat.add]. replace ((0 - 4) * (0 - 4) + (0 - 0) * (0 - 0)) with (4 * 4) by ring. rewrite sqrt_square by lra.
  destruct (Rlt_dec 0 (4 * 4)); [|lra]. unfold vscale. cbn [fst snd]. f_equal; field.
Qed.
Example disc_hit : resolves_impacts ex_disc_sim (plain 1 (one_contact ex_disc_sim) no_solver)
  /\ exists r, run ex_disc_sim (plain 1 (one_contact ex_disc_sim) no_solver) (silent _ _ unit) true MImpact 1 0 (ex_disc_state, tt, (0%nat, fun _ => 0), mkLive tt []) = Ok r.
Proof.
  split; [apply one_contact_resolves; [reflexivity|intros; apply diag_linear]|]. apply impact_runs_at.
  - intros v. eexists _, _. reflexivity.
  - intros q1 v1 E. change (rb2_euler ex_discs 1 ex_disc_state = Some (q1, v1)) in E. rewrite ex_disc_step in E. injection E as <- <-.
    eexists. split; [exact ex_disc_one|]. split.
    + intros c [<-|[]]. split; eexists; reflexivity.
    + intros nrel cor a. unfold one_contact, mk_circle_circle. cbn [omapM obind ex_disc_sim rb2_simulator u_normal rb2_gradg Nat.mul Nat.add].
      change (u_q (rb2_simulator ex_discs (fun _ => Circle2 1) [] false 1) ex_disc_state) with (fst ex_disc_state). rewrite ex_disc_normal.
      match goal with |- context [Rlt_dec 0 ?w] => assert (W : w = 2) by (unfold entry, ins2; cbn; unfold diag_minv; cbn; field); rewrite W end. destruct (Rlt_dec 0 2); [|lra]. eexists. reflexivity.
  - reflexivity.
Qed.

(* ---------- a spinning sphere falls on a floor ---------- *)
Definition ex_fall3 : rb3 := set_state 1 (fun _ => V3 0 2 0) (fun _ => V3 1 (-4) 0) (fun _ => 1) (fun _ => id3) (fun _ => V3 0 1 2) (fun _ => V3 1 1 1) (fun _ => false) [V3 0 (-2) 0].
Lemma ex_fall3_ok : free_bodies ex_fall3 /\ round_bodies ex_fall3.
Proof.
  split; [split; [|reflexivity]|].
  - apply set_state_consistent. intros i _. split; [lra|]. split; [unfold positive3; cbn; lra|exact rotation_id].
  - intros i Hi. exists 1. change (i < 1)%nat in Hi.
    destruct (set_state_views 1 (fun _ => V3 0 2 0) (fun _ => V3 1 (-4) 0) (fun _ => 1) (fun _ => id3) (fun _ => V3 0 1 2) (fun _ => V3 1 1 1) (fun _ => false) [V3 0 (-2) 0] i Hi) as (_ & _ & _ & _ & _ & X).
    exact X.
Qed.
Definition ex_ground3 : rb3_plane := Rb3Plane zero3 (V3 0 1 0) zero3 zero3.
Definition ex_fall3_sim (o : narrow3) := rb3_simulator o 1 (fun _ => ball) [ex_ground3] [] split_ham None 1.
Lemma ex_fall3_active : forall o q1 v1, split_ham ex_fall3 1 = (q1, v1) ->
  rb3_active_set o 1 (fun _ => false) (fun _ => ball) [ex_ground3] [] (s3_q ex_fall3) q1 = Ok [PlaneSphere 0 1 ex_ground3].
Proof.
  intros o q1 v1 Es. pose proof (ham_step_consistent _ 1 ex_fall3 split_keeps (proj1 (proj1 ex_fall3_ok))) as (_ & HR & _).
  assert (HP : pos3 q1 0 = V3 1 (-3) 0).
  { destruct (ham_step_free _ 1 ex_fall3 0 split_keeps (proj1 (proj1 ex_fall3_ok)) ltac:(cbn; lia) eq_refl) as [X _]. unfold rb3_step in X. fold (split_ham ex_fall3 1) in X. rewrite Es in X.
    assert (X2 : pos3 q1 0 = add3 (position ex_fall3 0) (add3 (scale3 1 (velocity ex_fall3 0)) (scale3 (/ 2 * 1 * 1) (total (s3_g ex_fall3))))) by exact X. rewrite X2. clear X X2.
    destruct (set_state_views 1 (fun _ => V3 0 2 0) (fun _ => V3 1 (-4) 0) (fun _ => 1) (fun _ => id3) (fun _ => V3 0 1 2) (fun _ => V3 1 1 1) (fun _ => false) [V3 0 (-2) 0] 0 ltac:(lia)) as (Y & V & _).
    fold ex_fall3 in Y, V. rewrite Y, V. cbn [ex_fall3 set_state s3_g total fold_right]. unfold add3, scale3, zero3. cbn [c0 c1 c2]. f_equal; field. }
  assert (Rt : forall i, (i < 1)%nat -> rotation (ori3 1 q1 i)).
  { intros i Hi. specialize (HR i Hi). unfold rb3_step in HR. fold (split_ham ex_fall3 1) in HR. rewrite Es in HR. exact HR. }
  assert (Sz : forall i, (i < 1)%nat -> sized3 ((fun _ : nat => ball) i)) by (intros i _; cbn; lra).
  destruct (set3_grid 1 (fun _ => false) (fun _ => ball) q1 ltac:(cbn; lia) Sz Rt 20 1) as (out & EO & Self); [lia|lra|lra| | |].
  - intros i p Hi H. assert (i = 0%nat) by lia. subst i. unfold reach3, body3_points, body_at3 in H. cbn [b3_shape b3_x b3_R] in H. rewrite HP in H. cbn [ball] in H. apply ball_comps in H; [|lra].
    destruct p as [a b c]. cbn [c0 c1 c2] in *. repeat split; apply abs_in; lra.
  - intros i Hi. assert (i = 0%nat) by lia. subst i. exists (sub3 (pos3 q1 0) (V3 1 0 0)), (add3 (pos3 q1 0) (V3 1 0 0)). unfold reach3, body3_points, body_at3. cbn [b3_shape b3_x b3_R]. rewrite HP. cbn [ball].
    unfold in_ball3, dot3, sub3, add3. cbn [c0 c1 c2]. repeat split; lra.
  - assert (Z : out = []).
    { destruct out as [|[a b] l]; [reflexivity|]. exfalso. pose proof EO as E2. apply (Grid_Dim.any_sound3 real _ _ _ a b) in E2; [|unfold Grid_Spec.indexable; rewrite !map_length, seq_length; cbn; lia|now left].
      destruct E2 as [[]|[Hab [y [z [Ha [Hb _]]]]]]. apply box_at_seq in Ha, Hb. destruct Ha as [Ha _]. destruct Hb as [Hb _].
      assert (a = b) by lia. subst b. exact (Self ltac:(lra) a (or_introl eq_refl)). }
    subst out. unfold rb3_active_set, body_body_set3. rewrite EO. cbn [map obind]. change (gather (@nil (outcome (list rb3_contact)))) with (Ok (@nil rb3_contact)). cbn [obind].
    assert (P : rb3_plane_set 1 (s3_q ex_fall3) q1 (fun _ => false) (fun _ => ball) [ex_ground3] = Ok [(0%nat, PlaneSphere 0 1 ex_ground3)]).
    { unfold rb3_plane_set, all_pairs, numbered. cbn [seq map flat_map combine length app fst snd gather rb3_plane_one ball]. rewrite HP.
      assert (A : ball_plane_active3 (V3 1 (-3) 0) 1 (tp_x ex_ground3) (tp_n ex_ground3) = true).
      { apply Wall_Geo.Rleb_true. unfold dot3, sub3, ex_ground3, zero3. cbn. lra. }
      rewrite A. reflexivity. }
    rewrite P. change (rb3_cylinder_set 1 (s3_q ex_fall3) q1 (fun _ => false) (fun _ => ball) []) with (Ok (@nil (nat * rb3_contact))). reflexivity.
Qed.
Example sphere_hit : forall o, resolves_impacts (ex_fall3_sim o) (plain 1 (one_contact (ex_fall3_sim o)) no_solver)
  /\ exists r, run (ex_fall3_sim o) (plain 1 (one_contact (ex_fall3_sim o)) no_solver) (silent _ _ unit) false MImpact 1 0 (ex_fall3, tt, (0%nat, fun _ => 0), mkLive tt []) = Ok r.
Proof.
  intros o. split; [apply one_contact_resolves; [reflexivity|intros; apply mass_mul_linear]|]. apply impact_runs_at.
  - intros v. cbn [ex_fall3_sim rb3_simulator u_step]. destruct (split_ham (rb3_put ex_fall3 (u_q (ex_fall3_sim o) ex_fall3) v) 1) as [a b]. exists a, b. reflexivity.
  - intros q1 v1 E. cbn [ex_fall3_sim rb3_simulator u_step u_q u_v] in E. change (rb3_put ex_fall3 (s3_q ex_fall3) (s3_v ex_fall3)) with ex_fall3 in E. apply some_eq in E.
    exists [PlaneSphere 0 1 ex_ground3]. split; [exact (ex_fall3_active o q1 v1 E)|]. split.
    + intros c [<-|[]]. split; eexists; reflexivity.
    + intros nrel cor a. unfold one_contact. cbn [omapM obind ex_fall3_sim rb3_simulator u_normal rb3_gradg].
      match goal with |- context [Rlt_dec 0 ?w] => assert (W : w = 1) end.
      { cbn [rb3_simulator u_nv u_minv]. unfold entry, ins3. cbn -[ex_fall3 s3_Minv mass_mul].
        assert (X : s3_Minv ex_fall3 1%nat = 1) by (cbn; field).
        assert (Y : forall x, mass_mul 1 (s3_Minv ex_fall3) x 1%nat = x 1%nat) by (intros x; unfold mass_mul; cbn -[ex_fall3 s3_Minv]; rewrite X; ring).
        rewrite Y. cbn. ring. }
      rewrite W. destruct (Rlt_dec 0 1); [|lra]. eexists. reflexivity.
  - reflexivity.
Qed.

(* ---------- a tumbling brick gains energy in one step of the splitting map ---------- *)
Definition ex_brick : rb3 := set_state 1 (fun _ => zero3) (fun _ => zero3) (fun _ => 1) (fun _ => id3) (fun _ => V3 0 (4 * sqrt 2 * PI) (PI / 2)) (fun _ => V3 1 2 2) (fun _ => false) [].
Lemma full_turn : forall k e s, split_turn (2 * INR k * PI) e s = s.
Proof.
  intros k [x y z] [A p]. unfold split_turn. cbn [fst snd].
  assert (T : angle_axis (2 * INR k * PI) (neg3 (V3 x y z)) = id3).
  { unfold angle_axis. rewrite <- (Rplus_0_l (2 * INR k * PI)), sin_period, cos_period, sin_0, cos_0. m3u. f_equal; f_equal; ring. }
  rewrite angle_axis_tr, T. replace (tr id3) with id3 by (unfold id3, diag3, tr; reflexivity). rewrite mm_id_r, mul3_id. reflexivity.
Qed.
Lemma quarter : forall x y z, mul3 (angle_axis (PI / 4) (neg3 ez3)) (V3 x y z) = V3 ((x + y) / sqrt 2) ((y - x) / sqrt 2) z.
Proof.
  intros x y z. unfold angle_axis. rewrite sin_PI4, cos_PI4. m3u. pose proof Rlt_sqrt2_0. f_equal; field; lra.
Qed.
Lemma ex_brick_momentum : snd (split_rotate 1 (V3 1 2 2) id3 (V3 0 (8 * sqrt 2 * PI) PI)) = V3 (8 * sqrt 2 * PI) 0 PI.
Proof.
  pose proof Rlt_sqrt2_0 as P. pose proof (sqrt_sqrt 2 ltac:(lra)) as Q. unfold split_rotate. cbv zeta.
  replace (mul3 (tr id3) (V3 0 (8 * sqrt 2 * PI) PI)) with (V3 0 (8 * sqrt 2 * PI) PI) by (replace (tr id3) with id3 by (unfold id3, diag3, tr; reflexivity); now rewrite mul3_id).
  cbn [snd c0 c1 c2]. replace (/ 2 * 1 * PI / 2) with (PI / 4) by field.
  assert (T : snd (split_turn (PI / 4) ez3 (id3, V3 0 (8 * sqrt 2 * PI) PI)) = V3 (8 * PI) (8 * PI) PI).
  { unfold split_turn. cbn [fst snd]. rewrite quarter. f_equal; field; lra. }
  set (s1 := split_turn (PI / 4) ez3 (id3, V3 0 (8 * sqrt 2 * PI) PI)) in *. rewrite !T. cbn [c0 c1 c2].
  replace (/ 2 * 1 * (8 * PI) / 2) with (2 * INR 1 * PI) by (cbn [INR]; field). rewrite full_turn, T. cbn [c0 c1 c2].
  replace (1 * (8 * PI) / 1) with (2 * INR 4 * PI) by (cbn [INR]; field). rewrite full_turn, T. cbn [c0 c1 c2].
  replace (/ 2 * 1 * (8 * PI) / 2) with (2 * INR 1 * PI) by (cbn [INR]; field). rewrite full_turn, T. cbn [c0 c1 c2].
  replace (/ 2 * 1 * PI / 2) with (PI / 4) by field.
  unfold split_turn. cbn [snd]. rewrite T, quarter. assert (X : 8 * sqrt 2 * PI = (8 * PI + 8 * PI) / sqrt 2).
  { apply (Rmult_eq_reg_r (sqrt 2)); [|lra]. unfold Rdiv. rewrite Rmult_assoc, (Rmult_assoc _ (/ sqrt 2)), Rinv_l by lra.
    replace (8 * sqrt 2 * (PI * sqrt 2)) with (8 * PI * (sqrt 2 * sqrt 2)) by ring. rewrite Q. ring. }
  rewrite <- X. f_equal. field. lra.
Qed.
Lemma brick_ok : free_bodies ex_brick.
Proof. split; [|reflexivity]. apply set_state_consistent. intros i _. split; [lra|]. split; [unfold positive3; cbn; lra|exact rotation_id]. Qed.
Lemma tumble_energy : energy3 ex_brick < energy3 (rb3_step split_ham 1 ex_brick).
Proof.
  pose proof brick_ok as [HC HF]. pose proof (HF 0%nat ltac:(cbn; lia)) as F0. pose proof PI_RGT_0 as PP.
  destruct (set_state_views 1 (fun _ => zero3) (fun _ => zero3) (fun _ => 1) (fun _ => id3) (fun _ => V3 0 (4 * sqrt 2 * PI) (PI / 2)) (fun _ => V3 1 2 2) (fun _ => false) [] 0 ltac:(lia)) as (X0 & V0 & R0 & S0 & M0 & I0).
  fold ex_brick in X0, V0, S0, R0, M0, I0.
  destruct (ham_step_free _ 1 ex_brick 0 split_keeps HC ltac:(cbn; lia) F0) as (X & V & O & L).
  pose proof (ham_step_consistent _ 1 ex_brick split_keeps HC) as HC'. fold split_ham in *.
  change (hamiltonian_flow (fun dt I R0 L => fst (split_rotate dt I R0 L))) with split_ham in *.
  set (s' := rb3_step split_ham 1 ex_brick) in *.
  assert (EL : angular_momentum ex_brick 0 = V3 0 (8 * sqrt 2 * PI) PI).
  { unfold angular_momentum. rewrite R0, I0, S0. unfold turned. rewrite !mul3_mm. replace (tr id3) with id3 by (unfold id3, diag3, tr; reflexivity). rewrite !mul3_id. m3u. f_equal; field. }
  assert (W' : spin s' 0 = mul3 (turned (orientation s' 0) (inv3 (inertia0 ex_brick 0))) (angular_momentum ex_brick 0)).
  { rewrite <- L. unfold angular_momentum. change (inertia0 s' 0) with (inertia0 ex_brick 0). rewrite <- mul3_mm, turned_inv_l; [now rewrite mul3_id|apply HC'; cbn; lia|]. rewrite I0. unfold positive3. cbn. lra. }
  assert (B : mul3 (tr (orientation s' 0)) (angular_momentum ex_brick 0) = V3 (8 * sqrt 2 * PI) 0 PI).
  { rewrite O, R0, I0, EL, <- ex_brick_momentum. pose proof (split_rotate_momentum 1 (V3 1 2 2) id3 (V3 0 (8 * sqrt 2 * PI) PI) rotation_id) as Em.
    pose proof (split_rotate_rotation 1 (V3 1 2 2) id3 (V3 0 (8 * sqrt 2 * PI) PI) rotation_id) as Er. set (r := split_rotate 1 (V3 1 2 2) id3 (V3 0 (8 * sqrt 2 * PI) PI)) in *.
    rewrite <- Em, <- mul3_mm, (rotation_left _ Er). apply mul3_id. }
  assert (K : dot3 (spin s' 0) (angular_momentum ex_brick 0) = 1 * (8 * sqrt 2 * PI * (8 * sqrt 2 * PI)) + / 2 * (PI * PI)).
  { rewrite W', Cache_Thms.dot3_comm, turned_form, B, I0. unfold inv3. cbn [c0 c1 c2]. field. }
  unfold energy3. cbn [rsum]. change (s3_n s') with 1%nat. change (s3_n ex_brick) with 1%nat. cbn [rsum]. change (mass s' 0) with (mass ex_brick 0). change (s3_g s') with (s3_g ex_brick).
  change (total (s3_g ex_brick)) with zero3. rewrite V, V0, L, K, S0, EL, M0. change (total (s3_g ex_brick)) with zero3.
  pose proof (sqrt_sqrt 2 ltac:(lra)) as Q. assert (0 < PI * PI) by (apply Rmult_lt_0_compat; lra).
  unfold dot3, add3, scale3, zero3. cbn [c0 c1 c2].
  replace (8 * sqrt 2 * PI * (8 * sqrt 2 * PI)) with (64 * (sqrt 2 * sqrt 2) * (PI * PI)) by ring.
  replace (4 * sqrt 2 * PI * (8 * sqrt 2 * PI)) with (32 * (sqrt 2 * sqrt 2) * (PI * PI)) by ring. rewrite Q. nra.
Qed.
