(* Runs in which bodies meet. *)
From Coq Require Import List Reals Arith NArith Bool Lia Lra FunctionalExtensionality.
From Verif Require Import Outcome Grid_Model Ccd_Model Ccd_Spec Ccd_Proofs Ccd_Props Flow_Model Flow_Spec Flow_Proofs Quad_Model Stagger_Model Integr_Model Integr_Spec Integr_Proofs
  Wall_Model Geom_Model Geom_Spec Geom_Sets Geom_Aabb Wall_Spec Geom_Circle Narrow_Model Narrow_Spec Narrow_Proofs Narrow_Thms Narrow_Total Narrow_Space Narrow_Ex Narrow_Props ContactBall_Model ContactRb2_Model ContactRb3_Model Contact_Spec
  Rot_Model Rot_Spec Rot_Alg Rot_Proofs Rot_Thms Lin_Model Lin_Proofs Sob_Model Sob_Spec World_Model World_Spec World_Proofs World_Thms World_Ball World_Rb2 World_Rb3.
Import ListNotations.
Open Scope R_scope.

Lemma omapM_total : forall {A B} (f : A -> outcome B) l, (forall x, In x l -> exists y, f x = Ok y) -> exists ys, omapM f l = Ok ys.
Proof.
  intros A B f l. induction l as [|x l IH]; intros H; [exists []; reflexivity|]. destruct (H x (or_introl eq_refl)) as [y E].
  destruct IH as [ys Es]; [intros z Hz; apply H; now right|]. exists (y :: ys). cbn [omapM]. rewrite E. cbn [obind]. rewrite Es. reflexivity.
Qed.

(* no scripting, no warm starts *)
Definition silent (W C Mem : Type) : script W C Mem := mkScript false None None None None None None.
Lemma silent_off : forall W C Mem, hands_off (silent W C Mem).
Proof. intros. split; reflexivity. Qed.
Definition plain {C S} (dt : R) (impact : S -> list C -> list R -> list R -> dvec -> outcome dvec) (sol : solver C S) : settings C S unit :=
  Settings dt 1 0 false impact sol false 0 (fun _ _ => 0) (fun _ => tt) (fun _ _ _ _ => Ok (fun _ => 0, fun _ => 0)) (fun _ _ _ _ _ => Ok tt) (fun _ _ => Ok (fun _ => 0, fun _ => 0)) (fun _ _ _ => Ok tt).
Definition no_solver {C S} : solver C S := OnePass (fun _ _ _ _ _ _ _ _ => 0) (fun _ _ _ _ _ _ _ _ _ => 0) None.

Lemma impact_runs : forall {C S Mem} (U : simulator C S) dt imp sol planar it s f lv,
  (forall v, exists q1 v1, u_step U s (u_q U s) v = Some (q1, v1)) ->
  (forall q1 v1, u_step U s (u_q U s) (u_v U s) = Some (q1, v1) -> exists cs, u_active U s (u_q U s) q1 (u_v U s) = Ok cs
     /\ forall c, In c cs -> (exists g, u_normal U (u_q U s) c = Ok g) /\ exists x, u_gdotN U (u_q U s) c = Ok x) ->
  (forall s cs a b d, exists x, imp s cs a b d = Ok x) -> (forall s, u_boundary U s = Ok s) ->
  exists r, run U (plain dt imp sol) (silent _ C Mem) planar MImpact 1 it (s, tt, f, lv) = Ok r.
Proof.
  intros C S Mem U dt imp sol planar it s f lv HS HA HI HB. cbn [run]. unfold sim_flow, startOfStep, endOfStep, state_hook. cbn [silent sc_named obind].
  assert (HF : exists q1 v1 w' lv', map_flow (world_engine U (plain dt imp sol)) (silent _ C Mem) MImpact it (s, tt) f lv = Ok (q1, v1, w', f, lv')).
  { unfold map_flow, impact_flow. cbn [world_engine e_q e_v e_umap e_active e_clear e_warm plain g_warm fst snd].
    destruct (HS (u_v U s)) as [q1 [v1 E]]. rewrite E. cbn [obind]. destruct (HA q1 v1 E) as [cs [EA Hc]]. rewrite EA. cbn [obind].
    destruct cs as [|c cs]; [eexists _, _, _, _; reflexivity|]. cbn [obind restitutionCoefficient silent sc_named]. unfold restitutionCoefficient. cbn [silent sc_named obind e_impact world_engine e_CoR].
    unfold impact_part, form_N. cbn [fst snd].
    destruct (omapM_total (u_normal U (u_q U s)) (c :: cs)) as [N EN]; [intros x Hx; apply (Hc x Hx)|]. rewrite EN. cbn [obind].
    destruct (omapM_total (u_gdotN U (u_q U s)) (c :: cs)) as [M EM]; [intros x Hx; apply (Hc x Hx)|]. rewrite EM. cbn [obind plain g_impact].
    match goal with |- context [imp ?a ?b ?c ?d ?e] => destruct (HI a b c d e) as [al Ea]; rewrite Ea end. cbn [obind e_umap world_engine fst].
    match goal with |- context [u_step U s (u_q U s) ?v] => destruct (HS v) as [q2 [v2 E2]]; rewrite E2 end. cbn [obind]. eexists _, _, _, _. reflexivity. }
  destruct HF as [q1 [v1 [w' [lv' HF]]]].
  cbn [world_engine e_start e_periodic e_mass e_boundary e_set] in *. destruct planar; cbn [obind fst snd]; rewrite HF; cbn [obind fst snd]; rewrite ?HB; cbn [obind]; eexists; reflexivity.
Qed.

(* ---------- two balls that would swap places ---------- *)
Definition ex_balls : balls := Balls 2 (fun _ => 1) (fun _ => 1) (fun _ => false) [].
Definition ex_ball_state : phase := (vals [0; 0; 4; 0], vals [4; 0; -4; 0]).
Lemma ex_ball_step : forall v, ball_euler ex_balls 1 (fst ex_ball_state, v) = Some (axpy (fst ex_ball_state) 1 (axpy v 1 (diag_minv (fun _ => 1) (fun _ => 0))), axpy v 1 (diag_minv (fun _ => 1) (fun _ => 0))).
Proof. reflexivity. Qed.
Lemma ex_ball_active : forall q1, seg2 q1 0 = (4, 0) -> seg2 q1 2 = (0, 0) ->
  ball_active_set 2 (fun _ => 1) [] [] (fst ex_ball_state) q1 = Ok [BallBall 0 1 (-1, 0) 1 1 false].
Proof.
  intros q1 E0 E1. unfold ball_active_set. cbn [seq map Nat.mul Nat.add]. rewrite E0, E1.
  change (seg2 (fst ex_ball_state) 0) with (0, 0). change (seg2 (fst ex_ball_state) 2) with (4, 0). fold swapping. rewrite swapping_active_set. cbn [obind map fst snd].
  assert (D : ball_drum_set (fst ex_ball_state) q1 (fun _ => 1) 2 [] = [] /\ ball_plane_set q1 (fun _ => 1) 2 [] = []) by (split; reflexivity). destruct D as [-> ->]. cbn [map app].
  change (N.to_nat 0) with 0%nat. change (N.to_nat 1) with 1%nat. cbn [Nat.mul Nat.add].
  change (seg2 (fst ex_ball_state) 0) with (0, 0). change (seg2 (fst ex_ball_state) 2) with (4, 0). unfold mk_ball_ball. do 3 f_equal.
  unfold vnormalized, vsub, vdot. cbn [fst snd]. replace ((0 - 4) * (0 - 4) + (0 - 0) * (0 - 0)) with (4 * 4) by ring. rewrite sqrt_square by lra.
  destruct (Rlt_dec 0 (4 * 4)); [|lra]. unfold vscale. cbn [fst snd]. f_equal; field.
Qed.
(* the balls bounce back: an impulse of 8 along the normal *)
Definition bounce {C S} : S -> list C -> list R -> list R -> dvec -> outcome dvec := fun _ _ _ _ _ => Ok (fun _ => 8).
Definition ex_ball_sim := ball_simulator ex_balls [] [] false 1.
Example ball_run : exists q v f lv, run ex_ball_sim (plain 1 bounce no_solver) (silent _ _ unit) true MImpact 1 0 (ex_ball_state, tt, (0%nat, fun _ => 0), mkLive tt []) = Ok ((q, v), tt, f, lv)
  /\ v 0%nat = -4 /\ v 2%nat = 4 /\ q 0%nat = -4 /\ q 2%nat = 8.
Proof.
  cbn [run]. unfold sim_flow, startOfStep, endOfStep, state_hook, map_flow, impact_flow. cbn [silent sc_named obind world_engine e_start e_q e_v e_umap e_active e_warm plain g_warm fst snd].
  cbn [ex_ball_sim ball_simulator u_step u_q u_v u_active u_set u_update fst snd ex_balls bl_n bl_r]. rewrite !ex_ball_step. cbn [obind].
  rewrite ex_ball_active; [|unfold seg2, axpy, diag_minv; cbn; f_equal; field|unfold seg2, axpy, diag_minv; cbn; f_equal; field].
  cbn [obind]. unfold restitutionCoefficient. cbn [silent sc_named obind e_impact world_engine].
  unfold impact_part, form_N. cbn [omapM obind ball_simulator ex_ball_sim u_normal u_gdotN plain g_impact bounce fst snd u_minv ex_balls bl_M u_step].
  rewrite ex_ball_step. cbn [obind world_engine e_periodic e_set e_clear fst snd].
  eexists _, _, _, _. split; [reflexivity|].
  cbn [u_set ball_simulator]. unfold axpy, vplus, diag_minv, mv, cols_mat, b_gradg, entry, ins2. cbn. repeat split; field.
Qed.

(* ---------- two discs ---------- *)
Lemma rb2_active_discs : forall n fixed r q0 q1 v cs c, (N.of_nat n <= 4294967296)%N -> (forall i, (i < n)%nat -> fixed i = false) ->
  rb2_active_set n fixed (fun _ => Circle2 r) [] q0 q1 v = Ok cs -> In c cs -> exists i j, c = mk_circle_circle i j q0 r r.
Proof.
  intros n fixed r q0 q1 v cs c Hn HF E I. unfold rb2_active_set in E. step_let E. apply ok_eq in E. subst cs.
  assert (D : rb2_plane_set q1 fixed (fun _ => Circle2 r) n [] = []) by reflexivity. rewrite D, app_nil_r in I. clear D.
  unfold body_body_set2 in E0. step_let E0. pose proof (Wall_Thms.gather_ok _ _ E0) as Gk. apply Gk in I. destruct I as [l [Il Ic]]. apply in_map_iff in Il. destruct Il as [[a b] [D Iab]]. cbn [fst snd] in D.
  apply (Grid_Dim.any_sound2 real _ _ _ a b) in E; [|unfold Grid_Spec.indexable; rewrite !map_length, seq_length; exact Hn|exact Iab].
  destruct E as [[]|[_ [y [z [Ha [Hb _]]]]]]. apply box_at_seq in Ha, Hb. destruct Ha as [Ha _]. destruct Hb as [Hb _].
  unfold dispatch2 in D. rewrite (HF _ Ha), (HF _ Hb) in D. cbn [andb] in D. apply ok_eq in D. subst l. unfold circle_circle_narrow2 in Ic.
  destruct (ccd _ _ _ _ _ _); [|destruct Ic]. rewrite (HF _ Hb) in Ic. cbn [negb] in Ic. destruct Ic as [<-|[]]. eexists _, _. reflexivity.
Qed.
Definition ex_discs : bodies := Bodies 2 (fun _ => 1) (fun _ => false) [].
Definition ex_disc_state : phase := (vals [0; 0; 0; 4; 0; 0], vals [4; 0; 1; -4; 0; 0]).
Definition ex_disc_end : dvec := vals [4; 0; 1; 0; 0; 0].
Lemma ex_disc_step : rb2_euler ex_discs 1 ex_disc_state = Some (ex_disc_end, snd ex_disc_state).
Proof.
  unfold rb2_euler. cbn [fst snd ex_disc_state].
  assert (E : forall v, axpy v 1 (diag_minv (rb_M ex_discs) (zero_scripted ex_discs (rb2_compute_force ex_discs (vals [0; 0; 0; 4; 0; 0]) v))) = v).
  { intros v. extensionality k. unfold axpy, diag_minv. cbn. field. }
  rewrite E. do 2 f_equal. extensionality k. unfold axpy, ex_disc_end, vals.
  do 7 (destruct k as [|k]; [cbn; ring|]). cbn. ring.
Qed.
Lemma ex_disc_active : exists cs, rb2_active_set 2 (fun _ => false) (fun _ => Circle2 1) [] (fst ex_disc_state) ex_disc_end (snd ex_disc_state) = Ok cs
  /\ cs <> [] /\ forall c, In c cs -> exists i j, c = mk_circle_circle i j (fst ex_disc_state) 1 1.
Proof.
  assert (Sz : forall i, (i < 2)%nat -> sized2 ((fun _ => Circle2 1) i)) by (intros; cbn; lra).
  destruct (set2_runs 2 (fun _ => false) (fun _ => Circle2 1) [] (fst ex_disc_state) ex_disc_end (snd ex_disc_state) 20 1) as [[H _]|[_ [cs E]]].
  - cbn. lia.
  - exact Sz.
  - lia.
  - lra.
  - lra.
  - intros [|[|i]] p Hi H; [| |lia]; destruct H as (t & Ht & H); unfold in_disc, at_time, vdot, vsub, seg2, ex_disc_state, ex_disc_end, vals in H; cbn [fst snd nth Nat.mul Nat.add] in H;
      apply side in H; try lra; destruct p as [p0 p1]; cbn [fst snd] in *; split; apply abs_in; lra.
  - intros [|[|i]] Hi; [| |lia]; unfold reach2.
    + exists (-1, 0), (1, 0). unfold in_disc, at_time, vdot, vsub, seg2, ex_disc_state, vals. cbn [fst snd nth Nat.mul Nat.add]. split; [exists 0; lra|]. split; [exists 0; lra|lra].
    + exists (3, 0), (5, 0). unfold in_disc, at_time, vdot, vsub, seg2, ex_disc_state, vals. cbn [fst snd nth Nat.mul Nat.add]. split; [exists 0; lra|]. split; [exists 0; lra|lra].
  - destruct H as (i & j & _ & _ & [(F & _)|(F & _)] & _); discriminate.
  - exists cs. split; [exact E|]. split.
    + intros ->. assert (C : in_contact pair2 [] 0 1).
      { apply (C56_planar_exact 2 (fun _ => false) (fun _ => Circle2 1) [] _ _ _ [] 0 1 ltac:(cbn; lia) Sz E); [lia|lia|]. split; [intros [X _]; discriminate|].
        unfold collide2. exists (/ 2). split; [lra|]. exists (2, 0). unfold in_disc, at_time, vdot, vsub, seg2, ex_disc_state, ex_disc_end, vals. cbn [fst snd nth Nat.mul Nat.add]. lra. }
      destruct C as (c & [] & _).
    + intros c Hc. now apply (rb2_active_discs 2 (fun _ => false) 1 _ _ _ cs c ltac:(cbn; lia) ltac:(reflexivity) E).
Qed.
Definition ex_disc_sim := rb2_simulator ex_discs (fun _ => Circle2 1) [] false 1.
Example disc_run : exists r, run ex_disc_sim (plain 1 bounce no_solver) (silent _ _ unit) true MImpact 1 0 (ex_disc_state, tt, (0%nat, fun _ => 0), mkLive tt []) = Ok r.
Proof.
  apply impact_runs.
  - intros v. eexists _, _. reflexivity.
  - intros q1 v1 E. change (rb2_euler ex_discs 1 ex_disc_state = Some (q1, v1)) in E. rewrite ex_disc_step in E. injection E as <- <-.
    destruct ex_disc_active as [cs [EA [_ Hc]]]. exists cs. split; [exact EA|]. intros c Ic. destruct (Hc c Ic) as [i [j ->]]. split; eexists; reflexivity.
  - intros. eexists. reflexivity.
  - reflexivity.
Qed.

(* ---------- two spinning spheres ---------- *)
Lemma some_eq : forall {A} (x y : A), Some x = Some y -> x = y.
Proof. intros A x y E. now injection E. Qed.
Definition ex_spheres : rb3 := set_state 2 (fun i => match i with O => V3 0 0 0 | _ => V3 4 0 0 end) (fun i => match i with O => V3 (3 / 2) 0 0 | _ => V3 (- (3 / 2)) 0 0 end) (fun _ => 1)
  (fun _ => id3) (fun _ => V3 0 1 2) (fun _ => V3 1 1 1) (fun _ => false) [].
Lemma ex_spheres_ok : free_bodies ex_spheres.
Proof.
  split; [|reflexivity]. apply set_state_consistent. intros i _. split; [lra|]. split; [unfold positive3; cbn; lra|exact rotation_id].
Qed.
Lemma ex_sphere_active : forall o q1 v1, split_ham ex_spheres 1 = (q1, v1) -> exists cs, rb3_active_set o 2 (fun _ => false) (two ball ball) [] [] (s3_q ex_spheres) q1 = Ok cs
  /\ cs <> [] /\ forall c, In c cs -> (exists g, rb3_gradg 2 (s3_q ex_spheres) c = Ok g) /\ exists x, rb3_gdotN (s3_q ex_spheres) c = Ok x.
Proof.
  intros o q1 v1 Es. pose proof (ham_step_consistent _ 1 ex_spheres split_keeps (proj1 ex_spheres_ok)) as (_ & HR & _).
  assert (HP : forall i, (i < 2)%nat -> pos3 q1 i = V3 (match i with O => 3 / 2 | _ => 5 / 2 end) 0 0).
  { intros i Hi. destruct (ham_step_free _ 1 ex_spheres i split_keeps (proj1 ex_spheres_ok) Hi eq_refl) as [X _]. unfold rb3_step in X. fold (split_ham ex_spheres 1) in X. rewrite Es in X.
    assert (X2 : pos3 q1 i = add3 (position ex_spheres i) (add3 (scale3 1 (velocity ex_spheres i)) (scale3 (/ 2 * 1 * 1) (total (s3_g ex_spheres))))) by exact X. rewrite X2. clear X X2. destruct (set_state_views 2 (fun i => match i with O => V3 0 0 0 | _ => V3 4 0 0 end) (fun i => match i with O => V3 (3 / 2) 0 0 | _ => V3 (- (3 / 2)) 0 0 end) (fun _ => 1)
      (fun _ => id3) (fun _ => V3 0 1 2) (fun _ => V3 1 1 1) (fun _ => false) [] i Hi) as (Y & V & _). fold ex_spheres in Y, V. rewrite Y, V. cbn [ex_spheres set_state s3_g total fold_right].
    destruct i as [|i]; unfold add3, scale3, zero3; cbn [c0 c1 c2]; f_equal; field. }
  assert (Rt : forall i, (i < 2)%nat -> rotation (ori3 2 q1 i)).
  { intros i Hi. specialize (HR i Hi). unfold rb3_step in HR. fold (split_ham ex_spheres 1) in HR. rewrite Es in HR. exact HR. }
  assert (Sz : forall i, (i < 2)%nat -> sized3 (two ball ball i)) by (intros i _; apply ex_sized3; left; reflexivity).
  assert (Sh : forall i, two ball ball i = ball) by (intros [|i]; reflexivity).
  destruct (set3_runs o 2 (fun _ => false) (two ball ball) [] [] (s3_q ex_spheres) q1 20 1) as [[H _]|[_ [cs E]]].
  - cbn. lia.
  - exact Sz.
  - exact Rt.
  - lia.
  - lra.
  - lra.
  - intros i p Hi H. unfold reach3, body3_points, body_at3 in H. cbn [b3_shape b3_x b3_R] in H. rewrite (Sh i), (HP i Hi) in H. cbn [ball] in H. apply ball_comps in H; [|lra].
    destruct p as [a b c]. cbn [c0 c1 c2] in *. destruct i; repeat split; apply abs_in; lra.
  - intros i Hi. exists (sub3 (pos3 q1 i) (V3 1 0 0)), (add3 (pos3 q1 i) (V3 1 0 0)). unfold reach3, body3_points, body_at3. cbn [b3_shape b3_x b3_R]. rewrite (Sh i), (HP i Hi). cbn [ball].
    unfold in_ball3, dot3, sub3, add3. cbn [c0 c1 c2]. destruct i; repeat split; lra.
  - destruct H as (i & j & Hij & Hj & [_ [K|(_ & (s & K) & _)]] & _); destruct i as [|i]; destruct j as [|j]; try lia; discriminate.
  - assert (EA : rb3_active_set o 2 (fun _ => false) (two ball ball) [] [] (s3_q ex_spheres) q1 = Ok cs).
    { unfold rb3_active_set. rewrite E. cbn [obind]. change (rb3_plane_set 2 (s3_q ex_spheres) q1 (fun _ => false) (two ball ball) []) with (Ok (@nil (nat * rb3_contact))).
      change (rb3_cylinder_set 2 (s3_q ex_spheres) q1 (fun _ => false) (two ball ball) []) with (Ok (@nil (nat * rb3_contact))). cbn [obind map app]. now rewrite app_nil_r. }
    exists cs. split; [exact EA|]. split.
    + intros ->. assert (C : in_contact pair3 [] 0 1).
      { apply (C56_spatial_balls o 2 (fun _ => false) (two ball ball) [] [] _ _ [] 0 1 1 1 ltac:(cbn; lia) Sz Rt EA ltac:(lia) ltac:(lia) eq_refl eq_refl). split; [intros [_ X]; discriminate|].
        exists (V3 2 0 0). unfold body3_points, body_at3, two, ball. cbn [b3_shape b3_x b3_R]. rewrite !HP by lia. unfold in_ball3, dot3, sub3. cbn [c0 c1 c2]. lra. }
      destruct C as (c & [] & _).
    + intros c Hc. destruct (rb3_active_closed o 2 (fun _ => false) (two ball ball) _ _ cs c ltac:(cbn; lia) ltac:(reflexivity) EA Hc) as [i [j [_ [_ [[ra [rb ->]]|[p [m ->]]]]]]]; split; eexists; reflexivity.
Qed.
Definition ex_sphere_sim (o : narrow3) := rb3_simulator o 2 (two ball ball) [] [] split_ham None 1.
Example sphere_run : forall o, exists r, run (ex_sphere_sim o) (plain 1 bounce no_solver) (silent _ _ unit) false MImpact 1 0 (ex_spheres, tt, (0%nat, fun _ => 0), mkLive tt []) = Ok r.
Proof.
  intros o. apply impact_runs.
  - intros v. cbn [ex_sphere_sim rb3_simulator u_step]. destruct (split_ham (rb3_put ex_spheres (u_q (ex_sphere_sim o) ex_spheres) v) 1) as [a b]. exists a, b. reflexivity.
  - intros q1 v1 E. cbn [ex_sphere_sim rb3_simulator u_step u_q u_v] in E. change (rb3_put ex_spheres (s3_q ex_spheres) (s3_v ex_spheres)) with ex_spheres in E. apply some_eq in E.
    destruct (ex_sphere_active o q1 v1 E) as [cs [EA [_ Hc]]]. exists cs. split; [exact EA|exact Hc].
  - intros. eexists. reflexivity.
  - reflexivity.
Qed.
