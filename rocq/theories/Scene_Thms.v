From Coq Require Import ZArith NArith QArith Bool Ascii String List Lia ZifyBool ZifyNat ZifyN.
From Verif Require Import Outcome Str_Model Str_Spec Str_Proofs Rational_Model RatParse_Model Scene_Text Scene_Model Scene_Spec Scene_TextProofs Scene_Proofs Scene_Write.
From Verif Require State_Spec State_Proofs.
Import ListNotations.
Open Scope string_scope.
Open Scope list_scope.

(* ---------------------------------------------------------------- every scene in range has a file *)
Lemma forall_w {A} (P : A -> Prop) (f : node -> parse A) l : (forall a, P a -> writable f a) -> Forall P l -> Forall (writable f) l.
Proof. intros H. apply Forall_impl. exact H. Qed.
Lemma optional_w {A} (f : node -> parse A) (a : str) o : match o with None => True | Some v => writable f v end ->
  exists l, named a l /\ optional (hd_error l) f = accept o.
Proof.
  destruct o as [v|].
  - intros (at' & ch & E). exists [Node a at' ch]. split; [repeat constructor|]. cbn [hd_error optional]. rewrite E. reflexivity.
  - intros _. exists []. split; [constructor|reflexivity].
Qed.
(* the elements of a response: at most one of three *)
Lemma response_w fp bd r : ball_response_ok fp bd r -> exists li ls lb,
  named "impact_operator" li /\ named "staggered_projections_friction_solver" ls /\ named "sobogus_friction_solver" lb /\
  forall root, elements root "impact_operator" = li -> elements root "staggered_projections_friction_solver" = ls ->
    elements root "sobogus_friction_solver" = lb ->
    load_response (load_impact_cor fp bd true) (ball_solvers fp bd) root = accept r.
Proof.
  destruct r as [|op cor c|s m mu cor]; cbn [ball_response_ok].
  - intros _. exists [], [], []. do 3 (split; [constructor|]). intros root R1 R2 R3.
    unfold load_response, ball_solvers. cbn [load_solvers]. rewrite !first_node_hd, R1, R2, R3. reflexivity.
  - intros (H1 & H2 & H3). destruct (impact_cor_w _ _ _ _ _ _ H1 H2 H3) as (at' & ch & E).
    exists [Node "impact_operator" at' ch], [], []. split; [repeat constructor|]. do 2 (split; [constructor|]). intros root R1 R2 R3.
    unfold load_response, ball_solvers. cbn [load_solvers]. rewrite !first_node_hd, R1, R2, R3. cbn [hd_error]. rewrite E. reflexivity.
  - intros (H1 & H2 & H3). destruct s as [wa wb l f|e|]; cbn [ball_solver_ok] in H3; [| |contradiction].
    + destruct f as [t|]; [|contradiction]. destruct H3 as (L & Q & T & M).
      destruct (staggered_w fp _ _ wa wb _ _ _ _ _ (lcp_w _ _ _ _ L) (mdp_ball_w _ _ _ Q T) H1 H2 M) as (at' & ch & E).
      exists [], [Node "staggered_projections_friction_solver" at' ch], []. split; [constructor|]. split; [repeat constructor|]. split; [constructor|].
      intros root R1 R2 R3. unfold load_response, ball_solvers. cbn [load_solvers]. rewrite !first_node_hd, R1, R2, R3. cbn [hd_error]. rewrite E. reflexivity.
    + destruct (sobogus_ball_w fp _ _ _ _ H1 H2 H3) as (at' & ch & E).
      exists [], [], [Node "sobogus_friction_solver" at' ch]. do 2 (split; [constructor|]). split; [repeat constructor|].
      intros root R1 R2 R3. unfold load_response, ball_solvers. cbn [load_solvers]. rewrite !first_node_hd, R1, R2, R3. cbn [hd_error]. rewrite E. reflexivity.
Qed.

Ltac miss := repeat match goal with N : named ?b ?l |- context [filter _ ?l] => rewrite (named_miss _ _ _ N) by reflexivity end.
Ltac elems := match goal with r := Node _ _ _ |- _ => unfold r end; unfold elements; cbn [children_of]; rewrite !filter_app; miss; rewrite ?app_nil_r; cbn [app];
  try (rewrite named_hit by assumption); rewrite ?app_nil_r; reflexivity.

Lemma parse_ball_complete fp bd sc : ball_scene_ok fp bd sc -> exists doc, parse_ball fp bd doc = Ok (Some sc).
Proof.
  intros [OE [OF (fg & fpn & EF & G1 & G2)] [OD1 OD2] OR ODr OP OPo (balls & OB & Eq & Ev & Em & Er & Ef)].
  destruct sc as [cb en fo ki dtt dt re dr pl po q v m r fx]. cbn in *.
  subst fo q v m r fx. apply Forall_app in OF as [F1 F2].
  destruct (optional_w (load_end_time fp) "end_time" en) as (l1 & N1 & E1).
  { destruct en; [|exact Logic.I]. apply end_time_w; tauto. }
  destruct (each_w (load_gravity_ball fp) "gravity" fg) as (l2 & N2 & E2).
  { rewrite Forall_forall in *. intros f Hf. apply gravity_w; auto. }
  destruct (each_w (load_penalty fp) "penalty" fpn) as (l3 & N3 & E3).
  { rewrite Forall_forall in *. intros f Hf. apply penalty_w; auto. }
  set (l4 := [Node "integrator" [(lit "dt", dtt); (lit "type", match ki with Verlet => lit "verlet" | SymplecticEuler => lit "symplectic_euler" end)] []]).
  assert (named "integrator" l4) as N4 by (repeat constructor).
  destruct (response_w _ _ _ OR) as (l5 & l6 & l7 & N5 & N6 & N7 & E5).
  destruct (each_w (load_drum fp) "static_drum" dr) as (l8 & N8 & E8); [eapply forall_w; [|exact ODr]; apply drum_w|].
  destruct (portals_w fp (fun b => negb (qle b 0)) (fun b => 0 < b)%Q (plane2_ok fp) pl po) as (planes & l9 & l10 & N9 & N10 & EP & E9).
  { intros b. apply qle_not. } { exact OPo. }
  assert (Forall (plane2_ok fp) planes) as OPl.
  { subst planes. apply Forall_app. split; [|exact OP]. destruct OPo as (X & _). clear -X.
    induction X as [|p po [H1 H2] _ IH]; [constructor|]. cbn [flat_map app]. constructor; [exact H1|]. constructor; [exact H2|exact IH]. }
  destruct (each_w (load_plane_ball fp) "static_plane" planes) as (l11 & N11 & E11); [eapply forall_w; [|exact OPl]; apply plane_ball_w|].
  destruct (each_w (load_ball fp) "ball" balls) as (l12 & N12 & E12); [eapply forall_w; [|exact OB]; apply ball_w|].
  set (l0 := [Node "scripting" [(lit "callback", cb)] []]).
  assert (named "scripting" l0) as N0 by (repeat constructor).
  set (root := Node "ball2d_scene" [] (l0 ++ l1 ++ l2 ++ l3 ++ l4 ++ l5 ++ l6 ++ l7 ++ l8 ++ l9 ++ l10 ++ l11 ++ l12)).
  assert (elements root "scripting" = l0) as R0 by elems.
  assert (elements root "end_time" = l1) as R1 by elems.
  assert (elements root "gravity" = l2) as R2 by elems.
  assert (elements root "penalty" = l3) as R3 by elems.
  assert (elements root "integrator" = l4) as R4 by elems.
  assert (elements root "impact_operator" = l5) as R5 by elems.
  assert (elements root "staggered_projections_friction_solver" = l6) as R6 by elems.
  assert (elements root "sobogus_friction_solver" = l7) as R7 by elems.
  assert (elements root "static_drum" = l8) as R8 by elems.
  assert (elements root "planar_portal" = l9) as R9 by elems.
  assert (elements root "lees_edwards_portal" = l10) as R10 by elems.
  assert (elements root "static_plane" = l11) as R11 by elems.
  assert (elements root "ball" = l12) as R12 by elems.
  exists [root].
  assert (load_ball_scene fp bd root = accept {| bs_callback := cb; bs_end := en; bs_forces := fg ++ fpn; bs_integrator := ki; bs_dt_text := dtt;
    bs_dt := dt; bs_response := re; bs_drums := dr; bs_planes := pl; bs_portals := po;
    bs_q := flat_map (fun b => [fst (b_x b); snd (b_x b)]) balls; bs_v := flat_map (fun b => [fst (b_v b); snd (b_v b)]) balls;
    bs_m := flat_map (fun b => [b_m b; b_m b]) balls; bs_r := map b_r balls; bs_fixed := map b_fixed balls |}) as K; [|exact K].
  unfold load_ball_scene, load_scripting, load_integrator_ball, load_dt, load_planar_kind.
  rewrite !first_node_hd, R0, R1, R2, R3, R4, R8, R11, R12. rewrite E1.
  unfold l0, l4. cbn [hd_error]. wgo. rewrite E2. wgo. rewrite E3. wgo. rewrite OD1, pbind_ok.
  rewrite (guard_true (positive dt)) by (unfold positive; lia). wgo.
  replace (if seqb _ (lit "verlet") then accept Verlet else _) with (accept ki : parse planar_integrator) by (destruct ki; reflexivity).
  wgo. rewrite (E5 root R5 R6 R7). wgo. rewrite E8. wgo. rewrite E11. wgo. rewrite (E9 root R9 R10). wgo. rewrite E12. wgo.
  cbn [fst snd]. rewrite !pack_flat_map. reflexivity.
Qed.

(* ---------------------------------------------------------------- the order of elements *)
Lemma load_solvers_elements r1 r2 : (forall a, elements r1 a = elements r2 a) -> forall ss busy r,
  load_solvers r1 busy ss r = load_solvers r2 busy ss r.
Proof.
  intros H. induction ss as [|[a f] ss IH]; intros busy r; cbn [load_solvers]; [reflexivity|].
  rewrite !first_node_hd, H. destruct (hd_error (elements r2 a)); [|apply IH]. destruct busy; [reflexivity|].
  destruct (f n) as [[[[[s m] mu] cor]|]| |]; cbn [pbind obind]; try reflexivity. apply IH.
Qed.
Lemma load_response_elements r1 r2 f ss : (forall a, elements r1 a = elements r2 a) -> load_response f ss r1 = load_response f ss r2.
Proof.
  intros H. unfold load_response. rewrite !first_node_hd, H. destruct (hd_error _).
  - destruct (f n) as [[[[op cor] c]|]| |]; cbn [pbind obind]; try reflexivity. apply load_solvers_elements, H.
  - apply load_solvers_elements, H.
Qed.
Lemma load_ball_scene_elements fp bd r1 r2 : (forall a, elements r1 a = elements r2 a) ->
  load_ball_scene fp bd r1 = load_ball_scene fp bd r2.
Proof.
  intros H. unfold load_ball_scene, load_scripting, load_integrator_ball, load_portals.
  rewrite !first_node_hd, !H, (load_response_elements r1 r2 _ _ H). reflexivity.
Qed.

(* ---------------------------------------------------------------- what is undefined, what exits *)
(* w: undefined; otherwise the process exits *)
Definition fails {A} (w : bool) (x : outcome A) : Prop :=
  match x with UB => w = true | Exit => w = false | Ok _ => False end.
Lemma pbind_fails {A B} w (x : parse A) (f : A -> parse B) : fails w (pbind x f) ->
  fails w x \/ exists a, x = Ok (Some a) /\ fails w (f a).
Proof. destruct x as [[a|]| |]; cbn [pbind obind fails]; try tauto. intros H. right. eauto. Qed.
Ltac fstep H := lazymatch type of H with fails _ (pbind _ _) => idtac end;
  let a := fresh "a" in let Ha := fresh "Ha" in apply pbind_fails in H as [H|(a & Ha & H)]; cbv beta in H.
Lemma guard_safe w b : ~ fails w (guard b).
Proof. destruct b; cbn; tauto. Qed.
Lemma attr_safe w n a : ~ fails w (attr n a).
Proof. cbn. tauto. Qed.
Lemma of_option_safe {A} w (o : option A) : ~ fails w (of_option o).
Proof. cbn. tauto. Qed.
Lemma accept_safe {A} w (o : A) : ~ fails w (accept o).
Proof. cbn. tauto. Qed.
Lemma reject_safe {A} w : ~ fails w (@reject A).
Proof. cbn. tauto. Qed.
Ltac more_safe := fail.
Ltac safe := exfalso; match goal with H : fails ?w _ |- _ => revert H;
  first [apply guard_safe | apply attr_safe | apply of_option_safe | apply accept_safe | apply reject_safe | more_safe] end.
Ltac all_safe H := repeat (fstep H; [safe|]); try safe.
Lemma scalar_attr_safe fp w n a : ~ fails w (scalar_attr fp n a).
Proof. unfold scalar_attr. intros H. all_safe H. Qed.
Lemma bool_attr_safe w n a : ~ fails w (bool_attr n a).
Proof. unfold bool_attr. intros H. all_safe H. Qed.
Lemma int_attr_safe w n a : ~ fails w (int_attr n a).
Proof. unfold int_attr. intros H. all_safe H. Qed.
Lemma unsigned_attr_safe w n a : ~ fails w (unsigned_attr n a).
Proof. unfold unsigned_attr. intros H. all_safe H. Qed.
Ltac more_safe ::= first [apply scalar_attr_safe | apply bool_attr_safe | apply int_attr_safe | apply unsigned_attr_safe].
Lemma trim_blank t : trimFront t = [] <-> blank t.
Proof.
  induction t as [|c t IH]; cbn [trimFront]; [split; [constructor|reflexivity]|]. unfold blank in *. destruct (isspace c) eqn:E.
  - rewrite IH. split; [intros; constructor; assumption|intros H; inversion H; assumption].
  - split; [discriminate|]. intros H. inversion H; congruence.
Qed.
Lemma loose_scalar_fails fp w n a : fails w (loose_scalar fp n a) -> w = true /\ exists t, first_attribute n a = Some t /\ blank t.
Proof.
  unfold loose_scalar. intros H. fstep H; [safe|]. unfold attr in Ha. apply of_option_inv in Ha.
  destruct (read_scalar fp a0) eqn:E; cbn in H; try contradiction. apply read_scalar_untouched, trim_blank in E. eauto.
Qed.
Lemma loose_bool_fails w n a : fails w (loose_bool n a) -> w = true /\ exists t, first_attribute n a = Some t /\ blank t.
Proof.
  unfold loose_bool. intros H. fstep H; [safe|]. unfold attr in Ha. apply of_option_inv in Ha.
  destruct (read_bool a0) eqn:E; cbn in H; try contradiction. apply read_bool_untouched, trim_blank in E. eauto.
Qed.
Lemma load_end_time_safe fp w n : ~ fails w (load_end_time fp n).
Proof. unfold load_end_time. intros H. all_safe H. Qed.
Lemma load_scripting_safe w n : ~ fails w (load_scripting n).
Proof. unfold load_scripting. destruct (first_node n "scripting"); [apply attr_safe|apply accept_safe]. Qed.
Lemma load_words_safe w n a : ~ fails w (load_words n a).
Proof. unfold load_words. intros H. all_safe H. destruct (read_words a0); safe. Qed.
Ltac more_safe ::= first [apply scalar_attr_safe | apply bool_attr_safe | apply int_attr_safe | apply unsigned_attr_safe | apply load_end_time_safe | apply load_scripting_safe | apply load_words_safe].
Ltac fbranches H := repeat match type of H with fails _ (if ?b then _ else _) => let E := fresh "B" in destruct b eqn:E end.
Lemma load_lcp_safe fp bd ap w n : ~ fails w (load_lcp fp bd ap n).
Proof. unfold load_lcp. intros H. fstep H; [safe|]. fbranches H; all_safe H. Qed.
Lemma load_v_tol_safe fp w n : ~ fails w (load_v_tol fp n).
Proof. unfold load_v_tol. intros H. all_safe H. Qed.
Ltac more_safe ::= first [apply scalar_attr_safe | apply bool_attr_safe | apply int_attr_safe | apply unsigned_attr_safe | apply load_end_time_safe | apply load_scripting_safe | apply load_words_safe | apply load_lcp_safe | apply load_v_tol_safe].
Lemma load_inner_safe fp bd ap w n : ~ fails w (load_inner fp bd ap n).
Proof. unfold load_inner. destruct (first_node n "solver"); [apply load_lcp_safe|apply reject_safe]. Qed.
Ltac more_safe ::= first [apply scalar_attr_safe | apply bool_attr_safe | apply int_attr_safe | apply unsigned_attr_safe | apply load_end_time_safe | apply load_scripting_safe | apply load_words_safe | apply load_lcp_safe | apply load_v_tol_safe | apply load_inner_safe].
Lemma node_deep (P : node -> Prop) : (forall nm at' ch, Forall P ch -> P (Node nm at' ch)) -> forall n, P n.
Proof.
  intros H. fix IH 1. intros [nm at' ch]. apply H. induction ch as [|c ch IHc]; constructor; [apply IH|exact IHc].
Qed.
Lemma load_impact_safe fp bd ap w n : ~ fails w (load_impact fp bd ap n).
Proof.
  induction n as [nm at' ch IH] using node_deep. intros H. rewrite load_impact_eq in H. fstep H; [safe|].
  assert (forall a, ~ fails w (child_impact fp bd ap (Node nm at' ch) a)) as C.
  { intros a0 K. unfold child_impact, first_node, first_in in K. cbn [children_of] in K.
    destruct (find _ ch) eqn:F; [|exact K]. apply find_some in F as [F _]. rewrite Forall_forall in IH. exact (IH _ F K). }
  fbranches H; try (all_safe H).
  fstep H; [exact (C _ H)|]. fstep H; [exact (C _ H)|]. safe.
Qed.
Lemma load_mu_safe fp w n : ~ fails w (load_mu fp n).
Proof. unfold load_mu. intros H. all_safe H. Qed.
Lemma load_cor_safe fp w n : ~ fails w (load_cor fp n).
Proof. unfold load_cor. intros H. all_safe H. Qed.
Lemma load_tol_safe fp w n : ~ fails w (load_tol fp n).
Proof. unfold load_tol. intros H. all_safe H. Qed.
Lemma load_max_iters_safe w n : ~ fails w (load_max_iters n).
Proof. unfold load_max_iters. intros H. all_safe H. Qed.
Lemma load_eval_every_safe w n k : ~ fails w (load_eval_every n k).
Proof. unfold load_eval_every. intros H. all_safe H. Qed.
Lemma load_stabilization_safe fp w n c : ~ fails w (load_stabilization fp n c).
Proof. unfold load_stabilization. intros H. all_safe H. Qed.
Ltac more_safe ::= first [apply scalar_attr_safe | apply bool_attr_safe | apply int_attr_safe | apply unsigned_attr_safe | apply load_end_time_safe | apply load_scripting_safe | apply load_words_safe | apply load_lcp_safe | apply load_v_tol_safe | apply load_inner_safe | apply load_impact_safe | apply load_mu_safe | apply load_cor_safe | apply load_tol_safe | apply load_max_iters_safe | apply load_eval_every_safe | apply load_stabilization_safe].
Lemma load_mdp_ball_safe fp bd w n : ~ fails w (load_mdp_ball fp bd n).
Proof. unfold load_mdp_ball. intros H. fstep H; [safe|]. fbranches H; all_safe H. Qed.
Lemma load_impact_cor_safe fp bd ap w n : ~ fails w (load_impact_cor fp bd ap n).
Proof. unfold load_impact_cor. intros H. all_safe H. Qed.
Lemma load_staggered_fails fp lcp mdp w n : fails w (load_staggered fp lcp mdp n) ->
  (exists c, first_node n "lcp_impact_solver" = Some c /\ fails w (lcp c)) \/
  (exists c, first_node n "mdp_friction_solver" = Some c /\ fails w (mdp c)).
Proof.
  unfold load_staggered. intros H. do 5 (fstep H; [safe|]). apply of_option_inv in Ha3.
  fstep H; [left; eauto|]. fstep H; [safe|]. apply of_option_inv in Ha5.
  fstep H; [right; eauto|]. do 3 (fstep H; [safe|]). fbranches H; safe.
Qed.
Ltac more_safe ::= first [apply scalar_attr_safe | apply bool_attr_safe | apply int_attr_safe | apply unsigned_attr_safe | apply load_end_time_safe | apply load_scripting_safe | apply load_words_safe | apply load_lcp_safe | apply load_v_tol_safe | apply load_inner_safe | apply load_impact_safe | apply load_mu_safe | apply load_cor_safe | apply load_tol_safe | apply load_max_iters_safe | apply load_eval_every_safe | apply load_stabilization_safe | apply load_mdp_ball_safe | apply load_impact_cor_safe].

Lemma load_caching_inv n c : load_caching n = Ok (Some c) -> exists t, first_attribute n "cache_impulses" = Some t /\
  match c with CacheNone => t = lit "none" | _ => t <> lit "none" end.
Proof.
  unfold load_caching. intros H. pstep H. unfold attr in Ha. apply of_option_inv in Ha. exists a. split; [exact Ha|].
  destruct (seqb a "none") eqn:B1; [pgo H; subst; now apply seqb_true|]. apply seqb_false in B1.
  destruct (seqb a "normal"); [pgo H; subst; exact B1|]. destruct (seqb a "normal_and_friction"); [pgo H; subst; exact B1|discriminate].
Qed.
Lemma load_caching_fails w n : fails w (load_caching n) -> w = false /\ exists t, first_attribute n "cache_impulses" = Some t /\ ~ caching_word t.
Proof.
  unfold load_caching. intros H. fstep H; [safe|]. unfold attr in Ha. apply of_option_inv in Ha. fbranches H; try safe.
  cbn in H. split; [exact H|]. exists a. split; [exact Ha|]. apply seqb_false in B, B0, B1. unfold caching_word. tauto.
Qed.
Lemma load_sobogus_ball_fails fp w n : fails w (load_sobogus_ball fp n) -> w = false /\ bad_caching n.
Proof.
  unfold load_sobogus_ball. intros H. do 5 (fstep H; [safe|]). fstep H.
  { apply load_caching_fails in H as (-> & t & E & N). split; [reflexivity|]. exists t. auto. }
  fstep H; [safe|]. apply load_caching_inv in Ha4 as (t & Et & Ht). unfold attr in Ha5. apply of_option_inv in Ha5.
  destruct (seqb a5 "geometric"); [safe|]. destruct (seqb a5 "symplectic_euler"); [all_safe H|].
  destruct (seqb a5 "stabilized") eqn:B; [|safe]. apply seqb_true in B. subst a5.
  destruct a4; cbn in H; try contradiction; (split; [exact H|]; exists t; split; [exact Et|]; right; split; assumption).
Qed.

Lemma parse_rational_fails w t : fails w (parse_rational t) -> w = true.
Proof.
  assert (forall A B (x : outcome A) (f : A -> outcome B), x <> Exit -> (forall a, f a <> Exit) -> obind x f <> Exit) as BE.
  { intros A B [a| |] f H1 H2; cbn [obind]; auto; discriminate. }
  assert (forall z, i64 z <> Exit) as I by (intros z; unfold i64; destruct (in_int64 z); discriminate).
  assert (forall fuel n d, gcd_loop fuel n d <> Exit) as G.
  { induction fuel as [|k IH]; intros n d; cbn [gcd_loop]; [discriminate|]. destruct (d =? 0)%Z; [discriminate|].
    apply BE; [|intros; apply IH]. unfold rem64. destruct (d =? 0)%Z; [discriminate|]. destruct (in_int64 _); discriminate. }
  assert (forall n d, make n d <> Exit) as M.
  { intros n d. unfold make, simplify. destruct (n =? 0)%Z; [discriminate|]. apply BE; [apply G|].
    intros g. apply BE; [unfold div64; destruct (g =? 0)%Z; [discriminate|apply I]|]. intros n1.
    apply BE; [unfold div64; destruct (g =? 0)%Z; [discriminate|apply I]|]. intros d1.
    destruct (d1 <? 0)%Z; [|discriminate]. apply BE; [apply I|]. intros n2. apply BE; [apply I|]. discriminate. }
  assert (forall k a, pow10_loop k a <> Exit) as PL.
  { induction k as [|k IH]; intros a; cbn [pow10_loop]; [discriminate|]. apply BE; [apply I|]. intros; apply IH. }
  assert (parse_rational t <> Exit) as E; [|destruct (parse_rational t); cbn [fails]; intros; try contradiction; congruence].
  unfold parse_rational. repeat match goal with |- (if ?b then _ else _) <> _ => destruct b; try discriminate end.
  - unfold parse_decimal. destruct (splitAtLastCharacterOccurence _ _). cbv zeta. destruct (extract_int _); [|discriminate].
    destruct (match trimCharacterRight _ _ with [] => _ | _ => _ end); [|discriminate].
    apply BE; [apply PL|]. intros. apply BE; [apply I|]. intros. apply BE; [apply I|]. intros. apply BE; [apply I|]. intros.
    apply BE; [apply M|]. discriminate.
  - unfold parse_fraction. destruct (splitAtLastCharacterOccurence _ _). destruct (extract_int _); [|discriminate].
    destruct (extract_int _); [|discriminate]. apply BE; [apply M|]. discriminate.
Qed.

Lemma load_dt_fails w n : fails w (load_dt n) -> w = true /\ exists t, first_attribute n "dt" = Some t /\ parse_rational t = UB.
Proof.
  unfold load_dt. intros H. fstep H; [safe|]. unfold attr in Ha. apply of_option_inv in Ha. fstep H; [|all_safe H].
  pose proof (parse_rational_fails _ _ H). subst. split; [reflexivity|]. exists a. split; [exact Ha|].
  destruct (parse_rational a); cbn [fails] in H; try contradiction; congruence.
Qed.
Lemma load_planar_kind_safe w n : ~ fails w (load_planar_kind n).
Proof. unfold load_planar_kind. intros H. fstep H; [safe|]. fbranches H; safe. Qed.
Ltac more_safe ::= first [apply scalar_attr_safe | apply bool_attr_safe | apply int_attr_safe | apply unsigned_attr_safe | apply load_end_time_safe | apply load_scripting_safe | apply load_words_safe | apply load_lcp_safe | apply load_v_tol_safe | apply load_inner_safe | apply load_impact_safe | apply load_mu_safe | apply load_cor_safe | apply load_tol_safe | apply load_max_iters_safe | apply load_eval_every_safe | apply load_stabilization_safe | apply load_mdp_ball_safe | apply load_impact_cor_safe | apply load_planar_kind_safe].
Lemma load_penalty_safe fp w n : ~ fails w (load_penalty fp n).
Proof. unfold load_penalty. intros H. all_safe H. Qed.
Lemma pair_attr_safe fp w n a : ~ fails w (pair_attr fp n a).
Proof. unfold pair_attr. intros H. fstep H; [safe|]. destruct (read_scalars fp a0) as [|x [|y [|]]]; safe. Qed.
Ltac more_safe ::= first [apply scalar_attr_safe | apply bool_attr_safe | apply int_attr_safe | apply unsigned_attr_safe | apply load_end_time_safe | apply load_scripting_safe | apply load_words_safe | apply load_lcp_safe | apply load_v_tol_safe | apply load_inner_safe | apply load_impact_safe | apply load_mu_safe | apply load_cor_safe | apply load_tol_safe | apply load_max_iters_safe | apply load_eval_every_safe | apply load_stabilization_safe | apply load_mdp_ball_safe | apply load_impact_cor_safe | apply load_planar_kind_safe | apply load_penalty_safe | apply pair_attr_safe].
Lemma load_plane_ball_safe fp w n : ~ fails w (load_plane_ball fp n).
Proof. unfold load_plane_ball. intros H. all_safe H. Qed.
Lemma plane_index_safe w k n a : ~ fails w (plane_index k n a).
Proof. unfold plane_index. intros H. all_safe H. Qed.
Lemma load_lees_safe fp b w n : ~ fails w (load_lees_edwards fp b n).
Proof. unfold load_lees_edwards. intros H. all_safe H. Qed.
Ltac more_safe ::= first [apply scalar_attr_safe | apply bool_attr_safe | apply int_attr_safe | apply unsigned_attr_safe | apply load_end_time_safe | apply load_scripting_safe | apply load_words_safe | apply load_lcp_safe | apply load_v_tol_safe | apply load_inner_safe | apply load_impact_safe | apply load_mu_safe | apply load_cor_safe | apply load_tol_safe | apply load_max_iters_safe | apply load_eval_every_safe | apply load_stabilization_safe | apply load_mdp_ball_safe | apply load_impact_cor_safe | apply load_planar_kind_safe | apply load_penalty_safe | apply pair_attr_safe | apply load_plane_ball_safe | apply plane_index_safe | apply load_lees_safe].
Lemma portal_indices_safe w k u n : ~ fails w (portal_indices k u n).
Proof. unfold portal_indices. intros H. all_safe H. Qed.
Ltac more_safe ::= first [apply scalar_attr_safe | apply bool_attr_safe | apply int_attr_safe | apply unsigned_attr_safe | apply load_end_time_safe | apply load_scripting_safe | apply load_words_safe | apply load_lcp_safe | apply load_v_tol_safe | apply load_inner_safe | apply load_impact_safe | apply load_mu_safe | apply load_cor_safe | apply load_tol_safe | apply load_max_iters_safe | apply load_eval_every_safe | apply load_stabilization_safe | apply load_mdp_ball_safe | apply load_impact_cor_safe | apply load_planar_kind_safe | apply load_penalty_safe | apply pair_attr_safe | apply load_plane_ball_safe | apply plane_index_safe | apply load_lees_safe | apply portal_indices_safe].
Lemma load_links_safe {E} (extra : node -> parse E) w np : (forall n, ~ fails w (extra n)) -> forall l used, ~ fails w (load_links extra np used l).
Proof.
  intros HE. induction l as [|n l IH]; intros used H; cbn [load_links] in H; [safe|].
  fstep H; [safe|]. fstep H; [exact (HE _ H)|]. fstep H; [exact (IH _ H)|]. safe.
Qed.
Lemma load_portals_safe {P} fp b w root (planes : list P) : ~ fails w (load_portals fp b root planes).
Proof.
  intros H. unfold load_portals in H.
  destruct (elements root "planar_portal") as [|p0 pl]; destruct (elements root "lees_edwards_portal") as [|e0 le]; [safe|..].
  all: cbv zeta in H; fstep H; [safe|]; fstep H; [revert H; apply load_links_safe; intros; apply accept_safe|];
    fstep H; [revert H; apply load_links_safe; intros; apply load_lees_safe|].
  all: pose proof (load_links_inv _ (fun e => e = (0%Q, 0%Q)) _ still_inv _ [] _ (NoDup_nil _) Ha0) as (N1 & R1 & _); cbn [app] in N1;
    pose proof (load_links_inv _ _ _ (load_lees_inv fp b) _ _ _ N1 Ha1) as (N2 & R2 & _).
  all: rewrite <- map_app in N2; assert (Forall (fun i => (i < List.length planes)%nat) (flat (map fst (a0 ++ a1)))) as R'
    by (rewrite map_app, flat_app; apply Forall_app; split; (eapply Forall_impl; [|eassumption]); intros i [X _]; exact X).
  all: destruct (joined_total planes (a0 ++ a1) R') as (ps & EJ); rewrite EJ in H; fstep H; [safe|].
  all: rewrite erase_all_without in H by assumption; fstep H; safe.
Qed.
Lemma each_fails {A} (f : node -> parse A) w l : fails w (each f l) -> exists n, In n l /\ fails w (f n).
Proof.
  induction l as [|n l IH]; cbn [each]; intros H; [safe|]. fstep H; [exists n; split; [left; reflexivity|exact H]|].
  fstep H; [|safe]. destruct (IH H) as (m & Hm & E). exists m. split; [right; exact Hm|exact E].
Qed.
Lemma load_solvers_fails w root ss : forall busy r, fails w (load_solvers root busy ss r) ->
  exists a f n, In (a, f) ss /\ first_node root a = Some n /\ fails w (f n).
Proof.
  induction ss as [|[a f] ss IH]; intros busy r; cbn [load_solvers]; intros H; [safe|].
  assert (forall busy r, fails w (load_solvers root busy ss r) -> exists a0 f0 n, In (a0, f0) ((a, f) :: ss) /\ first_node root a0 = Some n /\ fails w (f0 n)) as C.
  { intros b' r' K. destruct (IH _ _ K) as (a0 & f0 & n0 & I0 & K0). exists a0, f0, n0. split; [right; exact I0|exact K0]. }
  destruct (first_node root a) as [n|] eqn:En; [|apply C in H; exact H].
  destruct busy; [safe|]. fstep H.
  - exists a, f, n. split; [left; reflexivity|]. split; assumption.
  - destruct a0 as [[[s m] mu] cor]. apply C in H. exact H.
Qed.
Lemma load_response_fails w impact ss root : (forall n, ~ fails w (impact n)) -> fails w (load_response impact ss root) ->
  exists a f n, In (a, f) ss /\ first_node root a = Some n /\ fails w (f n).
Proof.
  intros HI. unfold load_response. destruct (first_node root "impact_operator"); intros H.
  - fstep H; [destruct (HI _ H)|]. destruct a as [[op cor] c]. eapply load_solvers_fails, H.
  - eapply load_solvers_fails, H.
Qed.
Lemma load_ball_scene_fails fp bd w root : fails w (load_ball_scene fp bd root) ->
  w = true /\ ((exists n t, first_node root "integrator" = Some n /\ first_attribute n "dt" = Some t /\ parse_rational t = UB) \/
     (exists e n a t, In n (elements root e) /\ In a (loose_attributes e) /\ first_attribute n a = Some t /\ blank t)) \/
  w = false /\ exists n, first_node root "sobogus_friction_solver" = Some n /\ bad_caching n.
Proof.
  unfold load_ball_scene. intros H. fstep H; [safe|]. fstep H.
  { destruct (first_node root "end_time"); cbn [optional] in H; [|safe]. all_safe H. }
  fstep H.
  { apply each_fails in H as (n & Hn & H). unfold load_gravity_ball in H.
    left. fstep H; [|fstep H; [|safe]]; apply loose_scalar_fails in H as (-> & t & E & B);
      (split; [reflexivity|]; right; exists (lit "gravity"), n; eexists _, t; split; [exact Hn|]; split; [|split; [exact E|exact B]]; cbn; tauto). }
  fstep H; [apply each_fails in H as (n & Hn & H); safe|].
  fstep H.
  { unfold load_integrator_ball in H. fstep H; [safe|]. apply of_option_inv in Ha3. fstep H; [|all_safe H].
    apply load_dt_fails in H as (-> & t & E & U). left. split; [reflexivity|]. left. exists a3, t. auto. }
  fstep H.
  { apply load_response_fails in H as (a' & f & n & Hin & En & H); [|apply load_impact_cor_safe].
    destruct Hin as [Hin|[Hin|[]]]; injection Hin as <- <-.
    - apply load_staggered_fails in H as [(c & _ & H)|(c & _ & H)]; safe.
    - apply load_sobogus_ball_fails in H as [-> H]. right. split; [reflexivity|]. exists n. auto. }
  fstep H.
  { apply each_fails in H as (n & Hn & H). unfold load_drum in H.
    left. fstep H; [|fstep H; [|fstep H; [|safe]]]; apply loose_scalar_fails in H as (-> & t & E & B);
      (split; [reflexivity|]; right; exists (lit "static_drum"), n; eexists _, t; split; [exact Hn|]; split; [|split; [exact E|exact B]]; cbn; tauto). }
  fstep H; [apply each_fails in H as (n & Hn & H); safe|].
  fstep H; [destruct (load_portals_safe _ _ _ _ _ H)|].
  fstep H; [|safe].
  apply each_fails in H as (n & Hn & H). unfold load_ball in H. left.
  do 6 (fstep H; [apply loose_scalar_fails in H as (-> & t & E & B);
      (split; [reflexivity|]; right; exists (lit "ball"), n; eexists _, t; split; [exact Hn|]; split; [|split; [exact E|exact B]]; cbn; tauto)|]).
  fstep H; [|safe]. apply loose_bool_fails in H as (-> & t & E & B).
  (split; [reflexivity|]; right; exists (lit "ball"), n; eexists _, t; split; [exact Hn|]; split; [|split; [exact E|exact B]]; cbn; tauto).
Qed.

(* ---------------------------------------------------------------- what the file says is what the scene holds *)
Lemma nth_flat_map2 {A} (f g : A -> Q) l : forall i, nth_error (flat_map (fun b => [f b; g b]) l) (2 * i) = option_map f (nth_error l i) /\
  nth_error (flat_map (fun b => [f b; g b]) l) (2 * i + 1) = option_map g (nth_error l i).
Proof.
  induction l as [|b l IH]; intros i; cbn [flat_map app].
  - destruct i; split; try reflexivity; cbn [nth_error option_map]; destruct (2 * S i)%nat; try reflexivity; destruct (n + 1)%nat; reflexivity.
  - destruct i as [|i]; [split; reflexivity|].
    replace (2 * S i)%nat with (S (S (2 * i))) by lia. cbn [nth_error plus]. apply IH.
Qed.
Lemma forall2_nth {A B} (R : A -> B -> Prop) l r : Forall2 R l r -> forall i x, nth_error l i = Some x -> exists y, nth_error r i = Some y /\ R x y.
Proof. induction 1; intros [|i] z E; cbn in *; try discriminate; [injection E as <-; eauto|eauto]. Qed.

Lemma load_ball_scene_balls fp bd root sc : load_ball_scene fp bd root = Ok (Some sc) ->
  let n := List.length (elements root "ball") in
  List.length (bs_q sc) = (2 * n)%nat /\ List.length (bs_v sc) = (2 * n)%nat /\ List.length (bs_m sc) = (2 * n)%nat /\
  List.length (bs_r sc) = n /\ List.length (bs_fixed sc) = n /\
  forall i nd, nth_error (elements root "ball") i = Some nd ->
    holds fp nd "x" (bs_q sc) (2 * i) /\ holds fp nd "y" (bs_q sc) (2 * i + 1) /\
    holds fp nd "vx" (bs_v sc) (2 * i) /\ holds fp nd "vy" (bs_v sc) (2 * i + 1) /\
    holds fp nd "m" (bs_m sc) (2 * i) /\ holds fp nd "m" (bs_m sc) (2 * i + 1) /\
    holds fp nd "r" (bs_r sc) i /\
    exists t b, first_attribute nd "fixed" = Some t /\ unchecked (read_bool t) = Ok b /\ nth_error (bs_fixed sc) i = Some b.
Proof.
  unfold load_ball_scene. intros H. repeat pstep H. apply accept_inv in H. subst sc. cbn [bs_q bs_v bs_m bs_r bs_fixed].
  apply each_inv in Ha8. rewrite !pack_flat_map. cbn [fst snd].
  pose proof (Forall2_len _ _ _ Ha8) as L. cbv zeta. rewrite !flat_map_length2, !map_length, <- L.
  do 5 (split; [reflexivity|]). intros i nd Hi. destruct (forall2_nth _ _ _ Ha8 _ _ Hi) as (b & Hb & E).
  unfold load_ball in E. repeat pstep E. apply accept_inv in E. subst b.
  pose proof (nth_flat_map2 (fun b => fst (b_x b)) (fun b => snd (b_x b)) a8 i) as [Q1 Q2].
  pose proof (nth_flat_map2 (fun b => fst (b_v b)) (fun b => snd (b_v b)) a8 i) as [V1 V2].
  pose proof (nth_flat_map2 b_m b_m a8 i) as [M1 M2].
  rewrite Hb in *. cbn [option_map b_x b_v b_m fst snd] in *.
  assert (forall a x l k, loose_scalar fp nd a = Ok (Some x) -> nth_error l k = Some x -> holds fp nd a l k) as HH.
  { intros a' x l k K1 K2. unfold loose_scalar in K1. pgo K1. unfold attr in *. apply of_option_inv in Ha16. exists a16, x. auto. }
  repeat (split; [first [eapply HH; [eassumption|eassumption] | eapply HH; [eassumption|rewrite nth_error_map, Hb; reflexivity]]|]).
  unfold loose_bool in Ha15. pgo Ha15. unfold attr in *. apply of_option_inv in Ha16. exists a16, a15. split; [exact Ha16|]. split; [exact Ha15|].
  rewrite nth_error_map, Hb. reflexivity.
Qed.

Lemma load_links_forall2 {E} (extra : node -> parse E) np : forall l used r, load_links extra np used l = Ok (Some r) ->
  Forall2 (fun n x => plane_index np n "planeA" = Ok (Some (fst (fst x))) /\ plane_index np n "planeB" = Ok (Some (snd (fst x))) /\
     extra n = Ok (Some (snd x))) l r.
Proof.
  induction l as [|n l IH]; intros used r; cbn [load_links]; intros H; pgo H; subst; [constructor|].
  constructor; [|eapply IH; eassumption]. destruct a as [i j]. unfold portal_indices in Ha. pgo Ha. injection Ha as -> ->. cbn [fst snd]. auto.
Qed.
Lemma plane_index_names np n a i : plane_index np n a = Ok (Some i) -> names n a i.
Proof.
  unfold plane_index, unsigned_attr. intros H. pgo H. subst. pgo Ha. unfold attr in Ha1. apply of_option_inv in Ha1.
  eexists. split; [exact Ha1|]. pose proof (checked_unsigned 32 _ _ ltac:(lia) Ha). rewrite Z2Nat.id by lia. exact Ha.
Qed.
Lemma pair_attr_text fp n a p : pair_attr fp n a = Ok (Some p) -> pair_text fp n a p.
Proof.
  unfold pair_attr. intros H. pstep H. unfold attr in Ha. apply of_option_inv in Ha. exists a0. split; [exact Ha|].
  destruct (read_scalars fp a0) as [|x [|y [|]]]; pgo H. subst. reflexivity.
Qed.
Lemma load_ball_scene_planes fp bd root sc : load_ball_scene fp bd root = Ok (Some sc) ->
  exists planes links,
    Forall2 (fun nd p => pair_text fp nd "x" (fst p) /\ pair_text fp nd "n" (snd p)) (elements root "static_plane") planes /\
    Forall2 (fun nd l => names nd "planeA" (fst l) /\ names nd "planeB" (snd l))
      (elements root "planar_portal" ++ elements root "lees_edwards_portal") links /\
    NoDup (flat_map (fun l => [fst l; snd l]) links) /\
    Forall2 (fun l p => nth_error planes (fst l) = Some (fst (fst p)) /\ nth_error planes (snd l) = Some (snd (fst p))) links (bs_portals sc) /\
    bs_planes sc = State_Spec.without (flat_map (fun l => [fst l; snd l]) links) planes.
Proof.
  unfold load_ball_scene. intros H. repeat pstep H. apply accept_inv in H. subst sc. cbn [bs_planes bs_portals].
  destruct a7 as [rest portals]. cbn [fst snd]. apply load_portals_inv in Ha7 as (l1 & l2 & E1 & E2 & [_ N K R] & _ & _).
  exists a6, (map fst (l1 ++ l2)). apply each_inv in Ha6. split; [|split; [|split; [|split]]].
  - eapply State_Proofs.forall2_impl; [|exact Ha6]. intros nd p X. cbv beta in X. unfold load_plane_ball in X. repeat pstep X.
    apply accept_inv in X. subst p. cbn [fst snd]. split; apply pair_attr_text; assumption.
  - apply load_links_forall2 in E1, E2. rewrite map_app.
    assert (forall (R : node -> nat * nat * (Q * Q) -> Prop) l r, (forall n x, R n x -> plane_index (List.length a6) n "planeA" = Ok (Some (fst (fst x))) /\
       plane_index (List.length a6) n "planeB" = Ok (Some (snd (fst x)))) -> Forall2 R l r ->
       Forall2 (fun nd l => names nd "planeA" (fst l) /\ names nd "planeB" (snd l)) l (map fst r)) as G.
    { intros R' l r HR X. induction X as [|n x l r X1 _ IH]; [constructor|]. cbn [map]. constructor; [|exact IH].
      apply HR in X1 as [X1 X2]. split; eapply plane_index_names; eassumption. }
    apply Forall2_app; eapply G; try eassumption; cbv beta; tauto.
  - unfold flat in N. rewrite <- flat_map_concat_map in N. exact N.
  - clear -K. induction K as [|l p ls ps (X1 & X2 & _) _ IH]; [constructor|]. cbn [map]. constructor; auto.
  - rewrite R. unfold flat. rewrite <- flat_map_concat_map. reflexivity.
Qed.

Lemma load_ball_scene_settings fp bd root sc : load_ball_scene fp bd root = Ok (Some sc) ->
  bs_callback sc = match first_node root "scripting" with None => [] | Some n => match first_attribute n "callback" with Some t => t | None => [] end end /\
  (exists n, first_node root "integrator" = Some n /\ first_attribute n "dt" = Some (bs_dt_text sc) /\
     first_attribute n "type" = Some (match bs_integrator sc with Verlet => lit "verlet" | SymplecticEuler => lit "symplectic_euler" end)) /\
  (bs_end sc = None <-> first_node root "end_time" = None) /\
  (forall t, bs_end sc = Some t -> exists n u, first_node root "end_time" = Some n /\ first_attribute n "t" = Some u /\ checked (read_scalar fp u) = Some t).
Proof.
  unfold load_ball_scene. intros H. repeat pstep H. apply accept_inv in H. subst sc. cbn [bs_callback bs_end bs_dt_text bs_integrator].
  split; [|split; [|split]].
  - unfold load_scripting in Ha. destruct (first_node root "scripting"); [|apply accept_inv in Ha; congruence].
    unfold attr in Ha. apply of_option_inv in Ha. rewrite Ha. reflexivity.
  - unfold load_integrator_ball in Ha3. repeat pstep Ha3. apply accept_inv in Ha3. subst a3. cbn [fst snd].
    apply of_option_inv in Ha9. exists a9. split; [exact Ha9|]. unfold load_dt in Ha10. repeat pstep Ha10. apply accept_inv in Ha10. subst a10.
    cbn [fst]. split; [apply of_option_inv, Ha3|]. unfold load_planar_kind in Ha11. pstep Ha11. apply of_option_inv in Ha10. rewrite Ha10.
    destruct (seqb a10 "verlet") eqn:B; [apply accept_inv in Ha11; subst; apply seqb_true in B; congruence|].
    destruct (seqb a10 "symplectic_euler") eqn:B'; [apply accept_inv in Ha11; subst; apply seqb_true in B'; congruence|discriminate].
  - apply optional_inv in Ha0. destruct a0 as [t|]; [|tauto]. destruct Ha0 as (n & -> & _). split; discriminate.
  - intros t ->. apply optional_inv in Ha0 as (n & E & L). exists n. unfold load_end_time, scalar_attr in L. pgo L. subst.
    pgo Ha0. unfold attr in *. apply of_option_inv in Ha10. eauto.
Qed.
