From Coq Require Import ZArith NArith QArith Bool Ascii String List Lia ZifyBool ZifyNat ZifyN.
From Verif Require Import Outcome Str_Model Str_Spec Str_Proofs Rational_Model RatParse_Model Scene_Text Scene_Model Scene_Spec Scene_TextProofs Scene_Proofs Scene_Write Scene_Thms Scene2_Model Scene2_Spec.
From Verif Require State_Spec State_Proofs.
Import ListNotations.
Open Scope string_scope.
Open Scope list_scope.

(* ---------------------------------------------------------------- vectors *)
Lemma read_ext_number fp s e : read_ext fp s = Some e -> number fp e.
Proof.
  unfold read_ext. destruct (checked (read_scalar fp s)) eqn:E.
  - intros H. injection H as <-. cbn. eapply checked_scalar, E.
  - destruct (seqb s (lit "-inf")); [intros H; injection H as <-; exact Logic.I|].
    destruct (seqb s (lit "inf")); [intros H; injection H as <-; exact Logic.I|discriminate].
Qed.
Lemma all_some_inv {A} : forall (l : list (option A)) r, all_some l = Some r -> l = map Some r.
Proof.
  induction l as [|[a|] l IH]; intros r; cbn [all_some]; [intros H; injection H as <-; reflexivity| |discriminate].
  destruct (all_some l); [|discriminate]. intros H. injection H as <-. cbn [map]. f_equal. apply IH. reflexivity.
Qed.
Lemma all_some_map {A B} (f : A -> option B) l r : Forall2 (fun a b => f a = Some b) l r -> all_some (map f l) = Some r.
Proof. induction 1 as [|a b l r E _ IH]; [reflexivity|]. cbn [map all_some]. rewrite E, IH. reflexivity. Qed.
Lemma read_list_inv {A} (f : str -> option A) n t l : read_list f n t = Ok (Some l) ->
  exists toks, t <> [] /\ join " "%char toks = t /\ Forall (fun u => ~ In " "%char u) toks /\ List.length toks = n /\ Forall2 (fun u a => f u = Some a) toks l.
Proof.
  unfold read_list. intros H. destruct t as [|c t']; [discriminate|].
  destruct (tokenize_spec (c :: t') " "%char) as (toks & E & J & N & _); [discriminate|]. rewrite E in H. cbn [obind] in H.
  destruct (Nat.eqb_spec (List.length toks) n); [|discriminate]. injection H as H. exists toks. repeat split; try assumption; try discriminate.
  apply all_some_inv in H. clear -H. revert l H. induction toks as [|u toks IH]; intros [|a l] H; try discriminate; constructor.
  - cbn in H. congruence.
  - apply IH. cbn in H. congruence.
Qed.
Lemma read_list_ok {A} (f : str -> option A) toks l : toks <> [] -> join " "%char toks <> [] -> Forall (fun u => ~ In " "%char u) toks ->
  Forall2 (fun u a => f u = Some a) toks l -> read_list f (List.length toks) (join " "%char toks) = Ok (Some l).
Proof.
  intros N J H F. unfold read_list. destruct (tokenize_spec (join " "%char toks) " "%char J) as (toks' & E & J' & N' & M).
  rewrite E. cbn [obind]. apply join_unique in J'; [|assumption..]. subst toks'. rewrite Nat.eqb_refl. f_equal. apply all_some_map, F.
Qed.
Lemma read_list_fails {A} (f : str -> option A) n w t : fails w (read_list f n t) -> w = true /\ t = [].
Proof.
  unfold read_list. destruct t as [|c t]; [intros H; split; [exact H|reflexivity]|].
  destruct (tokenize_spec (c :: t) " "%char) as (toks & -> & _); [discriminate|]. cbn [obind]. destruct (Nat.eqb _ _); intros [].
Qed.

Lemma vec2_attr_text fp n a p : vec2_attr fp n a = Ok (Some p) -> vec2_text fp n a p.
Proof.
  unfold vec2_attr. intros H. pstep H. apply of_option_inv in Ha. pstep H. apply read_list_inv in Ha0 as (toks & _ & J & N & L & F).
  destruct toks as [|t1 [|t2 [|]]]; try discriminate. inversion F as [|? x ? l1 E1 F1]; subst. inversion F1 as [|? y ? l2 E2 F2]; subst. inversion F2; subst.
  apply accept_inv in H. subst p. inversion N as [|? ? N1 N2]; subst. inversion N2; subst. exists t1, t2. auto.
Qed.
Lemma vec2_attr_inv fp n a p : vec2_attr fp n a = Ok (Some p) -> numbers2 fp p.
Proof. intros H. apply vec2_attr_text in H as (t1 & t2 & _ & _ & _ & E1 & E2). split; eapply read_ext_number; eassumption. Qed.
Lemma word_no_space t : word t -> ~ In " "%char t.
Proof. intros [_ H] K. rewrite Forall_forall in H. apply H in K. discriminate. Qed.
Lemma ext_writable fp e : number fp e -> exists t, word t /\ read_ext fp t = Some e.
Proof.
  destruct e as [q| |]; cbn [number]; intros H.
  - destruct (decimal_writable fp q H) as (t & W & E). exists t. split; [exact W|]. specialize (E [] Logic.I). rewrite app_nil_r in E.
    unfold read_ext. rewrite E. reflexivity.
  - exists (lit "inf"). split; [split; [discriminate|repeat constructor]|reflexivity].
  - exists (lit "-inf"). split; [split; [discriminate|repeat constructor]|reflexivity].
Qed.
Lemma vec2_writable fp p : numbers2 fp p -> exists t, forall nm at' ch a, vec2_attr fp (Node nm ((a, t) :: at') ch) a = accept p.
Proof.
  destruct p as [x y]. intros [Hx Hy]. destruct (ext_writable _ _ Hx) as (t1 & W1 & E1). destruct (ext_writable _ _ Hy) as (t2 & W2 & E2).
  exists (join " "%char [t1; t2]). intros nm at' ch a. unfold vec2_attr. wgo.
  change 2%nat with (List.length [t1; t2]).
  rewrite (read_list_ok (read_ext fp) [t1; t2] [x; y]); [reflexivity|discriminate| | |].
  - cbn [join]. destruct W1 as [W1 _]. destruct t1; [contradiction|discriminate].
  - constructor; [apply word_no_space, W1|]. constructor; [apply word_no_space, W2|constructor].
  - constructor; [exact E1|]. constructor; [exact E2|constructor].
Qed.
Lemma vec2_skip fp nm a b t at' ch : seqb b a = false -> vec2_attr fp (Node nm ((b, t) :: at') ch) a = vec2_attr fp (Node nm at' ch) a.
Proof. intros H. unfold vec2_attr. rewrite attr_skip by exact H. reflexivity. Qed.
Ltac vec H := let t := fresh "t" in let E := fresh "E" in destruct (vec2_writable _ _ H) as (t & E).
Ltac vgo := repeat (first [wstep | rewrite vec2_skip by reflexivity |
  match goal with H : forall nm at' ch a, vec2_attr _ _ a = accept _ |- _ => rewrite H end]).
Lemma vec2_attr_fails fp w n a : fails w (vec2_attr fp n a) -> w = true /\ first_attribute n a = Some [].
Proof.
  unfold vec2_attr. intros H. fstep H; [safe|]. apply of_option_inv in Ha. fstep H.
  - apply read_list_fails in H as [-> ->]. auto.
  - destruct a1 as [|x [|y [|]]]; safe.
Qed.

Lemma ext_nonpos_iff e : ext_nonpos e = false <-> ext_pos e.
Proof.
  destruct e as [q| |]; cbn; [|split; auto|split; [discriminate|tauto]]. pose proof (qle_not q 0) as K. destruct (qle q 0); cbn [negb] in K.
  - split; [discriminate|]. intros H. apply K in H. discriminate.
  - split; [intros _; now apply K|reflexivity].
Qed.

(* ---------------------------------------------------------------- soundness *)
Lemma load_camera_rb2_inv fp n c : load_camera_rb2 fp n = Ok (Some c) -> camera_rb2_ok fp c.
Proof.
  unfold load_camera_rb2. intros H. pgo H. subst. apply vec2_attr_inv in Ha. apply scalar_attr_inv in Ha0. apply qle_not in Ha1.
  apply int_attr_inv in Ha2. unfold camera_rb2_ok, iterations. cbn. unfold int_max in Ha2. repeat split; try assumption; try apply Ha; lia.
Qed.
Lemma load_plane_rb2_inv ar n p : load_plane_rb2 ar n = Ok (Some p) -> plane_rb2_ok ar p.
Proof.
  unfold load_plane_rb2. intros H. pgo H. subst. apply vec2_attr_inv in Ha, Ha0. split; [exact Ha|]. split; [exact Ha0|]. cbn [snd].
  destruct (zero_norm ar a0); [discriminate|reflexivity].
Qed.
Lemma load_geometry2_inv fp n s : load_geometry2 fp n = Ok (Some s) -> shape2_ok fp s.
Proof.
  unfold load_geometry2. intros H. pstep H. branches H; subst; cbn [shape2_ok].
  - apply scalar_attr_inv in Ha0. apply qle_not in Ha1. auto.
  - apply vec2_attr_inv in Ha0 as [N1 N2]. rewrite negb_orb in Ha1. apply andb_prop in Ha1 as [P1 P2].
    apply negb_true_iff in P1, P2. apply ext_nonpos_iff in P1, P2. auto.
Qed.
Lemma load_body2_inv fp k n b : load_body2 fp k n = Ok (Some b) -> body2_ok fp k b.
Proof.
  unfold load_body2. intros H. repeat pstep H. apply accept_inv in H. subst b. apply guard_inv in Ha4, Ha6.
  apply vec2_attr_inv in Ha, Ha1. apply scalar_attr_inv in Ha0, Ha2, Ha3. apply qle_not in Ha4. apply int_attr_inv in Ha5.
  unfold body2_ok. cbn. unfold int_max in Ha5. repeat split; try assumption; try apply Ha; try apply Ha1; lia.
Qed.
Lemma load_integrator_rb2_inv root k t d : load_integrator_rb2 root = Ok (Some (k, t, d)) ->
  match k with None => t = lit "0" /\ d = mkRat 0 1 | Some _ => parse_rational t = Ok (Some d) /\ (0 < num d)%Z end.
Proof.
  unfold load_integrator_rb2. destruct (first_node root "integrator"); intros H; repeat pstep H; apply accept_inv in H.
  - destruct a as [t' d']. injection H as <- <- <-. eapply load_dt_inv, Ha.
  - injection H as <- <- <-. auto.
Qed.
Lemma load_staggered_rb2_none fp lcp n x : load_staggered fp lcp load_mdp_rb2 n <> Ok (Some x).
Proof. intros H. unfold load_staggered in H. repeat pstep H. discriminate Ha6. Qed.
Lemma load_sobogus_rb2_inv fp n x : load_sobogus_rb2 fp n = Ok (Some x) -> fsolver_ok fp rb2_solver_ok x.
Proof.
  unfold load_sobogus_rb2. intros H. do 7 pstep H.
  apply load_mu_inv in Ha. apply load_cor_inv in Ha0. apply load_max_iters_inv in Ha1.
  apply load_eval_every_inv in Ha2. apply load_tol_inv in Ha3.
  branches H; subst; unfold fsolver_ok, friction_coefficients, map_ok; cbn [rb2_solver_ok]; tauto.
Qed.
Lemma rb2_response_inv fp bd root r :
  load_response (load_impact_cor fp bd false) (rb2_solvers fp bd) root = Ok (Some r) -> rb2_response_ok fp bd r.
Proof.
  intros H. eapply load_response_inv with (fok := fsolver_ok fp rb2_solver_ok)
    (iok := fun x => let '(op, cor, c) := x in impact_ok fp bd false op /\ decimal fp cor /\ c <> None) in H.
  - destruct r as [|op cor c|s m mu cor]; exact H.
  - intros n [[op cor] c] K. eapply load_impact_cor_inv, K.
  - unfold rb2_solvers. constructor; [|constructor; [|constructor]]; cbn [snd]; intros n x K.
    + destruct (load_staggered_rb2_none _ _ _ _ K).
    + eapply load_sobogus_rb2_inv, K.
Qed.
Lemma pack3_flat_map {A B} (f : A -> B * B * B) l : pack3 f l = flat_map (fun b => let '(x, y, z) := f b in [x; y; z]) l.
Proof. unfold pack3. symmetry. apply flat_map_concat_map. Qed.
Lemma pack3_simple {A B} (f g h : A -> B) l : pack3 (fun b => (f b, g b, h b)) l = flat_map (fun b => [f b; g b; h b]) l.
Proof. rewrite pack3_flat_map. reflexivity. Qed.
(* the masses: every body has a shape *)
Definition body_masses (ar : arith2) (geometry : list shape2) (b : body2) : list Q :=
  match nth_error geometry (r2_geo b) with
  | Some s => let '(m, i) := shape_mass ar s (r2_rho b) in [m; m; i]
  | None => []
  end.
Lemma masses_ok ar geometry bodies : Forall (fun b => (r2_geo b < List.length geometry)%nat) bodies ->
  exists ms, omapM (body_mass ar geometry) bodies = Ok ms /\ pack3 (fun mi : Q * Q => (fst mi, fst mi, snd mi)) ms = flat_map (body_masses ar geometry) bodies.
Proof.
  induction 1 as [|b bodies Hb _ (ms & E & P)]; [exists []; split; reflexivity|].
  cbn [omapM flat_map]. unfold body_mass at 1, body_masses at 1. destruct (nth_error geometry (r2_geo b)) eqn:En; [|apply nth_error_None in En; lia].
  cbn [obind]. rewrite E. cbn [obind]. eexists. split; [reflexivity|]. rewrite <- P. unfold pack3. cbn [map concat].
  destruct (shape_mass ar s (r2_rho b)) as [m i]. reflexivity.
Qed.

Lemma load_rb2_scene_sound ar bd root sc : load_rb2_scene ar bd root = Ok (Some sc) -> rb2_scene_ok ar bd sc.
Proof.
  unfold load_rb2_scene. intros H. repeat pstep H. apply accept_inv in H. subst sc. apply lift_inv in Ha9.
  destruct a2 as [[k t] d]. destruct a6 as [rest portals]. cbn [fst snd].
  apply load_integrator_rb2_inv in Ha2.
  apply (load_portals_ok ar _ (plane_rb2_ok ar) (fun b => 0 <= b)%Q) in Ha6 as [P1 P2];
    [|intros b; apply qlt_not|eapply each_forall; [apply load_plane_rb2_inv|exact Ha5]].
  assert (Forall (body2_ok ar (List.length a7)) a8) as HB by (eapply each_forall; [apply load_body2_inv|exact Ha8]).
  constructor; cbn [r2s_end r2s_camera r2s_integrator r2s_dt_text r2s_dt r2s_response r2s_gravity r2s_planes r2s_portals r2s_geometry r2s_q r2s_v r2s_m r2s_geo r2s_fixed].
  - apply optional_inv in Ha0. destruct a0; [|exact Logic.I]. destruct Ha0 as (n & _ & E). eapply load_end_time_inv, E.
  - apply optional_inv in Ha1. destruct a1; [|exact Logic.I]. destruct Ha1 as (n & _ & E). eapply load_camera_rb2_inv, E.
  - exact Ha2.
  - eapply rb2_response_inv, Ha3.
  - eapply each_forall; [|exact Ha4]. intros n p. apply vec2_attr_inv.
  - exact P1.
  - exact P2.
  - eapply each_forall; [apply load_geometry2_inv|exact Ha7].
  - exists a8. split; [exact HB|]. rewrite !pack3_simple. split; [reflexivity|]. split; [reflexivity|]. split; [|split; reflexivity].
    destruct (masses_ok ar a7 a8) as (ms & E & P).
    { eapply Forall_impl; [|exact HB]. intros b B. apply B. }
    rewrite E in Ha9. injection Ha9 as <-. rewrite pack3_simple in P. exact P.
Qed.

(* ---------------------------------------------------------------- completeness *)
Lemma camera_rb2_w fp c : camera_rb2_ok fp c -> writable (load_camera_rb2 fp) c.
Proof.
  destruct c as [ce sc f a l]. unfold camera_rb2_ok. cbn. intros (V & D & P & I). vec V. dec D. destruct (iter_w f I) as (w & Ew).
  destruct (bool_writable a) as (u & Eu & _). destruct (bool_writable l) as (v & Ev & _). unfold iterations in I.
  exists [(lit "center", t); (lit "scale", t0); (lit "fps", w); (lit "render_at_fps", u); (lit "locked", v)], []. intros nm.
  unfold load_camera_rb2, scalar_attr, bool_attr, int_attr. vgo. wguard. vgo. wguard. vgo. reflexivity.
Qed.
Lemma plane_rb2_w ar p : plane_rb2_ok ar p -> writable (load_plane_rb2 ar) p.
Proof.
  destruct p as [x n]. intros (V1 & V2 & Z). cbn [fst snd] in *. vec V1. vec V2. exists [(lit "x", t); (lit "n", t0)], []. intros nm.
  unfold load_plane_rb2. vgo. rewrite Z. reflexivity.
Qed.
Lemma gravity_rb2_w fp g : numbers2 fp g -> writable (load_gravity_rb2 fp) g.
Proof. intros V. vec V. exists [(lit "f", t)], []. intros nm. unfold load_gravity_rb2. vgo. reflexivity. Qed.
Lemma geometry2_w fp s : shape2_ok fp s -> writable (load_geometry2 fp) s.
Proof.
  destruct s as [r|rx ry]; cbn [shape2_ok].
  - intros [D P]. dec D. exists [(lit "type", lit "circle"); (lit "r", t)], []. intros nm. unfold load_geometry2, scalar_attr. vgo. wguard. vgo. reflexivity.
  - intros (N1 & P1 & N2 & P2). assert (numbers2 fp (rx, ry)) as V by (split; assumption). vec V.
    exists [(lit "type", lit "box"); (lit "r", t)], []. intros nm. unfold load_geometry2. vgo. cbn [fst snd].
    apply ext_nonpos_iff in P1, P2. rewrite P1, P2. reflexivity.
Qed.
Lemma body2_w fp k b : body2_ok fp k b -> writable (load_body2 fp k) b.
Proof.
  destruct b as [x th v om rho g f]. unfold body2_ok. cbn [r2_x r2_theta r2_v r2_omega r2_rho r2_geo r2_fixed].
  intros (V1 & D1 & V2 & D2 & D3 & P & G & Z). vec V1. dec D1. vec V2. dec D2. dec D3.
  destruct (int_writable (Z.of_nat g)) as (w & Ew); [unfold int_min, int_max; lia|].
  destruct (bool_writable f) as (u & Eu & _).
  exists [(lit "x", t); (lit "theta", t0); (lit "v", t1); (lit "omega", t2); (lit "rho", t3); (lit "geo_idx", w); (lit "fixed", u)], []. intros nm.
  assert (forall at', load_fixed (Node nm ((lit "fixed", u) :: at') []) = accept f) as EF.
  { intros at'. unfold load_fixed, first_attribute. cbn [attrs_of find fst]. rewrite seqb_refl. cbn [option_map snd]. rewrite Eu. reflexivity. }
  assert (forall b t at', seqb b "fixed" = false -> load_fixed (Node nm ((b, t) :: at') []) = load_fixed (Node nm at' [])) as ES.
  { intros b t' at' Hb. unfold load_fixed, first_attribute. cbn [attrs_of find fst]. rewrite Hb. reflexivity. }
  unfold load_body2, scalar_attr, int_attr. vgo. wguard. vgo. rewrite guard_true by lia. vgo. rewrite !ES by reflexivity. rewrite EF. vgo.
  rewrite Nat2Z.id. reflexivity.
Qed.
Lemma sobogus_rb2_w fp e m mu cor : friction_coefficients fp mu cor -> map_ok fp cor m -> rb2_solver_ok (Sobogus e) m ->
  writable (load_sobogus_rb2 fp) (Sobogus e, m, mu, cor).
Proof.
  intros (D1 & P1 & D2 & P2) HM He. dec D1. dec D2.
  assert (exists tol k c, tolerance fp tol /\ iterations k /\ (0 < e <= k)%Z /\ (m = Geometric tol k c \/ m = Stabilized tol k)) as (tol & k & c & [D3 P3] & I & Hek & Em).
  { destruct m as [tol k c|tol k c b p|tol k]; cbn [map_ok rb2_solver_ok] in *; [exists tol, k, c; tauto|contradiction|exists tol, k, CacheNone; tauto]. }
  dec D3. destruct (iter_w _ I) as (w & Ew). unfold iterations in I.
  destruct (int_writable e) as (x & Ex); [unfold int_min, int_max; lia|].
  set (ctext := match c with CacheNone => lit "none" | CacheNormal => lit "normal" | CacheBoth => lit "normal_and_friction" end).
  set (kind := match m with Geometric _ _ _ => lit "geometric" | _ => lit "stabilized" end).
  exists [(lit "mu", t); (lit "CoR", t0); (lit "max_iters", w); (lit "eval_every", x); (lit "tol", t1);
          (lit "cache_impulses", ctext); (lit "staggering", kind)], [].
  intros nm. unfold load_sobogus_rb2, load_mu, load_cor, load_tol, load_max_iters, load_eval_every, scalar_attr, int_attr.
  wgo. wguard. wgo. rewrite guard_true by (apply cor_guard, P2). wgo. wguard. wgo. wguard. wgo. wguard. wgo. wguard. wgo.
  assert (forall nm at', load_caching (Node nm ((lit "cache_impulses", ctext) :: at') []) = accept c) as EC.
  { intros nm' at'. unfold load_caching. wgo. subst ctext. destruct c; wgo; reflexivity. }
  assert (forall nm at' ch b u, seqb b "cache_impulses" = false -> load_caching (Node nm ((b, u) :: at') ch) = load_caching (Node nm at' ch)) as ES.
  { intros. unfold load_caching. rewrite attr_skip by assumption. reflexivity. }
  rewrite !ES by reflexivity. rewrite EC. wgo. subst kind. destruct Em as [-> | ->]; wgo; reflexivity.
Qed.
Lemma response_rb2_w fp bd r : rb2_response_ok fp bd r -> exists li lb,
  named "impact_operator" li /\ named "sobogus_friction_solver" lb /\
  forall root, elements root "impact_operator" = li -> elements root "staggered_projections_friction_solver" = [] ->
    elements root "sobogus_friction_solver" = lb ->
    load_response (load_impact_cor fp bd false) (rb2_solvers fp bd) root = accept r.
Proof.
  destruct r as [|op cor c|s m mu cor]; cbn [rb2_response_ok].
  - intros _. exists [], []. do 2 (split; [constructor|]). intros root R1 R2 R3.
    unfold load_response, rb2_solvers. cbn [load_solvers]. rewrite !first_node_hd, R1, R2, R3. reflexivity.
  - intros (H1 & H2 & H3). destruct (impact_cor_w _ _ _ _ _ _ H1 H2 H3) as (at' & ch & E).
    exists [Node "impact_operator" at' ch], []. split; [repeat constructor|]. split; [constructor|]. intros root R1 R2 R3.
    unfold load_response, rb2_solvers. cbn [load_solvers]. rewrite !first_node_hd, R1, R2, R3. cbn [hd_error]. rewrite E. reflexivity.
  - intros (H1 & H2 & H3). destruct s as [wa wb l f|e|]; try contradiction.
    destruct (sobogus_rb2_w fp _ _ _ _ H1 H2 H3) as (at' & ch & E).
    exists [], [Node "sobogus_friction_solver" at' ch]. split; [constructor|]. split; [repeat constructor|].
    intros root R1 R2 R3. unfold load_response, rb2_solvers. cbn [load_solvers]. rewrite !first_node_hd, R1, R2, R3. cbn [hd_error]. rewrite E. reflexivity.
Qed.

Lemma parse_rb2_complete ar bd sc : rb2_scene_ok ar bd sc -> exists doc, parse_rb2 ar bd doc = Ok (Some sc).
Proof.
  intros [OE OC OD OR OG OP OPo OGe (bodies & OB & Eq & Ev & Em & Eg & Ef)].
  destruct sc as [cb en cam ki dtt dt re gr pl po ge q v m gi fx]. cbn in *. subst q v m gi fx.
  destruct (optional_w (load_end_time ar) "end_time" en) as (l1 & N1 & E1).
  { destruct en; [|exact Logic.I]. apply end_time_w; tauto. }
  destruct (optional_w (load_camera_rb2 ar) "camera" cam) as (l2 & N2 & E2).
  { destruct cam; [|exact Logic.I]. apply camera_rb2_w, OC. }
  set (l4 := match ki with None => [] | Some k => [Node "integrator" [(lit "dt", dtt); (lit "type", match k with Verlet => lit "verlet" | SymplecticEuler => lit "symplectic_euler" end)] []] end).
  assert (named "integrator" l4) as N4 by (subst l4; destruct ki; repeat constructor).
  destruct (response_rb2_w _ _ _ OR) as (l5 & l7 & N5 & N7 & E5).
  destruct (each_w (load_gravity_rb2 ar) "near_earth_gravity" gr) as (l8 & N8 & E8); [eapply forall_w; [|exact OG]; apply gravity_rb2_w|].
  destruct (portals_w ar (fun b => negb (qlt b 0)) (fun b => 0 <= b)%Q (plane_rb2_ok ar) pl po) as (planes & l9 & l10 & N9 & N10 & EP & E9).
  { intros b. apply qlt_not. } { exact OPo. }
  assert (Forall (plane_rb2_ok ar) planes) as OPl.
  { subst planes. apply Forall_app. split; [|exact OP]. destruct OPo as (X & _). clear -X.
    induction X as [|p po [H1 H2] _ IH]; [constructor|]. cbn [flat_map app]. constructor; [exact H1|]. constructor; [exact H2|exact IH]. }
  destruct (each_w (load_plane_rb2 ar) "static_plane" planes) as (l11 & N11 & E11); [eapply forall_w; [|exact OPl]; apply plane_rb2_w|].
  destruct (each_w (load_geometry2 ar) "geometry" ge) as (l12 & N12 & E12); [eapply forall_w; [|exact OGe]; apply geometry2_w|].
  destruct (each_w (load_body2 ar (List.length ge)) "rigid_body" bodies) as (l13 & N13 & E13); [eapply forall_w; [|exact OB]; apply body2_w|].
  set (l0 := [Node "scripting" [(lit "callback", cb)] []]).
  assert (named "scripting" l0) as N0 by (repeat constructor).
  set (root := Node "rigidbody2d_scene" [] (l0 ++ l1 ++ l2 ++ l4 ++ l5 ++ l7 ++ l8 ++ l9 ++ l10 ++ l11 ++ l12 ++ l13)).
  assert (elements root "scripting" = l0) as R0 by elems.
  assert (elements root "end_time" = l1) as R1 by elems.
  assert (elements root "camera" = l2) as R2 by elems.
  assert (elements root "integrator" = l4) as R4 by elems.
  assert (elements root "impact_operator" = l5) as R5 by elems.
  assert (elements root "staggered_projections_friction_solver" = []) as R6 by elems.
  assert (elements root "sobogus_friction_solver" = l7) as R7 by elems.
  assert (elements root "near_earth_gravity" = l8) as R8 by elems.
  assert (elements root "planar_portal" = l9) as R9 by elems.
  assert (elements root "lees_edwards_portal" = l10) as R10 by elems.
  assert (elements root "static_plane" = l11) as R11 by elems.
  assert (elements root "geometry" = l12) as R12 by elems.
  assert (elements root "rigid_body" = l13) as R13 by elems.
  exists [root].
  assert (load_rb2_scene ar bd root = accept {| r2s_callback := cb; r2s_end := en; r2s_camera := cam; r2s_integrator := ki; r2s_dt_text := dtt;
    r2s_dt := dt; r2s_response := re; r2s_gravity := gr; r2s_planes := pl; r2s_portals := po; r2s_geometry := ge;
    r2s_q := flat_map (fun b => [fst (r2_x b); snd (r2_x b); Fin (r2_theta b)]) bodies;
    r2s_v := flat_map (fun b => [fst (r2_v b); snd (r2_v b); Fin (r2_omega b)]) bodies;
    r2s_m := flat_map (body_masses ar ge) bodies; r2s_geo := map r2_geo bodies; r2s_fixed := map r2_fixed bodies |}) as K; [|exact K].
  assert (load_integrator_rb2 root = accept (ki, dtt, dt)) as EI.
  { unfold load_integrator_rb2. rewrite first_node_hd, R4. subst l4. destruct ki as [k|]; cbn [hd_error].
    - unfold load_dt, load_planar_kind. wgo. destruct OD as [OD1 OD2]. rewrite OD1, pbind_ok.
      rewrite (guard_true (positive dt)) by (unfold positive; lia). wgo. destruct k; reflexivity.
    - destruct OD as [-> ->]. reflexivity. }
  destruct (masses_ok ar ge bodies) as (ms & EM & PM).
  { eapply Forall_impl; [|exact OB]. intros b B. apply B. }
  unfold load_rb2_scene, load_scripting.
  rewrite !first_node_hd, R0, R1, R2, R8, R11, R12, R13. unfold l0. cbn [hd_error]. wgo. rewrite E1. wgo. rewrite E2. wgo. rewrite EI. wgo.
  rewrite (E5 root R5 R6 R7). wgo. rewrite E8. wgo. rewrite E11. wgo. rewrite (E9 root R9 R10). wgo. rewrite E12. wgo. rewrite E13. wgo.
  rewrite EM. wgo. cbn [fst snd]. rewrite PM, !pack3_simple. reflexivity.
Qed.

(* ---------------------------------------------------------------- the order of elements *)
Lemma load_rb2_scene_elements ar bd r1 r2 : (forall a, elements r1 a = elements r2 a) ->
  load_rb2_scene ar bd r1 = load_rb2_scene ar bd r2.
Proof.
  intros H. unfold load_rb2_scene, load_scripting, load_integrator_rb2, load_portals.
  rewrite !first_node_hd, !H, (load_response_elements r1 r2 _ _ H). reflexivity.
Qed.

(* ---------------------------------------------------------------- undefined and exiting cases *)
Lemma load_fixed_safe w n : ~ fails w (load_fixed n).
Proof. unfold load_fixed. destruct (first_attribute n "fixed"); [apply of_option_safe|apply accept_safe]. Qed.
Lemma load_sobogus_rb2_fails fp w n : fails w (load_sobogus_rb2 fp n) ->
  w = false /\ exists t, first_attribute n "cache_impulses" = Some t /\ ~ caching_word t.
Proof.
  unfold load_sobogus_rb2. intros H. do 5 (fstep H; [safe|]). fstep H.
  { apply load_caching_fails in H. exact H. }
  fstep H; [safe|]. fbranches H; safe.
Qed.
Lemma load_rb2_scene_fails ar bd w root : fails w (load_rb2_scene ar bd root) ->
  w = true /\ ((exists n t, first_node root "integrator" = Some n /\ first_attribute n "dt" = Some t /\ parse_rational t = UB) \/
     (exists e n a, In n (elements root e) /\ In a (vector_attributes e) /\ first_attribute n a = Some [])) \/
  w = false /\ ((exists n c, first_node root "staggered_projections_friction_solver" = Some n /\ first_node n "mdp_friction_solver" = Some c) \/
     exists n t, first_node root "sobogus_friction_solver" = Some n /\ first_attribute n "cache_impulses" = Some t /\ ~ caching_word t).
Proof.
  assert (forall e n a, In n (elements root e) -> In a (vector_attributes e) -> fails w (vec2_attr ar n a) ->
    w = true /\ (exists e n a, In n (elements root e) /\ In a (vector_attributes e) /\ first_attribute n a = Some [])) as V.
  { intros e n a H1 H2 H3. apply vec2_attr_fails in H3 as [-> E]. split; [reflexivity|]. exists e, n, a. auto. }
  assert (forall e n, first_node root e = Some n -> In n (elements root e)) as FE.
  { intros e n H. rewrite first_node_hd in H. destruct (elements root e) as [|x l]; [discriminate|]. injection H as ->. left. reflexivity. }
  unfold load_rb2_scene. intros H. fstep H; [safe|]. fstep H.
  { destruct (first_node root "end_time"); cbn [optional] in H; [|safe]. all_safe H. }
  fstep H.
  { destruct (first_node root "camera") as [n|] eqn:En; cbn [optional] in H; [|safe]. fstep H; [|safe]. unfold load_camera_rb2 in H.
    fstep H; [|all_safe H]. left. apply (V (lit "camera") n _ (FE _ _ En)) in H; [tauto|cbn; tauto]. }
  fstep H.
  { unfold load_integrator_rb2 in H. destruct (first_node root "integrator") as [n|] eqn:En; [|safe].
    fstep H; [|all_safe H]. apply load_dt_fails in H as (-> & t & E & U). left. split; [reflexivity|]. left. exists n, t. auto. }
  fstep H.
  { right. apply load_response_fails in H as (a' & f & n & Hin & En & H); [|apply load_impact_cor_safe].
    destruct Hin as [Hin|[Hin|[]]]; injection Hin as <- <-.
    - apply load_staggered_fails in H as [(c & _ & H)|(c & Ec & H)]; [safe|]. cbn in H. split; [exact H|]. left. exists n, c. auto.
    - apply load_sobogus_rb2_fails in H as [-> (t & Et & Ht)]. split; [reflexivity|]. right. exists n, t. auto. }
  fstep H.
  { apply each_fails in H as (n & Hn & H). left. apply (V (lit "near_earth_gravity") n _ Hn) in H; [tauto|cbn; tauto]. }
  fstep H.
  { apply each_fails in H as (n & Hn & H). left. unfold load_plane_rb2 in H. fstep H; [|fstep H; [|all_safe H]];
      (apply (V (lit "static_plane") n _ Hn) in H; [tauto|cbn; tauto]). }
  fstep H; [destruct (load_portals_safe _ _ _ _ _ H)|].
  fstep H.
  { apply each_fails in H as (n & Hn & H). left. unfold load_geometry2 in H. fstep H; [safe|]. fbranches H; [all_safe H| |safe].
    fstep H; [|all_safe H]. apply (V (lit "geometry") n _ Hn) in H; [tauto|cbn; tauto]. }
  fstep H.
  { apply each_fails in H as (n & Hn & H). left. unfold load_body2 in H.
    fstep H; [apply (V (lit "rigid_body") n _ Hn) in H; [tauto|cbn; tauto]|]. fstep H; [safe|].
    fstep H; [apply (V (lit "rigid_body") n _ Hn) in H; [tauto|cbn; tauto]|]. do 5 (fstep H; [safe|]).
    fstep H; [destruct (load_fixed_safe _ _ H)|safe]. }
  exfalso. assert (Forall (fun b => (r2_geo b < List.length a7)%nat) a8) as HB.
  { eapply each_forall; [|exact Ha8]. intros n b K. apply load_body2_inv in K. apply K. }
  destruct (masses_ok ar a7 a8 HB) as (ms & E & _). rewrite E in H. fstep H; safe.
Qed.

(* ---------------------------------------------------------------- what the file says *)
Lemma load_portals_says {P} fp bok root (planes rest : list P) portals :
  load_portals fp bok root planes = Ok (Some (rest, portals)) -> exists links,
    Forall2 (fun nd l => names nd "planeA" (fst l) /\ names nd "planeB" (snd l))
      (elements root "planar_portal" ++ elements root "lees_edwards_portal") links /\
    NoDup (flat_map (fun l => [fst l; snd l]) links) /\
    Forall2 (fun l p => nth_error planes (fst l) = Some (fst (fst p)) /\ nth_error planes (snd l) = Some (snd (fst p))) links portals /\
    rest = State_Spec.without (flat_map (fun l => [fst l; snd l]) links) planes.
Proof.
  intros H. apply load_portals_inv in H as (l1 & l2 & E1 & E2 & [_ N K R] & _ & _).
  exists (map fst (l1 ++ l2)). split; [|split; [|split]].
  - apply load_links_forall2 in E1, E2. rewrite map_app.
    assert (forall (R : node -> nat * nat * (Q * Q) -> Prop) l r, (forall n x, R n x -> plane_index (List.length planes) n "planeA" = Ok (Some (fst (fst x))) /\
       plane_index (List.length planes) n "planeB" = Ok (Some (snd (fst x)))) -> Forall2 R l r ->
       Forall2 (fun nd l => names nd "planeA" (fst l) /\ names nd "planeB" (snd l)) l (map fst r)) as G.
    { intros R' l r HR X. induction X as [|n x l r X1 _ IH]; [constructor|]. cbn [map]. constructor; [|exact IH].
      apply HR in X1 as [X1 X2]. split; eapply plane_index_names; eassumption. }
    apply Forall2_app; eapply G; try eassumption; cbv beta; tauto.
  - unfold flat in N. rewrite <- flat_map_concat_map in N. exact N.
  - clear -K. induction K as [|l p ls ps (X1 & X2 & _) _ IH]; [constructor|]. cbn [map]. constructor; auto.
  - rewrite R. unfold flat. rewrite <- flat_map_concat_map. reflexivity.
Qed.
Lemma nth_flat_map3 {A B} (f g h : A -> B) l : forall i,
  nth_error (flat_map (fun b => [f b; g b; h b]) l) (3 * i) = option_map f (nth_error l i) /\
  nth_error (flat_map (fun b => [f b; g b; h b]) l) (3 * i + 1) = option_map g (nth_error l i) /\
  nth_error (flat_map (fun b => [f b; g b; h b]) l) (3 * i + 2) = option_map h (nth_error l i).
Proof.
  induction l as [|b l IH]; intros i; cbn [flat_map app].
  - assert (forall n, nth_error (@nil B) n = None) as X by (intros []; reflexivity). rewrite !X. destruct i; auto.
  - destruct i as [|i]; [repeat split; reflexivity|].
    replace (3 * S i)%nat with (S (S (S (3 * i)))) by lia. cbn [nth_error plus]. apply IH.
Qed.
Lemma flat_map_length3 {A B} (f g h : A -> B) l : List.length (flat_map (fun p => [f p; g p; h p]) l) = (3 * List.length l)%nat.
Proof. induction l as [|x l IH]; [reflexivity|]. cbn [flat_map app List.length]. rewrite IH. lia. Qed.
Lemma scalar_attr_text fp n a x : scalar_attr fp n a = Ok (Some x) -> scalar_text fp n a x.
Proof. unfold scalar_attr. intros H. pstep H. apply of_option_inv in Ha, H. exists a0. auto. Qed.
