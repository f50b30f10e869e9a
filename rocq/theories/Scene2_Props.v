(* C61: what the 2D rigid body scene parser accepts, and what a loaded scene holds. *)
From Coq Require Import ZArith NArith QArith Bool Ascii String List Lia.
From Verif Require Import Outcome Str_Model Str_Spec Rational_Model RatParse_Model Scene_Text Scene_Model Scene_Spec Scene_TextProofs Scene_Proofs Scene_Write Scene_Thms Scene2_Model Scene2_Spec Scene2_Proofs.
From Verif Require State_Spec State_Proofs.
Import ListNotations.
Open Scope string_scope.
Open Scope list_scope.

(* C61. The scenes that can come out of the parser are exactly the ones whose settings are in range. *)
Theorem C61_accepted_scenes : forall ar bd sc,
  (exists doc, parse_rb2 ar bd doc = Ok (Some sc)) <-> rb2_scene_ok ar bd sc.
Proof.
  intros ar bd sc. split; [|apply parse_rb2_complete]. intros (doc & H). unfold parse_rb2 in H. pstep H.
  eapply load_rb2_scene_sound, H.
Qed.
Print Assumptions C61_accepted_scenes.

(* C61. The i-th rigid_body element fills entries 3i to 3i+2 of positions, velocities and masses and entry i of
   the geometry indices and fixed flags; its masses are those of the geometry it names, at its density; nothing
   else is in them. *)
Theorem C61_bodies : forall ar bd doc sc, parse_rb2 ar bd doc = Ok (Some sc) ->
  exists root, first_in doc "rigidbody2d_scene" = Some root /\
  let n := List.length (elements root "rigid_body") in
  List.length (r2s_q sc) = (3 * n)%nat /\ List.length (r2s_v sc) = (3 * n)%nat /\ List.length (r2s_m sc) = (3 * n)%nat /\
  List.length (r2s_geo sc) = n /\ List.length (r2s_fixed sc) = n /\
  forall i nd, nth_error (elements root "rigid_body") i = Some nd ->
    exists x th v om rho g geo f,
      vec2_text ar nd "x" x /\ scalar_text ar nd "theta" th /\ vec2_text ar nd "v" v /\ scalar_text ar nd "omega" om /\
      scalar_text ar nd "rho" rho /\
      (exists t, first_attribute nd "geo_idx" = Some t /\ checked (read_int t) = Some (Z.of_nat g)) /\
      match first_attribute nd "fixed" with None => f = false | Some t => checked (read_bool t) = Some f end /\
      nth_error (r2s_q sc) (3 * i) = Some (fst x) /\ nth_error (r2s_q sc) (3 * i + 1) = Some (snd x) /\
      nth_error (r2s_q sc) (3 * i + 2) = Some (Fin th) /\
      nth_error (r2s_v sc) (3 * i) = Some (fst v) /\ nth_error (r2s_v sc) (3 * i + 1) = Some (snd v) /\
      nth_error (r2s_v sc) (3 * i + 2) = Some (Fin om) /\
      nth_error (r2s_geo sc) i = Some g /\ nth_error (r2s_fixed sc) i = Some f /\
      nth_error (r2s_geometry sc) g = Some geo /\
      nth_error (r2s_m sc) (3 * i) = Some (fst (shape_mass ar geo rho)) /\
      nth_error (r2s_m sc) (3 * i + 1) = Some (fst (shape_mass ar geo rho)) /\
      nth_error (r2s_m sc) (3 * i + 2) = Some (snd (shape_mass ar geo rho)).
Proof.
  intros ar bd doc sc H. unfold parse_rb2 in H. pstep H. apply of_option_inv in Ha. exists a. split; [exact Ha|]. clear Ha.
  unfold load_rb2_scene in H. repeat pstep H. apply accept_inv in H. subst sc. cbn [r2s_q r2s_v r2s_m r2s_geo r2s_fixed r2s_geometry].
  apply each_inv in Ha8. apply lift_inv in Ha9. apply omapM_iff in Ha9. rewrite !pack3_simple.
  pose proof (Forall2_len _ _ _ Ha8) as L. pose proof (Forall2_len _ _ _ Ha9) as L'. cbv zeta. rewrite !flat_map_length3, !map_length, <- L', <- L.
  do 5 (split; [reflexivity|]). intros i nd Hi. destruct (forall2_nth _ _ _ Ha8 _ _ Hi) as (b & Hb & E).
  destruct (forall2_nth _ _ _ Ha9 _ _ Hb) as ([m0 i0] & Hm & M).
  pose proof (nth_flat_map3 (fun b => fst (r2_x b)) (fun b => snd (r2_x b)) (fun b => Fin (r2_theta b)) a9 i) as (Q1 & Q2 & Q3).
  pose proof (nth_flat_map3 (fun b => fst (r2_v b)) (fun b => snd (r2_v b)) (fun b => Fin (r2_omega b)) a9 i) as (V1 & V2 & V3).
  pose proof (nth_flat_map3 (fun m : Q * Q => fst m) (fun m => fst m) (fun m => snd m) a10 i) as (M1 & M2 & M3).
  rewrite Hb in *. rewrite Hm in *. cbn [option_map] in *. unfold body_mass in M. destruct (nth_error a8 (r2_geo b)) as [geo|] eqn:EG; [|discriminate].
  injection M as M. exists (r2_x b), (r2_theta b), (r2_v b), (r2_omega b), (r2_rho b), (r2_geo b), geo, (r2_fixed b).
  rewrite !nth_error_map, Hb, M.
  unfold load_body2 in E. repeat pstep E. apply accept_inv in E. subst b. cbn [r2_x r2_theta r2_v r2_omega r2_rho r2_geo r2_fixed] in *.
  repeat match goal with G : guard _ = Ok (Some _) |- _ => apply guard_inv in G end.
  match goal with G : int_attr nd _ = Ok (Some ?g) |- _ => rename G into HG; set (gz := g) in * end.
  match goal with G : load_fixed nd = _ |- _ => rename G into HF end.
  assert (exists t, first_attribute nd "geo_idx" = Some t /\ checked (read_int t) = Some (Z.of_nat (Z.to_nat gz))) as GI.
  { unfold int_attr in HG. apply pbind_inv in HG as (t & Et & HG). apply of_option_inv in Et, HG. exists t. split; [exact Et|]. rewrite HG. f_equal. lia. }
  split; [apply vec2_attr_text; assumption|]. split; [apply scalar_attr_text; assumption|]. split; [apply vec2_attr_text; assumption|].
  split; [apply scalar_attr_text; assumption|]. split; [apply scalar_attr_text; assumption|]. split; [exact GI|]. split.
  { unfold load_fixed in HF. destruct (first_attribute nd "fixed"); [apply of_option_inv in HF; exact HF|apply accept_inv in HF; congruence]. }
  repeat split; try assumption; try reflexivity.
Qed.
Print Assumptions C61_bodies.

(* C61. The k-th geometry element, gravity element and plane element describe the k-th geometry, force and plane;
   the k-th portal joins the two planes its element names, no plane belongs to two portals, and the planes no
   portal names stay, in file order. *)
Definition geometry_text (ar : arith2) (nd : node) (s : shape2) : Prop :=
  match s with
  | Circle r => first_attribute nd "type" = Some (lit "circle") /\ scalar_text ar nd "r" r
  | Box rx ry => first_attribute nd "type" = Some (lit "box") /\ vec2_text ar nd "r" (rx, ry)
  end.
Theorem C61_planes_and_portals : forall ar bd doc sc, parse_rb2 ar bd doc = Ok (Some sc) ->
  exists root planes links, first_in doc "rigidbody2d_scene" = Some root /\
    Forall2 (geometry_text ar) (elements root "geometry") (r2s_geometry sc) /\
    Forall2 (fun nd f => vec2_text ar nd "f" f) (elements root "near_earth_gravity") (r2s_gravity sc) /\
    Forall2 (fun nd p => vec2_text ar nd "x" (fst p) /\ vec2_text ar nd "n" (snd p)) (elements root "static_plane") planes /\
    Forall2 (fun nd l => names nd "planeA" (fst l) /\ names nd "planeB" (snd l))
      (elements root "planar_portal" ++ elements root "lees_edwards_portal") links /\
    NoDup (flat_map (fun l => [fst l; snd l]) links) /\
    Forall2 (fun l p => nth_error planes (fst l) = Some (fst (fst p)) /\ nth_error planes (snd l) = Some (snd (fst p)))
      links (r2s_portals sc) /\
    r2s_planes sc = State_Spec.without (flat_map (fun l => [fst l; snd l]) links) planes.
Proof.
  intros ar bd doc sc H. unfold parse_rb2 in H. pstep H. apply of_option_inv in Ha. exists a. rename Ha into HR.
  unfold load_rb2_scene in H. repeat pstep H. apply accept_inv in H. subst sc. cbn [r2s_planes r2s_portals r2s_geometry r2s_gravity].
  destruct a7 as [rest portals]. apply load_portals_says in Ha6 as (links & K1 & K2 & K3 & K4). cbn [fst snd].
  exists a6, links. apply each_inv in Ha4, Ha5, Ha7. split; [exact HR|]. split; [|split; [|split; [|auto]]].
  - eapply State_Proofs.forall2_impl; [|exact Ha7]. intros nd s X. cbv beta in X. unfold load_geometry2 in X. apply pbind_inv in X as (ty & HT & X). apply of_option_inv in HT.
    destruct (seqb ty "circle") eqn:B1; [|destruct (seqb ty "box") eqn:B2; [|discriminate]].
    + apply seqb_true in B1. subst ty. apply pbind_inv in X as (r & Hr & X). pstep X. apply accept_inv in X. subst s. split; [exact HT|]. apply scalar_attr_text; assumption.
    + apply seqb_true in B2. subst ty. apply pbind_inv in X as (r & Hr & X). pstep X. apply accept_inv in X. subst s. split; [exact HT|]. apply vec2_attr_text in Hr. destruct r; exact Hr.
  - eapply State_Proofs.forall2_impl; [|exact Ha4]. intros nd s X. apply vec2_attr_text, X.
  - eapply State_Proofs.forall2_impl; [|exact Ha5]. intros nd p X. cbv beta in X. unfold load_plane_rb2 in X. repeat pstep X. apply accept_inv in X. subst p.
    split; apply vec2_attr_text; assumption.
Qed.
Print Assumptions C61_planes_and_portals.

(* C61. Time step, integrator, end time and script name are the ones in the file. *)
Theorem C61_settings : forall ar bd doc sc, parse_rb2 ar bd doc = Ok (Some sc) ->
  exists root, first_in doc "rigidbody2d_scene" = Some root /\
  r2s_callback sc = match first_node root "scripting" with None => [] | Some n => match first_attribute n "callback" with Some t => t | None => [] end end /\
  (forall k, r2s_integrator sc = Some k -> exists n, first_node root "integrator" = Some n /\ first_attribute n "dt" = Some (r2s_dt_text sc) /\
     first_attribute n "type" = Some (match k with Verlet => lit "verlet" | SymplecticEuler => lit "symplectic_euler" end)) /\
  (r2s_integrator sc = None <-> first_node root "integrator" = None) /\
  (r2s_end sc = None <-> first_node root "end_time" = None) /\
  (forall t, r2s_end sc = Some t -> exists n, first_node root "end_time" = Some n /\ scalar_text ar n "t" t).
Proof.
  intros ar bd doc sc H. unfold parse_rb2 in H. pstep H. apply of_option_inv in Ha. exists a. split; [exact Ha|]. clear Ha.
  unfold load_rb2_scene in H. repeat pstep H. apply accept_inv in H. subst sc. cbn [r2s_callback r2s_end r2s_dt_text r2s_integrator].
  split; [|split; [|split; [|split]]].
  - unfold load_scripting in Ha. destruct (first_node a "scripting"); [|apply accept_inv in Ha; congruence].
    unfold attr in Ha. apply of_option_inv in Ha. rewrite Ha. reflexivity.
  - intros k Ek. unfold load_integrator_rb2 in Ha2. destruct (first_node a "integrator") as [n|]; [|apply accept_inv in Ha2; subst a3; discriminate].
    apply pbind_inv in Ha2 as (td & HD & Ha2). apply pbind_inv in Ha2 as (kk & HK & Ha2). apply accept_inv in Ha2. subst a3. cbn [fst snd] in *. injection Ek as <-. exists n. split; [reflexivity|].
    unfold load_dt in HD. apply pbind_inv in HD as (t & HT & HD). repeat pstep HD. apply accept_inv in HD. subst td. cbn [fst]. split; [apply of_option_inv; assumption|].
    unfold load_planar_kind in HK. apply pbind_inv in HK as (ty & HY & HK). apply of_option_inv in HY. rewrite HY.
    destruct (seqb ty "verlet") eqn:B; [apply accept_inv in HK; subst; apply seqb_true in B; congruence|].
    destruct (seqb ty "symplectic_euler") eqn:B'; [apply accept_inv in HK; subst; apply seqb_true in B'; congruence|discriminate].
  - unfold load_integrator_rb2 in Ha2. destruct (first_node a "integrator") as [n|]; repeat pstep Ha2; apply accept_inv in Ha2; subst a3; cbn [fst]; split; congruence.
  - apply optional_inv in Ha0. destruct a1 as [t|]; [|tauto]. destruct Ha0 as (n & -> & _). split; discriminate.
  - intros t ->. apply optional_inv in Ha0 as (n & E & L). exists n. split; [exact E|]. unfold load_end_time in L. repeat pstep L. apply accept_inv in L. subst.
    apply scalar_attr_text. assumption.
Qed.
Print Assumptions C61_settings.

(* C61. How elements of different kinds are mixed in the file does not matter. *)
Theorem C61_element_order : forall ar bd at1 at2 ch1 ch2,
  (forall a, filter (fun c => seqb (name_of c) a) ch1 = filter (fun c => seqb (name_of c) a) ch2) ->
  parse_rb2 ar bd [Node "rigidbody2d_scene" at1 ch1] = parse_rb2 ar bd [Node "rigidbody2d_scene" at2 ch2].
Proof.
  intros ar bd at1 at2 ch1 ch2 H.
  exact (load_rb2_scene_elements ar bd (Node "rigidbody2d_scene" at1 ch1) (Node "rigidbody2d_scene" at2 ch2) H).
Qed.
Print Assumptions C61_element_order.

(* C61. Loading is undefined only when the time step overflows 64 bit arithmetic or the text of a vector is
   empty; the process is ended only by a staggered projections solver or a caching option. *)
Theorem C61_undefined_only : forall ar bd doc, parse_rb2 ar bd doc = UB ->
  exists root, first_in doc "rigidbody2d_scene" = Some root /\
  ((exists n t, first_node root "integrator" = Some n /\ first_attribute n "dt" = Some t /\ parse_rational t = UB) \/
   (exists e n a, In n (elements root e) /\ In a (vector_attributes e) /\ first_attribute n a = Some [])).
Proof.
  intros ar bd doc H. assert (fails true (parse_rb2 ar bd doc)) as F by (rewrite H; reflexivity). unfold parse_rb2 in F.
  apply pbind_fails in F as [F|(root & E & F)]; [destruct F|]. exists root. split; [apply of_option_inv, E|].
  apply load_rb2_scene_fails in F as [[_ F]|[F _]]; [exact F|discriminate].
Qed.
Print Assumptions C61_undefined_only.
Theorem C61_exit_only : forall ar bd doc, parse_rb2 ar bd doc = Exit ->
  exists root, first_in doc "rigidbody2d_scene" = Some root /\
  ((exists n c, first_node root "staggered_projections_friction_solver" = Some n /\ first_node n "mdp_friction_solver" = Some c) \/
   exists n t, first_node root "sobogus_friction_solver" = Some n /\ first_attribute n "cache_impulses" = Some t /\ ~ caching_word t).
Proof.
  intros ar bd doc H. assert (fails false (parse_rb2 ar bd doc)) as F by (rewrite H; reflexivity). unfold parse_rb2 in F.
  apply pbind_fails in F as [F|(root & E & F)]; [destruct F|].
  apply load_rb2_scene_fails in F as [[F _]|[_ F]]; [discriminate|]. exists root. split; [apply of_option_inv, E|exact F].
Qed.
Print Assumptions C61_exit_only.

(* ---------------------------------------------------------------- violations *)
(* C61 violated: the documented staggered projections solver can never be loaded: no file with one gives a scene. *)
Theorem C61_staggered_refuted : forall ar bd doc sc root n,
  first_in doc "rigidbody2d_scene" = Some root -> first_node root "staggered_projections_friction_solver" = Some n ->
  parse_rb2 ar bd doc <> Ok (Some sc).
Proof.
  intros ar bd doc sc root n HR HN H. unfold parse_rb2 in H. rewrite HR in H. unfold of_option in H. rewrite pbind_ok in H.
  unfold load_rb2_scene in H. repeat pstep H. clear -Ha3 HN. unfold load_response, rb2_solvers in Ha3.
  destruct (first_node root "impact_operator").
  - pstep Ha3. destruct a as [[op cor] c]. cbn [load_solvers] in Ha3. rewrite HN in Ha3. discriminate.
  - cbn [load_solvers] in Ha3. rewrite HN in Ha3. pstep Ha3. eapply load_staggered_rb2_none, Ha.
Qed.
Print Assumptions C61_staggered_refuted.

Definition exact2 : arith2 := mkArith2 (mkFp (fun q => Some q) 1000)
  (fun n => match n with (Fin x, Fin y) => (Qeq_bool x 0 && Qeq_bool y 0)%bool | _ => false end)
  (fun s rho => match s with Box (Fin x) (Fin y) => (rho * 4 * x * y, rho * 4 * x * y * (x * x + y * y) / 3)%Q | _ => (rho, rho)%Q end).
Definition libs : build := mkBuild true true.
Definition at_ (a t : string) : str * str := (lit a, lit t).
Definition el (a : string) (at' : list (str * str)) : node := Node (lit a) at' [].
Definition scene_of (l : list node) : list node := [Node (lit "rigidbody2d_scene") [] l].
Definition a_body (x : string) : node :=
  el "rigid_body" [at_ "x" x; at_ "theta" "0.5"; at_ "v" "0 -1"; at_ "omega" "2"; at_ "rho" "3"; at_ "geo_idx" "0"].
Definition a_box : node := el "geometry" [at_ "type" "box"; at_ "r" "1 2"].

(* C61 violated: a scene without an integrator is accepted; it has no map and a time step of 0. *)
Theorem C61_no_integrator_refuted : exists sc,
  parse_rb2 exact2 libs (scene_of [a_box; a_body "0 0"]) = Ok (Some sc) /\ r2s_integrator sc = None /\ r2s_dt sc = mkRat 0 1.
Proof. eexists. vm_compute. repeat split. Qed.
Print Assumptions C61_no_integrator_refuted.
(* C61 violated: bodies at infinity and boxes of infinite size are accepted. *)
Theorem C61_infinite_refuted : exists sc,
  parse_rb2 exact2 libs (scene_of [el "geometry" [at_ "type" "box"; at_ "r" "inf 1"]; a_body "inf -inf"]) = Ok (Some sc) /\
  r2s_q sc = [PInf; NInf; Fin (1 # 2)] /\ r2s_geometry sc = [Box PInf (Fin 1)].
Proof. eexists. vm_compute. repeat split. Qed.
Print Assumptions C61_infinite_refuted.
(* C61 violated: an empty vector attribute is undefined behavior, two spaces between the components are an error. *)
Theorem C61_empty_vector_refuted :
  parse_rb2 exact2 libs (scene_of [a_box; a_body ""]) = UB /\ parse_rb2 exact2 libs (scene_of [a_box; a_body "1  2"]) = Ok None.
Proof. vm_compute. split; reflexivity. Qed.
Print Assumptions C61_empty_vector_refuted.

(* ---------------------------------------------------------------- the hypotheses are met *)
Example scene2_example : parse_rb2 exact2 libs (scene_of
  [a_box; el "static_plane" [at_ "x" "0 0"; at_ "n" "0 1"]; a_body "1.5 -2"; el "static_plane" [at_ "x" "-1 0"; at_ "n" "1 0"];
   el "static_plane" [at_ "x" "1 0"; at_ "n" "-1 0"]; el "lees_edwards_portal" [at_ "planeA" "1"; at_ "planeB" "2"; at_ "v" "0.5"; at_ "bounds" "0"];
   el "integrator" [at_ "type" "symplectic_euler"; at_ "dt" "0.01"]; el "near_earth_gravity" [at_ "f" "0 -9.81"];
   el "sobogus_friction_solver" [at_ "mu" "0.5"; at_ "CoR" "0"; at_ "max_iters" "1000"; at_ "eval_every" "50"; at_ "tol" "1.0e-8";
     at_ "cache_impulses" "normal"; at_ "staggering" "geometric"]]) = Ok (Some {|
  r2s_callback := []; r2s_end := None; r2s_camera := None; r2s_integrator := Some SymplecticEuler; r2s_dt_text := lit "0.01"; r2s_dt := mkRat 1 100;
  r2s_response := Friction (Sobogus 50) (Geometric (1 # 100000000) 1000 CacheNormal) (1 # 2) 0;
  r2s_gravity := [(Fin 0, Fin (-981 # 100))]; r2s_planes := [((Fin 0, Fin 0), (Fin 0, Fin 1))];
  r2s_portals := [(((Fin (-1 # 1), Fin 0), (Fin 1, Fin 0)), ((Fin 1, Fin 0), (Fin (-1 # 1), Fin 0)), (1 # 2, 0))];
  r2s_geometry := [Box (Fin 1) (Fin 2)]; r2s_q := [Fin (3 # 2); Fin (-2 # 1); Fin (1 # 2)]; r2s_v := [Fin 0; Fin (-1 # 1); Fin 2];
  r2s_m := [24; 24; 120 # 3]; r2s_geo := [0%nat]; r2s_fixed := [false] |}%Q).
Proof. vm_compute. reflexivity. Qed.
Example staggered2_example : parse_rb2 exact2 libs (scene_of [Node (lit "staggered_projections_friction_solver")
  [at_ "mu" "0.5"; at_ "CoR" "0"; at_ "internal_warm_start_alpha" "1"; at_ "internal_warm_start_beta" "1"]
  [el "lcp_impact_solver" [at_ "name" "ql"; at_ "tol" "1e-12"]; el "mdp_friction_solver" [at_ "name" "ql"; at_ "tol" "1e-12"]]]) = Exit.
Proof. vm_compute. reflexivity. Qed.
Example geo_idx_example : parse_rb2 exact2 libs (scene_of [a_box; el "rigid_body" [at_ "x" "0 0"; at_ "theta" "0"; at_ "v" "0 0"; at_ "omega" "0"; at_ "rho" "1"; at_ "geo_idx" "1"]]) = Ok None.
Proof. vm_compute. reflexivity. Qed.
