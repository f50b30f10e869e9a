(* C60: what the 2D ball scene parser accepts, and what a loaded scene holds. *)
From Coq Require Import ZArith NArith QArith Bool Ascii String List Lia.
From Verif Require Import Outcome Str_Model Str_Spec Rational_Model RatParse_Model Scene_Text Scene_Model Scene_Spec Scene_TextProofs Scene_Proofs Scene_Write Scene_Thms.
From Verif Require State_Spec.
Import ListNotations.
Open Scope string_scope.
Open Scope list_scope.

(* C60. The scenes that can come out of the parser are exactly the ones whose settings are in range. *)
Theorem C60_accepted_scenes : forall fp bd sc,
  (exists doc, parse_ball fp bd doc = Ok (Some sc)) <-> ball_scene_ok fp bd sc.
Proof. intros fp bd sc. split; [intros (doc & H); eapply parse_ball_sound, H|apply parse_ball_complete]. Qed.
Print Assumptions C60_accepted_scenes.

(* C60. The i-th ball element fills entries 2i and 2i+1 of positions, velocities and masses, and entry i of
   radii and fixed flags; nothing else is in them. *)
Theorem C60_balls : forall fp bd doc sc, parse_ball fp bd doc = Ok (Some sc) ->
  exists root, first_in doc "ball2d_scene" = Some root /\
  let n := List.length (elements root "ball") in
  List.length (bs_q sc) = (2 * n)%nat /\ List.length (bs_v sc) = (2 * n)%nat /\ List.length (bs_m sc) = (2 * n)%nat /\
  List.length (bs_r sc) = n /\ List.length (bs_fixed sc) = n /\
  forall i nd, nth_error (elements root "ball") i = Some nd ->
    holds fp nd "x" (bs_q sc) (2 * i) /\ holds fp nd "y" (bs_q sc) (2 * i + 1) /\
    holds fp nd "vx" (bs_v sc) (2 * i) /\ holds fp nd "vy" (bs_v sc) (2 * i + 1) /\
    holds fp nd "m" (bs_m sc) (2 * i) /\ holds fp nd "m" (bs_m sc) (2 * i + 1) /\
    holds fp nd "r" (bs_r sc) i /\
    exists t b, first_attribute nd "fixed" = Some t /\ unchecked (read_bool t) = Ok b /\ nth_error (bs_fixed sc) i = Some b.
Proof.
  intros fp bd doc sc H. unfold parse_ball in H. pstep H. apply of_option_inv in Ha. exists a. split; [exact Ha|].
  exact (load_ball_scene_balls _ _ _ _ H).
Qed.
Print Assumptions C60_balls.

(* C60. The k-th portal joins the two planes its element names, no plane belongs to two portals, and the planes
   no portal names stay, in file order. *)
Theorem C60_planes_and_portals : forall fp bd doc sc, parse_ball fp bd doc = Ok (Some sc) ->
  exists root planes links, first_in doc "ball2d_scene" = Some root /\
    Forall2 (fun nd p => pair_text fp nd "x" (fst p) /\ pair_text fp nd "n" (snd p)) (elements root "static_plane") planes /\
    Forall2 (fun nd l => names nd "planeA" (fst l) /\ names nd "planeB" (snd l))
      (elements root "planar_portal" ++ elements root "lees_edwards_portal") links /\
    NoDup (flat_map (fun l => [fst l; snd l]) links) /\
    Forall2 (fun l p => nth_error planes (fst l) = Some (fst (fst p)) /\ nth_error planes (snd l) = Some (snd (fst p)))
      links (bs_portals sc) /\
    bs_planes sc = State_Spec.without (flat_map (fun l => [fst l; snd l]) links) planes.
Proof.
  intros fp bd doc sc H. unfold parse_ball in H. pstep H. apply of_option_inv in Ha.
  destruct (load_ball_scene_planes _ _ _ _ H) as (planes & links & K). exists a, planes, links. split; [exact Ha|exact K].
Qed.
Print Assumptions C60_planes_and_portals.

(* C60. Time step, integrator, end time and script name are the ones in the file. *)
Theorem C60_settings : forall fp bd doc sc, parse_ball fp bd doc = Ok (Some sc) ->
  exists root, first_in doc "ball2d_scene" = Some root /\
  bs_callback sc = match first_node root "scripting" with None => [] | Some n => match first_attribute n "callback" with Some t => t | None => [] end end /\
  (exists n, first_node root "integrator" = Some n /\ first_attribute n "dt" = Some (bs_dt_text sc) /\
     first_attribute n "type" = Some (match bs_integrator sc with Verlet => lit "verlet" | SymplecticEuler => lit "symplectic_euler" end)) /\
  (bs_end sc = None <-> first_node root "end_time" = None) /\
  (forall t, bs_end sc = Some t -> exists n u, first_node root "end_time" = Some n /\ first_attribute n "t" = Some u /\ checked (read_scalar fp u) = Some t).
Proof.
  intros fp bd doc sc H. unfold parse_ball in H. pstep H. apply of_option_inv in Ha. exists a. split; [exact Ha|].
  exact (load_ball_scene_settings _ _ _ _ H).
Qed.
Print Assumptions C60_settings.

(* C60. How elements of different kinds are mixed in the file does not matter. *)
Theorem C60_element_order : forall fp bd at1 at2 ch1 ch2,
  (forall a, filter (fun c => seqb (name_of c) a) ch1 = filter (fun c => seqb (name_of c) a) ch2) ->
  parse_ball fp bd [Node "ball2d_scene" at1 ch1] = parse_ball fp bd [Node "ball2d_scene" at2 ch2].
Proof.
  intros fp bd at1 at2 ch1 ch2 H.
  exact (load_ball_scene_elements fp bd (Node "ball2d_scene" at1 ch1) (Node "ball2d_scene" at2 ch2) H).
Qed.
Print Assumptions C60_element_order.

(* C60. Loading the camera too does not change the scene. *)
Theorem C60_camera : forall fp bd doc cam sc, parse_ball_camera fp bd doc = Ok (Some (cam, sc)) -> parse_ball fp bd doc = Ok (Some sc).
Proof.
  intros fp bd doc cam sc. unfold parse_ball_camera, parse_ball. intros H. repeat pstep H. apply accept_inv in H. injection H as -> ->.
  rewrite Ha. exact Ha1.
Qed.
Print Assumptions C60_camera.

(* C60. Loading is undefined only when the time step overflows 64 bit arithmetic or one of the attributes read
   without a check is blank; the process is ended only by a caching option of the So-bogus solver. *)
Theorem C60_undefined_only : forall fp bd doc, parse_ball fp bd doc = UB ->
  exists root, first_in doc "ball2d_scene" = Some root /\
  ((exists n t, first_node root "integrator" = Some n /\ first_attribute n "dt" = Some t /\ parse_rational t = UB) \/
   (exists e n a t, In n (elements root e) /\ In a (loose_attributes e) /\ first_attribute n a = Some t /\ blank t)).
Proof.
  intros fp bd doc H. assert (fails true (parse_ball fp bd doc)) as F by (rewrite H; reflexivity). unfold parse_ball in F.
  apply pbind_fails in F as [F|(root & E & F)]; [destruct F|]. exists root. split; [apply of_option_inv, E|].
  apply load_ball_scene_fails in F as [[_ F]|[F _]]; [exact F|discriminate].
Qed.
Print Assumptions C60_undefined_only.
Theorem C60_exit_only : forall fp bd doc, parse_ball fp bd doc = Exit ->
  exists root n, first_in doc "ball2d_scene" = Some root /\ first_node root "sobogus_friction_solver" = Some n /\ bad_caching n.
Proof.
  intros fp bd doc H. assert (fails false (parse_ball fp bd doc)) as F by (rewrite H; reflexivity). unfold parse_ball in F.
  apply pbind_fails in F as [F|(root & E & F)]; [destruct F|].
  apply load_ball_scene_fails in F as [[F _]|[_ (n & En & B)]]; [discriminate|]. exists root, n. split; [apply of_option_inv, E|auto].
Qed.
Print Assumptions C60_exit_only.

(* C60. A number in the usual notation is read as the scalar its decimal value rounds to, whatever follows. *)
Theorem C60_numbers : forall fp ws sg D F e rest,
  blank ws -> all_digits D -> all_digits (fraction_digits F) -> D ++ fraction_digits F <> [] -> exp_ok e -> stops F e rest ->
  read_scalar fp (ws ++ sign_str sg ++ D ++ fraction_text F ++ exp_text e ++ rest) =
  match rnd fp (decimal_value (sign_app sg (digits_val (D ++ fraction_digits F))) (exp_value e - Z.of_nat (List.length (fraction_digits F)))) with
  | Some x => Got x rest
  | None => Bad (match sg with SMinus => (- fmax fp)%Q | _ => fmax fp end)
  end.
Proof. exact read_number. Qed.
Print Assumptions C60_numbers.

(* ---------------------------------------------------------------- violations *)
(* C60 violated: a ball whose fixed attribute is a word, such as true or yes, is loaded as a free ball. *)
Theorem C60_fixed_word_refuted : forall fp bd doc sc root i nd c r,
  parse_ball fp bd doc = Ok (Some sc) -> first_in doc "ball2d_scene" = Some root ->
  nth_error (elements root "ball") i = Some nd -> first_attribute nd "fixed" = Some (c :: r) ->
  isspace c = false -> is_digit c = false -> c <> "-"%char -> c <> "+"%char ->
  nth_error (bs_fixed sc) i = Some false.
Proof.
  intros fp bd doc sc root i nd c r H HR Hi HF H1 H2 H3 H4. apply C60_balls in H as (root' & E & _ & _ & _ & _ & _ & K).
  rewrite HR in E. injection E as <-. destruct (K i nd Hi) as (_ & _ & _ & _ & _ & _ & _ & t & b & Et & Eb & Ef).
  rewrite HF in Et. injection Et as <-. rewrite (read_bool_word _ c r eq_refl) in Eb by assumption. congruence.
Qed.
Print Assumptions C60_fixed_word_refuted.

(* C60 violated: the line feeds of the file are dropped before the XML is parsed, so a tag whose attributes
   start on the next line loses the only separator between its name and the first attribute. *)
Theorem C60_line_feeds_refuted : forall a b, load_text (a ++ newline :: b) = load_text a ++ load_text b.
Proof. intros a b. unfold load_text. rewrite filter_app. reflexivity. Qed.
Print Assumptions C60_line_feeds_refuted.

(* exact scalars, and a small document *)
Definition exact : fpmode := mkFp (fun q => Some q) 1000.
Definition all_libs : build := mkBuild true true.
Definition at_ (a t : string) : str * str := (lit a, lit t).
Definition el (a : string) (at' : list (str * str)) : node := Node (lit a) at' [].
Definition integ (dt : string) : node := el "integrator" [at_ "type" "verlet"; at_ "dt" dt].
Definition a_ball (x m r f : string) : node :=
  el "ball" [at_ "x" x; at_ "y" "2.5"; at_ "vx" "-1"; at_ "vy" "0"; at_ "m" m; at_ "r" r; at_ "fixed" f].
Definition scene_of (l : list node) : list node := [Node (lit "ball2d_scene") [] l].

(* C60 violated: masses and radii are not checked, and text that is no number is read as 0. *)
Theorem C60_masses_refuted : exists sc,
  parse_ball exact all_libs (scene_of [integ "1/100"; a_ball "1" "0" "-1" "0"; a_ball "1" "heavy" "1" "0"]) = Ok (Some sc) /\
  bs_m sc = [0; 0; 0; 0]%Q /\ bs_r sc = [-1 # 1; 1]%Q.
Proof. eexists. vm_compute. repeat split. Qed.
Print Assumptions C60_masses_refuted.
(* C60 violated: a blank attribute leaves an uninitialised number in the state. *)
Theorem C60_blank_attribute_refuted :
  parse_ball exact all_libs (scene_of [integ "1/100"; a_ball "" "1" "1" "0"]) = UB /\
  parse_ball exact all_libs (scene_of [integ "1/100"; a_ball "1" "1" "1" " "]) = UB.
Proof. vm_compute. split; reflexivity. Qed.
Print Assumptions C60_blank_attribute_refuted.
(* C60 violated: the coefficient of restitution of an impact operator is not checked, iteration counts may
   wrap around, and a plane may have no normal. *)
Theorem C60_unchecked_settings_refuted : exists sc,
  parse_ball exact all_libs (scene_of [integ "1/100";
    Node (lit "impact_operator") [at_ "type" "lcp"; at_ "CoR" "-3"; at_ "cache_impulses" "0"]
      [el "solver" [at_ "name" "apgd"; at_ "tol" "1e-3"; at_ "max_iters" "-1"]];
    el "static_plane" [at_ "x" "0 0"; at_ "n" "0 0"]]) = Ok (Some sc) /\
  bs_response sc = Impact (Lcp (Apgd (1 # 1000) 4294967295)) (-3 # 1) (Some false) /\ bs_planes sc = [(0, 0, (0, 0))]%Q.
Proof. eexists. vm_compute. repeat split. Qed.
Print Assumptions C60_unchecked_settings_refuted.
(* C60 violated: a time step in exponent notation is taken for a whole number, and a time step with
   denominator 0 is accepted. *)
Theorem C60_time_step_refuted : exists sc1 sc2,
  parse_ball exact all_libs (scene_of [integ "1e-4"]) = Ok (Some sc1) /\ bs_dt sc1 = mkRat 1 1 /\
  parse_ball exact all_libs (scene_of [integ "1/0"]) = Ok (Some sc2) /\ bs_dt sc2 = mkRat 1 0.
Proof. eexists _, _. vm_compute. repeat split. Qed.
Print Assumptions C60_time_step_refuted.

(* ---------------------------------------------------------------- the hypotheses are met *)
Definition example_doc : list node := scene_of
  [el "static_plane" [at_ "x" "0 0"; at_ "n" "0 1"]; a_ball "1.5e1" "2" "0.5" "0";
   el "static_plane" [at_ "x" "-1 0"; at_ "n" "1 0"]; el "scripting" [at_ "callback" "spin"]; integ "1/100";
   el "static_plane" [at_ "x" "+1 0"; at_ "n" "-1 0"]; el "planar_portal" [at_ "planeA" "1"; at_ "planeB" "2"];
   a_ball "-.25" "3" "1" "1"; el "gravity" [at_ "fx" "0"; at_ "fy" "-9.81"]; el "end_time" [at_ "t" "10"];
   el "sobogus_friction_solver" [at_ "mu" "0.5"; at_ "CoR" "0"; at_ "max_iters" "1000"; at_ "eval_every" "50"; at_ "tol" "1.0e-8";
     at_ "cache_impulses" "normal"; at_ "staggering" "symplectic_euler"; at_ "stabilization" "1"; at_ "penetration_threshold" "0.01"]].
Example scene_example : parse_ball exact all_libs example_doc = Ok (Some {|
  bs_callback := lit "spin"; bs_end := Some 10; bs_forces := [Gravity (0, -981 # 100)]; bs_integrator := Verlet;
  bs_dt_text := lit "1/100"; bs_dt := mkRat 1 100;
  bs_response := Friction (Sobogus 50) (SymplecticEulerMap (1 # 100000000) 1000 CacheNormal true (1 # 100)) (1 # 2) 0;
  bs_drums := []; bs_planes := [(0, 0, (0, 1))]; bs_portals := [((-1 # 1, 0, (1, 0)), (1, 0, (-1 # 1, 0)), (0, 0))];
  bs_q := [15; 5 # 2; -1 # 4; 5 # 2]; bs_v := [-1 # 1; 0; -1 # 1; 0]; bs_m := [2; 2; 3; 3]; bs_r := [1 # 2; 1];
  bs_fixed := [false; true] |}%Q).
Proof. vm_compute. reflexivity. Qed.
Example fixed_word_example : exists sc, parse_ball exact all_libs (scene_of [integ "1/100"; a_ball "1" "1" "1" "true"]) = Ok (Some sc) /\
  bs_fixed sc = [false].
Proof. eexists. vm_compute. split; reflexivity. Qed.
Example exit_example : parse_ball exact all_libs (scene_of [integ "1/100";
   el "sobogus_friction_solver" [at_ "mu" "0.5"; at_ "CoR" "0"; at_ "max_iters" "10"; at_ "eval_every" "5"; at_ "tol" "0";
     at_ "cache_impulses" "yes"; at_ "staggering" "geometric"]]) = Exit.
Proof. vm_compute. reflexivity. Qed.
Example number_example : read_scalar exact (lit " -12.50E+1 m") = Got (-125 # 1)%Q (lit " m") /\
  blank (lit " ") /\ all_digits (lit "12") /\ all_digits (lit "50") /\ exp_ok (Exp "E" SPlus (lit "1")) /\ stops (Some (lit "50")) (Exp "E" SPlus (lit "1")) (lit " m").
Proof.
  split; [vm_compute; reflexivity|]. do 3 (split; [repeat constructor|]).
  split; [split; [right; reflexivity|split; [repeat constructor|discriminate]]|]. split; [reflexivity|discriminate].
Qed.
Example overlapping_portals_rejected : parse_ball exact all_libs (scene_of [integ "1/100";
  el "static_plane" [at_ "x" "0 0"; at_ "n" "0 1"]; el "static_plane" [at_ "x" "0 0"; at_ "n" "1 0"]; el "static_plane" [at_ "x" "0 0"; at_ "n" "-1 0"];
  el "planar_portal" [at_ "planeA" "1"; at_ "planeB" "2"]; el "planar_portal" [at_ "planeA" "0"; at_ "planeB" "2"]]) = Ok None.
Proof. vm_compute. reflexivity. Qed.
