(* C60, C61, C62: the response to contacts, the forces, portals and cameras of a loaded scene are the ones the file names. *)
From Coq Require Import ZArith QArith Bool Ascii String List Lia.
From Verif Require Import Outcome Str_Model Str_Spec Rational_Model RatParse_Model Scene_Text Scene_Model Scene_Spec Scene_Proofs Scene_Thms
  Scene2_Model Scene2_Spec Scene2_Proofs Scene3_Model Scene3_Spec Scene3_Rend Scene3_Proofs SceneSay_Spec SceneSay_Proofs.
From Verif Require State_Proofs Scene_Props Scene2_Props Scene3_Props.
Import ListNotations.
Open Scope string_scope.
Open Scope list_scope.

(* C60. The impact operator or friction solver of the scene, with all its settings, is the one the file describes;
   there is at most one. *)
Theorem C60_response : forall fp bd doc sc, parse_ball fp bd doc = Ok (Some sc) ->
  exists root, first_in doc "ball2d_scene" = Some root /\ response_text fp true planar_solvers root (bs_response sc).
Proof.
  intros fp bd doc sc H. unfold parse_ball in H. pstep H. apply of_option_inv in Ha. exists a. split; [exact Ha|].
  unfold load_ball_scene in H. repeat pstep H. apply accept_inv in H. subst sc. cbn [bs_response]. eapply ball_response_text; eassumption.
Qed.
Print Assumptions C60_response.
Theorem C61_response : forall ar bd doc sc, parse_rb2 ar bd doc = Ok (Some sc) ->
  exists root, first_in doc "rigidbody2d_scene" = Some root /\ response_text ar true planar_solvers root (r2s_response sc).
Proof.
  intros ar bd doc sc H. unfold parse_rb2 in H. pstep H. apply of_option_inv in Ha. exists a. split; [exact Ha|].
  unfold load_rb2_scene in H. repeat pstep H. apply accept_inv in H. subst sc. cbn [r2s_response]. eapply rb2_response_text; eassumption.
Qed.
Print Assumptions C61_response.
Theorem C62_response : forall ar bd doc sc, parse_rb3 ar bd doc = Ok (Some sc) ->
  exists root, first_in doc "rigidbody3d_scene" = Some root /\ response_text ar false spatial_solvers root (r3s_response sc).
Proof.
  intros ar bd doc sc H. unfold parse_rb3 in H. pstep H. apply of_option_inv in Ha. exists a. split; [exact Ha|].
  unfold load_rb3_scene in H. repeat pstep H. apply accept_inv in H. subst sc. cbn [r3s_response]. eapply rb3_response_text; eassumption.
Qed.
Print Assumptions C62_response.

(* C60. The forces are those of the gravity elements followed by those of the penalty elements, each in file order,
   and the drums those of the static_drum elements. *)
Definition force_text (fp : fpmode) (nd : node) (f : ball_force) : Prop :=
  match f with
  | Gravity (x, y) => seqb (name_of nd) "gravity" = true /\ holds fp nd "fx" [x; y] 0 /\ holds fp nd "fy" [x; y] 1
  | Penalty k p => seqb (name_of nd) "penalty" = true /\ scalar_text fp nd "stiffness" k /\ scalar_text fp nd "potential_power" p
  end.
Lemma loose_holds fp n a x l i : loose_scalar fp n a = Ok (Some x) -> nth_error l i = Some x -> holds fp n a l i.
Proof. unfold loose_scalar. intros K1 K2. pgo K1. texts. exists a0, x. auto. Qed.
Lemma elements_name root a l r (R R' : node -> l -> Prop) : (forall n x, seqb (name_of n) a = true -> R n x -> R' n x) ->
  Forall2 R (elements root a) r -> Forall2 R' (elements root a) r.
Proof.
  intros HI. unfold elements. assert (Forall (fun n => seqb (name_of n) a = true) (filter (fun c => seqb (name_of c) a) (children_of root))) as F.
  { apply Forall_forall. intros n Hn. apply filter_In in Hn. tauto. }
  intros H. induction H as [|n x ns xs X _ IH]; inversion F; subst; constructor; auto.
Qed.
Theorem C60_forces_and_drums : forall fp bd doc sc, parse_ball fp bd doc = Ok (Some sc) ->
  exists root, first_in doc "ball2d_scene" = Some root /\
  Forall2 (force_text fp) (elements root "gravity" ++ elements root "penalty") (bs_forces sc) /\
  Forall2 (fun nd d => let '(x, y, r) := d in holds fp nd "x" [x; y; r] 0 /\ holds fp nd "y" [x; y; r] 1 /\ holds fp nd "r" [x; y; r] 2)
    (elements root "static_drum") (bs_drums sc).
Proof.
  intros fp bd doc sc H. unfold parse_ball in H. pstep H. apply of_option_inv in Ha. exists a. split; [exact Ha|].
  unfold load_ball_scene in H. clear Ha. repeat pstep H. apply accept_inv in H. subst sc. cbn [bs_forces bs_drums].
  apply each_inv in Ha1, Ha2, Ha5. split.
  - apply Forall2_app; (eapply elements_name; [|eassumption]); cbv beta; intros n x EN X.
    + unfold load_gravity_ball in X. repeat pstep X. apply accept_inv in X. subst x. split; [exact EN|]. split; eapply loose_holds; try eassumption; reflexivity.
    + clear -EN X. unfold load_penalty in X. repeat pstep X. apply accept_inv in X. subst x. apply scalar_attr_text in Ha, Ha1. split; [exact EN|]. split; assumption.
  - eapply State_Proofs.forall2_impl; [|exact Ha5]. intros n x X. unfold load_drum in X. repeat pstep X. apply accept_inv in X. subst x.
    repeat split; eapply loose_holds; try eassumption; reflexivity.
Qed.
Print Assumptions C60_forces_and_drums.

(* C60, C61. Planar portals stand still; the k-th Lees-Edwards portal moves with the velocity and within the bounds
   of its element. *)
Theorem C60_portal_motion : forall fp bd doc sc, parse_ball fp bd doc = Ok (Some sc) ->
  exists root still moving, first_in doc "ball2d_scene" = Some root /\ bs_portals sc = still ++ moving /\
    List.length still = List.length (elements root "planar_portal") /\ Forall (fun p => snd p = (0%Q, 0%Q)) still /\
    Forall2 (fun nd p => scalar_text fp nd "v" (fst (snd p)) /\ scalar_text fp nd "bounds" (snd (snd p))) (elements root "lees_edwards_portal") moving.
Proof.
  intros fp bd doc sc H. unfold parse_ball in H. pstep H. apply of_option_inv in Ha. exists a.
  unfold load_ball_scene in H. rename Ha into HR. repeat pstep H. apply accept_inv in H. subst sc. cbn [bs_portals].
  destruct a8 as [rest portals]. apply load_portals_motion in Ha7 as (still & moving & K). exists still, moving. cbn [snd]. tauto.
Qed.
Print Assumptions C60_portal_motion.
Theorem C61_portal_motion : forall ar bd doc sc, parse_rb2 ar bd doc = Ok (Some sc) ->
  exists root still moving, first_in doc "rigidbody2d_scene" = Some root /\ r2s_portals sc = still ++ moving /\
    List.length still = List.length (elements root "planar_portal") /\ Forall (fun p => snd p = (0%Q, 0%Q)) still /\
    Forall2 (fun nd p => scalar_text ar nd "v" (fst (snd p)) /\ scalar_text ar nd "bounds" (snd (snd p))) (elements root "lees_edwards_portal") moving.
Proof.
  intros ar bd doc sc H. unfold parse_rb2 in H. pstep H. apply of_option_inv in Ha. exists a.
  unfold load_rb2_scene in H. rename Ha into HR. repeat pstep H. apply accept_inv in H. subst sc. cbn [r2s_portals].
  destruct a7 as [rest portals]. apply load_portals_motion in Ha6 as (still & moving & K). exists still, moving. cbn [snd]. tauto.
Qed.
Print Assumptions C61_portal_motion.

(* C60. The camera holds the settings of the first camera element. *)
Theorem C60_camera_settings : forall fp bd doc cam sc, parse_ball_camera fp bd doc = Ok (Some (cam, sc)) ->
  exists root, first_in doc "ball2d_scene" = Some root /\
  match cam with
  | None => first_node root "camera" = None
  | Some c => child root "camera" (fun nd => scalar_text fp nd "cx" (fst (c_center c)) /\ scalar_text fp nd "cy" (snd (c_center c)) /\
      scalar_text fp nd "scale_factor" (c_scale c) /\ unsigned_text nd "fps" (c_fps c) /\
      bool_text nd "render_at_fps" (c_at_fps c) /\ bool_text nd "locked" (c_locked c))
  end.
Proof.
  intros fp bd doc cam sc H. unfold parse_ball_camera in H. repeat pstep H. apply accept_inv in H. injection H as -> ->.
  apply of_option_inv in Ha. exists a. split; [exact Ha|]. apply optional_inv in Ha0. destruct cam as [c|]; [|exact Ha0].
  destruct Ha0 as (n & En & L). exists n. split; [exact En|]. unfold load_camera_ball in L. clear Ha1. repeat pstep L. apply accept_inv in L. subst c. texts.
  cbn [c_center c_scale c_fps c_at_fps c_locked fst snd]. repeat split; assumption.
Qed.
Print Assumptions C60_camera_settings.
(* C61. Likewise. *)
Theorem C61_camera_settings : forall ar bd doc sc, parse_rb2 ar bd doc = Ok (Some sc) ->
  exists root, first_in doc "rigidbody2d_scene" = Some root /\
  match r2s_camera sc with
  | None => first_node root "camera" = None
  | Some c => child root "camera" (fun nd => vec2_text ar nd "center" (rc_center c) /\
      scalar_text ar nd "scale" (rc_scale c) /\ int_text nd "fps" (rc_fps c) /\
      bool_text nd "render_at_fps" (rc_at_fps c) /\ bool_text nd "locked" (rc_locked c))
  end.
Proof.
  intros ar bd doc sc H. unfold parse_rb2 in H. pstep H. apply of_option_inv in Ha. exists a. split; [exact Ha|]. clear Ha.
  unfold load_rb2_scene in H. repeat pstep H. apply accept_inv in H. subst sc. cbn [r2s_camera].
  apply optional_inv in Ha1. destruct a2 as [c|]; [|exact Ha1].
  destruct Ha1 as (n & En & L). exists n. split; [exact En|]. unfold load_camera_rb2 in L. clear -L. repeat pstep L. apply accept_inv in L. subst c. texts.
  cbn [rc_center rc_scale rc_fps rc_at_fps rc_locked]. split; [apply vec2_attr_text; assumption|]. repeat split; assumption.
Qed.
Print Assumptions C61_camera_settings.

(* C62. The multiplier of the k-th portal is the one of its element. *)
Definition multiplier_text (nd : node) (m : Z * Z * Z) : Prop :=
  let '(x, y, z) := m in
  exists t1 t2 t3, first_attribute nd "multiplier" = Some (t1 ++ " "%char :: t2 ++ " "%char :: t3) /\
    ~ In " "%char t1 /\ ~ In " "%char t2 /\ ~ In " "%char t3 /\
    read_ext_int t1 = Some x /\ read_ext_int t2 = Some y /\ read_ext_int t3 = Some z.
Lemma load_multiplier_text n m : load_multiplier n = Ok (Some m) -> multiplier_text n m.
Proof.
  unfold load_multiplier. intros H. pstep H. texts. pstep H. apply read_list_inv in Ha0 as (toks & _ & J & N & L & F).
  destruct toks as [|t1 [|t2 [|t3 [|]]]]; try discriminate. inversion F as [|? x ? l1 E1 F1]; subst. inversion F1 as [|? y ? l2 E2 F2]; subst.
  inversion F2 as [|? z ? l3 E3 F3]; subst. inversion F3; subst. pstep H.
  apply accept_inv in H. subst m. inversion N as [|? ? N1 N2]; subst. inversion N2 as [|? ? N3 N4]; subst. inversion N4; subst. exists t1, t2, t3. repeat split; assumption.
Qed.
Theorem C62_portal_multipliers : forall ar bd doc sc, parse_rb3 ar bd doc = Ok (Some sc) ->
  exists root, first_in doc "rigidbody3d_scene" = Some root /\
  Forall2 (fun nd p => multiplier_text nd (snd p)) (elements root "planar_portal") (dr_portals (r3s_drawn sc)).
Proof.
  intros ar bd doc sc H. unfold parse_rb3 in H. pstep H. apply of_option_inv in Ha. exists a. split; [exact Ha|]. clear Ha.
  unfold load_rb3_scene in H. repeat pstep H. apply accept_inv in H. subst sc. cbn [r3s_drawn].
  apply load_portals3_inv in Ha10 as (links & EL & [_ _ _ K _ _ _]); [|apply sort_by_sorted].
  apply load_links_forall2 in EL. clear -EL K. revert K. generalize (dr_portals a11) as ps.
  induction EL as [|n l ns ls (_ & _ & X) _ IH]; intros ps K; inversion K as [|? p ? ps' (_ & _ & Y) K']; subst; constructor; [|auto].
  rewrite <- Y. apply load_multiplier_text, X.
Qed.
Print Assumptions C62_portal_multipliers.

(* concrete files: a friction solver with unlike settings, and portals of both kinds *)
Import Scene_Props.
Example ex_response : exists sc,
  parse_ball exact all_libs (scene_of [integ "1/100"; el "gravity" [at_ "fx" "0"; at_ "fy" "-9.81"];
    el "penalty" [at_ "stiffness" "7"; at_ "potential_power" "2.5"]; el "static_drum" [at_ "x" "1"; at_ "y" "2"; at_ "r" "3"];
    el "static_plane" [at_ "x" "0 0"; at_ "n" "1 0"]; el "static_plane" [at_ "x" "8 0"; at_ "n" "-1 0"];
    el "lees_edwards_portal" [at_ "planeA" "1"; at_ "planeB" "0"; at_ "v" "0.5"; at_ "bounds" "4"];
    el "sobogus_friction_solver" [at_ "mu" "0.4"; at_ "CoR" "0"; at_ "max_iters" "50"; at_ "eval_every" "10"; at_ "tol" "0.001";
      at_ "cache_impulses" "normal"; at_ "staggering" "symplectic_euler"; at_ "stabilization" "1"; at_ "penetration_threshold" "0.25"]]) = Ok (Some sc) /\
  bs_response sc = Friction (Sobogus 10) (SymplecticEulerMap (1 # 1000) 50 CacheNormal true (1 # 4)) (2 # 5) 0 /\
  map snd (bs_portals sc) = [(1 # 2, 4)]%Q /\ bs_forces sc = [Gravity (0, -981 # 100); Penalty 7 (5 # 2)]%Q /\ bs_drums sc = [(1, 2, 3)]%Q.
Proof. eexists. vm_compute. repeat split. Qed.
Definition sp_node (n : string) (at' : list (str * str)) (ch : list node) : node := Node (lit n) at' ch.
Example ex_response3 : exists sc,
  parse_rb3 Scene3_Props.exact3 all_libs (Scene3_Props.scene_of [
    sp_node "grr_friction_solver" [at_ "mu" "0.5"; at_ "CoR" "1"; at_ "staggering" "stabilized"]
      [sp_node "impact_operator" [at_ "type" "grr"]
         [sp_node "inelastic_operator" [at_ "type" "lcp"] [el "solver" [at_ "name" "ql"; at_ "tol" "0.1"]];
          el "elastic_operator" [at_ "type" "gauss_seidel"; at_ "v_tol" "0.2"]];
       el "friction_operator" [at_ "name" "ipopt"; at_ "linear_solvers" "ma27 mumps"; at_ "tol" "0.3"]]]) = Ok (Some sc) /\
  r3s_response sc = Friction (GrrFriction (Grr (GaussSeidel (1 # 5)) (Lcp (Ql (1 # 10)))) (MdpIpopt [lit "ma27"; lit "mumps"] (3 # 10)))
    (Stabilized 0 0) (1 # 2) 1.
Proof. eexists. vm_compute. repeat split. Qed.
