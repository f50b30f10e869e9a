(* The interactive programs ball2dqt4, rigidbody2dqt4 and rigidbody3dqt4: what the session (GLWidget.cpp) and the
   controls around it (ContentWidget.cpp) do with the simulation, the movie frames and the numbers on the display.
   Line numbers without a file name are those of ball2dqt4/GLWidget.cpp; [kind] selects where the others differ.
   Simulations, scripts and the numerical work of a step are arbitrary (record [env]). Drawing is reduced to the array
   accesses it performs and to the picture it leaves in the frame buffer; cameras, key bindings and rigidbody2dqt4's
   option to draw contacts (m_render_contacts) are left out. A screen shot saves what was painted last
   (grabFrameBuffer reads the frame buffer, it does not paint). Saving images is assumed to succeed. *)
From Coq Require Import Reals ZArith NArith Ascii String List Bool.
From Verif Require Import Outcome Codec_Model Config_Model Str_Model Names_Model Rational_Model Cli_Model.
Import ListNotations.
Open Scope N_scope.

Inductive kind := KBall | KBody2 | KBody3.

(* One shape that bodies refer to by number: circle or not, and which object it is. The renderers of rigidbody2dqt4
   keep a reference to a circle but a copy of a box (CircleGeometryRenderer.h:24, BoxGeometryRenderer.cpp). *)
Record geom := mkGeom { is_circle : bool; object : N }.

(* What a scene file provides (the out-parameters of parseXMLSceneFile, 142-166). [v_set] is camera_set; the other two
   programs use the view settings in any case (rigidbody2dqt4/GLWidget.cpp:315-318, rigidbody3dqt4/GLWidget.cpp:261-263). *)
Record view := mkView { v_set : bool; v_fps : N; v_at_fps : bool; v_lock : bool }.
Record scene (St : Type) := mkScene {
  sc_path : str; sc_script : str; sc_state : St; sc_umap : umap; sc_dt : rational; sc_end : scalar; sc_impop : impop;
  sc_imap : imap; sc_cor : scalar; sc_fsolver : fsolver; sc_mu : scalar; sc_ifmap : ifmap; sc_view : view }.
Arguments mkScene {St}. Arguments sc_path {St}. Arguments sc_script {St}. Arguments sc_state {St}. Arguments sc_umap {St}.
Arguments sc_dt {St}. Arguments sc_end {St}. Arguments sc_impop {St}. Arguments sc_imap {St}. Arguments sc_cor {St}.
Arguments sc_fsolver {St}. Arguments sc_mu {St}. Arguments sc_ifmap {St}. Arguments sc_view {St}.

(* The simulator and the scripts. [W] is everything a script can remember, [Ca] the constraint cache. *)
Record env (St Ca W Co G : Type) := mkEnv {
  e_nocache : Ca;                                                    (* clearConstraintCache *)
  e_load : W -> str -> str -> outcome W;                             (* PythonScripting( path, module ) *)
  e_start : W -> St -> outcome (W * St);                             (* startOfSimCallback *)
  e_end : W -> St -> outcome (W * St);                               (* endOfSimCallback *)
  e_free : W -> St * Ca -> N -> rational -> umap -> outcome (W * (St * Ca));                     (* flow *)
  e_impact : W -> St * Ca -> N -> rational -> umap -> impop -> scalar -> imap -> outcome (W * (St * Ca));
  e_friction : W -> St * Ca -> N -> rational -> umap -> scalar -> scalar -> fsolver -> ifmap -> outcome (W * (St * Ca) * ifmap);
  e_reached : N -> rational -> scalar -> bool;                       (* iteration * scalar( dt ) >= end_time *)
  e_measure : St -> list R;                                          (* energy, components of the two momenta *)
  e_bodies : St -> nat;                                              (* nballs / nbodies *)
  e_geometry : St -> list geom; e_shape : St -> list nat;            (* the shapes; the number of each body's shape *)
  e_seed : G; e_colour : G -> Co * G }.                              (* mt19937_64( 1337 ); one colour of allowed luminance *)
Arguments e_nocache {St Ca W Co G}. Arguments e_load {St Ca W Co G}. Arguments e_start {St Ca W Co G}.
Arguments e_end {St Ca W Co G}. Arguments e_free {St Ca W Co G}. Arguments e_impact {St Ca W Co G}.
Arguments e_friction {St Ca W Co G}. Arguments e_reached {St Ca W Co G}. Arguments e_measure {St Ca W Co G}.
Arguments e_bodies {St Ca W Co G}. Arguments e_geometry {St Ca W Co G}. Arguments e_shape {St Ca W Co G}.
Arguments e_seed {St Ca W Co G}. Arguments e_colour {St Ca W Co G}.

(* scisim/ConstrainedMaps: resetCachedData of the three impact friction maps (GeometricImpactFrictionMap.cpp:444-447,
   StabilizedImpactFrictionMap.cpp:185-188, SymplecticEulerImpactFrictionMap.cpp:409-412): m_f.resize( 0 ) *)
Definition reset_ifmap (m : ifmap) : ifmap :=
  match m with
  | IfNull => IfNull
  | IfGeometric _ t n c => IfGeometric [] t n c
  | IfStabilized _ t n a b => IfStabilized [] t n a b
  | IfSymplectic _ t n s p c => IfSymplectic [] t n s p c
  end.

(* The members of GLWidget (62-98) and the controls of ContentWidget (the check boxes "Simulate" and "Export Movie" and
   the FPS box). [g_painted] is the frame buffer: the state and the iteration painted last. *)
Record session (St Ca W Co G : Type) := mkSes {
  g_umap : umap; g_impop : impop; g_imap : imap; g_fsolver : fsolver; g_ifmap : ifmap;
  g_world : W; g_cor : scalar; g_mu : scalar; g_sim : St * Ca; g_sim0 : St * Ca;
  g_dt : rational; g_iter : N; g_end : scalar;
  g_fps : N; g_at_fps : bool; g_lock : bool; g_spf : N; g_frame : N; g_dir : str;
  g_m0 : list R; g_dev : list R; g_colours : list Co; g_gen : G; g_renderers : list geom;
  g_painted : option (St * N); g_running : bool; g_export : bool; g_spin : N; g_hud : bool }.
Arguments mkSes {St Ca W Co G}.
Arguments g_umap {St Ca W Co G}. Arguments g_impop {St Ca W Co G}. Arguments g_imap {St Ca W Co G}.
Arguments g_fsolver {St Ca W Co G}. Arguments g_ifmap {St Ca W Co G}. Arguments g_world {St Ca W Co G}.
Arguments g_cor {St Ca W Co G}. Arguments g_mu {St Ca W Co G}. Arguments g_sim {St Ca W Co G}. Arguments g_sim0 {St Ca W Co G}.
Arguments g_dt {St Ca W Co G}. Arguments g_iter {St Ca W Co G}. Arguments g_end {St Ca W Co G}. Arguments g_fps {St Ca W Co G}.
Arguments g_at_fps {St Ca W Co G}. Arguments g_lock {St Ca W Co G}. Arguments g_spf {St Ca W Co G}. Arguments g_frame {St Ca W Co G}.
Arguments g_dir {St Ca W Co G}. Arguments g_m0 {St Ca W Co G}. Arguments g_dev {St Ca W Co G}. Arguments g_colours {St Ca W Co G}.
Arguments g_gen {St Ca W Co G}. Arguments g_renderers {St Ca W Co G}. Arguments g_painted {St Ca W Co G}.
Arguments g_running {St Ca W Co G}. Arguments g_export {St Ca W Co G}. Arguments g_spin {St Ca W Co G}. Arguments g_hud {St Ca W Co G}.

(* What the session leaves behind: an image file with the state and iteration it shows, the end of the simulation. *)
Inductive seen (St : Type) := SShot (name : str) (picture : option (St * N)) | SEnd (s : St).
Arguments SShot {St}. Arguments SEnd {St}.

(* 609-635 setMovieFPS: how many steps there are to a frame. The comparison with 1.0 is exact here. The numerator is
   cast to unsigned. *)
Definition steps_per_frame (dt : rational) (fps : N) : outcome N :=
  let! x := rmul_int dt (Z.of_N fps) in
  if (den x <? num x)%Z then Ok 1
  else
    let! p := int_rdiv 1 x in
    if isInteger p then Ok (Z.to_N (num p mod 2 ^ 32)) else Ok 1.

(* 378: "frame%1.png", ten digits, filled with zeros *)
Definition frame_name (dir : str) (frame : N) : str :=
  dir ++ lit "/frame" ++ padWithZeros (print_N frame) 10 ++ lit ".png".

(* 329-336: std::max( old, fabs( initial - now ) ), component by component; in real numbers *)
Fixpoint deviate (dev m0 now : list R) : list R :=
  match dev, m0, now with
  | d :: dev', a :: m0', b :: now' => Rmax d (Rabs (a - b)) :: deviate dev' m0' now'
  | _, _, _ => []
  end.

Section Gui.
  Context {St Ca W Co G : Type}.
  Variable K : kind.
  Variable E : env St Ca W Co G.
  Notation ses := (session St Ca W Co G).

  (* 62-98, the constructor; ContentWidget.cpp:16-75, which sets the FPS box to 50 (60 in rigidbody3dqt4).
     The end time is infinity, the two coefficients are NaN (0 here, nothing reads them). *)
  Definition fresh (w0 : W) (s0 : St) : outcome ses :=
    let fps := match K with KBody3 => 60 | _ => 50 end in
    let! spf := steps_per_frame (mkRat 0 1) fps in
    Ok (mkSes UNull OpNull ImNull FsNull IfNull w0 0 0 (s0, e_nocache E) (s0, e_nocache E) (mkRat 0 1) 0 9218868437227405312
          fps false false spf 0 [] [] [] [] (e_seed E) [] None false false fps true).

  (* ---- updates of groups of members ---- *)
  Definition with_run (g : ses) (w : W) (x : St * Ca) (f : ifmap) (it : N) : ses :=
    mkSes (g_umap g) (g_impop g) (g_imap g) (g_fsolver g) f w (g_cor g) (g_mu g) x (g_sim0 g) (g_dt g) it (g_end g)
      (g_fps g) (g_at_fps g) (g_lock g) (g_spf g) (g_frame g) (g_dir g) (g_m0 g) (g_dev g) (g_colours g) (g_gen g)
      (g_renderers g) (g_painted g) (g_running g) (g_export g) (g_spin g) (g_hud g).
  Definition with_movie (g : ses) (fps spf frame : N) (dir : str) : ses :=
    mkSes (g_umap g) (g_impop g) (g_imap g) (g_fsolver g) (g_ifmap g) (g_world g) (g_cor g) (g_mu g) (g_sim g) (g_sim0 g)
      (g_dt g) (g_iter g) (g_end g) fps (g_at_fps g) (g_lock g) spf frame dir (g_m0 g) (g_dev g) (g_colours g) (g_gen g)
      (g_renderers g) (g_painted g) (g_running g) (g_export g) (g_spin g) (g_hud g).
  Definition with_show (g : ses) (m0 dev : list R) (cs : list Co) (ge : G) (rs : list geom) : ses :=
    mkSes (g_umap g) (g_impop g) (g_imap g) (g_fsolver g) (g_ifmap g) (g_world g) (g_cor g) (g_mu g) (g_sim g) (g_sim0 g)
      (g_dt g) (g_iter g) (g_end g) (g_fps g) (g_at_fps g) (g_lock g) (g_spf g) (g_frame g) (g_dir g) m0 dev cs ge
      rs (g_painted g) (g_running g) (g_export g) (g_spin g) (g_hud g).
  Definition with_painted (g : ses) (p : option (St * N)) : ses :=
    mkSes (g_umap g) (g_impop g) (g_imap g) (g_fsolver g) (g_ifmap g) (g_world g) (g_cor g) (g_mu g) (g_sim g) (g_sim0 g)
      (g_dt g) (g_iter g) (g_end g) (g_fps g) (g_at_fps g) (g_lock g) (g_spf g) (g_frame g) (g_dir g) (g_m0 g) (g_dev g)
      (g_colours g) (g_gen g) (g_renderers g) p (g_running g) (g_export g) (g_spin g) (g_hud g).
  Definition with_boxes (g : ses) (at_fps lock running export : bool) (spin : N) (hud : bool) : ses :=
    mkSes (g_umap g) (g_impop g) (g_imap g) (g_fsolver g) (g_ifmap g) (g_world g) (g_cor g) (g_mu g) (g_sim g) (g_sim0 g)
      (g_dt g) (g_iter g) (g_end g) (g_fps g) at_fps lock (g_spf g) (g_frame g) (g_dir g) (g_m0 g) (g_dev g)
      (g_colours g) (g_gen g) (g_renderers g) (g_painted g) running export spin hud.

  (* ---- colours and renderers ---- *)
  Fixpoint draw_colours (n : nat) (ge : G) : list Co * G :=
    match n with
    | O => ([], ge)
    | S k => let (c, ge1) := e_colour E ge in let (cs, ge2) := draw_colours k ge1 in (c :: cs, ge2)
    end.
  (* 238-258 and 407-424; rigidbody2dqt4/GLWidget.cpp:200-222 generateBodyColors; rigidbody3dqt4/GLWidget.cpp:204-237
     (another generator and palette): as many colours as there are bodies, from a fresh generator *)
  Definition all_colours (s : St) : list Co * G := draw_colours (e_bodies E s) (e_seed E).
  (* 338-365: drop colours, or draw the missing ones from where the generator was left *)
  Definition adjust_colours (cs : list Co) (ge : G) (n : nat) : list Co * G :=
    if (List.length cs =? n)%nat then (cs, ge)
    else if (n <? List.length cs)%nat then (firstn n cs, ge)
    else let (more, ge') := draw_colours (n - List.length cs) ge in (cs ++ more, ge').

  (* 900-950 paintSystem: a colour for every ball; rigidbody2dqt4/GLWidget.cpp:930-960: also the renderer of the body's
     shape, and the circle a renderer refers to must still be there; rigidbody3dqt4/GLWidget.cpp:1155-1200: colours and
     renderers, which hold no references *)
  Definition drawable (s : St) (cs : list Co) (rs : list geom) : bool :=
    (e_bodies E s <=? List.length cs)%nat &&
    match K with
    | KBall => true
    | KBody2 => forallb (fun i => match nth_error rs i with
                                  | None => false
                                  | Some r => negb (is_circle r) || existsb (fun o => (is_circle o && (object o =? object r))%bool) (e_geometry E s)
                                  end) (e_shape E s)
    | KBody3 => forallb (fun i => (i <? List.length rs)%nat) (e_shape E s)
    end.
  (* updateGL -> paintGL *)
  Definition paint (g : ses) : outcome ses :=
    if drawable (fst (g_sim g)) (g_colours g) (g_renderers g) then Ok (with_painted g (Some (fst (g_sim g), g_iter g))) else UB.

  (* rigidbody2dqt4/GLWidget.cpp:71-92 generateRenderers; rigidbody3dqt4/GLWidget.cpp:239-252 *)
  Definition all_renderers (s : St) : list geom := match K with KBall => [] | _ => e_geometry E s end.
  (* rigidbody2dqt4/GLWidget.cpp:94-118 updateRenderers *)
  Definition update_renderers (s : St) : outcome (list geom) :=
    if forallb is_circle (e_geometry E s) then Ok (e_geometry E s) else Exit.

  (* ---- GLWidget ---- *)
  (* 592-607 setMovieDir *)
  Definition set_dir (g : ses) (dir : str) : list (seen St) * ses :=
    match dir with
    | [] => ([], with_movie g (g_fps g) (g_spf g) 0 [])
    | _ => ([SShot (frame_name dir 0) (g_painted g)], with_movie g (g_fps g) (g_spf g) 1 dir)
    end.
  (* 609-635 setMovieFPS *)
  Definition set_fps (g : ses) (fps : N) : outcome ses :=
    let! spf := steps_per_frame (g_dt g) fps in Ok (with_movie g fps spf 0 (g_dir g)).

  (* 279-282, 427-430: setState; startOfSimCallback; forgetState *)
  Definition run_start (g : ses) : outcome ses :=
    let! (w, s) := e_start E (g_world g) (fst (g_sim g)) in Ok (with_run g w (s, snd (g_sim g)) (g_ifmap g) (g_iter g)).

  (* 142-290 openScene after a successful parse; rigidbody2dqt4/GLWidget.cpp:237-359 does not clear the constraint cache;
     the members that depend on the view settings: see [view] *)
  Definition gl_open (g : ses) (sc : scene St) (render : bool) : outcome ses :=
    let! w := e_load E (g_world g) (sc_path sc) (sc_script sc) in
    let x := (sc_state sc, match K with KBody2 => snd (g_sim g) | _ => e_nocache E end) in
    let use := match K with KBall => v_set (sc_view sc) | _ => true end in
    let fps := if use then v_fps (sc_view sc) else g_fps g in
    let! spf := steps_per_frame (sc_dt sc) fps in
    let (cs, ge) := all_colours (sc_state sc) in
    let m0 := e_measure E (sc_state sc) in
    let g1 := mkSes (sc_umap sc) (sc_impop sc) (sc_imap sc) (sc_fsolver sc) (sc_ifmap sc) w (sc_cor sc) (sc_mu sc) x x (sc_dt sc)
                0 (sc_end sc) fps (if use then v_at_fps (sc_view sc) else g_at_fps g) (if use then v_lock (sc_view sc) else g_lock g)
                spf 0 (match K with KBall => [] | _ => g_dir g end) m0 (map (fun _ => 0%R) m0) cs ge (all_renderers (sc_state sc))
                (g_painted g) (g_running g) (g_export g) (g_spin g) (g_hud g) in
    let! g2 := run_start g1 in
    if render then paint g2 else Ok g2.

  (* 303-325: which flow is called; rigidbody3dqt4/GLWidget.cpp:429-449 has no impact map and does not look at the impact
     friction map in the first three cases. [None] is the early return. *)
  Definition gl_flow (g : ses) : outcome (option (W * (St * Ca) * ifmap)) :=
    let u := is_null_umap (g_umap g) in let o := is_null_op (g_impop g) in let i := is_null_imap (g_imap g) in
    let f := is_null_fs (g_fsolver g) in let m := is_null_ifmap (g_ifmap g) in
    let b3 := match K with KBody3 => true | _ => false end in
    let it := (g_iter g + 1) mod 2 ^ 32 in
    if (u && o && (b3 || i) && f && (b3 || m))%bool then Ok None
    else if (negb u && o && (b3 || i) && f && (b3 || m))%bool then
      omap (fun r => Some (r, g_ifmap g)) (e_free E (g_world g) (g_sim g) it (g_dt g) (g_umap g))
    else if (negb u && negb o && (b3 || negb i) && f && (b3 || m))%bool then
      omap (fun r => Some (r, g_ifmap g)) (e_impact E (g_world g) (g_sim g) it (g_dt g) (g_umap g) (g_impop g) (g_cor g) (g_imap g))
    else if (negb u && o && (b3 || i) && negb f && negb m)%bool then
      omap (fun r => Some r) (e_friction E (g_world g) (g_sim g) it (g_dt g) (g_umap g) (g_cor g) (g_mu g) (g_fsolver g) (g_ifmap g))
    else Exit.

  (* 338-365; rigidbody2dqt4/GLWidget.cpp:413-424; rigidbody3dqt4 does nothing here *)
  Definition refresh (g : ses) : outcome ses :=
    let s := fst (g_sim g) in
    match K with
    | KBall => let (cs, ge) := adjust_colours (g_colours g) (g_gen g) (e_bodies E s) in
               Ok (with_show g (g_m0 g) (g_dev g) cs ge (g_renderers g))
    | KBody2 =>
        let (cs, ge) := if (List.length (g_colours g) =? e_bodies E s)%nat then (g_colours g, g_gen g) else all_colours s in
        let! rs := if (List.length (g_renderers g) =? List.length (e_geometry E s))%nat then Ok (g_renderers g) else update_renderers s in
        Ok (with_show g (g_m0 g) (g_dev g) cs ge rs)
    | KBody3 => Ok g
    end.

  (* 292-383 stepSystem *)
  Definition gl_step (g : ses) : list (seen St) * outcome ses :=
    if e_reached E (g_iter g) (g_dt g) (g_end g) then
      match e_end E (g_world g) (fst (g_sim g)) with
      | Ok (_, s) => ([SEnd s], Exit)
      | Exit => ([], Exit)
      | UB => ([], UB)
      end
    else
      match gl_flow g with
      | Ok None => ([], Ok g)
      | Ok (Some (w, x, f)) =>
          let g1 := with_run g w x f ((g_iter g + 1) mod 2 ^ 32) in
          let g2 := with_show g1 (g_m0 g1) (deviate (g_dev g1) (g_m0 g1) (e_measure E (fst x))) (g_colours g1) (g_gen g1) (g_renderers g1) in
          match refresh g2 with
          | Ok g3 =>
              let movie := match g_dir g3 with [] => false | _ => true end in
              if ((negb (g_at_fps g3) && negb movie) || negb (g_spf g3 =? 0))%bool then
                let due := (g_iter g3 mod g_spf g3 =? 0) in
                match (if (negb (g_at_fps g3) || due)%bool then paint g3 else Ok g3) with
                | Ok g4 =>
                    if (movie && due)%bool
                    then ([SShot (frame_name (g_dir g4) (g_frame g4)) (g_painted g4)],
                          Ok (with_movie g4 (g_fps g4) (g_spf g4) ((g_frame g4 + 1) mod 2 ^ 32) (g_dir g4)))
                    else ([], Ok g4)
                | Exit => ([], Exit)
                | UB => ([], UB)
                end
              else ([], UB)                                           (* % 0 *)
          | Exit => ([], Exit)
          | UB => ([], UB)
          end
      | Exit => ([], Exit)
      | UB => ([], UB)
      end.

  (* 385-433 resetSystem; rigidbody3dqt4/GLWidget.cpp:481-507 touches neither the movie nor the colours *)
  Definition gl_reset (g : ses) : outcome ses :=
    let s := fst (g_sim0 g) in
    let g1 := with_run g (g_world g) (g_sim0 g) (reset_ifmap (g_ifmap g)) 0 in
    let m0 := e_measure E s in
    let '(cs, ge, rs) := match K with
                         | KBody3 => (g_colours g, g_gen g, g_renderers g)
                         | _ => (all_colours s, all_renderers s)
                         end in
    let g2 := with_show g1 m0 (map (fun _ => 0%R) m0) cs ge rs in
    let g3 := match K with KBody3 => g2 | _ => with_movie g2 (g_fps g2) (g_spf g2) 0 [] end in
    let! g4 := run_start g3 in
    paint g4.

  (* ---- ContentWidget.cpp ---- *)
  (* A check box emits toggled only when its state changes; the FPS box emits valueChanged likewise and keeps its value
     between 1 and 1000 (ContentWidget.cpp:20-50). *)
  Definition clamp_spin (v : N) : N := N.max 1 (N.min v 1000).
  Definition set_spin (g : ses) (v : N) : outcome ses :=
    if clamp_spin v =? g_spin g then Ok g
    else set_fps (with_boxes g (g_at_fps g) (g_lock g) (g_running g) (g_export g) (clamp_spin v) (g_hud g)) (clamp_spin v).
  (* ContentWidget.cpp:83-87 disableMovieExport; 214-217 exportMovieToggled( false ) *)
  Definition export_off (g : ses) : list (seen St) * ses :=
    if g_export g then set_dir (with_boxes g (g_at_fps g) (g_lock g) (g_running g) false (g_spin g) (g_hud g)) []
    else ([], g).
  (* ContentWidget.cpp:195-212 exportMovieToggled( true ); [answer] is the directory the user picks, empty when they cancel *)
  Definition export_on (g : ses) (answer : str) : list (seen St) * ses :=
    match answer with
    | [] => set_dir (with_boxes g (g_at_fps g) (g_lock g) (g_running g) false (g_spin g) (g_hud g)) []
    | _ => set_dir (with_boxes g (g_at_fps g) (g_lock g) (g_running g) true (g_spin g) (g_hud g)) answer
    end.

  (* What the user, or Qt, can do. [UOpen None] is a file that does not exist or does not parse. *)
  Inductive user :=
  | UOpen (file : option (scene St)) (render : bool) | UTick | UStep | UReset | USimulate
  | UExport (answer : str) | UMovie (answer : str) | USpin (v : N)
  | URenderAtFPS (b : bool) | ULock (b : bool) | UHud | UExpose | UImage (name : str).

  Definition no_seen (r : outcome ses) : list (seen St) * outcome ses := ([], r).
  Definition act (g : ses) (u : user) : list (seen St) * outcome ses :=
    match u with
    (* ContentWidget.cpp:115-157 openScene: on success the simulation is stopped, the boxes follow the scene, the movie is switched off *)
    | UOpen None _ => ([], Ok g)
    | UOpen (Some sc) render =>
        match gl_open g sc render with
        | Ok g1 =>
            match set_spin (with_boxes g1 (g_at_fps g1) (g_lock g1) false (g_export g1) (g_spin g1) (g_hud g1)) (g_fps g1) with
            | Ok g2 => let (e, g3) := export_off g2 in (e, Ok g3)
            | Exit => ([], Exit)
            | UB => ([], UB)
            end
        | Exit => ([], Exit)
        | UB => ([], UB)
        end
    (* ContentWidget.cpp:167-181 simulateToggled: the idle timer calls takeStep, 89-94 *)
    | UTick => if g_running g then gl_step g else ([], Ok g)
    | UStep => gl_step g
    (* ContentWidget.cpp:96-102 resetSystem *)
    | UReset => match gl_reset g with
                | Ok g1 => match K with
                           | KBody3 => ([], Ok g1)                    (* no disableMovieExport there *)
                           | _ => let (e, g2) := export_off g1 in (e, Ok g2)
                           end
                | Exit => ([], Exit)
                | UB => ([], UB)
                end
    | USimulate => ([], Ok (with_boxes g (g_at_fps g) (g_lock g) (negb (g_running g)) (g_export g) (g_spin g) (g_hud g)))
    | UExport answer => let (e, g1) := if g_export g then export_off g else export_on g answer in (e, Ok g1)
    (* ContentWidget.cpp:243-248 exportMovie: unchecked, then checked *)
    | UMovie answer => let (e0, g1) := export_off g in let (e1, g2) := export_on g1 answer in (e0 ++ e1, Ok g2)
    | USpin v => no_seen (set_spin g v)
    | URenderAtFPS b => ([], Ok (with_boxes g b (g_lock g) (g_running g) (g_export g) (g_spin g) (g_hud g)))
    | ULock b => ([], Ok (with_boxes g (g_at_fps g) b (g_running g) (g_export g) (g_spin g) (g_hud g)))
    (* 537-542 toggleHUD: paints *)
    | UHud => no_seen (paint (with_boxes g (g_at_fps g) (g_lock g) (g_running g) (g_export g) (g_spin g) (negb (g_hud g))))
    (* a paint event from Qt *)
    | UExpose => no_seen (paint g)
    (* ContentWidget.cpp:232-241 exportImage *)
    | UImage name => (match name with [] => [] | _ => [SShot name (g_painted g)] end, Ok g)
    end.

  Fixpoint play (g : ses) (us : list user) : list (seen St) * outcome ses :=
    match us with
    | [] => ([], Ok g)
    | u :: us' =>
        match act g u with
        | (e, Ok g') => let (e', r) := play g' us' in (e ++ e', r)
        | (e, Exit) => (e, Exit)
        | (e, UB) => (e, UB)
        end
    end.
End Gui.
Arguments UOpen {St}. Arguments UTick {St}. Arguments UStep {St}. Arguments UReset {St}. Arguments USimulate {St}.
Arguments UExport {St}. Arguments UMovie {St}. Arguments USpin {St}. Arguments URenderAtFPS {St}. Arguments ULock {St}.
Arguments UHud {St}. Arguments UExpose {St}. Arguments UImage {St}.
