(* Model of rigidbody2dutils/RigidBody2DSceneParser.cpp, the 2D rigid body scene parser, over the loaders it
   shares with the two other parsers (Scene_Model.v). As there, a document is the tree the XML library
   delivers, and a loader that returns false is [Ok None].

   Floating point: [rnd] as before; whether a computed norm is 0 and the computed mass and inertia of a shape
   are arbitrary functions (RigidBody2DGeometry::computeMassAndInertia has its own theorems). A plane holds
   the normal as given; the program stores it scaled to length 1. There are fewer than 2^31 geometries. *)
From Coq Require Import ZArith QArith Bool Ascii String List.
From Verif Require Import Outcome Str_Model Rational_Model RatParse_Model Scene_Text Scene_Model.
Import ListNotations.
Open Scope string_scope.
Open Scope list_scope.

(* rigidbody2d/CircleGeometry.h, rigidbody2d/BoxGeometry.h *)
Inductive shape2 := Circle (r : Q) | Box (rx ry : ext).

Record arith2 := mkArith2 {
  fp2 :> fpmode;
  zero_norm : ext * ext -> bool;
  shape_mass : shape2 -> Q -> Q * Q }.

(* a <= 0 for a scalar that may be infinite *)
Definition ext_nonpos (e : ext) : bool :=
  match e with Fin q => qle q 0 | NInf => true | PInf => false end.

(* readScalarList( text, 2, ' ', v ): StringUtilities.h:93-111, rejected when it fails *)
Definition vec2_attr (fp : fpmode) (n : node) (a : str) : parse (ext * ext) :=
  let? t := attr n a in
  let? l := read_list (read_ext fp) 2 t in
  match l with
  | [x; y] => accept (x, y)
  | _ => reject
  end.

Record camera_rb2 := mkCamRb2 { rc_center : ext * ext; rc_scale : Q; rc_fps : Z; rc_at_fps : bool; rc_locked : bool }.
(* RigidBody2DSceneParser.cpp:97-186 loadCameraSettings *)
Definition load_camera_rb2 (fp : fpmode) (n : node) : parse camera_rb2 :=
  let? c := vec2_attr fp n "center" in
  let? s := scalar_attr fp n "scale" in
  let? _ := guard (negb (qle s 0)) in
  let? f := int_attr n "fps" in
  let? _ := guard (negb (f <=? 0)%Z) in
  let? a := bool_attr n "render_at_fps" in
  let? l := bool_attr n "locked" in
  accept (mkCamRb2 c s f a l).

(* RigidBody2DSceneParser.cpp:237-281 loadStaticPlanes, one element *)
Definition plane_rb2 : Type := (ext * ext) * (ext * ext).
Definition load_plane_rb2 (ar : arith2) (n : node) : parse plane_rb2 :=
  let? x := vec2_attr ar n "x" in
  let? nn := vec2_attr ar n "n" in
  let? _ := guard (negb (zero_norm ar nn)) in
  accept (x, nn).

(* RigidBody2DSceneParser.cpp:506-560 loadIntegrator: without the element there is no map and the time step
   is 0 *)
Definition load_integrator_rb2 (root : node) : parse (option planar_integrator * str * rational) :=
  match first_node root "integrator" with
  | None => accept (None, lit "0", mkRat 0 1)
  | Some n =>
      let? td := load_dt n in
      let? k := load_planar_kind n in
      accept (Some k, fst td, snd td)
  end.

(* RigidBody2DSceneParser.cpp:848-869 loadMDPOperator *)
Definition load_mdp_rb2 (n : node) : parse friction_op := Exit.

(* RigidBody2DSceneParser.cpp:1073-1254 loadSobogusFrictionSolver *)
Definition load_sobogus_rb2 (fp : fpmode) (n : node) : parse (friction_solver * friction_map * Q * Q) :=
  let? mu := load_mu fp n in
  let? cor := load_cor fp n in
  let? k := load_max_iters n in
  let? e := load_eval_every n k in
  let? tol := load_tol fp n in
  let? cache := load_caching n in
  let? kind := attr n "staggering" in
  if seqb kind "geometric" then accept (Sobogus e, Geometric tol k cache, mu, cor)
  else if seqb kind "stabilized" then accept (Sobogus e, Stabilized tol k, mu, cor)
  else reject.

(* RigidBody2DSceneParser.cpp:1570-1613: the two friction solvers *)
Definition rb2_solvers (fp : fpmode) (bd : build) :=
  [(lit "staggered_projections_friction_solver", load_staggered fp (load_lcp fp bd false) load_mdp_rb2);
   (lit "sobogus_friction_solver", load_sobogus_rb2 fp)].

(* RigidBody2DSceneParser.cpp:1256-1276 loadGravityForce, one element *)
Definition load_gravity_rb2 (fp : fpmode) (n : node) : parse (ext * ext) := vec2_attr fp n "f".

(* RigidBody2DSceneParser.cpp:1278-1338 loadGeometry, one element *)
Definition load_geometry2 (fp : fpmode) (n : node) : parse shape2 :=
  let? type := attr n "type" in
  if seqb type "circle" then
    let? r := scalar_attr fp n "r" in
    let? _ := guard (negb (qle r 0)) in
    accept (Circle r)
  else if seqb type "box" then
    let? r := vec2_attr fp n "r" in
    let? _ := guard (negb (ext_nonpos (fst r) || ext_nonpos (snd r))) in
    accept (Box (fst r) (snd r))
  else reject.

Record body2 := mkBody2 { r2_x : ext * ext; r2_theta : Q; r2_v : ext * ext; r2_omega : Q; r2_rho : Q; r2_geo : nat; r2_fixed : bool }.
(* RigidBody2DSceneParser.cpp:1350-1472, one rigid_body element *)
Definition load_fixed (n : node) : parse bool :=
  match first_attribute n "fixed" with
  | None => accept false
  | Some t => of_option (checked (read_bool t))
  end.
Definition load_body2 (fp : fpmode) (ngeo : nat) (n : node) : parse body2 :=
  let? x := vec2_attr fp n "x" in
  let? th := scalar_attr fp n "theta" in
  let? v := vec2_attr fp n "v" in
  let? om := scalar_attr fp n "omega" in
  let? rho := scalar_attr fp n "rho" in
  let? _ := guard (negb (qle rho 0)) in
  let? g := int_attr n "geo_idx" in
  let? _ := guard (negb ((g <? 0)%Z || (Z.of_nat ngeo <=? g)%Z)) in
  let? f := load_fixed n in
  accept (mkBody2 x th v om rho (Z.to_nat g) f).

(* RigidBody2DSceneParser.cpp:1474-1504: the state vectors, three entries per body; geometry[indices(i)] *)
Definition body_mass (ar : arith2) (geometry : list shape2) (b : body2) : outcome (Q * Q) :=
  match nth_error geometry (r2_geo b) with
  | Some s => Ok (shape_mass ar s (r2_rho b))
  | None => UB
  end.
Definition pack3 {A B} (f : A -> B * B * B) (l : list A) : list B :=
  concat (map (fun b => let '(x, y, z) := f b in [x; y; z]) l).

Record rb2_scene := mkRb2Scene {
  r2s_callback : str;
  r2s_end : option Q;
  r2s_camera : option camera_rb2;
  r2s_integrator : option planar_integrator;
  r2s_dt_text : str;
  r2s_dt : rational;
  r2s_response : response;
  r2s_gravity : list (ext * ext);
  r2s_planes : list plane_rb2;
  r2s_portals : list (plane_rb2 * plane_rb2 * (Q * Q));
  r2s_geometry : list shape2;
  r2s_q : list ext;
  r2s_v : list ext;
  r2s_m : list Q;
  r2s_geo : list nat;
  r2s_fixed : list bool }.

(* RigidBody2DSceneParser.cpp:1520-1656 parseXMLSceneFile, below the root element *)
Definition load_rb2_scene (ar : arith2) (bd : build) (root : node) : parse rb2_scene :=
  let? callback := load_scripting root in
  let? end_time := optional (first_node root "end_time") (load_end_time ar) in
  let? camera := optional (first_node root "camera") (load_camera_rb2 ar) in
  let? ktd := load_integrator_rb2 root in
  let? resp := load_response (load_impact_cor ar bd false) (rb2_solvers ar bd) root in
  let? gravity := each (load_gravity_rb2 ar) (elements root "near_earth_gravity") in
  let? planes := each (load_plane_rb2 ar) (elements root "static_plane") in
  let? pp := load_portals ar (fun b => negb (qlt b 0)) root planes in
  let? geometry := each (load_geometry2 ar) (elements root "geometry") in
  let? bodies := each (load_body2 ar (List.length geometry)) (elements root "rigid_body") in
  let? masses := lift (omapM (body_mass ar geometry) bodies) in
  accept {| r2s_callback := callback; r2s_end := end_time; r2s_camera := camera;
            r2s_integrator := fst (fst ktd); r2s_dt_text := snd (fst ktd); r2s_dt := snd ktd;
            r2s_response := resp; r2s_gravity := gravity;
            r2s_planes := fst pp; r2s_portals := snd pp; r2s_geometry := geometry;
            r2s_q := pack3 (fun b => (fst (r2_x b), snd (r2_x b), Fin (r2_theta b))) bodies;
            r2s_v := pack3 (fun b => (fst (r2_v b), snd (r2_v b), Fin (r2_omega b))) bodies;
            r2s_m := pack3 (fun mi => (fst mi, fst mi, snd mi)) masses;
            r2s_geo := map r2_geo bodies; r2s_fixed := map r2_fixed bodies |}.

(* RigidBody2DSceneParser.cpp:1509-1656 parseXMLSceneFile, from the document on *)
Definition parse_rb2 (ar : arith2) (bd : build) (doc : list node) : parse rb2_scene :=
  let? root := of_option (first_in doc "rigidbody2d_scene") in
  load_rb2_scene ar bd root.
