(* Model of rigidbody3dutils/RigidBody3DSceneParser.cpp, the 3D rigid body scene parser, over the loaders it
   shares with the two planar parsers (Scene_Model.v), and of rigidbody3dutils/XMLExporter.cpp.

   Floating point: [rnd] as before. The computed mass, center of mass, inertia and axes of a shape
   (RigidBodyGeometry::computeMassAndInertia), the product of a rotation vector's matrix with those axes, the
   sum of two points, and whether a mesh file can be read are arbitrary functions. Planes and cylinders hold
   the direction as given; the program stores it scaled to length 1. There are fewer than 2^31 geometries,
   planes and cylinders. std::sort of the plane renderers is modelled by a stable sort (the standard leaves the
   order of renderers of the same plane open). *)
From Coq Require Import ZArith QArith Bool Ascii String List.
From Verif Require Import Outcome Str_Model Rational_Model RatParse_Model Scene_Text Scene_Model Scene2_Model.
Import ListNotations.
Open Scope string_scope.
Open Scope list_scope.

Definition ext3 : Type := ext * ext * ext.
Definition q3 : Type := Q * Q * Q.
Definition rot3 : Type := q3 * q3 * q3.

(* rigidbody3d/Geometry: RigidBodySphere, RigidBodyBox, RigidBodyStaple, RigidBodyTriangleMesh *)
Inductive shape3 := Sphere (r : Q) | Box3 (r : ext3) | Staple (w l d : Q) | Mesh (file : str).

Record moments := mkMoments { mo_M : Q; mo_CM : q3; mo_I : q3; mo_R : rot3 }.
Record arith3 := mkArith3 {
  fp3 :> fpmode;
  readable : str -> bool;
  moment : shape3 -> Q -> moments;
  turn : option ext3 -> rot3 -> rot3;
  plus3 : q3 -> q3 -> q3 }.

(* readScalarList( text, 3, ' ', v ): StringUtilities.h:93-111, rejected when it fails *)
Definition vec3_attr (fp : fpmode) (n : node) (a : str) : parse ext3 :=
  let? t := attr n a in
  let? l := read_list (read_ext fp) 3 t in
  match l with
  | [x; y; z] => accept (x, y, z)
  | _ => reject
  end.

(* RigidBody3DSceneParser.cpp:283-303 (and 305-326, 328-349): while( ss >> input_scalar ), three values *)
Definition triple_attr (fp : fpmode) (n : node) (a : str) : parse q3 :=
  let? t := attr n a in
  match read_scalars fp t with
  | [x; y; z] => accept (x, y, z)
  | _ => reject
  end.

(* ---------------------------------------------------------------- cameras *)
Inductive view3 :=
| NoView
| Perspective (theta phi rho : Q) (lookat up : ext3)
| Orthographic (plane : str) (x : ext3) (scale : Q).
Record camera3 := mkCam3 { c3_view : view3; c3_fps : Z; c3_at_fps : bool; c3_locked : bool }.
(* RenderingState.cpp:75-93: the defaults *)
Definition default_camera3 : camera3 := mkCam3 NoView 60 false false.

(* RigidBody3DSceneParser.cpp:894-1036 loadPerspectiveCameraSettings *)
Definition load_perspective (fp : fpmode) (n : node) : parse camera3 :=
  let? theta := scalar_attr fp n "theta" in
  let? phi := scalar_attr fp n "phi" in
  let? rho := scalar_attr fp n "rho" in
  let? _ := guard (negb (qle rho 0)) in
  let? lookat := vec3_attr fp n "lookat" in
  let? up := vec3_attr fp n "up" in
  let? f := unsigned_attr n "fps" in
  let? a := bool_attr n "render_at_fps" in
  let? l := bool_attr n "locked" in
  accept (mkCam3 (Perspective theta phi rho lookat up) f a l).
(* RigidBody3DSceneParser.cpp:1038-1150 loadOrthographicCameraSettings *)
Definition load_orthographic (fp : fpmode) (n : node) : parse camera3 :=
  let? p := attr n "projection_plane" in
  let? _ := guard (seqb p "xy" || seqb p "zy" || seqb p "zx") in
  let? x := vec3_attr fp n "x" in
  let? s := scalar_attr fp n "scale" in
  let? _ := guard (negb (qle s 0)) in
  let? f := unsigned_attr n "fps" in
  let? a := bool_attr n "render_at_fps" in
  let? l := bool_attr n "locked" in
  accept (mkCam3 (Orthographic p x s) f a l).
(* RigidBody3DSceneParser.cpp:2240-2258: the orthographic settings are read last and overwrite the others *)
Definition load_cameras (fp : fpmode) (root : node) : parse camera3 :=
  let? p := optional (first_node root "camera_perspective") (load_perspective fp) in
  let? o := optional (first_node root "camera_orthographic") (load_orthographic fp) in
  accept (match o, p with Some c, _ => c | None, Some c => c | None, None => default_camera3 end).

(* ---------------------------------------------------------------- integrator and solvers *)
Inductive integrator3 := SplitHam | Dmv | ExponentialEuler.
(* RigidBody3DSceneParser.cpp:1152-1209 loadUnconstrainedMap *)
Definition load_kind3 (n : node) : parse integrator3 :=
  let? t := attr n "type" in
  if seqb t "split_ham" then accept SplitHam
  else if seqb t "dmv" then accept Dmv
  else if seqb t "exponential_euler" then accept ExponentialEuler
  else reject.
Definition load_integrator3 (root : node) : parse (integrator3 * str * rational) :=
  let? n := of_option (first_node root "integrator") in
  let? td := load_dt n in
  let? k := load_kind3 n in
  accept (k, fst td, snd td).

(* RigidBody3DSceneParser.cpp:1439-1457 loadImpactOperator *)
Definition load_impact3 (fp : fpmode) (bd : build) (n : node) : parse (impact_op * Q * option bool) :=
  let? cor := scalar_attr fp n "CoR" in
  let? op := load_impact fp bd false n in
  accept (op, cor, None).
(* RigidBody3DSceneParser.cpp:1459-1536 loadSmoothFrictionOperatorNoMu *)
Definition load_smooth (fp : fpmode) (bd : build) (n : node) : parse friction_op :=
  let? name := attr n "name" in
  if has_ipopt bd && seqb name "ipopt" then
    let? w := load_words n "linear_solvers" in
    let? tol := scalar_attr fp n "tol" in
    let? _ := guard (negb (qlt tol 0)) in
    accept (MdpIpopt w tol)
  else reject.
(* RigidBody3DSceneParser.cpp:1742-1968 loadSobogusFrictionSolver *)
Definition load_sobogus3 (fp : fpmode) (n : node) : parse (friction_solver * friction_map * Q * Q) :=
  let? mu := load_mu fp n in
  let? cor := load_cor fp n in
  let? k := load_max_iters n in
  let? e := load_eval_every n k in
  let? tol := load_tol fp n in
  let? kind := attr n "staggering" in
  if seqb kind "geometric" then accept (Sobogus e, Geometric tol k CacheNone, mu, cor)
  else if seqb kind "symplectic_euler" then
    let? bp := load_stabilization fp n cor in
    let? cache := load_caching n in
    accept (Sobogus e, SymplecticEulerMap tol k cache (fst bp) (snd bp), mu, cor)
  else if seqb kind "stabilized" then accept (Sobogus e, Stabilized tol k, mu, cor)
  else reject.
(* RigidBody3DSceneParser.cpp:1984-2100 loadGRRFrictionSolver *)
Definition load_grr (fp : fpmode) (bd : build) (n : node) : parse (friction_solver * friction_map * Q * Q) :=
  let? mu := load_mu fp n in
  let? cor := load_cor fp n in
  let? i := of_option (first_node n "impact_operator") in
  let? op := load_impact fp bd false i in
  let? f := of_option (first_node n "friction_operator") in
  let? fo := load_smooth fp bd f in
  let? kind := attr n "staggering" in
  if seqb kind "geometric" then accept (GrrFriction op fo, Geometric 0 0 CacheNone, mu, cor)
  else if seqb kind "stabilized" then accept (GrrFriction op fo, Stabilized 0 0, mu, cor)
  else reject.
(* RigidBody3DSceneParser.cpp:2283-2343: the three friction solvers *)
Definition rb3_solvers (fp : fpmode) (bd : build) :=
  [(lit "staggered_projections_friction_solver", load_staggered fp (load_lcp fp bd false) (load_smooth fp bd));
   (lit "sobogus_friction_solver", load_sobogus3 fp);
   (lit "grr_friction_solver", load_grr fp bd)].

(* ---------------------------------------------------------------- forces and boundary *)
(* RigidBody3DSceneParser.cpp:484-504 loadNearEarthGravityForce, one element *)
Definition load_gravity3 (fp : fpmode) (n : node) : parse ext3 := vec3_attr fp n "f".

(* a < b for scalars that may be infinite *)
Definition ext_lt (a b : ext) : bool :=
  match a, b with
  | Fin x, Fin y => qlt x y
  | NInf, NInf => false
  | NInf, _ => true
  | _, PInf => match a with PInf => false | _ => true end
  | _, _ => false
  end.
Record boundary3 := mkBoundary { bd_exit : bool; bd_min : ext3; bd_max : ext3 }.
(* RigidBody3DSceneParser.cpp:2126-2198 loadSimulationBoundary *)
Definition load_boundary (fp : fpmode) (n : node) : parse boundary3 :=
  let? t := attr n "violation_behavior" in
  let? e := of_option (if seqb t "none" then Some false else if seqb t "exit" then Some true else None) in
  let? lo := vec3_attr fp n "min" in
  let? hi := vec3_attr fp n "max" in
  let? _ := guard (let '(x, y, z) := lo in let '(x', y', z') := hi in (ext_lt x x' && ext_lt y y' && ext_lt z z')%bool) in
  accept (mkBoundary e lo hi).

(* ---------------------------------------------------------------- planes, cylinders and how they are drawn *)
Definition plane3 : Type := ext3 * ext3.
(* RigidBody3DSceneParser.cpp:506-547 loadStaticPlanes, one element *)
Definition load_plane3 (fp : fpmode) (n : node) : parse plane3 :=
  let? x := vec3_attr fp n "x" in
  let? nn := vec3_attr fp n "n" in
  accept (x, nn).
Definition cylinder3 : Type := ext3 * ext3 * Q.
(* RigidBody3DSceneParser.cpp:739-795 loadStaticCylinders, one element *)
Definition load_cylinder3 (fp : fpmode) (n : node) : parse cylinder3 :=
  let? x := vec3_attr fp n "x" in
  let? a := vec3_attr fp n "axis" in
  let? r := scalar_attr fp n "R" in
  let? _ := guard (negb (qle r 0)) in
  accept (x, a, r).

Definition ext_neg (e : ext) : bool := match e with Fin q => qlt q 0 | NInf => true | PInf => false end.
(* RigidBody3DSceneParser.cpp:801-843 loadStaticPlaneRenderers, one element: the index is compared with
   > planes.size() *)
Definition load_plane_renderer (fp : fpmode) (nplanes : nat) (n : node) : parse (nat * (ext * ext)) :=
  let? t := attr n "plane" in
  let? i := of_option (checked (read_unsigned 64 t)) in
  let? _ := guard (i <=? Z.of_nat nplanes)%Z in
  let? r := vec2_attr fp n "r" in
  let? _ := guard (negb (ext_neg (fst r)) && negb (ext_neg (snd r))) in
  accept (Z.to_nat i, r).
(* RigidBody3DSceneParser.cpp:849-890 loadStaticCylinderRenderers, one element *)
Definition load_cylinder_renderer (fp : fpmode) (ncyl : nat) (n : node) : parse (nat * Q) :=
  let? t := attr n "cylinder_idx" in
  let? i := of_option (checked (read_unsigned 64 t)) in
  let? _ := guard (i <=? Z.of_nat ncyl)%Z in
  let? l := scalar_attr fp n "L" in
  let? _ := guard (negb (qlt l 0)) in
  accept (Z.to_nat i, l).
(* RenderingState.cpp:150-153 sortPlaneRenderers *)
Fixpoint insert_by {A} (x : nat * A) (l : list (nat * A)) : list (nat * A) :=
  match l with
  | [] => [x]
  | y :: t => if Nat.leb (fst x) (fst y) then x :: l else y :: insert_by x t
  end.
Definition sort_by {A} (l : list (nat * A)) : list (nat * A) := fold_right insert_by [] l.

(* ---------------------------------------------------------------- portals *)
(* RigidBody3DSceneParser.cpp:632-651: the multiplier of a portal *)
Definition load_multiplier (n : node) : parse (Z * Z * Z) :=
  let? t := attr n "multiplier" in
  let? l := read_list read_ext_int 3 t in
  match l with
  | [x; y; z] =>
      let? _ := guard (forallb (fun k => negb ((k <? -1) || (k =? 0) || (1 <? k)))%Z [x; y; z]) in
      accept (x, y, z)
  | _ => reject
  end.

Definition zero2 : ext * ext := (Fin 0, Fin 0).
Definition ext_zero (e : ext) : bool := match e with Fin q => Qeq_bool q 0 | _ => false end.
(* RigidBody3DSceneParser.cpp:657-669: the half widths a portal is drawn with *)
Definition half_widths (ab : nat * nat) (rs : list (nat * (ext * ext))) : (ext * ext) * (ext * ext) :=
  fold_left (fun h r => if Nat.eqb (fst r) (fst ab) then (snd r, snd h)
                        else if Nat.eqb (fst r) (snd ab) then (fst h, snd r) else h) rs (zero2, zero2).
(* RigidBody3DSceneParser.cpp:654-674: portal renderers *)
Fixpoint portal_renderers (i : nat) (links : list (nat * nat)) (rs : list (nat * (ext * ext)))
  : list (nat * ((ext * ext) * (ext * ext))) :=
  match links with
  | [] => []
  | ab :: t =>
      let h := half_widths ab rs in
      let r := portal_renderers (S i) t rs in
      if forallb ext_zero [fst (fst h); snd (fst h); fst (snd h); snd (snd h)] then r else (i, h) :: r
  end.
(* RigidBody3DSceneParser.cpp:690-697: the renderers of a removed plane are deleted *)
Definition drop_renderers (removed : list nat) (rs : list (nat * (ext * ext))) : list (nat * (ext * ext)) :=
  fold_left (fun l i => filter (fun r => negb (Nat.eqb (fst r) i)) l) (rev removed) rs.
(* RigidBody3DSceneParser.cpp:711-722: for a removed plane i, the first renderer with a larger index, and the
   renumbering of all renderers from there on; [old] are the indices before renumbering *)
Fixpoint first_larger (i : nat) (old : list nat) : nat :=
  match old with
  | [] => 0
  | j :: t => if Nat.ltb i j then 0 else S (first_larger i t)
  end.
Definition renumber_one (old : list nat) (new : list nat) (i : nat) : list nat :=
  let j := first_larger i old in firstn j new ++ map pred (skipn j new).
(* RigidBody3DSceneParser.cpp:699-727 *)
Definition renumber (removed : list nat) (rs : list (nat * (ext * ext))) : list (nat * (ext * ext)) :=
  combine (fold_left (renumber_one (map fst rs)) (rev removed) (map fst rs)) (map snd rs).

Record drawn := mkDrawn {
  dr_planes : list plane3;
  dr_portals : list (plane3 * plane3 * (Z * Z * Z));
  dr_plane_rend : list (nat * (ext * ext));
  dr_portal_rend : list (nat * ((ext * ext) * (ext * ext))) }.
(* RigidBody3DSceneParser.cpp:549-737 loadPlanarPortals *)
Definition load_portals3 (root : node) (planes : list plane3) (rs : list (nat * (ext * ext))) : parse drawn :=
  match elements root "planar_portal" with
  | [] => accept (mkDrawn planes [] rs [])
  | pl =>
      let np := List.length planes in
      let? _ := guard (negb (Nat.ltb np 2)) in
      let? links := load_links load_multiplier np [] pl in
      let? portals := lift (omapM (join_planes planes) links) in
      let removed := isort (flat (map fst links)) in
      let? rest := lift (erase_all planes (flat (map fst links))) in
      accept (mkDrawn rest portals (renumber removed (drop_renderers removed rs)) (portal_renderers 0 (map fst links) rs))
  end.

(* ---------------------------------------------------------------- bodies *)
(* RigidBody3DSceneParser.cpp:128-266: one geometry element *)
Definition load_geometry3 (ar : arith3) (n : node) : parse shape3 :=
  let? type := attr n "type" in
  if seqb type "sphere" then
    let? r := scalar_attr ar n "r" in
    let? _ := guard (negb (qle r 0)) in
    accept (Sphere r)
  else if seqb type "box" then
    let? r := vec3_attr ar n "r" in
    let? _ := guard (let '(x, y, z) := r in negb (ext_nonpos x || ext_nonpos y || ext_nonpos z)) in
    accept (Box3 r)
  else if seqb type "staple" then
    let? w := scalar_attr ar n "w" in
    let? _ := guard (negb (qle w 0)) in
    let? l := scalar_attr ar n "l" in
    let? _ := guard (negb (qle l 0)) in
    let? d := scalar_attr ar n "D" in
    let? _ := guard (negb (qle d 0)) in
    let? _ := guard (negb (qlt w d || qlt l d)) in
    accept (Staple w l d)
  else if seqb type "mesh" then
    let? f := attr n "filename" in
    let? _ := guard (readable ar f) in
    accept (Mesh f)
  else reject.

(* RigidBody3DSceneParser.cpp:383-418: the index of a body's geometry; a negative one counts from the end; the
   absolute value of the smallest int is undefined *)
Definition load_geo_idx (ngeo : nat) (n : node) : parse nat :=
  let? g := int_attr n "geo_idx" in
  if (g <? 0)%Z then
    if (g =? int_min)%Z then UB
    else let? _ := guard (negb (Z.of_nat ngeo <? Z.abs g)%Z) in
         accept (Z.to_nat (Z.of_nat ngeo + g))
  else let? _ := guard (negb (Z.of_nat ngeo <=? g)%Z) in
       accept (Z.to_nat g).

Record body3 := mkBody3 { r3_x : q3; r3_v : q3; r3_omega : q3; r3_rho : Q; r3_fixed : bool; r3_geo : nat; r3_R : option ext3 }.
(* RigidBody3DSceneParser.cpp:280-447, one rigid_body_with_density element *)
Definition load_body3 (fp : fpmode) (ngeo : nat) (n : node) : parse body3 :=
  let? x := triple_attr fp n "x" in
  let? v := triple_attr fp n "v" in
  let? om := triple_attr fp n "omega" in
  let? rho := scalar_attr fp n "rho" in
  let? f := bool_attr n "fixed" in
  let? g := load_geo_idx ngeo n in
  let? r := match first_attribute n "R" with
            | None => accept None
            | Some _ => let? r := vec3_attr fp n "R" in accept (Some r)
            end in
  accept (mkBody3 x v om rho f g r).

Record placed := mkPlaced { pl_x : q3; pl_R : rot3; pl_M : Q; pl_I : q3 }.
(* RigidBody3DSceneParser.cpp:449-464: what a body's geometry adds *)
Definition place (ar : arith3) (geometry : list shape3) (b : body3) : outcome placed :=
  match nth_error geometry (r3_geo b) with
  | Some s => let m := moment ar s (r3_rho b) in
              Ok (mkPlaced (plus3 ar (r3_x b) (mo_CM m)) (turn ar (r3_R b) (mo_R m)) (mo_M m) (mo_I m))
  | None => UB
  end.

Definition entries3 (v : q3) : list Q := let '(x, y, z) := v in [x; y; z].
Definition entries9 (r : rot3) : list Q := let '(a, b, c) := r in entries3 a ++ entries3 b ++ entries3 c.

Record rb3_scene := mkRb3Scene {
  r3s_callback : str;
  r3s_end : option Q;
  r3s_gravity : list ext3;
  r3s_camera : camera3;
  r3s_integrator : integrator3;
  r3s_dt_text : str;
  r3s_dt : rational;
  r3s_response : response;
  r3s_boundary : option boundary3;
  r3s_cylinders : list cylinder3;
  r3s_cylinder_rend : list (nat * Q);
  r3s_drawn : drawn;
  r3s_geometry : list shape3;
  r3s_q : list Q;
  r3s_v : list Q;
  r3s_M : list Q;
  r3s_I : list q3;
  r3s_geo : list nat;
  r3s_fixed : list bool }.

(* RigidBody3DSceneParser.cpp:2218-2403 parseXMLSceneFile, below the root element; q, v: RigidBody3DState.cpp:254-287
   setState. Without an element for it the boundary is the default one. *)
Definition load_rb3_scene (ar : arith3) (bd : build) (root : node) : parse rb3_scene :=
  let? callback := load_scripting root in
  let? end_time := optional (first_node root "end_time") (load_end_time ar) in
  let? gravity := each (load_gravity3 ar) (elements root "near_earth_gravity") in
  let? camera := load_cameras ar root in
  let? ktd := load_integrator3 root in
  let? resp := load_response (load_impact3 ar bd) (rb3_solvers ar bd) root in
  let? boundary := optional (first_node root "simulation_boundary") (load_boundary ar) in
  let? planes := each (load_plane3 ar) (elements root "static_plane") in
  let? cylinders := each (load_cylinder3 ar) (elements root "static_cylinder") in
  let? prend := each (load_plane_renderer ar (List.length planes)) (elements root "static_plane_renderer") in
  let? crend := each (load_cylinder_renderer ar (List.length cylinders)) (elements root "static_cylinder_renderer") in
  let? dr := load_portals3 root planes (sort_by prend) in
  let? geometry := each (load_geometry3 ar) (elements root "geometry") in
  let? bodies := each (load_body3 ar (List.length geometry)) (elements root "rigid_body_with_density") in
  let? ps := lift (omapM (place ar geometry) bodies) in
  accept {| r3s_callback := callback; r3s_end := end_time; r3s_gravity := gravity; r3s_camera := camera;
            r3s_integrator := fst (fst ktd); r3s_dt_text := snd (fst ktd); r3s_dt := snd ktd;
            r3s_response := resp; r3s_boundary := boundary; r3s_cylinders := cylinders; r3s_cylinder_rend := crend;
            r3s_drawn := dr; r3s_geometry := geometry;
            r3s_q := concat (map (fun p => entries3 (pl_x p)) ps) ++ concat (map (fun p => entries9 (pl_R p)) ps);
            r3s_v := concat (map (fun b => entries3 (r3_v b)) bodies) ++ concat (map (fun b => entries3 (r3_omega b)) bodies);
            r3s_M := map pl_M ps; r3s_I := map pl_I ps;
            r3s_geo := map r3_geo bodies; r3s_fixed := map r3_fixed bodies |}.

(* RigidBody3DSceneParser.cpp:2202-2404 parseXMLSceneFile, from the document on *)
Definition parse_rb3 (ar : arith3) (bd : build) (doc : list node) : parse rb3_scene :=
  let? root := of_option (first_in doc "rigidbody3d_scene") in
  load_rb3_scene ar bd root.

(* ---------------------------------------------------------------- the exporter *)
(* What XMLExporter::saveToXMLFile reads of a body: center of mass, rotation vector of its orientation,
   velocities, mass over volume, fixed flag and geometry index *)
Record exported_body := mkExported { e_x : q3; e_R : q3; e_v : q3; e_omega : q3; e_rho : Q; e_fixed : bool; e_geo : nat }.
(* XMLExporter.cpp:26-81 saveToXMLFile: the elements it writes; [print] is the formatting of a scalar. Box and
   staple geometries end the program. *)
Definition export_triple (print : Q -> str) (v : q3) : str :=
  let '(x, y, z) := v in print x ++ lit " " ++ print y ++ lit " " ++ print z.
Definition export_geometry (print : Q -> str) (s : shape3) : outcome node :=
  match s with
  | Sphere r => Ok (Node "geometry" [(lit "type", lit "sphere"); (lit "r", print r)] [])
  | Mesh f => Ok (Node "geometry" [(lit "type", lit "mesh"); (lit "filename", f)] [])
  | Box3 _ | Staple _ _ _ => Exit
  end.
Definition export_body (print : Q -> str) (print_nat : nat -> str) (b : exported_body) : node :=
  Node "rigid_body_with_density"
    [(lit "x", export_triple print (e_x b)); (lit "R", export_triple print (e_R b)); (lit "v", export_triple print (e_v b));
     (lit "omega", export_triple print (e_omega b)); (lit "rho", print (e_rho b));
     (lit "fixed", if e_fixed b then lit "1" else lit "0"); (lit "geo_idx", print_nat (e_geo b))] [].
Definition export_scene (print : Q -> str) (print_nat : nat -> str) (geometry : list shape3) (bodies : list exported_body)
  : outcome (list node) :=
  let! gs := omapM (export_geometry print) geometry in
  Ok [Node "rigidbody3d_scene" [] (gs ++ map (export_body print print_nat) bodies)].
