(* Model of the scene parsers: the parts the three parsers share (loaders that are the same text in
   ball2dutils/Ball2DSceneParser.cpp, rigidbody2dutils/RigidBody2DSceneParser.cpp and
   rigidbody3dutils/RigidBody3DSceneParser.cpp) and the whole of the 2D ball parser.

   The XML library is not modelled: a document is the tree it delivers (element names, attributes and child
   elements in file order; text between elements is never looked at). Error messages are dropped. A loader
   that returns false is [Ok None], std::exit is [Exit]. The optional libraries are build flags. *)
From Coq Require Import ZArith QArith Bool Ascii String List.
From Verif Require Import Outcome Str_Model Rational_Model RatParse_Model Scene_Text.
Import ListNotations.
Open Scope string_scope.
Open Scope list_scope.

(* ---------------------------------------------------------------- XML trees *)
Inductive node := Node (name : str) (attrs : list (str * str)) (children : list node).
Definition name_of (n : node) : str := let 'Node a _ _ := n in a.
Definition attrs_of (n : node) : list (str * str) := let 'Node _ a _ := n in a.
Definition children_of (n : node) : list node := let 'Node _ _ c := n in c.

(* xml_node::first_attribute( name ) *)
Definition first_attribute (n : node) (a : str) : option str :=
  option_map snd (find (fun p => seqb (fst p) a) (attrs_of n)).
(* xml_node::first_node( name ) *)
Definition first_in (l : list node) (a : str) : option node := find (fun c => seqb (name_of c) a) l.
Definition first_node (n : node) (a : str) : option node := first_in (children_of n) a.
(* for( nd = node.first_node( name ); nd; nd = nd->next_sibling( name ) ) *)
Definition elements (n : node) (a : str) : list node := filter (fun c => seqb (name_of c) a) (children_of n).

(* ---------------------------------------------------------------- loaders that may return false *)
Definition parse (A : Type) : Type := outcome (option A).
Definition accept {A} (a : A) : parse A := Ok (Some a).
Definition reject {A} : parse A := Ok None.
Definition pbind {A B} (x : parse A) (f : A -> parse B) : parse B :=
  obind x (fun o => match o with Some a => f a | None => Ok None end).
Notation "'let?' x ':=' e 'in' f" := (pbind e (fun x => f))
  (at level 200, x pattern, e at level 100, f at level 200, right associativity) : outcome_scope.
Definition of_option {A} (o : option A) : parse A := Ok o.
Definition guard (b : bool) : parse unit := if b then accept tt else reject.
Definition lift {A} (x : outcome A) : parse A := let! a := x in accept a.
Fixpoint each {A} (f : node -> parse A) (l : list node) : parse (list A) :=
  match l with
  | [] => accept []
  | n :: t => let? a := f n in let? r := each f t in accept (a :: r)
  end.
(* an optional element, loaded when present *)
Definition optional {A} (o : option node) (f : node -> parse A) : parse (option A) :=
  match o with
  | None => accept None
  | Some n => let? a := f n in accept (Some a)
  end.

Definition qle (a b : Q) : bool := Qle_bool a b.
Definition qlt (a b : Q) : bool := negb (Qle_bool b a).

(* an attribute that has to be there *)
Definition attr (n : node) (a : str) : parse str := of_option (first_attribute n a).
(* ... read with extractFromString, rejected when that fails *)
Definition scalar_attr (fp : fpmode) (n : node) (a : str) : parse Q :=
  let? t := attr n a in of_option (checked (read_scalar fp t)).
Definition bool_attr (n : node) (a : str) : parse bool :=
  let? t := attr n a in of_option (checked (read_bool t)).
Definition int_attr (n : node) (a : str) : parse Z :=
  let? t := attr n a in of_option (checked (read_int t)).
Definition unsigned_attr (n : node) (a : str) : parse Z :=
  let? t := attr n a in of_option (checked (read_unsigned 32 t)).
(* ... read with extractFromString, whose result is ignored *)
Definition loose_scalar (fp : fpmode) (n : node) (a : str) : parse Q :=
  let? t := attr n a in lift (unchecked (read_scalar fp t)).
Definition loose_bool (n : node) (a : str) : parse bool :=
  let? t := attr n a in lift (unchecked (read_bool t)).

(* ---------------------------------------------------------------- reading the file *)
(* Ball2DSceneParser.cpp:53-73 loadTextFileIntoVector (the same in the two other parsers): the lines are
   appended one after the other, without the line feeds that end them. *)
Definition newline : ascii := "010"%char.
Definition load_text (file : str) : str := filter (fun c => negb (Ascii.eqb c newline)) file.

(* ---------------------------------------------------------------- settings shared by the parsers *)
(* Ball2DSceneParser.cpp:194-216 and 1503-1510, RigidBody2DSceneParser.cpp:188-212,
   RigidBody3DSceneParser.cpp:2102-2124 loadEndTime; None is the default, infinity *)
Definition load_end_time (fp : fpmode) (n : node) : parse Q :=
  let? t := scalar_attr fp n "t" in
  let? _ := guard (negb (qle t 0)) in
  accept t.

(* Ball2DSceneParser.cpp:218-239 loadScriptingSetup (the same in the two other parsers) *)
Definition load_scripting (root : node) : parse str :=
  match first_node root "scripting" with
  | None => accept []
  | Some n => attr n "callback"
  end.

(* The time step of Ball2DSceneParser.cpp:602-615 and RigidBody{2,3}DSceneParser.cpp *)
Definition load_dt (n : node) : parse (str * rational) :=
  let? t := attr n "dt" in
  let? dt := parse_rational t in
  let? _ := guard (positive dt) in
  accept (t, dt).

(* which optional solver libraries the program was built with: QL_FOUND, IPOPT_FOUND *)
Record build := mkBuild { has_ql : bool; has_ipopt : bool }.

Inductive lcp_solver :=
| Apgd (tol : Q) (max_iters : Z)
| QlVp (tol : Q)
| Ql (tol : Q)
| Ipopt (linear_solvers : list str) (tol : Q).

(* the ipopt branch, Ball2DSceneParser.cpp:724-770 *)
Definition load_words (n : node) (a : str) : parse (list str) :=
  let? t := attr n a in
  match read_words t with
  | [] => reject
  | w => accept w
  end.

(* Ball2DSceneParser.cpp:642-779 loadLCPSolver; RigidBody2DSceneParser.cpp:562-674 and
   RigidBody3DSceneParser.cpp:1211-1323 are the same without the apgd branch ([apgd] false) *)
Definition load_lcp (fp : fpmode) (bd : build) (apgd : bool) (n : node) : parse lcp_solver :=
  let? name := attr n "name" in
  if apgd && seqb name "apgd" then
    let? tol := scalar_attr fp n "tol" in
    let? _ := guard (negb (qle tol 0)) in
    let? it := unsigned_attr n "max_iters" in
    accept (Apgd tol it)
  else if has_ql bd && seqb name "ql_vp" then
    let? tol := scalar_attr fp n "tol" in accept (QlVp tol)
  else if has_ql bd && seqb name "ql" then
    let? tol := scalar_attr fp n "tol" in accept (Ql tol)
  else if has_ipopt bd && seqb name "ipopt" then
    let? w := load_words n "linear_solvers" in
    let? tol := scalar_attr fp n "tol" in
    let? _ := guard (negb (qle tol 0)) in
    accept (Ipopt w tol)
  else reject.

Inductive impact_op :=
| GaussSeidel (v_tol : Q)
| Jacobi (v_tol : Q)
| Lcp (s : lcp_solver)
| Gr (v_tol : Q) (s : lcp_solver)
| Grr (elastic inelastic : impact_op).

(* Ball2DSceneParser.cpp:802-816: the tolerance three of the operators need *)
Definition load_v_tol (fp : fpmode) (n : node) : parse Q :=
  let? v := scalar_attr fp n "v_tol" in
  let? _ := guard (negb (qlt v 0)) in
  accept v.
Definition load_inner (fp : fpmode) (bd : build) (apgd : bool) (n : node) : parse lcp_solver :=
  match first_node n "solver" with
  | None => reject
  | Some s => load_lcp fp bd apgd s
  end.

(* Ball2DSceneParser.cpp:782-893, RigidBody2DSceneParser.cpp:677-788, RigidBody3DSceneParser.cpp:1326-1437
   loadImpactOperatorNoCoR; the inner loops are first_node( "elastic_operator" ) and
   first_node( "inelastic_operator" ) *)
Fixpoint load_impact (fp : fpmode) (bd : build) (apgd : bool) (n : node) : parse impact_op :=
  let? type := attr n "type" in
  if seqb type "gauss_seidel" then let? v := load_v_tol fp n in accept (GaussSeidel v)
  else if seqb type "jacobi" then let? v := load_v_tol fp n in accept (Jacobi v)
  else if seqb type "lcp" then let? s := load_inner fp bd apgd n in accept (Lcp s)
  else if seqb type "gr" then
    let? v := load_v_tol fp n in let? s := load_inner fp bd apgd n in accept (Gr v s)
  else if seqb type "grr" then
    let? e := (fix go (l : list node) : parse impact_op :=
                 match l with
                 | [] => reject
                 | c :: t => if seqb (name_of c) "elastic_operator" then load_impact fp bd apgd c else go t
                 end) (children_of n) in
    let? i := (fix go (l : list node) : parse impact_op :=
                 match l with
                 | [] => reject
                 | c :: t => if seqb (name_of c) "inelastic_operator" then load_impact fp bd apgd c else go t
                 end) (children_of n) in
    accept (Grr e i)
  else reject.

Inductive friction_op :=
| MdpQl (tol : Q)
| MdpIpopt (linear_solvers : list str) (tol : Q).

Inductive caching := CacheNone | CacheNormal | CacheBoth.

Inductive friction_solver :=
| Staggered (warm_alpha warm_beta : bool) (impact : lcp_solver) (friction : friction_op)
| Sobogus (eval_every : Z)
| GrrFriction (impact : impact_op) (friction : friction_op).

Inductive friction_map :=
| Geometric (tol : Q) (max_iters : Z) (cache : caching)
| SymplecticEulerMap (tol : Q) (max_iters : Z) (cache : caching) (stabilize : bool) (threshold : Q)
| Stabilized (tol : Q) (max_iters : Z).

(* What happens at contacts: nothing, an impact operator with its coefficient of restitution (and, in the two
   planar parsers, whether impulses are cached), or a friction solver. *)
Inductive response :=
| NoResponse
| Impact (op : impact_op) (CoR : Q) (cache : option bool)
| Friction (s : friction_solver) (m : friction_map) (mu CoR : Q).

(* Ball2DSceneParser.cpp:996-1044 and the same texts in the other friction solver loaders *)
Definition load_mu (fp : fpmode) (n : node) : parse Q :=
  let? mu := scalar_attr fp n "mu" in
  let? _ := guard (negb (qlt mu 0)) in
  accept mu.
Definition load_cor (fp : fpmode) (n : node) : parse Q :=
  let? c := scalar_attr fp n "CoR" in
  let? _ := guard (negb (qlt c 0 || qlt 1 c)) in
  accept c.
(* Ball2DSceneParser.cpp:1123-1166, 1243-1262, 1301-1321 *)
Definition load_tol (fp : fpmode) (n : node) : parse Q :=
  let? t := scalar_attr fp n "tol" in
  let? _ := guard (negb (qlt t 0)) in
  accept t.
Definition load_max_iters (n : node) : parse Z :=
  let? k := int_attr n "max_iters" in
  let? _ := guard (negb (k <=? 0)%Z) in
  accept k.

(* Ball2DSceneParser.cpp:992-1191, RigidBody2DSceneParser.cpp:876-1071, RigidBody3DSceneParser.cpp:1543-1740
   loadStaggeredProjectionsFrictionSolver, over the loaders of the two operators *)
Definition load_staggered (fp : fpmode) (lcp : node -> parse lcp_solver) (mdp : node -> parse friction_op)
  (n : node) : parse (friction_solver * friction_map * Q * Q) :=
  let? mu := load_mu fp n in
  let? cor := load_cor fp n in
  let? wa := bool_attr n "internal_warm_start_alpha" in
  let? wb := bool_attr n "internal_warm_start_beta" in
  let? li := of_option (first_node n "lcp_impact_solver") in
  let? l := lcp li in
  let? mi := of_option (first_node n "mdp_friction_solver") in
  let? m := mdp mi in
  let? kind := attr n "staggering" in
  let? tol := load_tol fp n in
  let? k := load_max_iters n in
  if seqb kind "geometric" then accept (Staggered wa wb l m, Geometric tol k CacheNone, mu, cor)
  else if seqb kind "stabilized" then accept (Staggered wa wb l m, Stabilized tol k, mu, cor)
  else reject.

(* The common head of the three loadSobogusFrictionSolver: Ball2DSceneParser.cpp:1195-1321,
   RigidBody2DSceneParser.cpp:1075-1201, RigidBody3DSceneParser.cpp:1744-1870 *)
Definition load_eval_every (n : node) (k : Z) : parse Z :=
  let? e := int_attr n "eval_every" in
  let? _ := guard (negb (e <=? 0)%Z) in
  let? _ := guard (negb (k <? e)%Z) in
  accept e.
(* Ball2DSceneParser.cpp:1324-1351: the caching option; anything else than the three words exits *)
Definition load_caching (n : node) : parse caching :=
  let? t := attr n "cache_impulses" in
  if seqb t "none" then accept CacheNone
  else if seqb t "normal" then accept CacheNormal
  else if seqb t "normal_and_friction" then accept CacheBoth
  else Exit.
(* Ball2DSceneParser.cpp:1369-1408, RigidBody3DSceneParser.cpp:1889-1922: stabilization settings *)
Definition load_stabilization (fp : fpmode) (n : node) (cor : Q) : parse (bool * Q) :=
  let? _ := guard (Qeq_bool cor 0) in
  let? b := bool_attr n "stabilization" in
  let? p := scalar_attr fp n "penetration_threshold" in
  let? _ := guard (negb (qlt p 0)) in
  accept (b, p).

(* Ball2DSceneParser.cpp:1193-1424 loadSobogusFrictionSolver *)
Definition load_sobogus_ball (fp : fpmode) (n : node) : parse (friction_solver * friction_map * Q * Q) :=
  let? mu := load_mu fp n in
  let? cor := load_cor fp n in
  let? k := load_max_iters n in
  let? e := load_eval_every n k in
  let? tol := load_tol fp n in
  let? cache := load_caching n in
  let? kind := attr n "staggering" in
  if seqb kind "geometric" then accept (Sobogus e, Geometric tol k cache, mu, cor)
  else if seqb kind "symplectic_euler" then
    let? bp := load_stabilization fp n cor in
    accept (Sobogus e, SymplecticEulerMap tol k cache (fst bp) (snd bp), mu, cor)
  else if seqb kind "stabilized" then
    match cache with
    | CacheNone => accept (Sobogus e, Stabilized tol k, mu, cor)
    | _ => Exit
    end
  else reject.

(* Ball2DSceneParser.cpp:895-930, RigidBody2DSceneParser.cpp:790-825 loadImpactOperator *)
Definition load_impact_cor (fp : fpmode) (bd : build) (apgd : bool) (n : node) : parse (impact_op * Q * option bool) :=
  let? cor := scalar_attr fp n "CoR" in
  let? cache := bool_attr n "cache_impulses" in
  let? op := load_impact fp bd apgd n in
  accept (op, cor, Some cache).

(* Ball2DSceneParser.cpp:1531-1590, RigidBody2DSceneParser.cpp:1551-1613, RigidBody3DSceneParser.cpp:2262-2343:
   at most one impact operator or friction solver; [solvers] lists the friction solver elements in the order
   in which they are looked for *)
Fixpoint load_solvers (root : node) (busy : bool)
  (solvers : list (str * (node -> parse (friction_solver * friction_map * Q * Q)))) (r : response)
  : parse response :=
  match solvers with
  | [] => accept r
  | (a, f) :: t =>
      match first_node root a with
      | None => load_solvers root busy t r
      | Some n =>
          if busy then reject
          else let? x := f n in
               let '(s, m, mu, cor) := x in
               load_solvers root true t (Friction s m mu cor)
      end
  end.
Definition load_response (impact : node -> parse (impact_op * Q * option bool))
  (solvers : list (str * (node -> parse (friction_solver * friction_map * Q * Q)))) (root : node)
  : parse response :=
  match first_node root "impact_operator" with
  | None => load_solvers root false solvers NoResponse
  | Some n => let? x := impact n in
              let '(op, cor, cache) := x in
              load_solvers root true solvers (Impact op cor cache)
  end.

(* ---------------------------------------------------------------- portals *)
(* Ball2DSceneParser.cpp:393-447 (planar_portal) and 457-512 (lees_edwards_portal),
   RigidBody2DSceneParser.cpp, RigidBody3DSceneParser.cpp:570-628: the two plane indices of a portal *)
Definition taken (i : nat) (used : list (nat * nat)) : bool :=
  existsb (fun p => (Nat.eqb i (fst p) || Nat.eqb i (snd p))%bool) used.
Definition plane_index (nplanes : nat) (n : node) (a : str) : parse nat :=
  let? i := unsigned_attr n a in
  let? _ := guard (i <? Z.of_nat nplanes)%Z in
  accept (Z.to_nat i).
Definition portal_indices (nplanes : nat) (used : list (nat * nat)) (n : node) : parse (nat * nat) :=
  let? a := plane_index nplanes n "planeA" in
  let? b := plane_index nplanes n "planeB" in
  let? _ := guard (negb (Nat.eqb a b)) in
  let? _ := guard (negb (taken a used || taken b used)) in
  accept (a, b).

(* the loops over the portal elements: [extra] reads what follows the indices *)
Fixpoint load_links {E} (extra : node -> parse E) (nplanes : nat) (used : list (nat * nat)) (l : list node)
  : parse (list (nat * nat * E)) :=
  match l with
  | [] => accept []
  | n :: t =>
      let? ab := portal_indices nplanes used n in
      let? e := extra n in
      let? r := load_links extra nplanes (used ++ [ab]) t in
      accept ((ab, e) :: r)
  end.

(* std::sort of the indices *)
Fixpoint insert (x : nat) (l : list nat) : list nat :=
  match l with
  | [] => [x]
  | y :: t => if Nat.leb x y then x :: l else y :: insert x t
  end.
Definition isort (l : list nat) : list nat := fold_right insert [] l.
(* planes.erase( planes.begin() + i ) *)
Definition erase_at {A} (l : list A) (i : nat) : outcome (list A) :=
  if Nat.ltb i (List.length l) then Ok (firstn i l ++ skipn (S i) l) else UB.
(* Ball2DSceneParser.cpp:567-581: the planes that became portals are erased, the highest index first *)
Definition erase_all {A} (l : list A) (idx : list nat) : outcome (list A) :=
  ofold erase_at (rev (isort idx)) l.
Definition flat (ls : list (nat * nat)) : list nat := concat (map (fun p => [fst p; snd p]) ls).

(* Ball2DSceneParser.cpp:562-565: planes[i] *)
Definition plane_at {P} (planes : list P) (i : nat) : outcome P :=
  match nth_error planes i with Some p => Ok p | None => UB end.
Definition join_planes {P E} (planes : list P) (l : nat * nat * E) : outcome (P * P * E) :=
  let! a := plane_at planes (fst (fst l)) in
  let! b := plane_at planes (snd (fst l)) in
  Ok (a, b, snd l).

(* Ball2DSceneParser.cpp:519-556 and RigidBody2DSceneParser.cpp:436-478: velocity and bounds of a Lees-Edwards
   portal; [bounds_ok] is the check on the bounds *)
Definition load_lees_edwards (fp : fpmode) (bounds_ok : Q -> bool) (n : node) : parse (Q * Q) :=
  let? v := scalar_attr fp n "v" in
  let? b := scalar_attr fp n "bounds" in
  let? _ := guard (bounds_ok b) in
  accept (v, b).

(* Ball2DSceneParser.cpp:369-585, RigidBody2DSceneParser.cpp:284-504 loadPlanarPortals: the planes that are
   left and the portals *)
Definition load_portals {P} (fp : fpmode) (bounds_ok : Q -> bool) (root : node) (planes : list P)
  : parse (list P * list (P * P * (Q * Q))) :=
  match elements root "planar_portal", elements root "lees_edwards_portal" with
  | [], [] => accept (planes, [])
  | pl, le =>
      let np := List.length planes in
      let? _ := guard (negb (Nat.ltb np 2)) in
      let? l1 := load_links (fun _ => accept (0%Q, 0%Q)) np [] pl in
      let? l2 := load_links (load_lees_edwards fp bounds_ok) np (map fst l1) le in
      let links := l1 ++ l2 in
      let? portals := lift (omapM (join_planes planes) links) in
      let? rest := lift (erase_all planes (flat (map fst links))) in
      accept (rest, portals)
  end.

(* ---------------------------------------------------------------- 2D balls *)
Record ball := mkBall { b_x : Q * Q; b_v : Q * Q; b_m : Q; b_r : Q; b_fixed : bool }.

(* Ball2DSceneParser.cpp:241-289 loadBalls, one element *)
Definition load_ball (fp : fpmode) (n : node) : parse ball :=
  let? x := loose_scalar fp n "x" in
  let? y := loose_scalar fp n "y" in
  let? vx := loose_scalar fp n "vx" in
  let? vy := loose_scalar fp n "vy" in
  let? m := loose_scalar fp n "m" in
  let? r := loose_scalar fp n "r" in
  let? f := loose_bool n "fixed" in
  accept (mkBall (x, y) (vx, vy) m r f).

(* Ball2DSceneParser.cpp:291-316 loadStaticDrums, one element *)
Definition load_drum (fp : fpmode) (n : node) : parse (Q * Q * Q) :=
  let? x := loose_scalar fp n "x" in
  let? y := loose_scalar fp n "y" in
  let? r := loose_scalar fp n "r" in
  accept (x, y, r).

(* Ball2DSceneParser.cpp:324-341, 344-361: two components read with a while loop *)
Definition pair_attr (fp : fpmode) (n : node) (a : str) : parse (Q * Q) :=
  let? t := attr n a in
  match read_scalars fp t with
  | [x; y] => accept (x, y)
  | _ => reject
  end.
(* Ball2DSceneParser.cpp:318-366 loadStaticPlanes, one element: a point and the normal, as given (the
   StaticPlane constructor scales the normal to length 1) *)
Definition load_plane_ball (fp : fpmode) (n : node) : parse (Q * Q * (Q * Q)) :=
  let? x := pair_attr fp n "x" in
  let? nn := pair_attr fp n "n" in
  accept (x, nn).

Inductive ball_force :=
| Gravity (f : Q * Q)
| Penalty (stiffness power : Q).

(* Ball2DSceneParser.cpp:1426-1444 loadGravityForce, one element *)
Definition load_gravity_ball (fp : fpmode) (n : node) : parse ball_force :=
  let? x := loose_scalar fp n "fx" in
  let? y := loose_scalar fp n "fy" in
  accept (Gravity (x, y)).
(* Ball2DSceneParser.cpp:1446-1484 loadPenaltyForce, one element *)
Definition load_penalty (fp : fpmode) (n : node) : parse ball_force :=
  let? k := scalar_attr fp n "stiffness" in
  let? _ := guard (negb (qlt k 0)) in
  let? p := scalar_attr fp n "potential_power" in
  accept (Penalty k p).

Inductive planar_integrator := Verlet | SymplecticEuler.
(* Ball2DSceneParser.cpp:618-637 *)
Definition load_planar_kind (n : node) : parse planar_integrator :=
  let? t := attr n "type" in
  if seqb t "verlet" then accept Verlet
  else if seqb t "symplectic_euler" then accept SymplecticEuler
  else reject.
(* Ball2DSceneParser.cpp:587-640 loadIntegrator *)
Definition load_integrator_ball (root : node) : parse (planar_integrator * str * rational) :=
  let? n := of_option (first_node root "integrator") in
  let? td := load_dt n in
  let? k := load_planar_kind n in
  accept (k, fst td, snd td).

(* Ball2DSceneParser.cpp:933-985 loadQLMDPOperator, loadMDPOperator *)
Definition load_mdp_ball (fp : fpmode) (bd : build) (n : node) : parse friction_op :=
  let? name := attr n "name" in
  if has_ql bd && seqb name "ql" then let? t := load_tol fp n in accept (MdpQl t)
  else reject.

Record camera2 := mkCam2 { c_center : Q * Q; c_scale : Q; c_fps : Z; c_at_fps : bool; c_locked : bool }.
(* Ball2DSceneParser.cpp:101-192 loadCameraSettings *)
Definition load_camera_ball (fp : fpmode) (n : node) : parse camera2 :=
  let? x := scalar_attr fp n "cx" in
  let? y := scalar_attr fp n "cy" in
  let? s := scalar_attr fp n "scale_factor" in
  let? f := unsigned_attr n "fps" in
  let? a := bool_attr n "render_at_fps" in
  let? l := bool_attr n "locked" in
  accept (mkCam2 (x, y) s f a l).

Record ball_scene := mkBallScene {
  bs_callback : str;
  bs_end : option Q;
  bs_forces : list ball_force;
  bs_integrator : planar_integrator;
  bs_dt_text : str;
  bs_dt : rational;
  bs_response : response;
  bs_drums : list (Q * Q * Q);
  bs_planes : list (Q * Q * (Q * Q));
  bs_portals : list (Q * Q * (Q * Q) * (Q * Q * (Q * Q)) * (Q * Q));
  bs_q : list Q;
  bs_v : list Q;
  bs_m : list Q;
  bs_r : list Q;
  bs_fixed : list bool }.

(* Ball2DSceneParser.cpp:1621-1648: the state vectors, two entries per ball *)
Definition pack {A} (f : A -> Q * Q) (l : list A) : list Q := concat (map (fun b => [fst (f b); snd (f b)]) l).

(* Ball2DSceneParser.cpp:1551-1590: the two friction solvers *)
Definition ball_solvers (fp : fpmode) (bd : build) :=
  [(lit "staggered_projections_friction_solver", load_staggered fp (load_lcp fp bd true) (load_mdp_ball fp bd));
   (lit "sobogus_friction_solver", load_sobogus_ball fp)].

(* Ball2DSceneParser.cpp:1486-1651 loadSimulationState *)
Definition load_ball_scene (fp : fpmode) (bd : build) (root : node) : parse ball_scene :=
  let? callback := load_scripting root in
  let? end_time := optional (first_node root "end_time") (load_end_time fp) in
  let? gravity := each (load_gravity_ball fp) (elements root "gravity") in
  let? penalty := each (load_penalty fp) (elements root "penalty") in
  let? ktd := load_integrator_ball root in
  let? resp := load_response (load_impact_cor fp bd true) (ball_solvers fp bd) root in
  let? drums := each (load_drum fp) (elements root "static_drum") in
  let? planes := each (load_plane_ball fp) (elements root "static_plane") in
  let? pp := load_portals fp (fun b => negb (qle b 0)) root planes in
  let? balls := each (load_ball fp) (elements root "ball") in
  accept {| bs_callback := callback; bs_end := end_time; bs_forces := gravity ++ penalty;
            bs_integrator := fst (fst ktd); bs_dt_text := snd (fst ktd); bs_dt := snd ktd;
            bs_response := resp; bs_drums := drums; bs_planes := fst pp; bs_portals := snd pp;
            bs_q := pack b_x balls; bs_v := pack b_v balls;
            bs_m := pack (fun b => (b_m b, b_m b)) balls;
            bs_r := map b_r balls; bs_fixed := map b_fixed balls |}.

(* Ball2DSceneParser.cpp:1653-1679 parseXMLSceneFile, from the document on *)
Definition parse_ball (fp : fpmode) (bd : build) (doc : list node) : parse ball_scene :=
  let? root := of_option (first_in doc "ball2d_scene") in
  load_ball_scene fp bd root.
(* Ball2DSceneParser.cpp:1681-1719, the overload that also loads a camera *)
Definition parse_ball_camera (fp : fpmode) (bd : build) (doc : list node) : parse (option camera2 * ball_scene) :=
  let? root := of_option (first_in doc "ball2d_scene") in
  let? cam := optional (first_node root "camera") (load_camera_ball fp) in
  let? s := load_ball_scene fp bd root in
  accept (cam, s).
