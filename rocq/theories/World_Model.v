(* A whole simulation: the flow of Flow_Model run on the contacts, integrators, contact sets and friction solvers modelled
   elsewhere, for any number of steps. Models how
     /repo/ball2d/Ball2DSim.cpp:80-163, 259-326, /repo/rigidbody2d/RigidBody2DSim.cpp:104-127, 696-831,
     /repo/rigidbody3d/RigidBody3DSim.cpp:169-262, 407-616,
     /repo/scisim/ConstrainedMaps/ImpactMaps/ImpactMap.cpp:106-139, ImpactOperatorUtilities.cpp,
     /repo/scisim/ConstrainedMaps/StaggeredProjections.cpp:143-318, GRRFriction.cpp:29-91, Sobogus.cpp:886-1108,
     /repo/scisim/ConstrainedMaps/SymplecticEulerImpactFrictionMap.cpp:216-330
   fit together, for scenes without portals. The impact and friction operators, the dual solver and the impulse cache are
   arbitrary functions. Over the reals; where an integrator has no finite result the outcome is UB. *)
From Coq Require Import List Reals Arith NArith Bool.
From Verif Require Import Outcome Ccd_Model Flow_Model Quad_Model Stagger_Model Rot_Model Geom_Model ContactBall_Model ContactRb2_Model ContactRb3_Model
  Integr_Model Wall_Model Narrow_Model Frame_Model Lin_Model Sob_Model.
Import ListNotations.
Open Scope R_scope.

(* ---------- what differs between the simulators ---------- *)
(* C: contacts; S: the state, of which q and v are a part *)
Record simulator (C S : Type) := Simulator {
  u_sim : sim C;                                              (* what the So-bogus interface uses *)
  u_n : nat; u_nv : nat;                                      (* bodies, entries of v *)
  u_q : S -> dvec; u_v : S -> dvec; u_set : S -> dvec -> dvec -> S;
  u_update : S -> S;                                          (* updateMandMinv *)
  u_M : S -> dvec; u_minv : S -> dvec -> dvec;                (* the stored coefficients of M; Minv * x *)
  u_step : S -> dvec -> dvec -> option phase;                 (* UnconstrainedMap::flow *)
  u_force : S -> dvec -> dvec -> outcome dvec;                (* computeForce, then zeroOutForcesOnFixedBodies *)
  u_linear : S -> dvec -> dvec -> dvec;                       (* linearInertialConfigurationUpdate *)
  u_active : S -> dvec -> dvec -> dvec -> outcome (list C);   (* computeActiveSet *)
  u_basis : dvec -> dvec -> C -> outcome (list (list R));     (* computeBasis: the columns *)
  u_normal : dvec -> C -> outcome col;                        (* evalgradg *)
  u_gdotN : dvec -> C -> outcome R;                           (* evalKinematicRelativeVelocityN *)
  u_tangent : dvec -> C -> list R -> outcome col;             (* computeGeneralizedFrictionGivenTangentSample *)
  u_boundary : S -> outcome S }.                              (* treatSimulationBoundary: RigidBody3DSim only *)
Arguments Simulator {C S}. Arguments u_sim {C S}. Arguments u_n {C S}. Arguments u_nv {C S}. Arguments u_q {C S}. Arguments u_v {C S}. Arguments u_set {C S}.
Arguments u_update {C S}. Arguments u_M {C S}. Arguments u_minv {C S}. Arguments u_step {C S}. Arguments u_force {C S}. Arguments u_linear {C S}.
Arguments u_active {C S}. Arguments u_basis {C S}. Arguments u_normal {C S}. Arguments u_gdotN {C S}. Arguments u_tangent {C S}. Arguments u_boundary {C S}.

(* alpha and beta; their sizes are those of the contact set *)
Definition impulses := (dvec * dvec)%type.

(* The operators may depend on anything they are given: the time step, the state, the contacts and so on. *)
Inductive solver (C S : Type) :=
| Staggered (warm_alpha warm_beta : bool) (tol : R) (max_iters : nat)
    (impact : N -> S -> list C -> list R -> nat -> dvec -> dvec -> dvec)
    (friction : N -> S -> list C -> list R -> nat -> dvec -> dvec -> dvec -> dvec)
    (residual : N -> S -> list C -> dvec -> R)
(* [sampled]: the directions a linearized friction operator uses, None for a smooth one *)
| OnePass (impact : N -> S -> list C -> list R -> nat -> dvec -> dvec -> dvec)
    (friction : N -> S -> list C -> list R -> nat -> dvec -> dvec -> dvec -> dvec)
    (sampled : option (dvec -> dvec -> C -> outcome (list (list R))))
| Bogus (inv : (nat -> nat -> R) -> nat -> nat -> R)
    (gs : list (list R) -> list (list R) -> list R -> list (list R) -> list (list R) * R) (tol : R).
Arguments Staggered {C S}. Arguments OnePass {C S}. Arguments Bogus {C S}.

(* what the user chooses; K: the impulse cache *)
Record settings (C S K : Type) := Settings {
  g_dt : R; g_CoR : R; g_mu : R; g_warm : bool;
  g_impact : S -> list C -> list R -> list R -> dvec -> outcome dvec;   (* the impact operator of ImpactMap: nrel, CoR, alpha *)
  g_solver : solver C S;
  g_stabilize : bool; g_threshold : R; g_gap : dvec -> C -> R;          (* SymplecticEulerImpactFrictionMap; evaluateGapFunction *)
  g_clear : K -> K; g_init : K -> dvec -> dvec -> list C -> outcome impulses; g_cache : K -> dvec -> dvec -> list C -> impulses -> outcome K;
  g_ninit : K -> list C -> outcome impulses; g_ncache : K -> list C -> impulses -> outcome K }.
Arguments Settings {C S K}. Arguments g_dt {C S K}. Arguments g_CoR {C S K}. Arguments g_mu {C S K}. Arguments g_warm {C S K}. Arguments g_impact {C S K}.
Arguments g_solver {C S K}. Arguments g_stabilize {C S K}. Arguments g_threshold {C S K}. Arguments g_gap {C S K}. Arguments g_clear {C S K}.
Arguments g_init {C S K}. Arguments g_cache {C S K}. Arguments g_ninit {C S K}. Arguments g_ncache {C S K}.

Section World.
Context {C S K : Type} (U : simulator C S) (G : settings C S K).
Let d := k_d (u_sim U).

(* columns of a sparse matrix as a matrix *)
Definition cols_mat (cols : list col) : mat := fun i j => entry (nth j cols []) i.
(* Minv as a matrix *)
Definition minv_mat (s : S) : mat := fun i j => u_minv U s (fun k => if Nat.eqb k j then 1 else 0) i.
(* ImpactOperatorUtilities::computeN *)
Definition form_N (q : dvec) (cs : list C) : outcome (list col) := omapM (u_normal U q) cs.
(* FrictionOperator::formGeneralizedSmoothFrictionBasis, FrictionOperator.cpp:14-56: the tangents are the other columns of the
   contact basis *)
Definition form_D (q : dvec) (cs : list C) (bases : list (list (list R))) : outcome (list col) :=
  let! l := omapM (fun cb => omapM (u_tangent U q (fst cb)) (tl (snd cb))) (combine cs bases) in Ok (concat l).
(* formGeneralizedFrictionBasis of a linearized operator *)
Definition sampled_D (dirs : dvec -> dvec -> C -> outcome (list (list R))) (q v : dvec) (cs : list C) : outcome (list col) :=
  let! l := omapM (fun c => let! ts := dirs q v c in omapM (u_tangent U q c) ts) cs in Ok (concat l).
Definition bases_mat (bases : list (list (list R))) : mat := fun r c => at_ (nth (c mod d) (nth (c / d) bases []) []) r.
(* the entries of alpha and beta of one contact *)
Definition imp_of (a : impulses) (i : nat) : list R := fst a i :: map (fun s => snd a ((d - 1) * i + s)%nat) (seq 0 (d - 1)).
Definition imps_of (imps : list (list R)) : impulses :=
  (fun i => at_ (nth i imps []) 0, fun k => at_ (nth (k / (d - 1)) imps []) (k mod (d - 1) + 1)).
(* the arguments of Sobogus::solve, one entry per contact; extra: nrel_extra and drel_extra *)
Definition items (cs : list C) (bases : list (list (list R))) (cor mu : list R) (extra : option (list (list R))) (a : impulses) : list (item C) :=
  map (fun ic => Item (snd ic) (nth (fst ic) bases []) (at_ cor (fst ic)) (at_ mu (fst ic))
                   (match extra with Some x => Some (nth (fst ic) x []) | None => None end) (imp_of a (fst ic)))
      (combine (seq 0 (length cs)) cs).
(* SobogusFrictionProblem::initialize asks every contact for its bodies and H *)
Definition sob_init (q : dvec) (cs : list C) (bases : list (list (list R))) : outcome unit :=
  let! _ := omapM (fun cb => let! _ := k_kinvel (u_sim U) q (fst cb) in
                             let! _ := k_H0 (u_sim U) q (fst cb) (snd cb) in
                             let! _ := k_H1 (u_sim U) q (fst cb) (snd cb) in k_bodies (u_sim U) (fst cb)) (combine cs bases) in Ok tt.

(* FrictionSolver::solve *)
Definition solve (it : N) (w : S * K) (cor mu : list R) (q0 v0 : dvec) (cs : list C) (bases : list (list (list R)))
    (extra : option (outcome (list (list R)))) (f : nat * dvec) (a : impulses) : outcome (impulses * dvec * (nat * dvec)) :=
  let s := fst w in
  let nd := u_nv U in let nc := length cs in
  let! extra := match extra with None => Ok None | Some x => let! x := x in Ok (Some x) end in
  match g_solver G with
  | Staggered wa wb tol iters impact friction residual =>
      match extra with
      | Some _ => Exit
      | None =>
          let! D := form_D q0 cs bases in
          let! N := form_N q0 cs in
          let! _ := sob_init q0 cs bases in
          let r := sp_solve nd nc (length D) (cols_mat N) (cols_mat D) (minv_mat s) v0 tol wa wb (impact it s cs cor) (friction it s cs mu)
                     (residual it s cs) d (d - 1) (bases_mat bases) iters (snd f) (fst a) (snd a) in
          Ok ((r_alpha r, r_beta r), r_v r, (nd, r_f r))
      end
  | OnePass impact friction sampled =>
      match extra with
      | Some _ => Exit
      | None =>
          let! N := form_N q0 cs in
          let! _ := omapM (k_kinvel (u_sim U) q0) cs in
          let! D := match sampled with None => form_D q0 cs bases | Some dirs => sampled_D dirs q0 v0 cs end in
          let r := grr_friction_solve nd nc (length D) (cols_mat N) (cols_mat D) (minv_mat s) v0 (impact it s cs cor) (friction it s cs mu) (snd f) in
          Ok ((r_alpha r, r_beta r), r_v r, (nd, r_f r))
      end
  | Bogus inv gs tol =>
      let! r := sob_solve (u_sim U) inv gs tol (u_n U) (u_M U s) q0 v0 (items cs bases cor mu extra a) in
      Ok (imps_of (sb_imps r), sb_v r, (nd, sb_f r))
  end.

(* ImpactMap.cpp:106-139 *)
Definition impact_part (w : S * K) (q0 v0 : dvec) (cs : list C) (cor : list R) (a : impulses) : outcome (impulses * dvec) :=
  let! N := form_N q0 cs in
  let! nrel := omapM (u_gdotN U q0) cs in
  let! alpha := g_impact G (fst w) cs nrel cor (fst a) in
  Ok ((alpha, snd a), vplus v0 (u_minv U (fst w) (mv (length cs) (cols_mat N) alpha))).

(* nrel and drel, SymplecticEulerImpactFrictionMap.cpp:284-320: one list per contact *)
Definition depth0 (q : dvec) (c : C) : R :=
  let g := Rmin 0 (g_gap G q c) in if Rltb (Rabs g) (g_threshold G) then 0 else g.
Definition extra_velocity (q : dvec) (cs : list C) (bases : list (list (list R))) (vd : dvec) : outcome (list (list R)) :=
  omapM (fun cb =>
    let! n := u_normal U q (fst cb) in
    let! ts := omapM (u_tangent U q (fst cb)) (tl (snd cb)) in
    Ok ((col_dot n vd + (if g_stabilize G then depth0 q (fst cb) / g_dt G else 0)) :: map (fun t => col_dot t vd) ts)) (combine cs bases).

Definition world_engine : engine (S * K) dvec dvec C (list (list (list R))) impulses (nat * dvec) (outcome (list (list R))) := {|
  e_q := fun w => u_q U (fst w); e_v := fun w => u_v U (fst w); e_set := fun w q v => (u_set U (fst w) q v, snd w);
  e_umap := fun _ w q v => match u_step U (fst w) q v with Some p => Ok p | None => UB end;
  e_active := fun w => u_active U (fst w);
  e_bases := fun _ q v cs => omapM (u_basis U q v) cs;
  e_clear := fun w => (fst w, g_clear G (snd w));
  e_init := fun w cs => g_init G (snd w) (u_q U (fst w)) (u_v U (fst w)) cs;
  e_cache := fun w cs a => let! k := g_cache G (snd w) (u_q U (fst w)) (u_v U (fst w)) cs a in Ok (fst w, k);
  e_ninit := fun w cs => g_ninit G (snd w) cs; e_ncache := fun w cs a => let! k := g_ncache G (snd w) cs a in Ok (fst w, k);
  e_zero := fun _ => (fun _ => 0, fun _ => 0);
  e_impact := impact_part; e_solve := solve;
  e_resize := fun f _ => if Nat.eqb (fst f) (u_nv U) then f else (u_nv U, fun _ => 0);
  e_vdelta := fun w q v => let! F := u_force U (fst w) q v in Ok (fun k => g_dt G * u_minv U (fst w) F k); e_plus := vplus;
  e_linear := fun w q v => u_linear U (fst w) q v; e_extra := fun _ => extra_velocity;
  e_start := fun _ w => Ok w; e_mass := fun w => (u_update U (fst w), snd w); e_periodic := fun w => Ok w;
  e_boundary := fun w => let! s := u_boundary U (fst w) in Ok (s, snd w);
  e_warm := g_warm G; e_CoR := g_CoR G; e_mu := g_mu G |}.

(* [steps] calls of the simulation's flow, numbered from it: SimulationMain and the command line tools,
   /repo/ball2dcli/ball2d_cli.cpp stepSystem *)
Fixpoint run {Mem} (sc : script (S * K) C Mem) (planar : bool) (m : method) (steps : nat) (it : N) (x : S * K * (nat * dvec) * live (S * K) C Mem)
  : outcome (S * K * (nat * dvec) * live (S * K) C Mem) :=
  match steps with
  | O => Ok x
  | Datatypes.S n =>
      let '(w, f, lv) := x in
      let! x := sim_flow world_engine sc planar m it w f lv in
      run sc planar m n ((it + 1) mod 2 ^ 32)%N x
  end.
End World.

(* ---------- balls ---------- *)
(* computeBallBallActiveSetSpatialGrid, Ball2DSim.cpp:553-608: the contacts are built at q0; computeActiveSet 138-163 *)
Definition ball_active_set (n : nat) (r : dvec) (drums : list (vec * R)) (planes : list ball_plane) (q0 q1 : dvec) : outcome (list ball_contact) :=
  let! ps := ball_ball_active_set (map (fun i => Swept (seg2 q0 (2 * i)) (seg2 q1 (2 * i)) (r i)) (seq 0 n)) in
  Ok (map (fun p => let i := N.to_nat (fst p) in let j := N.to_nat (snd p) in mk_ball_ball i j (seg2 q0 (2 * i)) (seg2 q0 (2 * j)) (r i) (r j) false) ps
      ++ map snd (ball_drum_set q0 q1 r n drums) ++ map snd (ball_plane_set q1 r n planes)).
Definition list_of2 (b : vec * vec) : list (list R) := [of2 (fst b); of2 (snd b)].
(* a Ball2DSim: the state is q and v; what does not change is in w. [verlet]: the unconstrained map *)
Definition ball_simulator (w : balls) (drums : list (vec * R)) (planes : list ball_plane) (verlet : bool) (dt : R) : simulator ball_contact phase := {|
  u_sim := ball_sim; u_n := bl_n w; u_nv := 2 * bl_n w;
  u_q := fst; u_v := snd; u_set := fun _ q v => (q, v); u_update := fun s => s;
  u_M := fun _ => bl_M w; u_minv := fun _ => diag_minv (bl_M w);
  u_step := fun _ q v => (if verlet then ball_verlet else ball_euler) w dt (q, v);
  (* isKinematicallyScripted is false for every ball *)
  u_force := fun _ q v => match ball_compute_force w q v with Some F => Ok F | None => UB end;
  u_linear := fun _ q v => axpy q dt v;
  u_active := fun _ q0 q1 _ => ball_active_set (bl_n w) (bl_r w) drums planes q0 q1;
  u_basis := fun _ _ c => Ok (list_of2 (b_basis c));
  u_normal := fun _ c => Ok (b_gradg c); u_gdotN := fun _ c => Ok (b_gdotN c); u_tangent := fun _ c t => Ok (b_friction c (to2 t));
  u_boundary := fun s => Ok s |}.

(* ---------- planar rigid bodies ---------- *)
Definition rb2_simulator (w : bodies) (shape : nat -> shape2) (planes : list rb2_plane) (verlet : bool) (dt : R) : simulator rb2_contact phase := {|
  u_sim := rb2_sim; u_n := rb_n w; u_nv := 3 * rb_n w;
  u_q := fst; u_v := snd; u_set := fun _ q v => (q, v); u_update := fun s => s;
  u_M := fun _ => rb_M w; u_minv := fun _ => diag_minv (rb_M w);
  u_step := fun _ q v => (if verlet then rb2_verlet else rb2_euler) w dt (q, v);
  (* zeroOutForcesOnFixedBodies, RigidBody2DSim.cpp:115-119, ends the program *)
  u_force := fun _ _ _ => Exit;
  u_linear := fun _ q v => axpy q dt v;
  u_active := fun _ => rb2_active_set (rb_n w) (rb_fixed w) shape planes;
  u_basis := fun _ _ c => Ok (list_of2 (rb2_basis c));
  u_normal := fun _ => rb2_gradg; u_gdotN := rb2_gdotN; u_tangent := fun q c t => rb2_friction q c (to2 t);
  u_boundary := fun s => Ok s |}.

(* ---------- rigid bodies in space ---------- *)
(* F.segment<3>( 3 i ).setZero(); F.segment<3>( 3 n + 3 i ).setZero(), RigidBody3DSim.cpp:183-194 *)
Definition rb3_zero_fixed (s : rb3) (F : dvec) : dvec :=
  for_bodies (s3_n s) (fun i F => if s3_fixed s i then set_seg3 (set_seg3 F (3 * i) zero3) (3 * s3_n s + 3 * i) zero3 else F) F.
Definition rb3_put (s : rb3) (q v : dvec) : rb3 := Rb3 (s3_n s) q v (s3_M0 s) (s3_Minv0 s) (s3_M s) (s3_Minv s) (s3_fixed s) (s3_g s).
(* [map]: SplitHamMap, DMVMap or ExponentialEulerMap; [box]: the corners of the simulation boundary, if there is one *)
Definition rb3_simulator (o : narrow3) (n : nat) (shape : nat -> shape3) (planes : list rb3_plane) (cyls : list rb3_cyl)
    (map_ : rb3 -> R -> dvec * dvec) (box : option (v3 * v3)) (dt : R) : simulator rb3_contact rb3 := {|
  u_sim := rb3_sim; u_n := n; u_nv := 6 * n;
  u_q := s3_q; u_v := s3_v; u_set := rb3_put; u_update := update_mass;
  u_M := s3_M; u_minv := fun s => mass_mul n (s3_Minv s);
  u_step := fun s q v => Some (map_ (rb3_put s q v) dt);
  u_force := fun s _ _ => Ok (rb3_zero_fixed s (rb3_force s));
  u_linear := fun s q v => exponential_euler n (s3_fixed s) q v dt (fun _ => 0);
  u_active := fun s q0 q1 _ => rb3_active_set o n (s3_fixed s) shape planes cyls q0 q1;
  u_basis := fun q v c => let! b := rb3_basis n q v c in let '(x, y, z) := b in Ok [of3 x; of3 y; of3 z];
  u_normal := rb3_gradg n; u_gdotN := rb3_gdotN; u_tangent := fun q c t => rb3_friction n q c (to3 t);
  u_boundary := fun s => match box with
    | None => Ok s
    | Some (lo, hi) => let! _ := boundary_exit lo hi (map (fun i => Body3 (pos3 (s3_q s) i) (ori3 n (s3_q s) i) (shape i)) (seq 0 n)) in Ok s
    end |}.
