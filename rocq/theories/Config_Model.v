(* Byte-level model of the solver configuration part of a snapshot and of the whole snapshot file.
   scisim/ConstrainedMaps/ConstrainedMapUtilities.cpp and the classes it (de)serialises,
   {Ball2D,RigidBody2D,RigidBody3D}Utilities.cpp, serializeSystem/deserializeSystem of the three command line tools.
   [ql], [ip]: whether the build has QL / Ipopt. *)
From Coq Require Import ZArith NArith Ascii String List.
From Verif Require Import Outcome Codec_Model SnapBall_Model SnapRb2_Model SnapRb3_Model.
Import ListNotations.
Open Scope N_scope.

(* ---- impact operators (ConstrainedMaps/ImpactMaps) ---- *)
Inductive impop :=
| OpNull                                         (* a null unique_ptr *)
| OpGR (v_tol : scalar) (op : impop)
| OpGRR (elastic inelastic : impop)
| OpGaussSeidel (v_tol : scalar)
| OpQL (tol : scalar)
| OpIpopt (solvers : list bstring) (tol : scalar)
| OpAPGD (tol : scalar) (max_iters : N)
| OpJacobi (v_tol : scalar)
| OpQLVP (tol : scalar).

(* the name() methods; "NULL" is written for a null pointer *)
Definition impop_name (o : impop) : bstring :=
  match o with
  | OpNull => name_of "NULL"
  | OpGR _ _ => name_of "gr"                     (* GROperator.cpp:135 *)
  | OpGRR _ _ => name_of "grr"                   (* GRROperator.cpp:73 *)
  | OpGaussSeidel _ => name_of "gauss_seidel"    (* GaussSeidelOperator.cpp:61 *)
  | OpQL _ => name_of "lcp_ql"                   (* LCPOperatorQL.cpp:129 *)
  | OpIpopt _ _ => name_of "lcp_ipopt"           (* LCPOperatorIpopt.cpp:199 *)
  | OpAPGD _ _ => name_of "lcp_apgd"             (* LCPOperatorAPGD.cpp:48 *)
  | OpJacobi _ => name_of "jacobi"               (* JacobiOperator.cpp:56 *)
  | OpQLVP _ => name_of "lcp_ql_vp"              (* LCPOperatorQLVP.cpp:175 *)
  end.
(* ConstrainedMapUtilities.cpp:36-50 with the serialize methods GROperator.cpp:143-148, GRROperator.cpp:81-86,
   GaussSeidelOperator.cpp:69-72, LCPOperatorQL.cpp:137-140, LCPOperatorIpopt.cpp:207-211, LCPOperatorAPGD.cpp:56-60,
   JacobiOperator.cpp:64-68 and LCPOperatorQLVP.cpp:183-187 (both terminate the program) *)
Fixpoint enc_impop (o : impop) : outcome bytes :=
  omap (fun body => enc_string (impop_name o) ++ body)
    match o with
    | OpNull => Ok []
    | OpGR v op => omap (fun b => enc_u64 v ++ b) (enc_impop op)
    | OpGRR a b => let! ba := enc_impop a in let! bb := enc_impop b in Ok (ba ++ bb)
    | OpGaussSeidel v => Ok (enc_u64 v)
    | OpQL t => Ok (enc_u64 t)
    | OpIpopt ss t => Ok (enc_strings ss ++ enc_u64 t)
    | OpAPGD t n => Ok (enc_u64 t ++ enc_u32 n)
    | OpJacobi _ => Exit
    | OpQLVP _ => Exit
    end.
(* ConstrainedMapUtilities.cpp:118-166 and the istream constructors. The recursion through GR and GRR follows the data;
   the fuel bounds its depth and running out of it (never happening on the data of the theorems) is UB. *)
Fixpoint p_impop_f (ql ip : bool) (fuel : nat) : parser impop :=
  match fuel with
  | O => pub
  | S f =>
      s <-- p_string ;;
      (if bstring_eqb s (name_of "gr") then v <-- p_u64 ;; o <-- p_impop_f ql ip f ;; pret (OpGR v o)
       else if bstring_eqb s (name_of "grr") then
         a <-- p_impop_f ql ip f ;; b <-- p_impop_f ql ip f ;; pret (OpGRR a b)
       else if bstring_eqb s (name_of "gauss_seidel") then v <-- p_u64 ;; pret (OpGaussSeidel v)
       else if (ql && bstring_eqb s (name_of "lcp_ql"))%bool then t <-- p_u64 ;; pret (OpQL t)
       else if (ip && bstring_eqb s (name_of "lcp_ipopt"))%bool then
         ss <-- p_strings ;; t <-- p_u64 ;; pret (OpIpopt ss t)
       else if bstring_eqb s (name_of "lcp_apgd") then t <-- p_u64 ;; n <-- p_u32 ;; pret (OpAPGD t n)
       else if bstring_eqb s (name_of "NULL") then pret OpNull
       else pexit)
  end.
Definition p_impop (ql ip : bool) : parser impop := fun s => p_impop_f ql ip (S (List.length s)) s.

(* ---- friction operators (ConstrainedMaps/FrictionMaps) ---- *)
Inductive fricop :=
| FoNull
| FoLinear (disk_samples : N) (tol : scalar)
| FoBound (tol : scalar)
| FoSmooth (solvers : list bstring) (tol : scalar).
(* ConstrainedMapUtilities.cpp:52-66; LinearMDPOperatorQL.cpp:194, 202-207; BoundConstrainedMDPOperatorQL.cpp:142, 150-153;
   SmoothMDPOperatorIpopt.cpp:66, 74-78 *)
Definition enc_fricop (o : fricop) : bytes :=
  match o with
  | FoNull => enc_string (name_of "NULL")
  | FoLinear d t => enc_string (name_of "linear_mdp_ql") ++ enc_u32 d ++ enc_u64 t
  | FoBound t => enc_string (name_of "bound_constrained_mdp_ql") ++ enc_u64 t
  | FoSmooth ss t => enc_string (name_of "smooth_mdp_ipopt") ++ enc_strings ss ++ enc_u64 t
  end.
(* ConstrainedMapUtilities.cpp:168-204 *)
Definition p_fricop (ql ip : bool) : parser fricop :=
  s <-- p_string ;;
  (if (ql && bstring_eqb s (name_of "linear_mdp_ql"))%bool then d <-- p_u32 ;; t <-- p_u64 ;; pret (FoLinear d t)
   else if (ql && bstring_eqb s (name_of "bound_constrained_mdp_ql"))%bool then t <-- p_u64 ;; pret (FoBound t)
   else if (ip && bstring_eqb s (name_of "smooth_mdp_ipopt"))%bool then ss <-- p_strings ;; t <-- p_u64 ;; pret (FoSmooth ss t)
   else if bstring_eqb s (name_of "NULL") then pret FoNull
   else pexit).

(* ---- friction solvers ---- *)
Inductive fsolver :=
| FsNull
| FsStaggered (warm_alpha warm_beta : bool) (io : impop) (fo : fricop)
| FsSobogus (solver_type eval_every : N)
| FsGRRFriction (io : impop) (fo : fricop).
(* ConstrainedMapUtilities.cpp:68-82; StaggeredProjections.cpp:325-336; Sobogus.cpp:1095-1104; GRRFriction.cpp:98-107 *)
Definition enc_fsolver (s : fsolver) : outcome bytes :=
  match s with
  | FsNull => Ok (enc_string (name_of "NULL"))
  | FsStaggered wa wb io fo =>
      omap (fun b => enc_string (name_of "staggered_projections") ++ enc_bool wa ++ enc_bool wb ++ b ++ enc_fricop fo) (enc_impop io)
  | FsSobogus t e => Ok (enc_string (name_of "sobogus") ++ enc_u32 t ++ enc_u32 e)
  | FsGRRFriction io fo =>
      omap (fun b => enc_string (name_of "grr_friction") ++ b ++ enc_fricop fo) (enc_impop io)
  end.
(* ConstrainedMapUtilities.cpp:206-232; StaggeredProjections.cpp:32-37; Sobogus.cpp:647-650 *)
Definition p_fsolver (ql ip : bool) : parser fsolver :=
  s <-- p_string ;;
  (if bstring_eqb s (name_of "staggered_projections") then
     wa <-- p_bool ;; wb <-- p_bool ;; io <-- p_impop ql ip ;; fo <-- p_fricop ql ip ;; pret (FsStaggered wa wb io fo)
   else if bstring_eqb s (name_of "sobogus") then t <-- p_u32 ;; e <-- p_u32 ;; pret (FsSobogus t e)
   else if bstring_eqb s (name_of "NULL") then pret FsNull
   else pexit).

(* ---- impact map ---- *)
Inductive imap := ImNull | ImMap (warm_start : bool).
(* ConstrainedMapUtilities.cpp:84-99; ImpactMap.cpp:190-198 *)
Definition enc_imap (m : imap) : bytes :=
  match m with
  | ImNull => enc_string (name_of "NULL")
  | ImMap w => enc_string (name_of "impact_map") ++ enc_bool w
  end.
(* ConstrainedMapUtilities.cpp:234-256; ImpactMap.cpp:31-37 *)
Definition p_imap : parser imap :=
  s <-- p_string ;;
  (if bstring_eqb s (name_of "impact_map") then w <-- p_bool ;; pret (ImMap w)
   else if bstring_eqb s (name_of "NULL") then pret ImNull
   else pexit).

(* ---- impact friction maps ---- *)
Inductive ifmap :=
| IfNull
| IfGeometric (f : list scalar) (abs_tol : scalar) (max_iters : N) (to_cache : N)
| IfStabilized (f : list scalar) (abs_tol : scalar) (max_iters : N) (warm_alpha warm_beta : bool)
| IfSymplectic (f : list scalar) (abs_tol : scalar) (max_iters : N) (stabilize : bool) (pen : scalar) (to_cache : N).
(* ConstrainedMapUtilities.cpp:101-115; GeometricImpactFrictionMap.cpp:458-474;
   StabilizedImpactFrictionMap.cpp:199-216; SymplecticEulerImpactFrictionMap.cpp:423-441 *)
Definition enc_ifmap (m : ifmap) : bytes :=
  match m with
  | IfNull => enc_string (name_of "NULL")
  | IfGeometric f t n c =>
      enc_string (name_of "geometric_impact_friction_map") ++ enc_vecx f ++ enc_u64 t ++ enc_u32 n ++ enc_u32 c
  | IfStabilized f t n a b =>
      enc_string (name_of "stabilized_impact_friction_map") ++ enc_vecx f ++ enc_u64 t ++ enc_u32 n ++ enc_bool a ++ enc_bool b
  | IfSymplectic f t n s p c =>
      enc_string (name_of "symplectic_euler_impact_friction_map") ++ enc_vecx f ++ enc_u64 t ++ enc_u32 n ++
      enc_bool s ++ enc_u64 p ++ enc_u32 c
  end.
(* ConstrainedMapUtilities.cpp:258-288; the istream constructors GeometricImpactFrictionMap.cpp:33-44,
   StabilizedImpactFrictionMap.cpp:34-46, SymplecticEulerImpactFrictionMap.cpp:32-46 *)
Definition p_ifmap : parser ifmap :=
  s <-- p_string ;;
  (if bstring_eqb s (name_of "geometric_impact_friction_map") then
     f <-- p_vecx ;; t <-- p_u64 ;; n <-- p_u32 ;; c <-- p_u32 ;; pret (IfGeometric f t n c)
   else if bstring_eqb s (name_of "stabilized_impact_friction_map") then
     f <-- p_vecx ;; t <-- p_u64 ;; n <-- p_u32 ;; a <-- p_bool ;; b <-- p_bool ;; pret (IfStabilized f t n a b)
   else if bstring_eqb s (name_of "symplectic_euler_impact_friction_map") then
     f <-- p_vecx ;; t <-- p_u64 ;; n <-- p_u32 ;; st <-- p_bool ;; p <-- p_u64 ;; c <-- p_u32 ;; pret (IfSymplectic f t n st p c)
   else if bstring_eqb s (name_of "NULL") then pret IfNull
   else pexit).

(* ---- integrators; none has parameters ---- *)
Inductive umap := UNull | USymplecticEuler | UVerlet | UDMV | USplitHam | UExpEuler.
Definition umap_name (u : umap) : bstring :=
  match u with
  | UNull => name_of "NULL"
  | USymplecticEuler => name_of "symplectic_euler"  (* {ball2d,rigidbody2d}/SymplecticEulerMap.cpp:36, 42 *)
  | UVerlet => name_of "verlet"                     (* {ball2d,rigidbody2d}/VerletMap.cpp:45, 59 *)
  | UDMV => name_of "dmv"                           (* DMVMap.cpp:211 *)
  | USplitHam => name_of "split_ham"                (* SplitHamMap.cpp:186 *)
  | UExpEuler => name_of "exponential_euler"        (* ExponentialEulerMap.cpp:98 *)
  end.
(* Ball2DUtilities.cpp:15-28, RigidBody2DUtilities.cpp:17-30, RigidBody3DUtilities.cpp:17-30 *)
Definition enc_umap (u : umap) : bytes := enc_string (umap_name u).
(* Ball2DUtilities.cpp:30-48 *)
Definition p_umap_b2 : parser umap :=
  s <-- p_string ;; (if bstring_eqb s (name_of "verlet") then pret UVerlet else pexit).
(* RigidBody2DUtilities.cpp:32-54 *)
Definition p_umap_r2 : parser umap :=
  s <-- p_string ;;
  (if bstring_eqb s (name_of "symplectic_euler") then pret USymplecticEuler
   else if bstring_eqb s (name_of "verlet") then pret UVerlet else pexit).
(* RigidBody3DUtilities.cpp:32-59 *)
Definition p_umap_r3 : parser umap :=
  s <-- p_string ;;
  (if bstring_eqb s (name_of "dmv") then pret UDMV
   else if bstring_eqb s (name_of "split_ham") then pret USplitHam
   else if bstring_eqb s (name_of "NULL") then pret UNull else pexit).

(* ---- the snapshot file ----
   The globals of the command line tools, ball2d_cli.cpp:43-68. [imap] does not exist in rigidbody3d_cli.cpp,
   [outdir] and [forces] exist only with HDF5. Rational<intmax_t> is trivially copyable: its two words. *)
Record sys (S : Type) := mkSys {
  y_sim : S; y_iter : N; y_umap : umap; y_dt_num : N; y_dt_den : N; y_end : scalar;
  y_impop : impop; y_cor : scalar; y_fsolver : fsolver; y_mu : scalar; y_imap : imap; y_ifmap : ifmap;
  y_spath : bstring; y_smod : bstring; y_outdir : bstring; y_forces : bool;
  y_steps : N; y_frame : N; y_prec : N; y_width : N; y_ser : bool; y_over : bool }.
Arguments mkSys {S}.
Arguments y_sim {S}. Arguments y_iter {S}. Arguments y_umap {S}. Arguments y_dt_num {S}. Arguments y_dt_den {S}.
Arguments y_end {S}. Arguments y_impop {S}. Arguments y_cor {S}. Arguments y_fsolver {S}. Arguments y_mu {S}.
Arguments y_imap {S}. Arguments y_ifmap {S}. Arguments y_spath {S}. Arguments y_smod {S}. Arguments y_outdir {S}.
Arguments y_forces {S}. Arguments y_steps {S}. Arguments y_frame {S}. Arguments y_prec {S}. Arguments y_width {S}.
Arguments y_ser {S}. Arguments y_over {S}.

(* ball2d_cli.cpp:71, rigidbody2d_cli.cpp:65, rigidbody3d_cli.cpp:72 *)
Definition magic_b2 : N := 8675309.
Definition magic_r2 : N := 1337.
Definition magic_r3 : N := 90210.

(* serializeSystem: ball2d_cli.cpp:217-248, rigidbody2d_cli.cpp:208-239, rigidbody3d_cli.cpp:222-252.
   The tools differ in the magic number, the simulation and whether there is an impact map. *)
Definition enc_sys {S} (magic : N) (with_imap hdf5 : bool) (git : bstring) (enc_sim : S -> outcome bytes) (y : sys S)
  : outcome bytes :=
  let! bsim := enc_sim (y_sim y) in
  let! bop := enc_impop (y_impop y) in
  let! bfs := enc_fsolver (y_fsolver y) in
  Ok (enc_u32 magic ++ enc_string git ++ bsim ++ enc_u32 (y_iter y) ++ enc_umap (y_umap y) ++
      enc_u64 (y_dt_num y) ++ enc_u64 (y_dt_den y) ++ enc_u64 (y_end y) ++ bop ++ enc_u64 (y_cor y) ++ bfs ++
      enc_u64 (y_mu y) ++ (if with_imap then enc_imap (y_imap y) else []) ++ enc_ifmap (y_ifmap y) ++
      enc_string (y_spath y) ++ enc_string (y_smod y) ++
      (if hdf5 then enc_string (y_outdir y) else []) ++ (if hdf5 then enc_bool (y_forces y) else []) ++
      enc_u32 (y_steps y) ++ enc_u32 (y_frame y) ++ enc_u32 (y_prec y) ++ enc_u32 (y_width y) ++
      enc_bool (y_ser y) ++ enc_bool (y_over y)).

(* deserializeSystem: ball2d_cli.cpp:253-316, rigidbody2d_cli.cpp:244-305, rigidbody3d_cli.cpp:258-319.
   A wrong magic number ends the program; a different git revision only prints a warning. *)
Definition p_sys {S} (ql ip : bool) (magic : N) (with_imap hdf5 : bool) (p_sim : parser S) (p_umap : parser umap) : parser (sys S) :=
  m <-- p_u32 ;;
  (if m =? magic then
     _ <-- p_string ;;
     sim <-- p_sim ;; iter <-- p_u32 ;; um <-- p_umap ;; dn <-- p_u64 ;; dd <-- p_u64 ;; en <-- p_u64 ;;
     op <-- p_impop ql ip ;; cor <-- p_u64 ;; fs <-- p_fsolver ql ip ;; mu <-- p_u64 ;;
     im <-- (if with_imap then p_imap else pret ImNull) ;; ifm <-- p_ifmap ;;
     sp <-- p_string ;; sm <-- p_string ;;
     od <-- (if hdf5 then p_string else pret []) ;; fo <-- (if hdf5 then p_bool else pret false) ;;
     st <-- p_u32 ;; fr <-- p_u32 ;; pr <-- p_u32 ;; wi <-- p_u32 ;; se <-- p_bool ;; ov <-- p_bool ;;
     pret (mkSys sim iter um dn dd en op cor fs mu im ifm sp sm od fo st fr pr wi se ov)
   else pexit).

Definition enc_sys_b2 hdf5 git := enc_sys magic_b2 true hdf5 git (fun s => Ok (enc_b2_sim s)).
Definition p_sys_b2 ql ip hdf5 := p_sys ql ip magic_b2 true hdf5 p_b2_sim p_umap_b2.
Definition enc_sys_r2 hdf5 git := enc_sys magic_r2 true hdf5 git (fun s => Ok (enc_r2_sim s)).
Definition p_sys_r2 ql ip hdf5 := p_sys ql ip magic_r2 true hdf5 p_r2_sim p_umap_r2.
Definition enc_sys_r3 hdf5 git := enc_sys magic_r3 false hdf5 git enc_r3_sim.
Definition p_sys_r3 ql ip hdf5 := p_sys ql ip magic_r3 false hdf5 p_r3_sim p_umap_r3.
