(* Specification vocabulary: what a scene file says about the response to contacts. *)
From Coq Require Import ZArith QArith Bool Ascii String List.
From Verif Require Import Outcome Str_Model Scene_Text Scene_Model Scene_Spec Scene2_Model Scene2_Spec Scene3_Model Scene3_Spec.
Import ListNotations.
Open Scope string_scope.
Open Scope list_scope.

Definition int_text (nd : node) (a : str) (k : Z) : Prop :=
  exists t, first_attribute nd a = Some t /\ checked (read_int t) = Some k.
Definition unsigned_text (nd : node) (a : str) (k : Z) : Prop :=
  exists t, first_attribute nd a = Some t /\ checked (read_unsigned 32 t) = Some k.
Definition bool_text (nd : node) (a : str) (b : bool) : Prop :=
  exists t, first_attribute nd a = Some t /\ checked (read_bool t) = Some b.
Definition words_text (nd : node) (a : str) (w : list str) : Prop :=
  exists t, first_attribute nd a = Some t /\ read_words t = w.
(* the first child element called a says P *)
Definition child (nd : node) (a : str) (P : node -> Prop) : Prop := exists c, first_node nd a = Some c /\ P c.

Definition lcp_text (fp : fpmode) (s : lcp_solver) (nd : node) : Prop :=
  match s with
  | Apgd tol k => first_attribute nd "name" = Some (lit "apgd") /\ scalar_text fp nd "tol" tol /\ unsigned_text nd "max_iters" k
  | QlVp tol => first_attribute nd "name" = Some (lit "ql_vp") /\ scalar_text fp nd "tol" tol
  | Ql tol => first_attribute nd "name" = Some (lit "ql") /\ scalar_text fp nd "tol" tol
  | Ipopt w tol => first_attribute nd "name" = Some (lit "ipopt") /\ words_text nd "linear_solvers" w /\ scalar_text fp nd "tol" tol
  end.
Fixpoint impact_text (fp : fpmode) (o : impact_op) (nd : node) : Prop :=
  match o with
  | GaussSeidel v => first_attribute nd "type" = Some (lit "gauss_seidel") /\ scalar_text fp nd "v_tol" v
  | Jacobi v => first_attribute nd "type" = Some (lit "jacobi") /\ scalar_text fp nd "v_tol" v
  | Lcp s => first_attribute nd "type" = Some (lit "lcp") /\ child nd "solver" (lcp_text fp s)
  | Gr v s => first_attribute nd "type" = Some (lit "gr") /\ scalar_text fp nd "v_tol" v /\ child nd "solver" (lcp_text fp s)
  | Grr e i => first_attribute nd "type" = Some (lit "grr") /\
      child nd "elastic_operator" (impact_text fp e) /\ child nd "inelastic_operator" (impact_text fp i)
  end.
Definition friction_op_text (fp : fpmode) (f : friction_op) (nd : node) : Prop :=
  match f with
  | MdpQl t => first_attribute nd "name" = Some (lit "ql") /\ scalar_text fp nd "tol" t
  | MdpIpopt w t => first_attribute nd "name" = Some (lit "ipopt") /\ words_text nd "linear_solvers" w /\ scalar_text fp nd "tol" t
  end.
Definition cache_text (nd : node) (c : caching) : Prop :=
  first_attribute nd "cache_impulses" =
  Some (match c with CacheNone => lit "none" | CacheNormal => lit "normal" | CacheBoth => lit "normal_and_friction" end).
Definition map_tol (m : friction_map) : Q :=
  match m with Geometric t _ _ => t | Stabilized t _ => t | SymplecticEulerMap t _ _ _ _ => t end.

(* The element called [name] describes solver s, map m and the two coefficients. The caching option of a
   geometric map is looked at only when [caches] says so, and only with the So-bogus solver. *)
Definition solver_text (fp : fpmode) (caches : bool) (name : str) (nd : node)
  (s : friction_solver) (m : friction_map) (mu cor : Q) : Prop :=
  scalar_text fp nd "mu" mu /\ scalar_text fp nd "CoR" cor /\
  first_attribute nd "staggering" = Some (match m with
    | Geometric _ _ _ => lit "geometric" | Stabilized _ _ => lit "stabilized" | SymplecticEulerMap _ _ _ _ _ => lit "symplectic_euler" end) /\
  match s with
  | Staggered wa wb l f => name = lit "staggered_projections_friction_solver" /\
      bool_text nd "internal_warm_start_alpha" wa /\ bool_text nd "internal_warm_start_beta" wb /\
      child nd "lcp_impact_solver" (lcp_text fp l) /\ child nd "mdp_friction_solver" (friction_op_text fp f) /\
      scalar_text fp nd "tol" (map_tol m) /\ int_text nd "max_iters" (map_iterations m)
  | Sobogus e => name = lit "sobogus_friction_solver" /\ int_text nd "eval_every" e /\
      scalar_text fp nd "tol" (map_tol m) /\ int_text nd "max_iters" (map_iterations m)
  | GrrFriction op f => name = lit "grr_friction_solver" /\
      child nd "impact_operator" (impact_text fp op) /\ child nd "friction_operator" (friction_op_text fp f)
  end /\
  match m, s with
  | Geometric _ _ c, Sobogus _ => if caches then cache_text nd c else c = CacheNone
  | Geometric _ _ c, _ => c = CacheNone
  | SymplecticEulerMap _ _ c b p, _ => cache_text nd c /\ bool_text nd "stabilization" b /\ scalar_text fp nd "penetration_threshold" p
  | Stabilized _ _, _ => True
  end.

Definition planar_solvers : list str := map lit ["staggered_projections_friction_solver"; "sobogus_friction_solver"].
Definition spatial_solvers : list str := planar_solvers ++ map lit ["grr_friction_solver"].
(* Below the root there is one element that says what happens at contacts, this one, or none at all. *)
Definition response_text (fp : fpmode) (caches : bool) (names : list str) (root : node) (r : response) : Prop :=
  match r with
  | NoResponse => first_node root "impact_operator" = None /\ forall a, In a names -> first_node root a = None
  | Impact op cor c => (forall a, In a names -> first_node root a = None) /\
      child root "impact_operator" (fun nd => scalar_text fp nd "CoR" cor /\ impact_text fp op nd /\
        match c with Some b => bool_text nd "cache_impulses" b | None => True end)
  | Friction s m mu cor => first_node root "impact_operator" = None /\
      exists a, In a names /\ (forall b, In b names -> b <> a -> first_node root b = None) /\
        child root a (fun nd => solver_text fp caches a nd s m mu cor)
  end.
