(* The order in which script hooks must run. *)
From Coq Require Import List Reals NArith Bool.
From Verif Require Import Outcome Flow_Model.
Import ListNotations.

Section Spec.
  Context {W C Mem : Type}.
  Notation script := (script W C Mem).
  Notation call := (call W C).
  Definition defined {T} (o : option T) : bool := match o with Some _ => true | None => false end.
  Definition when (b : bool) (c : call) : list call := if b then [c] else [].
  Definition runs (sc : script) (h : option (Mem -> prog W C Mem)) : bool := (sc_named sc && defined h)%bool.

  (* the hooks of a step between its first and its last: none without contacts; with contacts, friction (unless the step has
     none) and then restitution, for the same contacts, starting from the scene's coefficients, one per contact *)
  Inductive coefficient_calls (sc : script) (friction : bool) (mu cor : R) : list call -> Prop :=
  | no_contact : coefficient_calls sc friction mu cor []
  | contacts : forall active mu' cor', active <> [] ->
      coefficient_calls sc friction mu cor
        (when (friction && runs sc (sc_friction sc)) (CFriction active (repeat mu (length active)) mu')
         ++ when (runs sc (sc_restitution sc)) (CRestitution active (repeat cor (length active)) cor')).
  (* all the hooks of step [it], which takes the state [w] to [w']: first the start-of-step hook, which sees [w]; last the
     end-of-step hook, which leaves [w'] *)
  Definition step_calls (sc : script) (contacts friction : bool) (mu cor : R) (it : N) (w w' : W) (l : list call) : Prop :=
    exists a b mid,
      l = when (runs sc (sc_start_step sc)) (CStartStep it w a) ++ mid ++ when (runs sc (sc_end_step sc)) (CEndStep it b w')
      /\ (if contacts then coefficient_calls sc friction mu cor mid else mid = [])
      /\ (runs sc (sc_end_step sc) = false -> b = w') /\ (runs sc (sc_start_step sc) = false -> a = w).
  (* the hooks of the steps n0 + 1, ..., n: iteration numbers go up by one (they are 32 bit numbers), and every step starts from
     the state the one before it left *)
  Inductive history (sc : script) (contacts friction : bool) (mu cor : R) (n0 : N) (w0 : W) : N -> W -> list call -> Prop :=
  | h_start : history sc contacts friction mu cor n0 w0 n0 w0 []
  | h_step : forall n w l w' s, history sc contacts friction mu cor n0 w0 n w l ->
      step_calls sc contacts friction mu cor ((n + 1) mod 2 ^ 32) w w' s ->
      history sc contacts friction mu cor n0 w0 ((n + 1) mod 2 ^ 32) w' (l ++ s).

  (* the iteration numbers of the start-of-step hooks that ran *)
  Definition start_of (c : call) : list N := match c with CStartStep it _ _ => [it] | _ => [] end.
  Definition starts (l : list call) : list N := flat_map start_of l.
  Definition end_of (c : call) : list N := match c with CEndStep it _ _ => [it] | _ => [] end.
  Definition ends (l : list call) : list N := flat_map end_of l.

  (* a hook that only reaches for what it is given *)
  Fixpoint uses (state contacts mu cor : bool) (p : prog W C Mem) : Prop :=
    match p with
    | Return _ | Raise => True
    | OnState f k => state = true /\ forall w, f w <> UB /\ forall w', f w = Ok w' -> uses state contacts mu cor (k w')
    | OnContacts k => contacts = true /\ forall l, uses state contacts mu cor (k l)
    | OnMu f k => mu = true /\ forall m, uses state contacts mu cor (k m)
    | OnCor f k => cor = true /\ forall m, uses state contacts mu cor (k m)
    | NextIteration k => forall n, uses state contacts mu cor (k n)
    end.
  Definition hook_uses (state contacts mu cor : bool) (h : option (Mem -> prog W C Mem)) : Prop :=
    match h with None => True | Some body => forall m, uses state contacts mu cor (body m) end.
  (* a hook whose accesses to the state all keep P *)
  Fixpoint keeps (P : W -> Prop) (p : prog W C Mem) : Prop :=
    match p with
    | Return _ | Raise => True
    | OnState f k => (forall w w', P w -> f w = Ok w' -> P w') /\ forall w, keeps P (k w)
    | OnContacts k => forall l, keeps P (k l)
    | OnMu f k | OnCor f k => forall m, keeps P (k m)
    | NextIteration k => forall n, keeps P (k n)
    end.
  Definition hook_keeps (P : W -> Prop) (h : option (Mem -> prog W C Mem)) : Prop :=
    match h with None => True | Some body => forall m, keeps P (body m) end.
  (* step hooks use the state, coefficient hooks use the contacts and their coefficients *)
  Definition polite (sc : script) : Prop :=
    hook_uses true false false false (sc_start_step sc) /\ hook_uses true false false false (sc_end_step sc)
    /\ hook_uses false true true false (sc_friction sc) /\ hook_uses false true false true (sc_restitution sc).
End Spec.

Section EngineSpec.
  Context {W Q V C B A F X : Type}.
  (* nothing the step calls has undefined behaviour *)
  Definition defined_engine (e : engine W Q V C B A F X) : Prop :=
    (forall it w q v, e_umap e it w q v <> UB) /\ (forall w q0 q1 v, e_active e w q0 q1 v <> UB) /\ (forall w q v l, e_bases e w q v l <> UB)
    /\ (forall w l, e_init e w l <> UB) /\ (forall w l a, e_cache e w l a <> UB) /\ (forall w l, e_ninit e w l <> UB) /\ (forall w l a, e_ncache e w l a <> UB)
    /\ (forall w q v l c a, e_impact e w q v l c a <> UB) /\ (forall it w c m q v l b x f a, e_solve e it w c m q v l b x f a <> UB)
    /\ (forall w q v, e_vdelta e w q v <> UB) /\ (forall it w, e_start e it w <> UB) /\ (forall w, e_periodic e w <> UB) /\ (forall w, e_boundary e w <> UB).
End EngineSpec.
