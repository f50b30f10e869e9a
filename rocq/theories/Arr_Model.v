(* The arrays a script gets from configuration, velocity, mu and cor: they are views of the program's own memory.
   Models /repo/ball2d/PythonScripting.cpp:138-300, 331-399, 476-497, /repo/ball2d/Ball2DSim.cpp:259-326 and
   /repo/ball2d/Ball2DState.cpp:315-330 as far as memory is concerned; /repo/rigidbody3d has the same arrays and no
   insertion, /repo/rigidbody2d has no arrays. Doubles are reals; signaling_NaN is None. *)
From Coq Require Import List Reals NArith Arith Bool.
From Verif Require Import Outcome.
Import ListNotations.
Open Scope R_scope.

Inductive which := Q | V | Mu | Cor.
Definition which_eqb (a b : which) : bool :=
  match a, b with Q, Q | V, V | Mu, Mu | Cor, Cor => true | _, _ => false end.

Section Arrays.
Context {Mem : Type}.
(* what the body of a callback does; Mem is what the script remembers, and it also keeps arrays in variables *)
Inductive prog :=
| Done (m : Mem)
| Raise
| Fetch (w : which) (x : nat) (k : prog)             (* x = configuration(), velocity(), mu() or cor() *)
| Read (x i : nat) (k : R -> prog)                   (* x[i] *)
| Write (x i : nat) (r : R) (k : prog)               (* x[i] = r *)
| Insert (qx qy vx vy : R) (k : prog)                (* insertBall, with a valid radius, mass and fixed flag *)
| Timestep (k : option R -> prog)
| Iteration (k : N -> prog).

(* the heap of vector buffers, the buffers of Ball2DState::m_q and m_v, and the static variables of
   PythonScripting.cpp:21-28 (s_ball_state, s_mu, s_cor, s_timestep, s_next_iteration); memory that is not allocated is
   None and addresses are not used again *)
Record mc := Mc { mem : nat -> option (list R); nxt : nat; qb : nat; vb : nat; s_state : bool;
                  s_mu : option nat; s_cor : option nat; s_dt : option R; s_it : N }.
Definition with_mem (m : mc) (f : nat -> option (list R)) (n : nat) : mc :=
  Mc f n (qb m) (vb m) (s_state m) (s_mu m) (s_cor m) (s_dt m) (s_it m).
Definition upd (f : nat -> option (list R)) (b : nat) (l : option (list R)) : nat -> option (list R) :=
  fun x => if Nat.eqb x b then l else f x.
Definition alloc (l : list R) (m : mc) : nat * mc := (nxt m, with_mem m (upd (mem m) (nxt m) (Some l)) (S (nxt m))).
Definition free (b : nat) (m : mc) : mc := with_mem m (upd (mem m) b None) (nxt m).
Definition with_bufs (m : mc) (q v : nat) : mc := Mc (mem m) (nxt m) q v (s_state m) (s_mu m) (s_cor m) (s_dt m) (s_it m).
(* setState and forgetState, PythonScripting.cpp:306-321 *)
Definition set_state (m : mc) (b : bool) : mc := Mc (mem m) (nxt m) (qb m) (vb m) b (s_mu m) (s_cor m) (s_dt m) (s_it m).
Definition set_coefs (m : mc) (mu cor : option nat) : mc := Mc (mem m) (nxt m) (qb m) (vb m) (s_state m) mu cor (s_dt m) (s_it m).
Definition set_time (m : mc) (dt : option R) (it : N) : mc := Mc (mem m) (nxt m) (qb m) (vb m) (s_state m) (s_mu m) (s_cor m) dt it.

(* the data pointer each accessor passes to PyArray_SimpleNewFromData; a null static variable is dereferenced *)
Definition addr (m : mc) (w : which) : option nat :=
  match w with
  | Q => if s_state m then Some (qb m) else None
  | V => if s_state m then Some (vb m) else None
  | Mu => s_mu m
  | Cor => s_cor m
  end.
Fixpoint set_nth (l : list R) (i : nat) (r : R) : list R :=
  match l, i with
  | [], _ => []
  | _ :: l, O => r :: l
  | x :: l, S i => x :: set_nth l i r
  end.
(* a NumPy array: an address and a length *)
Definition vars := nat -> option (nat * nat).
Definition no_vars : vars := fun _ => None.
Definition set_var (vs : vars) (x : nat) (a : nat * nat) : vars := fun y => if Nat.eqb y x then Some a else vs y.
(* pushBallBack, Ball2DState.cpp:315-330: conservativeResize of m_q and m_v; here it always moves the data *)
Definition push_ball (qx qy vx vy : R) (m : mc) : outcome mc :=
  match mem m (qb m), mem m (vb m) with
  | Some q, Some v =>
      let '(q', m1) := alloc (q ++ [qx; qy]) m in
      let m1 := free (qb m) m1 in
      let '(v', m2) := alloc (v ++ [vx; vy]) m1 in
      Ok (with_bufs (free (vb m) m2) q' v')
  | _, _ => UB
  end.
(* a NameError or IndexError ends the program: the callback fails; memory that is gone is undefined behaviour *)
Fixpoint run (p : prog) (vs : vars) (m : mc) : outcome (Mem * vars * mc) :=
  match p with
  | Done x => Ok (x, vs, m)
  | Raise => Exit
  | Fetch w x k => match addr m w with
                   | None => UB
                   | Some b => match mem m b with None => UB | Some l => run k (set_var vs x (b, length l)) m end
                   end
  | Read x i k => match vs x with
                  | None => Exit
                  | Some (b, n) => if Nat.ltb i n then match mem m b with None => UB | Some l => run (k (nth i l 0)) vs m end
                                   else Exit
                  end
  | Write x i r k => match vs x with
                     | None => Exit
                     | Some (b, n) => if Nat.ltb i n then
                                        match mem m b with
                                        | None => UB
                                        | Some l => run k vs (with_mem m (upd (mem m) b (Some (set_nth l i r))) (nxt m))
                                        end
                                      else Exit
                     end
  | Insert qx qy vx vy k => if s_state m then let! m := push_ball qx qy vx vy m in run k vs m else UB
  | Timestep k => run (k (s_dt m)) vs m
  | Iteration k => run (k (s_it m)) vs m
  end.

(* the callbacks a script may have *)
Record script := Script {
  start_sim : option (Mem -> prog); end_sim : option (Mem -> prog);
  start_step : option (Mem -> prog); end_step : option (Mem -> prog);
  friction : option (Mem -> prog); restitution : option (Mem -> prog) }.
(* the script's memory and variables *)
Definition mind := (Mem * vars)%type.

(* setState; startOfSim or endOfSim; forgetState: PythonScripting.cpp:195-242, ball2dcli/ball2d_cli.cpp:151-153, 464-466 *)
Definition sim_hook (h : option (Mem -> prog)) (s : mind) (m : mc) : outcome (mind * mc) :=
  let m := set_state m true in
  match h with
  | None => Ok (s, set_state m false)
  | Some f => let! r := run (f (fst s)) (snd s) m in Ok (fst r, set_state (snd r) false)
  end.
(* setState; startOfStep or endOfStep; forgetState: PythonScripting.cpp:244-300, Ball2DSim.cpp:261-263, 277-279 *)
Definition step_hook (h : option (Mem -> prog)) (dt : R) (it : N) (s : mind) (m : mc) : outcome (mind * mc) :=
  let m := set_state m true in
  match h with
  | None => Ok (s, set_state m false)
  | Some f =>
      let! r := run (f (fst s)) (snd s) (set_time m (Some dt) it) in
      Ok (fst r, set_state (set_time (snd r) None 0%N) false)
  end.
(* frictionCoefficient and restitutionCoefficient, PythonScripting.cpp:138-193; b is the local vector of coefficients *)
Definition mu_hook (h : option (Mem -> prog)) (b : nat) (s : mind) (m : mc) : outcome (mind * mc) :=
  match h with
  | None => Ok (s, m)
  | Some f => let! r := run (f (fst s)) (snd s) (set_coefs m (Some b) (s_cor m)) in Ok (fst r, set_coefs (snd r) None (s_cor (snd r)))
  end.
Definition cor_hook (h : option (Mem -> prog)) (b : nat) (s : mind) (m : mc) : outcome (mind * mc) :=
  match h with
  | None => Ok (s, m)
  | Some f => let! r := run (f (fst s)) (snd s) (set_coefs m (s_mu m) (Some b)) in Ok (fst r, set_coefs (snd r) (s_mu (snd r)) None)
  end.

(* the numerical part of a step: how many contacts there are and where the step ends, with the two lists of
   coefficients in use; e_mu and e_cor are the coefficients of the scene *)
Record engine := Engine {
  contacts : list R -> list R -> nat; e_mu : R; e_cor : R;
  advance : list R -> list R -> list R -> list R -> list R * list R }.

(* the coefficients of an impact and friction step: GeometricImpactFrictionMap.cpp:300-320,
   StabilizedImpactFrictionMap.cpp:85-100, SymplecticEulerImpactFrictionMap.cpp:250-265; the vectors are locals and are
   gone when the map returns *)
Definition coefficients (E : engine) (sc : script) (q v : list R) (s : mind) (m : mc) : outcome (mind * mc * (list R * list R)) :=
  let n := contacts E q v in
  if Nat.eqb n 0 then Ok (s, m, ([], []))
  else
    let '(bm, m) := alloc (repeat (e_mu E) n) m in
    let! r := mu_hook (friction sc) bm s m in
    let '(bc, m) := alloc (repeat (e_cor E) n) (snd r) in
    let! r := cor_hook (restitution sc) bc (fst r) m in
    match mem (snd r) bm, mem (snd r) bc with
    | Some mu, Some cor => Ok (fst r, free bm (free bc (snd r)), (mu, cor))
    | _, _ => UB
    end.
(* Ball2DSim::flow with an impact and friction map, Ball2DSim.cpp:305-326; the vectors q1 and v1 hold the old buffers
   after the swap and are gone when flow returns *)
Definition flow (E : engine) (sc : script) (it : N) (dt : R) (s : mind) (m : mc) : outcome (mind * mc) :=
  let! r := step_hook (start_step sc) dt it s m in
  let m := snd r in
  match mem m (qb m), mem m (vb m) with
  | Some q, Some v =>
      let! r := coefficients E sc q v (fst r) m in
      let m := snd (fst r) in
      let new := advance E q v (fst (snd r)) (snd (snd r)) in
      let '(q1, m) := alloc (fst new) m in
      let '(v1, m) := alloc (snd new) m in
      let q0 := qb m in
      let v0 := vb m in
      let! r := step_hook (end_step sc) dt it (fst (fst r)) (with_bufs m q1 v1) in
      Ok (fst r, free q0 (free v0 (snd r)))
  | _, _ => UB
  end.
Fixpoint flows (E : engine) (sc : script) (n : nat) (it : N) (dt : R) (s : mind) (m : mc) : outcome (mind * mc) :=
  match n with
  | O => Ok (s, m)
  | S n => let! r := flow E sc it dt s m in flows E sc n (it + 1)%N dt (fst r) (snd r)
  end.
(* a whole run: the state is loaded, startOfSim, n steps numbered from 1, endOfSim; static variables start at zero *)
Definition start (q v : list R) : mc := Mc (upd (upd (fun _ => None) 0 (Some q)) 1 (Some v)) 2 0 1 false None None (Some 0) 0%N.
Definition simulate (E : engine) (sc : script) (n : nat) (dt : R) (x : Mem) (q v : list R) : outcome (mind * mc) :=
  let! r := sim_hook (start_sim sc) (x, no_vars) (start q v) in
  let! r := flows E sc n 1%N dt (fst r) (snd r) in
  sim_hook (end_sim sc) (fst r) (snd r).
End Arrays.
Arguments prog : clear implicits.
Arguments script : clear implicits.
