(* What a script may expect: the arrays are the numbers themselves, as long as they were fetched in the running
   callback and after the last insertion. *)
From Coq Require Import List Reals NArith Arith Bool.
From Verif Require Import Outcome Arr_Model.
Import ListNotations.
Open Scope R_scope.

Section Spec.
Context {Mem : Type}.
(* the numbers a callback can see: nothing is said about a quantity that is None *)
Definition numbers := which -> option (list R).
Definition put (s : numbers) (w : which) (l : list R) : numbers := fun x => if which_eqb x w then Some l else s x.
(* which quantity a variable of the script stands for; the time and iteration, where they are promised *)
Definition means := nat -> option which.
Definition clock := option (R * N).

(* the promise: UB stands for no promise *)
Fixpoint expect (p : prog Mem) (c : clock) (t : means) (s : numbers) : outcome (Mem * numbers) :=
  match p with
  | Done x => Ok (x, s)
  | Raise => Exit
  | Fetch w x k => match s w with
                   | None => UB
                   | Some _ => expect k c (fun y => if Nat.eqb y x then Some w else t y) s
                   end
  | Read x i k => match t x with
                  | None => UB
                  | Some w => match s w with
                              | None => UB
                              | Some l => match nth_error l i with None => Exit | Some r => expect (k r) c t s end
                              end
                  end
  | Write x i r k => match t x with
                     | None => UB
                     | Some w => match s w with
                                 | None => UB
                                 | Some l => if Nat.ltb i (length l) then expect k c t (put s w (set_nth l i r)) else Exit
                                 end
                     end
  | Insert qx qy vx vy k =>
      match s Q, s V with
      | Some q, Some v => expect k c (fun _ => None) (put (put s Q (q ++ [qx; qy])) V (v ++ [vx; vy]))
      | _, _ => UB
      end
  | Timestep k => match c with None => UB | Some (dt, _) => expect (k (Some dt)) c t s end
  | Iteration k => match c with None => UB | Some (_, it) => expect (k it) c t s end
  end.

Definition no_means : means := fun _ => None.
Definition state_numbers (q v : list R) : numbers := fun w => match w with Q => Some q | V => Some v | _ => None end.
Definition only (w : which) (l : list R) : numbers := fun x => if which_eqb x w then Some l else None.

(* a callback that sees the state *)
Definition expect_state (h : option (Mem -> prog Mem)) (c : clock) (x : Mem) (q v : list R) : outcome (Mem * (list R * list R)) :=
  match h with
  | None => Ok (x, (q, v))
  | Some f => let! r := expect (f x) c no_means (state_numbers q v) in
              match snd r Q, snd r V with Some q, Some v => Ok (fst r, (q, v)) | _, _ => UB end
  end.
(* a callback that sees a list of coefficients *)
Definition expect_coefficients (h : option (Mem -> prog Mem)) (w : which) (x : Mem) (l : list R) : outcome (Mem * list R) :=
  match h with
  | None => Ok (x, l)
  | Some f => let! r := expect (f x) None no_means (only w l) in
              match snd r w with Some l => Ok (fst r, l) | None => UB end
  end.
(* one step and many, in terms of the numbers alone *)
Definition expect_flow (E : engine) (sc : script Mem) (it : N) (dt : R) (x : Mem) (q v : list R) : outcome (Mem * (list R * list R)) :=
  let! r := expect_state (start_step sc) (Some (dt, it)) x q v in
  let q := fst (snd r) in let v := snd (snd r) in
  let n := contacts E q v in
  let! r := if Nat.eqb n 0 then Ok (fst r, ([], []))
            else let! a := expect_coefficients (friction sc) Mu (fst r) (repeat (e_mu E) n) in
                 let! b := expect_coefficients (restitution sc) Cor (fst a) (repeat (e_cor E) n) in
                 Ok (fst b, (snd a, snd b)) in
  let new := advance E q v (fst (snd r)) (snd (snd r)) in
  expect_state (end_step sc) (Some (dt, it)) (fst r) (fst new) (snd new).
Fixpoint expect_flows (E : engine) (sc : script Mem) (n : nat) (it : N) (dt : R) (x : Mem) (q v : list R) : outcome (Mem * (list R * list R)) :=
  match n with
  | O => Ok (x, (q, v))
  | S n => let! r := expect_flow E sc it dt x q v in expect_flows E sc n (it + 1)%N dt (fst r) (fst (snd r)) (snd (snd r))
  end.
Definition expect_run (E : engine) (sc : script Mem) (n : nat) (dt : R) (x : Mem) (q v : list R) : outcome (Mem * (list R * list R)) :=
  let! r := expect_state (start_sim sc) None x q v in
  let! r := expect_flows E sc n 1%N dt (fst r) (fst (snd r)) (snd (snd r)) in
  expect_state (end_sim sc) None (fst r) (fst (snd r)) (snd (snd r)).
End Spec.
(* the program's memory holds exactly the state *)
Definition holds (m : mc) (q v : list R) : Prop :=
  mem m (qb m) = Some q /\ mem m (vb m) = Some v /\ qb m <> vb m /\
  forall b, mem m b <> None -> b = qb m \/ b = vb m.

(* A callback that keeps to the rules: it fetches only what is there, uses only arrays it fetched itself after its last
   insertion, and asks for the time only where it is known. *)
Fixpoint proper {Mem} (p : prog Mem) (timed : bool) (there : which -> bool) (t : means) : Prop :=
  match p with
  | Done _ | Raise => True
  | Fetch w x k => there w = true /\ proper k timed there (fun y => if Nat.eqb y x then Some w else t y)
  | Read x _ k => t x <> None /\ forall r, proper (k r) timed there t
  | Write x _ _ k => t x <> None /\ proper k timed there t
  | Insert _ _ _ _ k => there Q = true /\ there V = true /\ proper k timed there no_means
  | Timestep k => timed = true /\ forall d, proper (k d) timed there t
  | Iteration k => timed = true /\ forall n, proper (k n) timed there t
  end.
Definition proper_in {Mem} (timed : bool) (there : which -> bool) (h : option (Mem -> prog Mem)) : Prop :=
  match h with None => True | Some f => forall x, proper (f x) timed there no_means end.
Definition the_state (w : which) : bool := match w with Q | V => true | _ => false end.
Definition proper_script {Mem} (sc : script Mem) : Prop :=
  proper_in false the_state (start_sim sc) /\ proper_in false the_state (end_sim sc) /\
  proper_in true the_state (start_step sc) /\ proper_in true the_state (end_step sc) /\
  proper_in false (which_eqb Mu) (friction sc) /\ proper_in false (which_eqb Cor) (restitution sc).
