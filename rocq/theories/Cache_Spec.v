(* What the impulse caches promise, independent of how they are keyed. *)
From Coq Require Import List NArith Reals Bool.
From Verif Require Import Outcome Codec_Model Codec_Spec Lin_Model Cache_Model.
Import ListNotations.
Open Scope N_scope.

(* ---------- when two contacts are the same contact ---------- *)
(* the same unordered pair of bodies *)
Definition same_pair (i j i' j' : N) : bool := ((i =? i') && (j =? j')) || ((i =? j') && (j =? i')).

Definition same_ball (a b : ball_contact) : bool :=
  match a, b with
  | BallBall i j, BallBall i' j' => same_pair i j i' j'
  | TeleportedBallBall i j, TeleportedBallBall i' j' => same_pair i j i' j'
  | KickBallBall i j, KickBallBall i' j' => same_pair i j i' j'
  | TeleportedKickBallBall i j, TeleportedKickBallBall i' j' => same_pair i j i' j'
  | BallPlane p b, BallPlane p' b' => (p =? p') && (b =? b')
  | BallDrum d b, BallDrum d' b' => (d =? d') && (b =? b')
  | _, _ => false
  end.
Definition same_rb2 (a b : rb2_contact) : bool :=
  match a, b with
  | CircleCircle i j, CircleCircle i' j' => same_pair i j i' j'
  | TeleportedCircleCircle i j, TeleportedCircleCircle i' j' => same_pair i j i' j'
  | KickCircleCircle i j, KickCircleCircle i' j' => same_pair i j i' j'
  | BodyBody2 i j, BodyBody2 i' j' => same_pair i j i' j'
  | KinCircle i j, KinCircle i' j' => same_pair i j i' j'
  | PlaneCircle p b, PlaneCircle p' b' => (p =? p') && (b =? b')
  | PlaneBody2 p b, PlaneBody2 p' b' => (p =? p') && (b =? b')
  | _, _ => false
  end.
Definition same_rb3 (a b : rb3_contact) : bool :=
  match a, b with
  | SphereSphere i j, SphereSphere i' j' => same_pair i j i' j'
  | TeleportedSphereSphere i j, TeleportedSphereSphere i' j' => same_pair i j i' j'
  | SphereBody i j, SphereBody i' j' => (i =? i') && (j =? j')
  | BodyBody3 i j, BodyBody3 i' j' => same_pair i j i' j'
  | KinSphereSphere k s, KinSphereSphere k' s' => (k =? k') && (s =? s')
  | KinObjectSphere k s, KinObjectSphere k' s' => (k =? k') && (s =? s')
  | KinObjectBody k s, KinObjectBody k' s' => (k =? k') && (s =? s')
  | PlaneSphere p b, PlaneSphere p' b' => (p =? p') && (b =? b')
  | PlaneBody3 p b, PlaneBody3 p' b' => (p =? p') && (b =? b')
  | PlaneBox p b, PlaneBox p' b' => (p =? p') && (b =? b')
  | CylinderSphere p b, CylinderSphere p' b' => (p =? p') && (b =? b')
  | CylinderBody p b, CylinderBody p' b' => (p =? p') && (b =? b')
  | _, _ => false
  end.

(* ---------- the contacts the caches can hold ---------- *)
Definition supported_ball (c : ball_contact) : bool :=
  match c with BallBall _ _ | BallPlane _ _ | BallDrum _ _ => true | _ => false end.
Definition supported_rb2 (c : rb2_contact) : bool :=
  match c with CircleCircle _ _ | BodyBody2 _ _ | KinCircle _ _ | PlaneCircle _ _ => true | _ => false end.
Definition supported_rb3 (c : rb3_contact) : bool :=
  match c with SphereSphere _ _ | PlaneSphere _ _ | CylinderSphere _ _ | KinSphereSphere _ _ => true | _ => false end.

(* collision detection reports a pair of bodies with the lower index first *)
Definition ordered_ball (c : ball_contact) : Prop := match c with BallBall i j => i < j | _ => True end.
Definition ordered_rb2 (c : rb2_contact) : Prop :=
  match c with CircleCircle i j | BodyBody2 i j => i < j | _ => True end.
Definition ordered_rb3 (c : rb3_contact) : Prop := match c with SphereSphere i j => i < j | _ => True end.

Definition good_ball c := supported_ball c = true /\ ordered_ball c.
Definition good_rb2 c := supported_rb2 c = true /\ ordered_rb2 c.
Definition good_rb3 c := supported_rb3 c = true /\ ordered_rb3 c.

(* ---------- histories ---------- *)
Section History.
Context {A C T : Type}.
Variable zero : A.
Variable same : C -> C -> bool.

Inductive call := Put (c : C) (r : list A) | Clear.

(* what has been stored since the last clear, oldest first *)
Definition live (h : list call) : list (C * list A) :=
  fold_left (fun acc o => match o with Put c r => acc ++ [(c, r)] | Clear => [] end) h [].

(* the first vector stored for the contact since the last clear *)
Definition stored (l : list (C * list A)) (c : C) : option (list A) :=
  option_map snd (find (fun e => same (fst e) c) l).

(* the calls in order on an implementation *)
Definition replay (ops : cache_ops A C T) (h : list call) (t : T) : outcome T :=
  ofold (fun t o => match o with Put c r => op_put ops c r t | Clear => Ok (op_clear ops t) end) h t.

(* the value a caller that passes a vector of n entries gets back *)
Definition answer (n : nat) (o : option (list A)) : list A :=
  match o with Some r => r | None => repeat zero n end.
End History.
Arguments call : clear implicits.

(* A cache behaves as a map from contacts to vectors: after any calls that store contacts of the
   kinds it supports, starting from a cleared cache, every look-up returns the first vector stored
   for that contact since the last clear, or zeros; the cache reports itself empty exactly when
   nothing was stored since the last clear. *)
Definition behaves_as_map {A C T} (zero : A) (good : C -> Prop) (same : C -> C -> bool) (ops : cache_ops A C T) : Prop :=
  forall (h : list (call A C)) (t0 : T),
    Forall (fun o => match o with Put c _ => good c | Clear => True end) h ->
    exists t, replay ops h (op_clear ops t0) = Ok t /\
      (forall c n, good c -> op_get ops c n t = Ok (answer zero n (stored same (live h) c))) /\
      (op_empty ops t = true <-> live h = []).

(* ---------- warm starting ---------- *)
Section Carry.
Context {C X : Type}.
Variable same : C -> C -> bool.
Variable none : X.
(* what a mode promises to keep of an impulse: all of it, or its normal part only *)
Variable keep : X -> X.

(* no contact is listed twice *)
Definition distinct (l : list C) : Prop := ForallOrdPairs (fun a b => same a b = false) l.

(* x is the initial guess for contact c after a step that ended with the impulses prev: every
   previous impulse of that very contact is x (as far as the mode keeps it), and x is zero if there was none *)
Definition carried (prev : list (C * X)) (c : C) (x : X) : Prop :=
  (forall e, In e prev -> same (fst e) c = true -> x = keep (snd e)) /\
  ((forall e, In e prev -> same (fst e) c = false) -> x = none).

(* one step: the contacts, the guess the solver started from, what it returned *)
Record step_log := mkLog { lg_active : list C; lg_guess : list X; lg_result : list X }.

Fixpoint well_started (prev : list (C * X)) (logs : list step_log) : Prop :=
  match logs with
  | [] => True
  | s :: rest =>
      Forall2 (carried prev) (lg_active s) (lg_guess s) /\
      well_started (combine (lg_active s) (lg_result s)) rest
  end.
End Carry.
Arguments step_log : clear implicits.

(* a run of steps, each with its contacts and its solver *)
Section Runs.
Context {C X T : Type}.
Variable step : (list C -> list X -> list X) -> list C -> T -> outcome (list X * list X * T).

Fixpoint run_steps (steps : list (list C * (list C -> list X -> list X))) (t : T) : outcome (list (step_log C X) * T) :=
  match steps with
  | [] => Ok ([], t)
  | (active, solve) :: rest =>
      let! r := step solve active t in
      let! s := run_steps rest (snd r) in
      Ok (mkLog active (fst (fst r)) (snd (fst r)) :: fst s, snd s)
  end.

(* what the solvers were asked and answered *)
Definition logged (steps : list (list C * (list C -> list X -> list X))) (logs : list (step_log C X)) : Prop :=
  Forall2 (fun s l => lg_active l = fst s /\ (fst s <> [] -> lg_result l = snd s (fst s) (lg_guess l))) steps logs.
End Runs.

(* the steps a run may take: contacts the cache supports, none listed twice, and a solver that
   returns one impulse per contact *)
Definition good_steps {C X} (good : C -> Prop) (same : C -> C -> bool)
           (steps : list (list C * (list C -> list X -> list X))) : Prop :=
  Forall (fun s => Forall good (fst s) /\ distinct same (fst s) /\
                   forall x, length x = length (fst s) -> length (snd s (fst s) x) = length (fst s)) steps.

(* every step of every run starts each contact from the impulse of the step before *)
Definition warm_starts {C X T} (good : C -> Prop) (same : C -> C -> bool) (none : X) (keep : X -> X) (clear : T -> T)
           (step : (list C -> list X -> list X) -> list C -> T -> outcome (list X * list X * T)) : Prop :=
  forall steps t0, good_steps good same steps ->
    exists logs t, run_steps step steps (clear t0) = Ok (logs, t) /\
                   logged steps logs /\ well_started same none keep [] logs.

(* ---------- three dimensions ---------- *)
Open Scope R_scope.
Definition orthonormal (b : frame) : Prop :=
  dot3 (f_n b) (f_n b) = 1 /\ dot3 (f_s b) (f_s b) = 1 /\ dot3 (f_t b) (f_t b) = 1 /\
  dot3 (f_n b) (f_s b) = 0 /\ dot3 (f_n b) (f_t b) = 0 /\ dot3 (f_s b) (f_t b) = 0.

(* a family of maps like Eigen's FromTwoVectors: for unit vectors a and b it preserves inner
   products and takes a to b; it does nothing when a and b are equal *)
Definition turns (turn : v3 -> v3 -> v3 -> v3) : Prop :=
  forall a b, dot3 a a = 1 -> dot3 b b = 1 ->
    turn a b a = b /\ (forall x y, dot3 (turn a b x) (turn a b y) = dot3 x y) /\ forall x, turn a a x = x.

(* x continues y: same normal impulse, friction impulse of the same size *)
Definition continues (y x : R * R * R) : Prop :=
  let '(a, b0, b1) := y in let '(a', b0', b1') := x in
  a' = a /\ b0' * b0' + b1' * b1' = b0 * b0 + b1 * b1.

Section Carry3.
Context {C T : Type}.
Variable same : C -> C -> bool.

(* the guess for contact c, given the frames and impulses the previous step ended with *)
Definition carried3 (pbasis basis : C -> frame) (prev : list (C * (R * R * R))) (c : C) (x : R * R * R) : Prop :=
  (forall e, In e prev -> same (fst e) c = true ->
     continues (snd e) x /\
     (f_n (pbasis (fst e)) = f_n (basis c) ->
      world_force (basis c) x = world_force (pbasis (fst e)) (snd e))) /\
  ((forall e, In e prev -> same (fst e) c = false) -> x = (0, 0, 0)).

(* one step: the contacts with their frames, the guess, the solver's answer *)
Record step_log3 := mkLog3 {
  l3_active : list C; l3_basis : C -> frame; l3_guess : list (R * R * R); l3_result : list (R * R * R) }.
Definition solver3 := list C -> list (R * R * R) -> list (R * R * R).

Fixpoint well_started3 (pbasis : C -> frame) (prev : list (C * (R * R * R))) (logs : list step_log3) : Prop :=
  match logs with
  | [] => True
  | s :: rest =>
      Forall2 (carried3 pbasis (l3_basis s) prev) (l3_active s) (l3_guess s) /\
      well_started3 (l3_basis s) (combine (l3_active s) (l3_result s)) rest
  end.

Fixpoint run_steps3 (step : (C -> frame) -> solver3 -> list C -> T -> outcome (list (R * R * R) * list (R * R * R) * T))
         (steps : list (list C * (C -> frame) * solver3)) (t : T) : outcome (list step_log3 * T) :=
  match steps with
  | [] => Ok ([], t)
  | (active, basis, solve) :: rest =>
      let! r := step basis solve active t in
      let! s := run_steps3 step rest (snd r) in
      Ok (mkLog3 active basis (fst (fst r)) (snd (fst r)) :: fst s, snd s)
  end.

Definition logged3 (steps : list (list C * (C -> frame) * solver3)) (logs : list step_log3) : Prop :=
  Forall2 (fun s l => l3_active l = fst (fst s) /\ l3_basis l = snd (fst s) /\
                      (fst (fst s) <> [] -> l3_result l = snd s (fst (fst s)) (l3_guess l))) steps logs.

Definition good_steps3 (good : C -> Prop) (steps : list (list C * (C -> frame) * solver3)) : Prop :=
  Forall (fun s => Forall good (fst (fst s)) /\ distinct same (fst (fst s)) /\
                   (forall c, In c (fst (fst s)) -> orthonormal (snd (fst s) c)) /\
                   forall x, length x = length (fst (fst s)) ->
                             length (snd s (fst (fst s)) x) = length (fst (fst s))) steps.
End Carry3.
Arguments step_log3 : clear implicits.
Arguments solver3 : clear implicits.
