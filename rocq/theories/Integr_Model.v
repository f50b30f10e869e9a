(* The planar time integrators and forces: ball2d and rigidbody2d symplectic Euler and Verlet maps, gravity and penalty
   forces, the energies and momenta the simulations report. Arithmetic on doubles is over R. The time argument of
   computeForce is dropped: Ball2DSim::computeForce (/repo/ball2d/Ball2DSim.cpp:72-78) and
   RigidBody2DSim::computeForce (/repo/rigidbody2d/RigidBody2DSim.cpp:104-113) never read it. *)
From Coq Require Import List Reals Arith Bool.
From Verif Require Import Ccd_Model Lin_Model ContactBall_Model ContactRb2_Model.
Import ListNotations.
Open Scope R_scope.

(* std::pow( x, y ) for x >= 0; None where the result is not a finite number. *)
Definition cpow (x y : R) : option R :=
  if Rlt_dec 0 x then Some (Rpower x y)
  else if Rlt_dec 0 y then Some 0 else if Req_EM_T y 0 then Some 1 else None.

(* a sequence of "result.segment<2>( k ) += x" statements, in order *)
Definition update := (nat * vec)%type.
Definition apply_updates (us : list update) (F : dvec) : dvec :=
  fold_left (fun F u => add_seg2 F (fst u) (snd u)) us F.

(* run f on each element in order and collect what it emits; None as soon as one produces a NaN or infinity *)
Fixpoint collect {A B : Type} (f : A -> option (list B)) (l : list A) : option (list B) :=
  match l with
  | [] => Some []
  | x :: r => match f x, collect f r with Some a, Some b => Some (a ++ b) | _, _ => None end
  end.

(* for ball0 in 0..n-1, for ball1 in ball0+1..n-1 *)
Definition pairs_lt (n : nat) : list (nat * nat) :=
  flat_map (fun i => map (fun j => (i, j)) (seq (S i) (n - S i))) (seq 0 n).

Inductive ball_force :=
| Gravity (g : vec)
| Penalty (k power : R).

(* one iteration of the pair loop of PenaltyForce::computeForce, /repo/ball2d/Forces/PenaltyForce.cpp:64-91.
   None for the division by a zero distance and for a pow that is not finite. *)
Definition penalty_pair (k power : R) (r q : dvec) (p : nat * nat) : option (list update) :=
  let total := r (fst p) + r (snd p) in
  let n := vsub (seg2 q (2 * snd p)) (seg2 q (2 * fst p)) in
  if Rlt_dec (total * total) (vdot n n) then Some []
  else
    let d := sqrt (vdot n n) in
    if Req_EM_T d 0 then None
    else
      match cpow (- (d - total)) (power - 1) with
      | None => None
      | Some w =>
          let F := vscale (/ 2 * k * power * w) (vscale (/ d) n) in
          Some [((2 * snd p)%nat, F); ((2 * fst p)%nat, vneg F)]
      end.

(* computeForce of a force: Ball2DGravityForce.cpp:36-46, PenaltyForce.cpp:56-93 *)
Definition force_updates (n : nat) (M r q : dvec) (f : ball_force) : option (list update) :=
  match f with
  | Gravity g => Some (map (fun i => ((2 * i)%nat, vscale (M (2 * i)%nat) g)) (seq 0 n))
  | Penalty k power => collect (penalty_pair k power r q) (pairs_lt n)
  end.

(* what the integrators see of a Ball2DSim: the diagonal of M, the radii, the fixed flags and the forces *)
Record balls := Balls { bl_n : nat; bl_M : dvec; bl_r : dvec; bl_fixed : nat -> bool; bl_forces : list ball_force }.

(* Ball2DSim::isKinematicallyScripted, /repo/ball2d/Ball2DSim.cpp:66-70 *)
Definition ball_scripted (w : balls) (i : nat) : bool := false.

(* Ball2DSim::computeForce 72-78 with Ball2DState::accumulateForce, /repo/ball2d/Ball2DState.cpp:251-257 *)
Definition ball_compute_force (w : balls) (q v : dvec) : option dvec :=
  match collect (force_updates (bl_n w) (bl_M w) (bl_r w) q) (bl_forces w) with
  | Some us => Some (apply_updates us (fun _ => 0))
  | None => None
  end.

(* v + s * u *)
Definition axpy (v : dvec) (s : R) (u : dvec) : dvec := fun k => v k + s * u k.

Definition phase := (dvec * dvec)%type.

(* SymplecticEulerMap::flow, /repo/ball2d/SymplecticEulerMap.cpp:21-32 *)
Definition ball_euler (w : balls) (dt : R) (s : phase) : option phase :=
  match ball_compute_force w (fst s) (snd s) with
  | None => None
  | Some F =>
      let v1 := axpy (snd s) dt (diag_minv (bl_M w) F) in
      let q1 := axpy (fst s) dt v1 in
      Some (q1, v1)
  end.

(* VerletMap::flow, /repo/ball2d/VerletMap.cpp:15-41 *)
Definition ball_verlet (w : balls) (dt : R) (s : phase) : option phase :=
  match ball_compute_force w (fst s) (snd s) with
  | None => None
  | Some F0 =>
      let vh := axpy (snd s) (/ 2 * dt) (diag_minv (bl_M w) F0) in
      let q1 := axpy (fst s) dt vh in
      match ball_compute_force w q1 (snd s) with
      | None => None
      | Some F1 => Some (q1, axpy vh (/ 2 * dt) (diag_minv (bl_M w) F1))
      end
  end.

(* k successive steps: Ball2DSim::flow with an unconstrained map, /repo/ball2d/Ball2DSim.cpp:259-271 *)
Fixpoint steps (step : phase -> option phase) (k : nat) (s : phase) : option phase :=
  match k with
  | O => Some s
  | S k => match steps step k s with Some s' => step s' | None => None end
  end.

(* ---------- rigidbody2d ---------- *)
(* what the integrators see of a RigidBody2DSim: the diagonal of M (m, m, I per body), the fixed flags, the gravities *)
Record bodies := Bodies { rb_n : nat; rb_M : dvec; rb_fixed : nat -> bool; rb_gravity : list vec }.

(* RigidBody2DSim::isKinematicallyScripted, /repo/rigidbody2d/RigidBody2DSim.cpp:99-102 *)
Definition rb2_scripted (w : bodies) (i : nat) : bool := rb_fixed w i.

(* RigidBody2DSim::computeForce 104-113 with NearEarthGravityForce::computeForce, /repo/rigidbody2d/NearEarthGravityForce.cpp:35-48 *)
Definition rb2_compute_force (w : bodies) (q v : dvec) : dvec :=
  apply_updates (flat_map (fun g => map (fun i => ((3 * i)%nat, vscale (rb_M w (3 * i)%nat) g)) (seq 0 (rb_n w))) (rb_gravity w))
    (fun _ => 0).

(* F.segment<3>( k ).setZero() *)
Definition zero_seg3 (F : dvec) (k : nat) : dvec :=
  fun i => if Nat.eqb i (k + 0) || Nat.eqb i (k + 1) || Nat.eqb i (k + 2) then 0 else F i.

(* zeroForcesOnKinematicBodies, /repo/rigidbody2d/VerletMap.cpp:15-25; the same loop in SymplecticEulerMap.cpp:23-31 *)
Definition zero_scripted (w : bodies) (F : dvec) : dvec :=
  fold_left (fun F i => if rb2_scripted w i then zero_seg3 F (3 * i) else F) (seq 0 (rb_n w)) F.

(* SymplecticEulerMap::flow, /repo/rigidbody2d/SymplecticEulerMap.cpp:15-38 *)
Definition rb2_euler (w : bodies) (dt : R) (s : phase) : option phase :=
  let F := zero_scripted w (rb2_compute_force w (fst s) (snd s)) in
  let v1 := axpy (snd s) dt (diag_minv (rb_M w) F) in
  let q1 := axpy (fst s) dt v1 in
  Some (q1, v1).

(* VerletMap::flow, /repo/rigidbody2d/VerletMap.cpp:27-55 *)
Definition rb2_verlet (w : bodies) (dt : R) (s : phase) : option phase :=
  let F0 := zero_scripted w (rb2_compute_force w (fst s) (snd s)) in
  let vh := axpy (snd s) (/ 2 * dt) (diag_minv (rb_M w) F0) in
  let q1 := axpy (fst s) dt vh in
  let F1 := zero_scripted w (rb2_compute_force w q1 (snd s)) in
  Some (q1, axpy vh (/ 2 * dt) (diag_minv (rb_M w) F1)).

(* ---------- energies ---------- *)
Fixpoint osum {A : Type} (f : A -> option R) (l : list A) : option R :=
  match l with
  | [] => Some 0
  | x :: r => match f x, osum f r with Some a, Some b => Some (a + b) | _, _ => None end
  end.

(* one iteration of the pair loop of PenaltyForce::computePotential, PenaltyForce.cpp:32-50 *)
Definition penalty_pair_potential (k power : R) (r q : dvec) (p : nat * nat) : option R :=
  let total := r (fst p) + r (snd p) in
  let n := vsub (seg2 q (2 * snd p)) (seg2 q (2 * fst p)) in
  if Rlt_dec (total * total) (vdot n n) then Some 0
  else
    let delta := sqrt (vdot n n) - total in
    match cpow (- delta) power with
    | None => None
    | Some w => Some (/ 2 * k * w)
    end.

(* computePotential: Ball2DGravityForce.cpp:22-34, PenaltyForce.cpp:25-54 *)
Definition force_potential (n : nat) (M r q : dvec) (f : ball_force) : option R :=
  match f with
  | Gravity g => osum (fun i => Some (- M (2 * i)%nat * vdot g (seg2 q (2 * i)))) (seq 0 n)
  | Penalty k power => osum (penalty_pair_potential k power r q) (pairs_lt n)
  end.

(* Ball2DState::computePotentialEnergy, /repo/ball2d/Ball2DState.cpp:174-182 *)
Definition ball_potential (w : balls) (q : dvec) : option R :=
  osum (force_potential (bl_n w) (bl_M w) (bl_r w) q) (bl_forces w).

(* Ball2DState::computeTotalEnergy, Ball2DState.cpp:184-187 *)
Definition ball_energy (w : balls) (s : phase) : option R :=
  match ball_potential w (fst s) with
  | Some U => Some (b_kinetic (bl_n w) (bl_M w) (snd s) + U)
  | None => None
  end.

(* RigidBody2DSim::computeKineticEnergy, /repo/rigidbody2d/RigidBody2DSim.cpp:42-45 *)
Definition rb2_kinetic (n : nat) (M v : dvec) : R := / 2 * rsum (3 * n) (fun k => v k * (M k * v k)).

(* RigidBody2DSim::computePotentialEnergy 47-56 with NearEarthGravityForce::computePotential, NearEarthGravityForce.cpp:18-33 *)
Definition rb2_potential (w : bodies) (q : dvec) : option R :=
  osum (fun g => osum (fun i => Some (- rb_M w (3 * i)%nat * vdot g (seg2 q (3 * i)))) (seq 0 (rb_n w))) (rb_gravity w).

(* RigidBody2DSim::computeTotalEnergy, RigidBody2DSim.cpp:58-61 *)
Definition rb2_energy (w : bodies) (s : phase) : option R :=
  match rb2_potential w (fst s) with
  | Some U => Some (rb2_kinetic (rb_n w) (rb_M w) (snd s) + U)
  | None => None
  end.
