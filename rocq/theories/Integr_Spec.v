(* What the integrators should do, in the words of a mechanics textbook. *)
From Coq Require Import List Reals Arith.
From Verif Require Import Ccd_Model Lin_Model Integr_Model.
Import ListNotations.
Open Scope R_scope.

(* the point reached after time t from x with velocity u under constant acceleration g *)
Definition parabola (x u g : vec) (t : R) : vec :=
  (fst x + t * fst u + t * t / 2 * fst g, snd x + t * snd u + t * t / 2 * snd g).
Definition straight (x u : vec) (t : R) : vec := (fst x + t * fst u, snd x + t * snd u).

(* the sum of several gravities *)
Definition vsum (gs : list vec) : vec := fold_right vadd vzero gs.

(* body i of a planar system with s numbers per body: its place (or velocity) *)
Definition body (s : nat) (v : dvec) (i : nat) : vec := (v (s * i)%nat, v (s * i + 1)%nat).

(* both translational entries of the mass diagonal of each of n bodies are the same positive mass *)
Definition masses_ok (s n : nat) (M : dvec) : Prop :=
  forall i, (i < n)%nat -> 0 < M (s * i)%nat /\ M (s * i + 1)%nat = M (s * i)%nat.

Definition total_mass (s n : nat) (M : dvec) : R := rsum n (fun i => M (s * i)%nat).
Definition momentum (s n : nat) (M v : dvec) : vec :=
  (rsum n (fun i => M (s * i)%nat * fst (body s v i)), rsum n (fun i => M (s * i)%nat * snd (body s v i))).
(* the moment about the origin of the momenta *)
Definition orbital (s n : nat) (M q v : dvec) : R :=
  rsum n (fun i => M (s * i)%nat * vcross (body s q i) (body s v i)).
Definition kinetic (s n : nat) (M v : dvec) : R :=
  rsum n (fun i => / 2 * M (s * i)%nat * vdot (body s v i) (body s v i)).
(* minus the work of gravity from the origin *)
Definition gravity_potential (s n : nat) (M : dvec) (g : vec) (q : dvec) : R :=
  rsum n (fun i => - (M (s * i)%nat * vdot g (body s q i))).

(* q with entry k replaced by x *)
Definition put (q : dvec) (k : nat) (x : R) : dvec := fun i => if Nat.eqb i k then x else q i.
Definition opposite (v : dvec) : dvec := fun k => - v k.

(* the gravity a force stands for *)
Definition gravity_of (f : ball_force) : vec := match f with Gravity g => g | Penalty _ _ => vzero end.
(* the same places with the velocities turned round *)
Definition reverse (s : dvec * dvec) : dvec * dvec := (fst s, opposite (snd s)).
(* the penalty exponents in use are above one, the radii positive *)
Definition stiff (w : balls) : Prop := forall k p, In (Penalty k p) (bl_forces w) -> 1 < p.
Definition radii_ok (w : balls) : Prop := forall i, (i < bl_n w)%nat -> 0 < bl_r w i.
