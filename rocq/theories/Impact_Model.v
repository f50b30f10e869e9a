(* Model of the Gauss-Seidel impact operator and of the velocity update of ImpactMap.
   Sources: /repo/scisim/ConstrainedMaps/ImpactMaps/GaussSeidelOperator.cpp,
   /repo/scisim/ConstrainedMaps/ImpactMaps/ImpactMap.cpp. Scalars are real numbers; debug assertions are not part of the
   release build. *)
From Coq Require Import List Reals Arith.
From Verif Require Import Outcome Ccd_Model Lin_Model ContactBall_Model ContactRb3_Model.
Import ListNotations.
Open Scope R_scope.

Section GaussSeidel.
(* virtual functions of Constraint at the fixed configuration q0 and mass matrix M *)
Context {C : Type}.
Variable evalNdotV : C -> dvec -> R.
(* resolveImpact( CoR, M, ndotv, v1, local_alpha ) *)
Variable resolve : R -> R -> C -> dvec -> outcome (dvec * R).
Variable tol : R.

(* one pass of the for loop, GaussSeidelOperator.cpp:36-51. alpha is updated in place, v1 is carried along, the boolean is
   collision_happened. *)
Fixpoint gs_sweep (cons : list (C * R)) (alpha : list R) (v : dvec) : outcome (dvec * list R * bool) :=
  match cons, alpha with
  | (c, CoR) :: cons', a :: alpha' =>
      let ndotv := evalNdotV c v in
      if Rlt_dec ndotv (- tol) then
        let! (v1, local_alpha) := resolve CoR ndotv c v in
        let! (v2, alpha2, _) := gs_sweep cons' alpha' v1 in
        Ok (v2, (a + local_alpha) :: alpha2, true)
      else
        let! (v2, alpha2, h) := gs_sweep cons' alpha' v in
        Ok (v2, a :: alpha2, h)
  | _, _ => Ok (v, alpha, false)
  end.

(* while( collision_happened ), GaussSeidelOperator.cpp:30-54; None: still running after fuel passes *)
Fixpoint gs_loop (fuel : nat) (cons : list (C * R)) (alpha : list R) (v : dvec) : option (outcome (dvec * list R)) :=
  match fuel with
  | O => None
  | S k =>
      match gs_sweep cons alpha v with
      | Ok (v1, alpha1, h) => if h then gs_loop k cons alpha1 v1 else Some (Ok (v1, alpha1))
      | Exit => Some Exit
      | UB => Some UB
      end
  end.
End GaussSeidel.

(* ImpactMap.cpp:78-152 with the Gauss-Seidel operator: alpha is the initial guess (zero, or the cached impulses when warm
   starting), v2 = v0 + Minv * N * alpha. The operator's own v1 is discarded. *)
Definition ball_impact (fuel : nat) (m : dvec) (tol : R) (cons : list (ball_contact * R)) (alpha : list R) (v0 : dvec)
  : option (outcome (dvec * list R)) :=
  match gs_loop b_evalNdotV (fun CoR nd c v => b_resolveImpact CoR m nd c v) tol fuel cons alpha v0 with
  | Some (Ok (_, alpha1)) =>
      Some (Ok (vplus v0 (diag_minv m (impulse (combine (map (fun c => b_gradg (fst c)) cons) alpha1))), alpha1))
  | Some Exit => Some Exit
  | Some UB => Some UB
  | None => None
  end.

(* evalNdotV of SphereBody is NaN, which is not below the threshold: 0 stands for it *)
Definition rb3_ndotv_or_0 (nb : nat) (q : dvec) (c : rb3_contact) (v : dvec) : R :=
  match rb3_evalNdotV nb q c v with Some x => x | None => 0 end.
(* computeN asks every contact for its gradient first, which ends the program for some kinds *)
Definition rb3_impact (fuel nb : nat) (m : dvec) (Iinv : nat -> m3) (q : dvec) (tol : R) (cons : list (rb3_contact * R))
  (alpha : list R) (v0 : dvec) : option (outcome (dvec * list R)) :=
  match omapM (fun c => rb3_gradg nb q (fst c)) cons with
  | Ok N =>
      match gs_loop (rb3_ndotv_or_0 nb q) (fun CoR nd c v => rb3_resolveImpact CoR m nd c v) tol fuel cons alpha v0 with
      | Some (Ok (_, alpha1)) => Some (Ok (vplus v0 (rb3_minv nb m Iinv (impulse (combine N alpha1))), alpha1))
      | Some Exit => Some Exit
      | Some UB => Some UB
      | None => None
      end
  | Exit => Some Exit
  | UB => Some UB
  end.

(* kinetic energy of the 3D bodies, 0.5 * v.dot( M * v ), /repo/rigidbody3d/RigidBody3DSim.cpp:87-90 *)
Definition rb3_kinetic (nb : nat) (m : dvec) (I : nat -> m3) (v : dvec) : R :=
  / 2 * (rsum (3 * nb) (fun k => v k * (m k * v k))
         + rsum nb (fun i => dot3 (seg3 v (3 * (nb + i))) (mul3 (I i) (seg3 v (3 * (nb + i)))))).
