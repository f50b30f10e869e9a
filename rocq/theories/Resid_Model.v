(* The residuals used as stopping tests by the impact and friction solvers, over the reals.
   Models /repo/scisim/ConstrainedMaps/ImpactMaps/MinMapImpact.cpp and FischerBurmeisterImpact.cpp, and
   /repo/scisim/ConstrainedMaps/FrictionMaps/FischerBurmeisterBoundConstrained.cpp and FischerBurmeisterSmooth.cpp.
   A vector of size n is a function of which the first n entries count. *)
From Coq Require Import Reals Arith Bool.
From Verif Require Import Ccd_Model Lin_Model.
Open Scope R_scope.

(* inf_norm = max( inf_norm, f( i ) ) for i = 0, ..., n - 1, from 0 *)
Fixpoint max_over (n : nat) (f : nat -> R) : R :=
  match n with O => 0 | S k => Rmax (max_over k f) (f k) end.
(* the same loop written with if( fb > inf_norm ) *)
Fixpoint max_if (n : nat) (f : nat -> R) : R :=
  match n with O => 0 | S k => if Rltb (max_if k f) (f k) then f k else max_if k f end.

(* minMapInfinityNorm, MinMapImpact.cpp:3-14, and operator(), 16-19 *)
Definition min_map (n : nat) (x y : dvec) : R := max_over n (fun i => Rabs (Rmin (x i) (y i))).

(* fischerBurmeisterInfinityNorm, FischerBurmeisterImpact.cpp:7-22, FischerBurmeisterBoundConstrained.cpp:16-29 *)
Definition fb (x y : R) : R := Rabs (sqrt (x * x + y * y) - x - y).
Definition fischer_burmeister (n : nat) (x y : dvec) : R := max_if n (fun i => fb (x i) (y i)).

(* FischerBurmeisterBoundConstrained::operator(), FischerBurmeisterBoundConstrained.cpp:31-56 *)
Definition bound_lambda (c beta vrel : R) : R :=
  if Req_EM_T c 0 then 0
  else if Rltb (- c) beta then if Rltb beta c then vrel else Rmax vrel 0
       else Rmin vrel 0.
Definition fb_bound (n : nat) (c beta vrel : dvec) : R :=
  fischer_burmeister n (fun i => bound_lambda (c i) (beta i) (vrel i)) (fun i => c i - Rabs (beta i)).

(* getSignedTangentMagnitude, FischerBurmeisterSmooth.cpp:18-46 *)
Definition vnorm (x : vec) : R := sqrt (vdot x x).
Definition signed_tangent (x : vec) (c : R) (grad : vec) : R :=
  if Rltb (vnorm x) c then vnorm grad
  else if Rltb 0 (vnorm x)
       then let n := vscale (/ vnorm x) x in - vnorm (vsub grad (vscale (vdot grad n) n))
       else if Req_EM_T c 0 then 0
            else - vnorm grad.
(* FischerBurmeisterSmooth::operator(), FischerBurmeisterSmooth.cpp:48-69 *)
Definition fb_disc (ncons : nat) (c : dvec) (beta vrel : nat -> vec) : R :=
  max_if ncons (fun i => fb (signed_tangent (beta i) (c i) (vrel i)) (c i - vnorm (beta i))).
