(* The friction problem of a whole system, posed on the bodies as the user numbers them: what a call of the solver has to mean. *)
From Coq Require Import List Reals Arith Bool.
From Verif Require Import Outcome Ccd_Model Lin_Model ContactBall_Model ContactRb2_Model ContactRb3_Model Contact_Spec Sob_Model.
Import ListNotations.
Open Scope R_scope.

(* the matrix H Minv H^T; the columns of H^T are given *)
Definition delassus (Minv : dvec -> dvec) (cols : list col) : list (list R) :=
  map (fun a => map (fun b => col_dot a (Minv (impulse [(b, 1)]))) cols) cols.
(* the relative velocity at a contact before any impulse, plus a bias *)
Definition free_velocity (cols : list col) (v0 : dvec) (bias : list R) : list R :=
  map (fun p => col_dot (fst p) v0 + snd p) (combine cols bias).

Section Posed.
Context {C : Type}.
(* the bias of a contact: restitution and the velocity of the surface along the normal, the velocity of the surface along the
   tangents; [surface] is the velocity of the kinematic surface *)
Definition bias (ndotv : R) (surface : list R) (it : item C) : list R :=
  let along k := - ldot (nth k (it_E it) []) surface + match it_extra it with Some x => at_ x k | None => 0 end in
  match length (it_E it) with
  | O => []
  | S n => (it_CoR it * ndotv + along 0%nat) :: map along (seq 1 n)
  end.
(* the impulses reported for a contact: in the plane, no friction impulse where the coefficient is zero *)
Definition reported (planar : bool) (it : item C) (r : list R) : list R :=
  match r with
  | [] => []
  | a :: t => a :: (if planar && Reqb (it_mu it) 0 then map (fun _ => 0) t else t)
  end.

(* [n] velocity entries; [cols] the columns of H^T of a contact in the user's numbering *)
Definition solves (planar : bool) (n : nat) (Minv : dvec -> dvec) (cols : item C -> list col) (bias_of : item C -> list R)
    (gs : list (list R) -> list (list R) -> list R -> list (list R) -> list (list R) * R) (tol : R) (v0 : dvec)
    (its : list (item C)) (r : sob_result C) : Prop :=
  let all := flat_map cols its in
  let '(rloc, err) := gs (delassus Minv all) (map (fun it => free_velocity (cols it) v0 (bias_of it)) its)
                         (map it_mu its) (map it_imp its) in
  (* the contacts name their bodies as before *)
  sb_contacts r = map it_c its /\
  (* the impulses are the solver's *)
  sb_imps r = map (fun p => reported planar (fst p) (snd p)) (combine its rloc) /\
  (* every body moves as those impulses say *)
  (forall k, (k < n)%nat -> sb_v r k = v0 k + Minv (impulse (combine all (concat rloc))) k) /\
  (* the friction force is that of the reported friction impulses *)
  (forall k, (k < n)%nat ->
     sb_f r k = impulse (flat_map (fun p => combine (tl (cols (fst p))) (tl (snd p))) (combine its (sb_imps r))) k) /\
  sb_ok r = Rltb err tol /\ sb_error r = err.
End Posed.

(* d by d, columns of unit length at right angles *)
Definition unit_frame (d : nat) (E : list (list R)) : Prop :=
  length E = d /\ (forall x, In x E -> length x = d) /\
  forall i j, (i < d)%nat -> (j < d)%nat -> ldot (nth i E []) (nth j E []) = if Nat.eqb i j then 1 else 0.
(* as many numbers as rows *)
Definition well_sized {C} (d : nat) (it : item C) : Prop :=
  unit_frame d (it_E it) /\ length (it_imp it) = d /\ match it_extra it with Some x => length x = d | None => True end.
(* the solver returns d numbers per contact *)
Definition returns (d : nat) (gs : list (list R) -> list (list R) -> list R -> list (list R) -> list (list R) * R) : Prop :=
  forall W b mu st, let r := fst (gs W b mu st) in length r = length st /\ forall x, In x r -> length x = d.
(* A^{-1} A x = x *)
Definition inverts (s : nat) (B A : nat -> nat -> R) : Prop :=
  forall x o, (o < s)%nat -> rsum s (fun p => B o p * rsum s (fun r => A p r * x r)) = x o.

(* the columns and the biases of the three simulators *)
Definition ball_cols (it : item ball_contact) : list col :=
  let '(n, t) := b_hcols (it_c it) (to2 (nth 0 (it_E it) []), to2 (nth 1 (it_E it) [])) in [n; t].
Definition ball_bias (v0 : dvec) (it : item ball_contact) : list R := bias (b_evalNdotV (it_c it) v0) (of2 (b_kinvel (it_c it))) it.
Definition rb2_cols (q0 : dvec) (it : item rb2_contact) : list col :=
  let '(n, t) := rb2_hcols q0 (it_c it) (to2 (nth 0 (it_E it) []), to2 (nth 1 (it_E it) [])) in [n; t].
Definition rb2_bias (q0 v0 : dvec) (it : item rb2_contact) : list R :=
  bias (rb2_evalNdotV q0 (it_c it) v0) (of2 (rb2_kinvel q0 (it_c it))) it.
Definition rb3_cols (nb : nat) (q0 : dvec) (it : item rb3_contact) : list col :=
  match rb3_hcols nb q0 (it_c it) (to3 (nth 0 (it_E it) [])) (to3 (nth 1 (it_E it) [])) (to3 (nth 2 (it_E it) [])) with
  | Ok l => l
  | _ => []
  end.
Definition rb3_bias (nb : nat) (q0 v0 : dvec) (it : item rb3_contact) : list R :=
  match rb3_evalNdotV nb q0 (it_c it) v0, rb3_kinvel q0 (it_c it) with
  | Some u, Ok k => bias u (of3 k) it
  | _, _ => []
  end.
Definition not_sphere_body (c : rb3_contact) : Prop := match c with SphereBody _ _ _ _ _ => False | _ => True end.

(* the inverses of the mass blocks are right *)
Definition blocks_inverted {C} (K : sim C) (inv : (nat -> nat -> R) -> nat -> nat -> R) (ng : nat) (M : dvec) : Prop :=
  forall b, (b < ng)%nat -> inverts (k_s K) (inv (k_mass K ng M b)) (k_mass K ng M b).
(* the inertia block of body b, stored by columns after the masses *)
Definition inertia_of (ng : nat) (M : dvec) (b : nat) : m3 :=
  let e r c := M (3 * ng + 9 * b + 3 * c + r)%nat in
  M3 (V3 (e 0 0) (e 0 1) (e 0 2))%nat (V3 (e 1 0) (e 1 1) (e 1 2))%nat (V3 (e 2 0) (e 2 1) (e 2 2))%nat.
(* no contact names the body *)
Definition untouched (bodies : nat * option nat) (b : nat) : Prop := fst bodies <> b /\ snd bodies <> Some b.
(* a solver that gives frictionless contacts no tangential impulse *)
Definition frictionless_ok (gs : list (list R) -> list (list R) -> list R -> list (list R) -> list (list R) * R) : Prop :=
  forall W b mu st m r, In (m, r) (combine mu (fst (gs W b mu st))) -> m = 0 -> forall t, In t (tl r) -> t = 0.
(* the contacts name bodies of the system and carry orthonormal frames and as many numbers as rows *)
Definition ball_ready (ng : nat) (its : list (item ball_contact)) : Prop :=
  forall it, In it its -> in_range ng (b_bodies (it_c it)) /\ well_sized 2 it.
Definition rb2_ready (ng : nat) (its : list (item rb2_contact)) : Prop :=
  forall it, In it its -> in_range ng (rb2_bodies (it_c it)) /\ well_sized 2 it.
Definition rb3_ready (ng : nat) (its : list (item rb3_contact)) : Prop :=
  forall it, In it its -> not_sphere_body (it_c it) /\ in_range ng (rb3_bodies (it_c it)) /\ well_sized 3 it.
