(* What a user expects of portals. *)
From Coq Require Import List NArith ZArith Reals.
From Verif Require Import Outcome Ccd_Model Lin_Model Portal_Model.
Import ListNotations.
Open Scope R_scope.

(* ---------- converting to int ---------- *)
(* correct whenever C++ defines the conversion *)
Definition int_conversion (conv : int_floor) : Prop := forall x k,
  IZR k <= x < IZR k + 1 -> (- 2 ^ 31 <= k < 2 ^ 31)%Z -> conv (Some x) = Ok k.
(* like a processor: always some int *)
Definition always_answers (conv : int_floor) : Prop := forall d, exists k, conv d = Ok k.

(* ---------- planes of a portal in the plane ---------- *)
Definition unit_plane (p : plane2) : Prop := vdot (p_n p) (p_n p) = 1 /\ p_t p = vperp (p_n p).
(* signed distance to the plane, positive in front; signed distance along it *)
Definition height (p : plane2) (x : vec) : R := vdot (p_n p) (vsub x (p_x p)).
Definition along (p : plane2) (x : vec) : R := vdot (p_t p) (vsub x (p_x p)).
Definition sqdist (x y : vec) : R := vdot (vsub x y) (vsub x y).

(* two planes facing each other at a distance w *)
Definition facing (a b : plane2) (w : R) : Prop :=
  unit_plane a /\ unit_plane b /\ p_n b = vneg (p_n a) /\ height a (p_x b) = w /\ 0 < w.

(* several portals at once *)
Definition independent (p : portal2) (q : portal2) : Prop :=
  vdot (p_n (po_a q)) (vsub (p_x (po_b p)) (p_x (po_a p))) = 0.
Definition fixed_facing (p : portal2) : Prop :=
  po_v p = 0 /\ po_bounds p = 0 /\ po_dx p = 0 /\ exists w, facing (po_a p) (po_b p) w.
Definition within_one (p : portal2) (x : vec) : Prop :=
  forall w, facing (po_a p) (po_b p) w -> - w <= height (po_a p) x <= 2 * w.
Definition between (p : portal2) (x : vec) : Prop := 0 <= height (po_a p) x /\ 0 <= height (po_b p) x.

(* moved by at most one period of each portal *)
Inductive shifted_by : list portal2 -> vec -> vec -> Prop :=
| Shift_nil x : shifted_by [] x x
| Shift_cons p ps x m y : (m = 0 \/ m = 1 \/ m = -1)%Z ->
    shifted_by ps (vadd x (vscale (IZR m) (vsub (p_x (po_b p)) (p_x (po_a p))))) y -> shifted_by (p :: ps) x y.

(* ---------- in space ---------- *)
Definition height3 (p : plane3) (x : v3) : R := dot3 (q_n p) (sub3 x (q_x p)).
Definition sqdist3 (x y : v3) : R := dot3 (sub3 x y) (sub3 x y).
Definition unit_plane3 (p : plane3) : Prop := dot3 (q_n p) (q_n p) = 1.
Definition sign (m : Z) : Prop := m = 1%Z \/ m = (-1)%Z.
Definition signs (m : Z * Z * Z) : Prop := let '(m0, m1, m2) := m in sign m0 /\ sign m1 /\ sign m2.

(* ---------- contacts across portals ---------- *)
Definition same_bodies (c d : tcoll) : Prop := t_b0 c = t_b0 d /\ t_b1 c = t_b1 d.
(* the entries for the bodies of c in the order they were inserted *)
Definition first_with_bodies (l : list tcoll) (c : tcoll) : Prop :=
  exists l1 l2, l = l1 ++ c :: l2 /\ forall d, In d l1 -> ~ same_bodies d c.

(* where ball i can be seen: in place, or through a plane of a portal it touches *)
Definition touches_plane (p : plane2) (x : vec) (r : R) : Prop := height p x <= r.
Inductive seen_at (conv : int_floor) (ps : list portal2) (bs : list (vec * R)) (i : N) :
  option N -> bool -> vec -> Prop :=
| Seen_direct x r : nth_error bs (N.to_nat i) = Some (x, r) -> seen_at conv ps bs i None false x
| Seen_a x r k p y : nth_error bs (N.to_nat i) = Some (x, r) -> nth_error ps (N.to_nat k) = Some p ->
    touches_plane (po_a p) x r -> through2_a conv p x = Ok y -> seen_at conv ps bs i (Some k) false y
| Seen_b x r k p y : nth_error bs (N.to_nat i) = Some (x, r) -> nth_error ps (N.to_nat k) = Some p ->
    touches_plane (po_b p) x r -> through2_b conv p x = Ok y -> seen_at conv ps bs i (Some k) true y.
Definition radius_of (bs : list (vec * R)) (i : N) (r : R) : Prop := exists x, nth_error bs (N.to_nat i) = Some (x, r).
Definition touching (x y : vec) (r s : R) : Prop := sqrt (sqdist x y) <= r + s.
(* the velocity added to a ball by looking at it through a plane of a portal *)
Definition seen_velocity (ps : list portal2) (k : option N) (s : bool) (v : vec) : vec :=
  match k with
  | None => v
  | Some k => match nth_error ps (N.to_nat k) with
              | Some p => vadd v (vscale (- po_v p) (p_t (if s then po_b p else po_a p)))
              | None => v
              end
  end.
Definition slides (ps : list portal2) (k : option N) : Prop :=
  exists i p, k = Some i /\ nth_error ps (N.to_nat i) = Some p /\ po_v p <> 0.
