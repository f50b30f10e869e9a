(* Mass, centre of mass and inertia as integrals over the points of a body. *)
From Coq Require Import List Reals Arith Permutation.
From Coquelicot Require Import Coquelicot.
From Verif Require Import Ccd_Model Lin_Model ContactRb3_Model Rot_Model Rot_Spec.
Import List ListNotations.
Open Scope R_scope.

(* I is the integral of f over the plane set S: S lies over [a, b], its slice at x is the interval [lo x, hi x], g x is
   the (Riemann) integral over that slice and I the integral of g. *)
Definition integral2 (S : R -> R -> Prop) (f : R -> R -> R) (I : R) : Prop :=
  exists a b (lo hi g : R -> R), a <= b
    /\ (forall x y, S x y <-> a <= x <= b /\ lo x <= y <= hi x)
    /\ (forall x, a <= x <= b -> lo x <= hi x /\ is_RInt (f x) (lo x) (hi x) (g x))
    /\ is_RInt g a b I.
(* the same in space: the slice at x is a plane set *)
Definition integral3 (S : R -> R -> R -> Prop) (f : R -> R -> R -> R) (I : R) : Prop :=
  exists a b (g : R -> R), a <= b
    /\ (forall x y z, S x y z -> a <= x <= b)
    /\ (forall x, a <= x <= b -> integral2 (S x) (f x) (g x))
    /\ is_RInt g a b I.

(* A way of integrating functions over a body: [over f I] says that I is the integral of f. *)
Definition integration := (R -> R -> R -> R) -> R -> Prop.
Definition pieces (L : list integration) : integration := fun f I =>
  exists vs, Forall2 (fun over v => over f v) L vs /\ I = fold_right Rplus 0 vs.

(* Mass, centre and inertia of a body of constant density rho. The centre is the point about which the first moments
   vanish. J is the inertia tensor about the point c. *)
Definition is_mass (over : integration) (rho M : R) : Prop := over (fun _ _ _ => rho) M.
Definition is_center (over : integration) (c : v3) : Prop :=
  over (fun x _ _ => x - c0 c) 0 /\ over (fun _ y _ => y - c1 c) 0 /\ over (fun _ _ z => z - c2 c) 0.
Definition is_inertia (over : integration) (rho : R) (c : v3) (J : m3) : Prop :=
  let X x := x - c0 c in let Y y := y - c1 c in let Z z := z - c2 c in
  over (fun _ y z => rho * (Y y * Y y + Z z * Z z)) (c0 (row0 J))
  /\ over (fun x y _ => - (rho * (X x * Y y))) (c1 (row0 J))
  /\ over (fun x _ z => - (rho * (X x * Z z))) (c2 (row0 J))
  /\ over (fun x y _ => - (rho * (Y y * X x))) (c0 (row1 J))
  /\ over (fun x _ z => rho * (X x * X x + Z z * Z z)) (c1 (row1 J))
  /\ over (fun _ y z => - (rho * (Y y * Z z))) (c2 (row1 J))
  /\ over (fun x _ z => - (rho * (Z z * X x))) (c0 (row2_ J))
  /\ over (fun _ y z => - (rho * (Z z * Y y))) (c1 (row2_ J))
  /\ over (fun x y _ => rho * (X x * X x + Y y * Y y)) (c2 (row2_ J)).
(* M, c, I, A are mass, centre, principal moments of inertia and principal axes (the columns of the rotation A) *)
Definition mass_properties (over : integration) (rho M : R) (c I : v3) (A : m3) : Prop :=
  is_mass over rho M /\ is_center over c /\ rotation A /\ is_inertia over rho c (turned A I).

(* the shapes, about their own origin *)
Definition ball (r x y z : R) : Prop := x * x + y * y + z * z <= r * r.
Definition brick (h : v3) (x y z : R) : Prop :=
  - c0 h <= x <= c0 h /\ - c1 h <= y <= c1 h /\ - c2 h <= z <= c2 h.
(* cylinders of radius r: along x from -w/2 to w/2 around the x axis, along y from 0 to l around ( a, *, 0 ) *)
Definition rod_x (w r x y z : R) : Prop := - (w / 2) <= x <= w / 2 /\ y * y + z * z <= r * r.
Definition rod_y (a l r x y z : R) : Prop := 0 <= y <= l /\ (x - a) * (x - a) + z * z <= r * r.
(* a staple taken as three cylinders: the back and the two legs *)
Definition three_rods (w l r : R) : integration :=
  pieces [integral3 (rod_x w r); integral3 (rod_y (- (w / 2)) l r); integral3 (rod_y (w / 2) l r)].
(* plane shapes *)
Definition disc (r x y : R) : Prop := x * x + y * y <= r * r.
Definition rectangle (a b x y : R) : Prop := - a <= x <= a /\ - b <= y <= b.

(* ---------- polyhedra ---------- *)
(* A tetrahedron is the image of the unit simplex { s, t, u >= 0, s + t + u <= 1 } under s, t, u |-> a + s ( b - a ) +
   t ( c - a ) + u ( d - a ), whose Jacobian is the constant D = ( b - a ) . ( c - a ) x ( d - a ). *)
Record tet := Tet { ta : v3; tb : v3; tc : v3; td : v3 }.
Definition jacobian (T : tet) : R := dot3 (sub3 (tb T) (ta T)) (cross3 (sub3 (tc T) (ta T)) (sub3 (td T) (ta T))).
Definition simplex (s t u : R) : Prop := 0 <= s /\ 0 <= t /\ 0 <= u /\ s + t + u <= 1.
Definition tet_point (T : tet) (s t u : R) : v3 :=
  add3 (ta T) (add3 (scale3 s (sub3 (tb T) (ta T))) (add3 (scale3 t (sub3 (tc T) (ta T))) (scale3 u (sub3 (td T) (ta T))))).
Definition over_tet (T : tet) : integration := fun f I =>
  integral3 simplex (fun s t u => Rabs (jacobian T) * (let p := tet_point T s t u in f (c0 p) (c1 p) (c2 p))) I.
(* a triangle with its corners in counter-clockwise order as seen from outside *)
Definition tri := (v3 * v3 * v3)%type.
Definition flipped (t : tri) : tri := let '(a, b, c) := t in (a, c, b).
Definition same_tri (t t' : tri) : Prop :=
  let '(a, b, c) := t in t' = (a, b, c) \/ t' = (b, c, a) \/ t' = (c, a, b).
Definition tet_sides (T : tet) : list tri :=
  [(ta T, tc T, tb T); (ta T, tb T, td T); (ta T, td T, tc T); (tb T, tc T, td T)].
(* The triangles of [mesh] are the surface of the solid made of the tetrahedra Ts: every side of a tetrahedron is either
   in the mesh or matched by the same side, reversed, of another one. *)
Definition surface_of (mesh : list tri) (Ts : list tet) : Prop :=
  exists inner sides, Permutation (mesh ++ inner ++ map flipped inner) sides
    /\ Forall2 same_tri sides (concat (map tet_sides Ts)).
Definition over_solid (Ts : list tet) : integration := pieces (map over_tet Ts).

(* d and B are principal moments and principal axes (the columns of an orthonormal matrix) of J: what Eigen's eigenvalue
   decomposition of a symmetric matrix returns in exact arithmetic *)
Definition decomposes (dB : v3 * m3) (J : m3) : Prop :=
  mm (snd dB) (tr (snd dB)) = id3 /\ turned (snd dB) (fst dB) = J.
(* the corners of a face given by three indices into the list of vertices *)
Definition face_corners (verts : list v3) (f : nat * nat * nat) (t : tri) : Prop :=
  let '(i, j, k) := f in let '(a, b, c) := t in
  nth_error verts i = Some a /\ nth_error verts j = Some b /\ nth_error verts k = Some c.
(* the same for a body in the plane: mass, centre at the origin and moment of inertia about it *)
Definition plane_properties (S : R -> R -> Prop) (rho m I : R) : Prop :=
  integral2 S (fun _ _ => rho) m /\ integral2 S (fun x _ => rho * x) 0 /\ integral2 S (fun _ y => rho * y) 0
  /\ integral2 S (fun x y => rho * (x * x + y * y)) I.
