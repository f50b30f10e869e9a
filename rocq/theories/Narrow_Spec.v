(* What the theorems on contacts between bodies talk about. *)
From Coq Require Import List Reals Arith Bool.
From Verif Require Import Outcome Ccd_Model Ccd_Spec Lin_Model ContactRb2_Model ContactRb3_Model Rot_Model Rot_Spec Geom_Model Geom_Spec Geom_Sets Wall_Model Wall_Spec Narrow_Model.
Import ListNotations.
Open Scope R_scope.

(* the body i of a configuration *)
Definition body_at2 (shape : nat -> shape2) (q : dvec) (i : nat) : body2 := Body2 (seg2 q (3 * i)) (q (3 * i + 2)%nat) (shape i).
Definition body_at3 (nb : nat) (shape : nat -> shape3) (q : dvec) (i : nat) : body3 := Body3 (pos3 q i) (ori3 nb q i) (shape i).
(* two bodies share a point *)
Definition overlap2 (shape : nat -> shape2) (q : dvec) (i j : nat) : Prop :=
  meets (body2_points (body_at2 shape q i)) (body2_points (body_at2 shape q j)).
Definition overlap3 (nb : nat) (shape : nat -> shape3) (q : dvec) (i j : nat) : Prop :=
  meets (body3_points (body_at3 nb shape q i)) (body3_points (body_at3 nb shape q j)).
(* two discs on straight ways from q0 to q1 share a point at some time of the step *)
Definition discs_sweep (r s : R) (q0 q1 : dvec) (i j : nat) : Prop :=
  exists t, 0 <= t <= 1
    /\ meets (in_disc (at_time (seg2 q0 (3 * i)) (seg2 q1 (3 * i)) t) r) (in_disc (at_time (seg2 q0 (3 * j)) (seg2 q1 (3 * j)) t) s).
(* what counts as a collision of two planar bodies during a step *)
Definition collide2 (shape : nat -> shape2) (q0 q1 : dvec) (i j : nat) : Prop :=
  match shape i, shape j with
  | Circle2 r, Circle2 s => discs_sweep r s q0 q1 i j
  | _, _ => overlap2 shape q1 i j
  end.
Definition sized2 (s : shape2) : Prop := match s with Circle2 r => 0 < r | Box2 w => 0 < fst w /\ 0 < snd w end.
Definition sized3 (s : shape3) : Prop :=
  match s with
  | Box3 w => 0 < c0 w /\ 0 < c1 w /\ 0 < c2 w
  | Sphere3 r => 0 < r
  | Staple3 s => exists w l D, s = mk_staple w l D /\ 0 < D /\ dist_eps < (w - D) * (w - D) /\ dist_eps < (l - D) * (l - D)
  | Mesh3 vs => vs <> []
  end.
Definition is_circle (s : shape2) : bool := match s with Circle2 _ => true | Box2 _ => false end.

(* the two bodies of a contact, the one that is pushed by a positive impulse along the normal first *)
Definition pair2 (c : rb2_contact) : option (nat * nat) :=
  match c with
  | CircleCircle i j _ _ _ _ | BodyBody2 i j _ _ _ | TeleCircleCircle i j _ _ _ | KickCircleCircle i j _ _ _ _ => Some (i, j)
  | KinCircle i _ _ k _ _ _ => Some (i, k)
  | PlaneBody2 _ _ _ | PlaneCircle _ _ _ => None
  end.
Definition pair3 (c : rb3_contact) : option (nat * nat) :=
  match c with
  | SphereSphere i j _ _ _ _ | TeleSphereSphere i j _ _ _ | BodyBody3 i j _ _ _ | SphereBody i j _ _ _ => Some (i, j)
  | KinBody i k _ _ | KinSphere i _ _ k => Some (i, k)
  | _ => None
  end.
(* the set has a contact of the bodies i and j *)
Definition in_contact {C} (pair : C -> option (nat * nat)) (set : list C) (i j : nat) : Prop :=
  exists c, In c set /\ (pair c = Some (i, j) \/ pair c = Some (j, i)).
(* a contact that acts on two simulated bodies, or on one body and a scripted one *)
Definition two_sided2 (c : rb2_contact) : bool :=
  match c with CircleCircle _ _ _ _ _ _ | BodyBody2 _ _ _ _ _ => true | _ => false end.
Definition two_sided3 (c : rb3_contact) : bool :=
  match c with SphereSphere _ _ _ _ _ _ | BodyBody3 _ _ _ _ _ => true | _ => false end.
(* where it acts, with the arms added to the centres at q *)
Definition acts_at2 (q : dvec) (c : rb2_contact) (p : vec) : Prop :=
  match c with
  | CircleCircle _ _ _ x _ _ => p = x
  | BodyBody2 i j _ a0 a1 => p = vadd (seg2 q (3 * i)) a0 /\ p = vadd (seg2 q (3 * j)) a1
  | KinCircle i r n _ _ _ _ => p = vsub (seg2 q (3 * i)) (vscale r n)
  | _ => False
  end.
(* n and p describe a contact of a disc at x with a box: n is the outward normal at the point y of the box, the centre of
   the disc lies on the ray from y along n (or behind it) and p is half way between y and the deepest point of the disc *)
Definition disc_on_box (x : vec) (r : R) (xb : vec) (tb : R) (w n p : vec) : Prop :=
  vdot n n = 1 /\ exists y d, outward_normal (in_box2 xb tb w) y n /\ x = vadd y (vscale d n) /\ d <= r
    /\ p = vscale (/ 2) (vadd y (vsub x (vscale r n))).
(* the geometry of a contact with normal n between bodies a and b: for discs the line of centres at the start of the step,
   else the position at the end of the step *)
Definition describes2 (shape : nat -> shape2) (q0 q1 : dvec) (a b : nat) (c : rb2_contact) (n : vec) : Prop :=
  let x0 := seg2 q0 (3 * a) in let y0 := seg2 q0 (3 * b) in
  let x1 := seg2 q1 (3 * a) in let y1 := seg2 q1 (3 * b) in
  let s1 := q1 (3 * a + 2)%nat in let t1 := q1 (3 * b + 2)%nat in
  match shape a, shape b with
  | Circle2 r, Circle2 s => (x0 <> y0 -> points_from2 y0 x0 n) /\ (two_sided2 c = true -> exists p, acts_at2 q0 c p /\ divides2 x0 y0 r s p)
  | Circle2 r, Box2 w => exists p, disc_on_box x1 r y1 t1 w n p /\ (two_sided2 c = true -> acts_at2 q0 c p)
  | Box2 w, Circle2 r => exists p, disc_on_box y1 r x1 s1 w (vneg n) p /\ acts_at2 q0 c p
  | Box2 v, Box2 w => exists p, acts_at2 q0 c p /\ vdot n n = 1
      /\ (face_contact x1 s1 v y1 t1 w (vneg n) p \/ face_contact y1 t1 w x1 s1 v n p)
  end.

(* the combination the planar narrow phase cannot handle: a scripted body against a free box *)
Definition unsupported2 (fixed : nat -> bool) (shape : nat -> shape2) (i j : nat) : Prop :=
  (fixed i = true /\ fixed j = false /\ is_circle (shape j) = false)
  \/ (fixed j = true /\ fixed i = false /\ is_circle (shape i) = false).
Definition same_kind3 (a b : shape3) : bool :=
  match a, b with
  | Box3 _, Box3 _ | Sphere3 _, Sphere3 _ | Staple3 _, Staple3 _ | Mesh3 _, Mesh3 _ => true
  | _, _ => false
  end.
(* two boxes with edges along the axes share a point *)
Definition boxes_meet2 (a b : vec * vec) : Prop := meets (within2 a) (within2 b).
Definition boxes_meet3 (a b : v3 * v3) : Prop := meets (within3 a) (within3 b).
(* the smallest box around a body: the whole way of a disc, the end position of a box *)
Definition reach2 (shape : nat -> shape2) (q0 q1 : dvec) (i : nat) (p : vec) : Prop :=
  match shape i with
  | Circle2 r => exists t, 0 <= t <= 1 /\ in_disc (at_time (seg2 q0 (3 * i)) (seg2 q1 (3 * i)) t) r p
  | Box2 w => in_box2 (seg2 q1 (3 * i)) (q1 (3 * i + 2)%nat) w p
  end.
Definition bounds_meet2 (shape : nat -> shape2) (q0 q1 : dvec) (i j : nat) : Prop :=
  exists a b, tight2 a (reach2 shape q0 q1 i) /\ tight2 b (reach2 shape q0 q1 j) /\ boxes_meet2 a b.
(* in space: the end position, for a staple without the thickness of its wire *)
Definition reach3 (nb : nat) (shape : nat -> shape3) (q1 : dvec) (i : nat) (p : v3) : Prop :=
  match shape i with
  | Staple3 s => placed (pos3 q1 i) (ori3 nb q1 i) (hull (st_p s)) p
  | _ => body3_points (body_at3 nb shape q1 i) p
  end.
Definition bounds_meet3 (nb : nat) (shape : nat -> shape3) (q1 : dvec) (i j : nat) : Prop :=
  exists a b, tight3 a (reach3 nb shape q1 i) /\ tight3 b (reach3 nb shape q1 j) /\ boxes_meet3 a b.
(* the combinations the spatial narrow phase cannot handle: bodies of different kinds and staples that touch *)
Definition unsupported3 (nb : nat) (fixed : nat -> bool) (shape : nat -> shape3) (q1 : dvec) (i j : nat) : Prop :=
  ~ (fixed i = true /\ fixed j = true)
  /\ (same_kind3 (shape i) (shape j) = false
      \/ ((exists s, shape i = Staple3 s) /\ (exists s, shape j = Staple3 s) /\ overlap3 nb shape q1 i j)).
(* the contact of body i with body j at the point p with the normal n: its arms reach from the centres at q0 to p *)
Definition point_contact (fixed : nat -> bool) (q0 : dvec) (i j : nat) (p n : v3) : rb3_contact :=
  if fixed j then KinBody i j n (sub3 p (pos3 q0 i)) else BodyBody3 i j n (sub3 p (pos3 q0 i)) (sub3 p (pos3 q0 j)).
(* what body i and body j contribute: one contact for balls that overlap at q1, and one for each point the box or mesh test reports *)
Definition from_pair3 (o : narrow3) (nb : nat) (fixed : nat -> bool) (shape : nat -> shape3) (q0 q1 : dvec) (i j : nat) (c : rb3_contact) : Prop :=
  match shape i, shape j with
  | Sphere3 r, Sphere3 s =>
      overlap3 nb shape q1 i j
      /\ c = if fixed j then KinSphere i r (normalized3 (sub3 (pos3 q0 i) (pos3 q0 j))) j
             else SphereSphere i j (normalized3 (sub3 (pos3 q0 i) (pos3 q0 j)))
                    (add3 (pos3 q0 i) (scale3 (r / (r + s)) (sub3 (pos3 q0 j) (pos3 q0 i)))) r s
  | Box3 w, Box3 w' =>
      exists p n, In (p, n) (n3_box_box o (pos3 q1 i) (ori3 nb q1 i) w (pos3 q1 j) (ori3 nb q1 j) w') /\ c = point_contact fixed q0 i j p n
  | Mesh3 m, Mesh3 m' =>
      exists p n, In (p, n) (n3_mesh_mesh o (pos3 q1 i) (ori3 nb q1 i) m (pos3 q1 j) (ori3 nb q1 j) m') /\ c = point_contact fixed q0 i j p n
  | _, _ => False
  end.
(* how many contacts of the bodies i and j there are *)
Definition count_between {C} (pair : C -> option (nat * nat)) (i j : nat) (set : list C) : nat :=
  length (filter (fun c => match pair c with Some (a, b) => ((a =? i) && (b =? j) || (a =? j) && (b =? i))%nat | None => false end) set).
