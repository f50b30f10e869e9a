(* Specification vocabulary for contacts: which impulses a contact can apply, where its two sides are, and how fast
   they move there. *)
From Coq Require Import List Reals Arith Bool.
From Verif Require Import Outcome Ccd_Model Lin_Model ContactBall_Model ContactRb2_Model ContactRb3_Model.
Import ListNotations.
Open Scope R_scope.

(* ---------- generalized impulse directions a contact can apply to the bodies ---------- *)

(* 2D balls: the gradient of the gap (impact operators), a friction column for any sampled tangent (friction
   operators), and the two rows of H in any basis (So-bogus) *)
Inductive b_column (c : ball_contact) : col -> Prop :=
| bcol_normal : b_column c (b_gradg c)
| bcol_friction t : b_column c (b_friction c t)
| bcol_h_normal basis : b_column c (fst (b_hcols c basis))
| bcol_h_tangent basis : b_column c (snd (b_hcols c basis)).
(* along the contact normal only *)
Inductive b_normal_column (c : ball_contact) : col -> Prop :=
| bncol_gradg : b_normal_column c (b_gradg c)
| bncol_h : b_normal_column c (fst (b_hcols c (b_basis c))).

Inductive rb2_column (q : dvec) (c : rb2_contact) : col -> Prop :=
| r2col_normal g : rb2_gradg c = Ok g -> rb2_column q c g
| r2col_friction t g : rb2_friction q c t = Ok g -> rb2_column q c g
| r2col_h_normal basis : rb2_column q c (fst (rb2_hcols q c basis))
| r2col_h_tangent basis : rb2_column q c (snd (rb2_hcols q c basis)).
Inductive rb2_normal_column (q : dvec) (c : rb2_contact) : col -> Prop :=
| r2ncol_gradg g : rb2_gradg c = Ok g -> rb2_normal_column q c g
| r2ncol_h : rb2_normal_column q c (fst (rb2_hcols q c (rb2_basis c))).
(* along the normal or along any tangent *)
Inductive rb2_contact_column (q : dvec) (c : rb2_contact) : col -> Prop :=
| r2cc_normal g : rb2_normal_column q c g -> rb2_contact_column q c g
| r2cc_friction t g : rb2_friction q c t = Ok g -> rb2_contact_column q c g
| r2cc_h_tangent : rb2_contact_column q c (snd (rb2_hcols q c (rb2_basis c))).

Inductive rb3_column (nb : nat) (q : dvec) (c : rb3_contact) : col -> Prop :=
| r3col_normal g : rb3_gradg nb q c = Ok g -> rb3_column nb q c g
| r3col_friction t g : rb3_friction nb q c t = Ok g -> rb3_column nb q c g
| r3col_h n s t l g : rb3_hcols nb q c n s t = Ok l -> In g l -> rb3_column nb q c g.
Inductive rb3_normal_column (nb : nat) (q : dvec) (c : rb3_contact) : col -> Prop :=
| r3ncol_gradg g : rb3_gradg nb q c = Ok g -> rb3_normal_column nb q c g
| r3ncol_h s t g l : rb3_hcols nb q c (rb3_normal q c) s t = Ok (g :: l) -> rb3_normal_column nb q c g.
Inductive rb3_contact_column (nb : nat) (q : dvec) (c : rb3_contact) : col -> Prop :=
| r3cc_normal g : rb3_normal_column nb q c g -> rb3_contact_column nb q c g
| r3cc_friction t g : rb3_friction nb q c t = Ok g -> rb3_contact_column nb q c g
| r3cc_h s t l g : rb3_hcols nb q c (rb3_normal q c) s t = Ok l -> In g l -> rb3_contact_column nb q c g.

(* the bodies of a contact exist *)
Definition in_range (n : nat) (bodies : nat * option nat) : Prop :=
  (fst bodies < n)%nat /\ match snd bodies with Some j => (j < n)%nat | None => True end.

(* ---------- contacts as the narrow phase makes them at configuration q ---------- *)
Inductive b_made_at (q : dvec) : ball_contact -> Prop :=
| bm_ball i j r0 r1 : b_made_at q (mk_ball_ball i j (seg2 q (2 * i)) (seg2 q (2 * j)) r0 r1 false)
| bm_tele i j x0 x1 r0 r1 : b_made_at q (mk_ball_ball i j x0 x1 r0 r1 true)
| bm_kick i j x0 x1 r0 r1 k : b_made_at q (mk_kick_ball_ball i j x0 x1 r0 r1 k true)
| bm_plane i r p : b_made_at q (BallPlane i r p)
| bm_drum i r X : b_made_at q (mk_ball_drum i q r X).

Inductive rb2_made_at (q : dvec) : rb2_contact -> Prop :=
| r2m_circle i j ra rb : rb2_made_at q (mk_circle_circle i j q ra rb)
| r2m_body i j p n : rb2_made_at q (mk_body_body2 i j p n q)
| r2m_tele i j x0 x1 r0 r1 : rb2_made_at q (mk_tele_circle_circle i j x0 x1 r0 r1)
| r2m_kick i j x0 x1 r0 r1 k : rb2_made_at q (mk_kick_circle_circle i j x0 x1 r0 r1 k)
| r2m_kin i r n k kx kv ko : rb2_made_at q (KinCircle i r n k kx kv ko)
| r2m_plane_body i a p : rb2_made_at q (PlaneBody2 i a p)
| r2m_plane_circle i r p : rb2_made_at q (PlaneCircle i r p).

Inductive rb3_made_at (q : dvec) : rb3_contact -> Prop :=
| r3m_sphere i j ra rb : rb3_made_at q (mk_sphere_sphere i j q ra rb)
| r3m_tele i j x0 x1 r0 r1 : rb3_made_at q (mk_tele_sphere_sphere i j x0 x1 r0 r1)
| r3m_body i j p n : rb3_made_at q (mk_body_body3 i j p n q)
(* the contact point of a sphere lies on the normal through its centre *)
| r3m_sphere_body s b p n r : p = add3 (seg3 q (3 * s)) (scale3 r n) -> rb3_made_at q (mk_sphere_body s b p n q)
| r3m_kin_body i k p n : rb3_made_at q (mk_kin_body i k p n q)
| r3m_kin_sphere i r n k : rb3_made_at q (KinSphere i r n k)
| r3m_plane_body i p n pl : rb3_made_at q (mk_plane_body3 i p n q pl)
| r3m_plane_sphere i r p : rb3_made_at q (PlaneSphere i r p)
| r3m_cyl_sphere i r cy : rb3_made_at q (CylSphere i r cy)
| r3m_cyl_body i p cy : rb3_made_at q (mk_cyl_body i p cy q).

(* ---------- rigid body kinematics ---------- *)
(* the velocity at point p of a rigid body with centre X, velocity V and angular velocity W *)
Definition rigid2 (X V : vec) (W : R) (p : vec) : vec :=
  (fst V - W * (snd p - snd X), snd V + W * (fst p - fst X)).
Definition rigid3 (X V W p : v3) : v3 := add3 V (cross3 W (sub3 p X)).
(* of the simulated body i *)
Definition body_rigid2 (q v : dvec) (i : nat) (p : vec) : vec :=
  rigid2 (seg2 q (3 * i)) (seg2 v (3 * i)) (v (3 * i + 2)%nat) p.
Definition body_rigid3 (nb : nat) (q v : dvec) (i : nat) (p : v3) : v3 :=
  rigid3 (seg3 q (3 * i)) (seg3 v (3 * i)) (seg3 v (3 * (nb + i))) p.

(* velocity of the first body at the contact point p minus the velocity of the other side of the contact there *)
Definition b_true_relvel (c : ball_contact) (v : dvec) : vec :=
  match c with
  | BallBall i j _ _ _ _ => vsub (seg2 v (2 * i)) (seg2 v (2 * j))
  | KickBallBall i j _ _ _ kick _ => vsub (seg2 v (2 * i)) (vadd (seg2 v (2 * j)) kick)
  | BallPlane i _ p => vsub (seg2 v (2 * i)) (bp_v p)
  | BallDrum i _ _ => seg2 v (2 * i)
  end.

Definition rb2_true_relvel (q : dvec) (c : rb2_contact) (v : dvec) (p : vec) : vec :=
  match c with
  | CircleCircle i j _ _ _ _ | BodyBody2 i j _ _ _ => vsub (body_rigid2 q v i p) (body_rigid2 q v j p)
  (* the other ball touches through a portal: the contact point on it is at its own centre plus its arm *)
  | TeleCircleCircle i j _ _ a1 => vsub (body_rigid2 q v i p) (body_rigid2 q v j (vadd (seg2 q (3 * j)) a1))
  | KickCircleCircle i j _ _ a1 kick =>
      vsub (body_rigid2 q v i p) (vadd (body_rigid2 q v j (vadd (seg2 q (3 * j)) a1)) kick)
  | KinCircle i _ _ _ kx kv ko => vsub (body_rigid2 q v i p) (rigid2 kx kv ko p)
  | PlaneBody2 i _ pl | PlaneCircle i _ pl => vsub (body_rigid2 q v i p) (rigid2 (rp_x pl) (rp_v pl) (rp_omega pl) p)
  end.

Definition rb3_true_relvel (nb : nat) (planes : nat -> rb3_plane) (q : dvec) (c : rb3_contact) (v : dvec) (p : v3) : v3 :=
  match c with
  | SphereSphere i j _ _ _ _ | BodyBody3 i j _ _ _ | SphereBody i j _ _ _ => sub3 (body_rigid3 nb q v i p) (body_rigid3 nb q v j p)
  | TeleSphereSphere i j _ _ a1 => sub3 (body_rigid3 nb q v i p) (body_rigid3 nb q v j (add3 (seg3 q (3 * j)) a1))
  | KinBody i k _ _ | KinSphere i _ _ k => sub3 (body_rigid3 nb q v i p) (body_rigid3 nb q v k p)
  | PlaneBody3 i _ _ pl => sub3 (body_rigid3 nb q v i p) (rigid3 (tp_x (planes pl)) (tp_v (planes pl)) (tp_omega (planes pl)) p)
  | PlaneSphere i _ pl => sub3 (body_rigid3 nb q v i p) (rigid3 (tp_x pl) (tp_v pl) (tp_omega pl) p)
  | CylSphere i _ cy | CylBody i _ cy => sub3 (body_rigid3 nb q v i p) (rigid3 (cy_x cy) (cy_v cy) (cy_omega cy) p)
  end.

(* obstacles whose motion the constraint classes leave out are at rest *)
Definition rb2_unmodelled_obstacle_at_rest (c : rb2_contact) : Prop :=
  match c with PlaneBody2 _ _ p => rp_v p = (0, 0) /\ rp_omega p = 0 | _ => True end.
Definition rb3_unmodelled_obstacle_at_rest (nb : nat) (planes : nat -> rb3_plane) (c : rb3_contact) (v : dvec) : Prop :=
  match c with
  | KinBody _ k _ _ | KinSphere _ _ _ k => seg3 v (3 * k) = zero3 /\ seg3 v (3 * (nb + k)) = zero3
  | PlaneBody3 _ _ _ pl => tp_v (planes pl) = zero3 /\ tp_omega (planes pl) = zero3
  | CylBody _ _ cy => cy_v cy = zero3 /\ cy_omega cy = zero3
  | _ => True
  end.
(* a sphere exactly touches its plane or its cylinder *)
Definition rb3_touching (q : dvec) (c : rb3_contact) : Prop :=
  match c with
  | PlaneSphere i r pl => dot3 (tp_n pl) (sub3 (seg3 q (3 * i)) (tp_x pl)) = r
  | CylSphere i r cy => dot3 (neg3 (cyl_n q i cy)) (sub3 (seg3 q (3 * i)) (cy_x cy)) = cy_r cy - r
  | _ => True
  end.

(* ---------- mass matrices ---------- *)
(* both entries of a ball hold its nonzero mass *)
Definition mass2_ok (n : nat) (m : dvec) : Prop :=
  forall i, (i < n)%nat -> m (2 * i)%nat <> 0 /\ m (2 * i + 1)%nat = m (2 * i)%nat.
(* the third entry is the moment of inertia *)
Definition mass_rb2_ok (n : nat) (M : dvec) : Prop :=
  forall i, (i < n)%nat -> M (3 * i)%nat <> 0 /\ M (3 * i + 1)%nat = M (3 * i)%nat /\ M (3 * i + 2)%nat <> 0.
(* getTotalMass reads the first entry; the three agree. I and Iinv are inverse blocks. *)
Definition mass_rb3_ok (nb : nat) (m : dvec) (I Iinv : nat -> m3) : Prop :=
  forall i, (i < nb)%nat ->
    m (3 * i)%nat <> 0 /\ m (3 * i + 1)%nat = m (3 * i)%nat /\ m (3 * i + 2)%nat = m (3 * i)%nat
    /\ (forall x, mul3 (I i) (mul3 (Iinv i) x) = x).
