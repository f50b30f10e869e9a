(* C44: contact frames are right-handed and orthonormal, and friction directions lie in the contact plane. *)
From Coq Require Import List Reals Arith Bool Lra Lia.
From Verif Require Import Outcome Ccd_Model ContactBall_Model ContactRb2_Model ContactRb3_Model Lin_Model Lin_Proofs Geom_Circle Geom_Space
  Frame_Model Frame_Spec Frame_Proofs.
Import ListNotations.
Open Scope R_scope.

(* for every unit normal and every relative velocity, zero and parallel ones included *)
Theorem C44_spatial : forall n u a s t, dot3 n n = 1 -> contact_basis n u = (a, s, t) ->
  a = n /\ right_handed3 n s t /\ (sliding n u -> opposes n u s /\ dot3 t u = 0).
Proof. exact contact_basis_ok. Qed.
Print Assumptions C44_spatial.

(* the matrix assembled for a list of contacts of the 3D simulator *)
Theorem C44_rb3 : forall nb q v cs bs,
  (forall c, In c cs -> dot3 (rb3_normal q c) (rb3_normal q c) = 1) ->
  rb3_contact_bases nb q v cs = Ok bs ->
  length bs = (3 * length cs)%nat
  /\ forall k c, nth_error cs k = Some c ->
     nth (3 * k) bs zero3 = rb3_normal q c
     /\ right_handed3 (nth (3 * k) bs zero3) (nth (3 * k + 1) bs zero3) (nth (3 * k + 2) bs zero3)
     /\ forall u, rb3_relvel nb q c v = Ok u -> sliding (rb3_normal q c) u -> opposes (rb3_normal q c) u (nth (3 * k + 1) bs zero3).
Proof. exact rb3_bases_ok. Qed.
Print Assumptions C44_rb3.
Theorem C44_rb3_total : forall nb q v cs, (forall c s b n a0 a1, In c cs -> c <> SphereBody s b n a0 a1) ->
  exists bs, rb3_contact_bases nb q v cs = Ok bs.
Proof. exact rb3_bases_total. Qed.
Print Assumptions C44_rb3_total.
(* finding: a sphere against a body of another kind ends the program instead *)
Theorem C44_sphere_body_refuted : forall nb q v s b n a0 a1 cs, rb3_contact_bases nb q v (SphereBody s b n a0 a1 :: cs) = Exit.
Proof. reflexivity. Qed.
Print Assumptions C44_sphere_body_refuted.

(* the planar simulators *)
Theorem C44_ball : forall cs k c, nth_error cs k = Some c -> vdot (b_normal c) (b_normal c) = 1 ->
  nth (2 * k) (ball_contact_bases cs) vzero = b_normal c
  /\ right_handed2 (nth (2 * k) (ball_contact_bases cs) vzero) (nth (2 * k + 1) (ball_contact_bases cs) vzero).
Proof. exact ball_bases_ok. Qed.
Print Assumptions C44_ball.
Theorem C44_rb2 : forall cs k c, nth_error cs k = Some c -> vdot (rb2_normal c) (rb2_normal c) = 1 ->
  nth (2 * k) (rb2_contact_bases cs) vzero = rb2_normal c
  /\ right_handed2 (nth (2 * k) (rb2_contact_bases cs) vzero) (nth (2 * k + 1) (rb2_contact_bases cs) vzero).
Proof. exact rb2_bases_ok. Qed.
Print Assumptions C44_rb2.

(* the directions of the linearised friction cone: the first one is that of the frame, and they turn from it in equal steps *)
Theorem C44_disk_angles : forall n u count a s t, dot3 n n = 1 -> contact_basis n u = (a, s, t) ->
  length (friction_disk n u count) = count
  /\ forall i, (i < count)%nat ->
     nth i (friction_disk n u count) zero3
     = add3 (scale3 (cos (2 * PI * INR i / INR count)) s) (scale3 (sin (2 * PI * INR i / INR count)) t).
Proof. exact friction_disk_ok. Qed.
Print Assumptions C44_disk_angles.
(* they are unit vectors of the contact plane, come in opposite pairs when their number is even, and the first one
   opposes the sliding more than any other direction of the plane *)
Theorem C44_disk : forall n u count, dot3 n n = 1 ->
  length (friction_disk n u count) = count
  /\ (forall d, In d (friction_disk n u count) -> dot3 d d = 1 /\ dot3 n d = 0)
  /\ (forall d, Nat.Even count -> In d (friction_disk n u count) -> In (neg3 d) (friction_disk n u count))
  /\ (forall e, (1 <= count)%nat -> sliding n u -> dot3 n e = 0 -> dot3 e e = 1 ->
      dot3 u (nth 0 (friction_disk n u count) zero3) <= dot3 u e).
Proof. exact friction_disk_members. Qed.
Print Assumptions C44_disk.

(* the forcing term: restitution along the normal, minus the velocity of the obstacle *)
Theorem C44_forcing : forall n s t CoR ndotv kin nrel d0 d1, right_handed3 n s t ->
  kin_rel_vel (n, s, t) kin = (nrel, d0, d1) ->
  let f := forcing_term (n, s, t) CoR ndotv nrel d0 d1 in
  dot3 f n = CoR * ndotv - dot3 kin n /\ tangential n f = neg3 (tangential n kin).
Proof. exact forcing_term_components. Qed.
Print Assumptions C44_forcing.

(* concrete cases: a body sliding over the floor while falling on it, and one at rest *)
Example C44_unit_met : dot3 (V3 0 0 1) (V3 0 0 1) = 1.
Proof. unfold dot3. cbn [c0 c1 c2]. ring. Qed.
Example C44_sliding_met : sliding (V3 0 0 1) (V3 3 4 (-1)) /\ ~ sliding (V3 0 0 1) (V3 0 0 (-1)).
Proof. unfold sliding, tangential, dot3, sub3, scale3. cbn [c0 c1 c2]. split; lra. Qed.
(* a slipping contact gets the frame whose second vector is the opposite of the slip *)
Example C44_frame_of_slip : exists t, contact_basis (V3 0 0 1) (V3 3 4 (-1)) = (V3 0 0 1, V3 (-3 / 5) (-4 / 5) 0, t).
Proof.
  unfold contact_basis. rewrite (cross_tangential (V3 0 0 1) (V3 3 4 (-1)) C44_unit_met).
  destruct (Rltb_spec (dot3 (tangential (V3 0 0 1) (V3 3 4 (-1))) (tangential (V3 0 0 1) (V3 3 4 (-1)))) slip_eps) as [L|L].
  - exfalso. destruct C44_sliding_met as [K _]. unfold sliding, slip_eps in *. lra.
  - fold (tangential (V3 0 0 1) (V3 3 4 (-1))). eexists. f_equal. f_equal.
    assert (E : dot3 (tangential (V3 0 0 1) (V3 3 4 (-1))) (tangential (V3 0 0 1) (V3 3 4 (-1))) = 5 * 5).
    { unfold tangential, dot3, sub3, scale3. cbn [c0 c1 c2]. ring. }
    rewrite normalized3_scale by (rewrite E; lra). rewrite E, sqrt_square by lra.
    apply v3_ext; unfold tangential, dot3, sub3, scale3; cbn [c0 c1 c2]; field.
Qed.
(* the hypotheses of the assembled theorem: two contacts, one against the floor and one between spheres *)
Example C44_rb3_met : let cs := [PlaneSphere 0 1 (Rb3Plane zero3 (V3 0 0 1) zero3 zero3);
    mk_sphere_sphere 0 1 (fun k => if Nat.eqb k 3 then 2 else 0) 1 1] in
  let q := fun k => if Nat.eqb k 3 then 2 else 0 in
  (forall c, In c cs -> dot3 (rb3_normal q c) (rb3_normal q c) = 1)
  /\ exists bs, rb3_contact_bases 2 q (fun _ => 0) cs = Ok bs.
Proof.
  intros cs q. split.
  - intros c [<-|[<-|[]]].
    + exact C44_unit_met.
    + cbn [rb3_normal mk_sphere_sphere]. apply normalized3_unit. unfold dot3, sub3, seg3. cbn [c0 c1 c2 Nat.mul Nat.add Nat.eqb]. lra.
  - apply rb3_bases_total. intros c s b n a0 a1 [<-|[<-|[]]]; discriminate.
Qed.
Example C44_ball_met : let c := mk_ball_ball 0 1 (0, 0) (3, 4) 2 3 false in vdot (b_normal c) (b_normal c) = 1.
Proof. intros c. cbn [c b_normal mk_ball_ball]. apply vnormalized_unit. unfold vsub. cbn [fst snd]. intros E. injection E as E1 E2. lra. Qed.
Example C44_rb2_met : let c := mk_circle_circle 0 1 (fun k => if Nat.eqb k 3 then 2 else 0) 1 1 in vdot (rb2_normal c) (rb2_normal c) = 1.
Proof.
  intros c. cbn [c rb2_normal mk_circle_circle]. apply vnormalized_unit. unfold vsub, seg2. cbn [fst snd Nat.mul Nat.add Nat.eqb].
  intros E. injection E as E1 E2. lra.
Qed.
