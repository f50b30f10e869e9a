(* The columns and rows the constraint classes hand to the solvers measure the relative velocity at the contact. *)
From Coq Require Import List Reals Arith Bool Lia Lra.
From Verif Require Import Outcome Ccd_Model Lin_Model ContactBall_Model ContactRb2_Model ContactRb3_Model Lin_Proofs Contact_Spec Contact_Proofs.
Import ListNotations.
Open Scope R_scope.

Lemma col_dot_ins1 : forall k x w, col_dot (ins1 k x) w = x * w k.
Proof. intros. unfold col_dot, ins1. cbn [fold_right fst snd]. lra. Qed.
Lemma col_dot_ins2 : forall k x w, col_dot (ins2 k x) w = vdot x (seg2 w k).
Proof. intros. unfold col_dot, ins2, vdot, seg2. cbn [fold_right fst snd]. lra. Qed.
Lemma col_dot_ins3 : forall k x w, col_dot (ins3 k x) w = dot3 x (seg3 w k).
Proof. intros. unfold col_dot, ins3, dot3, seg3. cbn [fold_right fst snd c0 c1 c2]. lra. Qed.

(* ---------- 2D balls ---------- *)
Ltac vec_ring :=
  rewrite ?col_dot_app, ?col_dot_ins2, ?col_dot_ins1;
  unfold vdot, vsub, vadd, vneg, vzero, vscale; cbn [fst snd]; ring.

Lemma b_gradg_relvel : forall c v, col_dot (b_gradg c) v + b_gdotN c = vdot (b_normal c) (b_true_relvel c v).
Proof. intros [] v; cbn [b_gradg b_gdotN b_normal b_true_relvel]; vec_ring. Qed.
Lemma b_ndotv_relvel : forall c v, b_evalNdotV c v = vdot (b_normal c) (b_true_relvel c v).
Proof. intros [] v; cbn [b_evalNdotV b_normal b_true_relvel]; vec_ring. Qed.
Lemma b_relvel_true : forall c v, b_relvel c v = b_true_relvel c v.
Proof.
  intros [] v; cbn [b_relvel b_true_relvel]; try reflexivity.
  unfold vsub, vadd; cbn [fst snd]; f_equal; ring.
Qed.
Lemma b_friction_relvel : forall c t v, col_dot (b_friction c t) v - vdot t (b_kinvel c) = vdot t (b_true_relvel c v).
Proof. intros [] t v; cbn [b_friction b_kinvel b_true_relvel]; vec_ring. Qed.
Lemma b_h_relvel : forall c n t v,
  col_dot (fst (b_hcols c (n, t))) v - vdot n (b_kinvel c) = vdot n (b_true_relvel c v)
  /\ col_dot (snd (b_hcols c (n, t))) v - vdot t (b_kinvel c) = vdot t (b_true_relvel c v).
Proof. intros c n t v; destruct c; cbn [b_hcols b_bodies b_H0 b_H1 fst snd b_kinvel b_true_relvel]; split; vec_ring. Qed.

(* ---------- 2D rigid bodies ---------- *)
Ltac r2_unfold :=
  unfold kin_point_velocity, plane_point_velocity2 in *;
  unfold kin_contact_point, body_rigid2, rigid2, point_velocity2,
    hrow2, neg_row2, vdot, vsub, vadd, vneg, vzero, vscale, vperp, vcross, seg2 in *;
  cbn [fst snd] in *.

Lemma rb2_relvel_true : forall q c v, rb2_made_at q c -> rb2_unmodelled_obstacle_at_rest c ->
  rb2_relvel q c v = rb2_true_relvel q c v (rb2_contact_point q c).
Proof.
  intros q c v Hm Hr.
  destruct Hm; cbn [rb2_relvel rb2_contact_point rb2_true_relvel mk_circle_circle mk_body_body2 mk_tele_circle_circle mk_kick_circle_circle rb2_unmodelled_obstacle_at_rest] in *;
    try (match type of Hr with _ /\ _ => destruct Hr as [Hr1 Hr2] end);
    r2_unfold; apply injective_projections; cbn [fst snd]; try rewrite Hr1, Hr2; cbn [fst snd]; ring.
Qed.

Lemma rb2_ndotv_relvel : forall q c v, rb2_made_at q c -> rb2_unmodelled_obstacle_at_rest c ->
  rb2_evalNdotV q c v = vdot (rb2_normal c) (rb2_relvel q c v).
Proof.
  intros q c v Hm Hr. destruct Hm; cbn [rb2_evalNdotV rb2_normal mk_circle_circle mk_body_body2 mk_tele_circle_circle mk_kick_circle_circle];
    try reflexivity; cbn [rb2_relvel mk_circle_circle mk_body_body2 mk_tele_circle_circle mk_kick_circle_circle].
  - destruct (vnormalized_par (vsub (seg2 q (3 * i)) (seg2 q (3 * j)))) as [kk Hk]. rewrite Hk. r2_unfold. ring.
  - destruct (vnormalized_par (vsub x0 x1)) as [kk Hk]. rewrite Hk. r2_unfold. ring.
  - destruct (vnormalized_par (vsub x0 x1)) as [kk Hk]. rewrite Hk. r2_unfold. ring.
  - r2_unfold. ring.
  - r2_unfold. ring.
Qed.

Lemma rb2_gradg_ndotv : forall q c v g k, rb2_gradg c = Ok g -> rb2_gdotN q c = Ok k ->
  col_dot g v + k = rb2_evalNdotV q c v.
Proof.
  intros q c v g k Hg Hk. destruct c; cbn [rb2_gradg rb2_gdotN] in *; try discriminate;
    apply Ok_inj in Hg; apply Ok_inj in Hk; subst g k; cbn [rb2_evalNdotV];
    rewrite ?col_dot_app, ?col_dot_ins2, ?col_dot_ins1; r2_unfold; ring.
Qed.

Lemma rb2_friction_relvel : forall q c t v g, rb2_friction q c t = Ok g ->
  col_dot g v - vdot t (rb2_kinvel q c) = vdot t (rb2_relvel q c v).
Proof.
  intros q c t v g Hg. destruct c; cbn [rb2_friction] in *; try discriminate; apply Ok_inj in Hg; subst g;
    cbn [rb2_kinvel rb2_relvel]; rewrite ?col_dot_app, ?col_dot_ins2, ?col_dot_ins1; r2_unfold; ring.
Qed.

Lemma rb2_h_relvel : forall q c v, rb2_made_at q c ->
  let n := rb2_normal c in let t := vperp n in
  col_dot (fst (rb2_hcols q c (rb2_basis c))) v - vdot n (rb2_kinvel q c) = vdot n (rb2_relvel q c v)
  /\ col_dot (snd (rb2_hcols q c (rb2_basis c))) v - vdot t (rb2_kinvel q c) = vdot t (rb2_relvel q c v).
Proof.
  intros q c v Hm n t. subst n t.
  destruct Hm;
    cbn [rb2_basis rb2_normal mk_circle_circle mk_body_body2 mk_tele_circle_circle mk_kick_circle_circle rb2_hcols rb2_bodies rb2_H0 rb2_H1 fst snd rb2_kinvel rb2_relvel];
    unfold hrow2, neg_row2; cbn [fst snd];
    rewrite ?col_dot_app, ?col_dot_ins2, ?col_dot_ins1;
    try (match goal with |- context [vnormalized ?a] => destruct (vnormalized_par a) as [kk Hk]; rewrite Hk; clear Hk end);
    r2_unfold; split; ring.
Qed.

(* ---------- 3D rigid bodies ---------- *)
Ltac r3_unfold :=
  unfold body_rigid3, rigid3, plane_point_velocity3, point_velocity3,
    hrow3, neg_row3, dot3, sub3, add3, neg3, zero3, scale3, cross3 in *;
  cbn [fst snd c0 c1 c2] in *.

Lemma v3_inj : forall a b c d e f, V3 a b c = V3 d e f -> a = d /\ b = e /\ c = f.
Proof. intros a b c d e f H. injection H. auto. Qed.

Lemma rb3_relvel_true : forall nb planes q c v p x, rb3_made_at q c -> rb3_touching q c ->
  rb3_unmodelled_obstacle_at_rest nb planes c v ->
  rb3_contact_point q c = Ok p -> rb3_relvel nb q c v = Ok x -> x = rb3_true_relvel nb planes q c v p.
Proof.
  intros nb planes q c v p0 x Hm Ht Hr Hp Hx.
  destruct Hm; cbn [rb3_contact_point rb3_relvel rb3_true_relvel rb3_touching rb3_unmodelled_obstacle_at_rest
      mk_sphere_sphere mk_tele_sphere_sphere mk_body_body3 mk_sphere_body mk_kin_body mk_plane_body3 mk_cyl_body] in *;
    try discriminate; apply Ok_inj in Hp; apply Ok_inj in Hx; subst p0 x.
  - r3_unfold. apply v3_eq; cbn [c0 c1 c2]; ring.
  - r3_unfold. apply v3_eq; cbn [c0 c1 c2]; ring.
  - r3_unfold. apply v3_eq; cbn [c0 c1 c2]; ring.
  - destruct Hr as [R1 R2]. unfold body_rigid3 at 2. rewrite R1, R2. r3_unfold. apply v3_eq; cbn [c0 c1 c2]; ring.
  - destruct Hr as [R1 R2]. unfold body_rigid3 at 2. rewrite R1, R2. r3_unfold. apply v3_eq; cbn [c0 c1 c2]; ring.
  - destruct Hr as [R1 R2]. rewrite R1, R2. r3_unfold. apply v3_eq; cbn [c0 c1 c2]; ring.
  - unfold plane_point_velocity3. rewrite Ht. r3_unfold. apply v3_eq; cbn [c0 c1 c2]; ring.
  - unfold cyl_point_velocity. rewrite Ht. r3_unfold. apply v3_eq; cbn [c0 c1 c2]; ring.
Qed.

Lemma rb3_ndotv_relvel : forall nb q c v x y, rb3_made_at q c ->
  rb3_evalNdotV nb q c v = Some y -> rb3_relvel nb q c v = Ok x -> y = dot3 (rb3_normal q c) x.
Proof.
  intros nb q c v x y Hm Hy Hx.
  destruct Hm; cbn [rb3_evalNdotV rb3_relvel rb3_normal
      mk_sphere_sphere mk_tele_sphere_sphere mk_body_body3 mk_sphere_body mk_kin_body mk_plane_body3 mk_cyl_body] in *;
    try discriminate; apply Ok_inj in Hx; subst x;
    match type of Hy with Some ?a = Some y => assert (E : y = a) by congruence; clear Hy; subst y end.
  - destruct (normalized3_par (sub3 (seg3 q (3 * i)) (seg3 q (3 * j)))) as [kk Hk]. rewrite Hk. r3_unfold. ring.
  - destruct (normalized3_par (sub3 x0 x1)) as [kk Hk]. rewrite Hk. r3_unfold. ring.
  - reflexivity.
  - reflexivity.
  - r3_unfold. ring.
  - reflexivity.
  - r3_unfold. ring.
  - generalize (cyl_n q i cy) (cyl_point_velocity q i cy). intros n w. r3_unfold. ring.
  - reflexivity.
Qed.

Lemma rb3_gradg_ndotv : forall nb q c v g k y, rb3_gradg nb q c = Ok g -> rb3_gdotN q c = Ok k ->
  rb3_evalNdotV nb q c v = Some y -> col_dot g v + k = y.
Proof.
  intros nb q c v g k y Hg Hk Hy.
  destruct c; cbn [rb3_gradg rb3_gdotN rb3_evalNdotV] in *; try discriminate;
    apply Ok_inj in Hg; apply Ok_inj in Hk; subst g k;
    match type of Hy with Some ?a = Some y => assert (E : y = a) by congruence; clear Hy; subst y end;
    rewrite ?(Nat.add_comm nb); rewrite ?col_dot_app, ?col_dot_ins3;
    try (generalize (plane_point_velocity3 q i plane); intros w);
    try (generalize (cyl_n q i cyl) (cyl_point_velocity q i cyl); intros n w);
    unfold point_velocity3; rewrite ?(Nat.add_comm nb); r3_unfold; ring.
Qed.

Lemma rb3_friction_relvel : forall nb q c t v g k x, rb3_friction nb q c t = Ok g -> rb3_kinvel q c = Ok k ->
  rb3_relvel nb q c v = Ok x -> col_dot g v - dot3 t k = dot3 t x.
Proof.
  intros nb q c t v g k x Hg Hk Hx.
  destruct c; cbn [rb3_friction rb3_kinvel rb3_relvel] in *; try discriminate;
    apply Ok_inj in Hg; apply Ok_inj in Hk; apply Ok_inj in Hx; subst g k x;
    try (generalize (plane_point_velocity3 q i plane); intros w);
    try (generalize (cyl_n q i cyl) (cyl_point_velocity q i cyl); intros n w);
    unfold two_body_column, one_body_column, point_velocity3; rewrite ?(Nat.add_comm nb);
    rewrite ?col_dot_app, ?col_dot_ins3; r3_unfold; ring.
Qed.

Definition basis_rows (n s t : v3) : list v3 := [n; s; t].
Lemma rb3_h_relvel : forall nb q c s t v l k x, rb3_made_at q c ->
  rb3_hcols nb q c (rb3_normal q c) s t = Ok l -> rb3_kinvel q c = Ok k -> rb3_relvel nb q c v = Ok x ->
  Forall2 (fun d g => col_dot g v - dot3 d k = dot3 d x) [rb3_normal q c; s; t] l.
Proof.
  intros nb q c s t v l k x Hm Hl Hk Hx.
  destruct Hm; cbn [rb3_hcols rb3_H0 rb3_H1 rb3_bodies rb3_normal obind sphere_rows arm_rows map combine fst snd rb3_kinvel rb3_relvel
      mk_sphere_sphere mk_tele_sphere_sphere mk_body_body3 mk_sphere_body mk_kin_body mk_plane_body3 mk_cyl_body] in *;
    try discriminate; apply Ok_inj in Hl; apply Ok_inj in Hk; apply Ok_inj in Hx; subst l k x;
    try (match goal with |- context [normalized3 ?a] => destruct (normalized3_par a) as [kk Hkk]; rewrite Hkk; clear Hkk end);
    try (generalize (plane_point_velocity3 q i p); intros w);
    try (generalize (cyl_n q i cy) (cyl_point_velocity q i cy); intros n w);
    try (generalize (cyl_n q i cy); intros n);
    repeat constructor; unfold hrow3, neg_row3, point_velocity3; cbn [fst snd];
    rewrite ?col_dot_app, ?col_dot_ins3; r3_unfold; ring.
Qed.
