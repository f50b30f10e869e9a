(* Space: balls seen through portals. *)
From Coq Require Import List Reals Arith NArith Bool Lra Lia.
From Verif Require Import Outcome Portal_Model Portal_Spec Portal_Proofs Portal_Active Grid_Model Grid_Spec Grid_Proofs Grid_Arith Grid_Dim Grid_Real Grid_Real3 Ccd_Model Ccd_Spec Ccd_Proofs
  ContactRb2_Model ContactRb3_Model Rot_Model Rot_Spec Rot_Alg Lin_Model Geom_Model Geom_Spec Geom_Sets Geom_Circle Geom_Space Geom_Aabb Wall_Model Wall_Spec Wall_Geo Wall_Thms Wall_More
  Narrow_Model Narrow_Spec Narrow_Proofs Narrow_Thms Narrow_Space Narrow_Total Tele_Model Tele_Spec Tele_Search Tele_Plane Tele_Planar.
Import ListNotations.
Local Open Scope R_scope.

(* ---------- boxes ---------- *)
Definition as_box3 (b : v3 * v3) : Grid_Model.box3 real :=
  Grid_Model.Box3 (ar := real) (c0 (fst b), c1 (fst b), c2 (fst b)) (c0 (snd b), c1 (snd b), c2 (snd b)).
Definition ordered3 (b : v3 * v3) : Prop := c0 (fst b) <= c0 (snd b) /\ c1 (fst b) <= c1 (snd b) /\ c2 (fst b) <= c2 (snd b).
Definition meet3 (a b : v3 * v3) : Prop := overlaps3 (as_box3 a) (as_box3 b) = true.
Lemma meet3_iff : forall a b, ordered3 a -> ordered3 b -> (meet3 a b <-> boxes_meet3 a b).
Proof.
  intros [[a0 a1 a2] [a3 a4 a5]] [[b0 b1 b2] [b3 b4 b5]] (A0 & A1 & A2) (B0 & B1 & B2). unfold meet3. cbn [fst snd c0 c1 c2] in *. split.
  - intros O. apply overlaps3_inv in O. destruct O as ((A & B & C) & D & E & F). apply alt_real_false in A, B, C, D, E, F.
    unfold as_box3, Grid_Model.c0, Grid_Model.c1, Grid_Model.c2 in *. cbn [lo3 up3 fst snd c0 c1 c2] in *.
    unfold boxes_meet3, meets, within3. cbn [fst snd c0 c1 c2].
    exists (V3 (Rmax a0 b0) (Rmax a1 b1) (Rmax a2 b2)). cbn [c0 c1 c2].
    pose proof (max_within a0 b0 a3 b3 A0 B0 D A). pose proof (max_within a1 b1 a4 b4 A1 B1 E B). pose proof (max_within a2 b2 a5 b5 A2 B2 F C). tauto.
  - intros (p & Pa & Pb). unfold within3 in *. cbn [fst snd c0 c1 c2] in *. destruct Pa as ([P1 P2] & [P3 P4] & [P5 P6]). destruct Pb as ([Q1 Q2] & [Q3 Q4] & [Q5 Q6]).
    apply overlaps3_intro; apply alt_real_false; unfold as_box3, Grid_Model.c0, Grid_Model.c1, Grid_Model.c2; cbn [lo3 up3 fst snd c0 c1 c2]; eapply Rle_trans; eassumption.
Qed.
Lemma meet3_sym : forall a b, meet3 a b -> meet3 b a.
Proof. intros a b O. unfold meet3 in *. apply overlaps3_inv in O. destruct O as ((A & B & C) & D & E & F). apply overlaps3_intro; assumption. Qed.
Lemma grid3_sound : forall bs out i j, (N.of_nat (length bs) <= 4294967296)%N -> grid3 bs = Ok out -> In (i, j) out ->
  (i <= j)%N /\ exists a b, nth_error bs (N.to_nat i) = Some a /\ nth_error bs (N.to_nat j) = Some b /\ meet3 a b.
Proof.
  intros bs out i j L E H. apply (any_sound3 real _ _ _ _ _ (ltac:(unfold indexable; rewrite map_length; exact L)) E) in H.
  destruct H as [[]|(Lij & a & b & Ha & Hb & O)]. split; [exact Lij|]. apply nth_error_map_inv in Ha as (a' & Ha & ->). apply nth_error_map_inv in Hb as (b' & Hb & ->).
  exists a', b'. repeat split; assumption.
Qed.
Lemma grid3_complete : forall bs out i j a b, (N.of_nat (length bs) <= 4294967296)%N -> Forall ordered3 bs -> grid3 bs = Ok out -> (i < j)%N ->
  nth_error bs (N.to_nat i) = Some a -> nth_error bs (N.to_nat j) = Some b -> meet3 a b -> In (i, j) out.
Proof.
  intros bs out i j a b L W E Hij Ha Hb M.
  apply (any_complete3 real real_laws (map as_box3 bs) [] out i j (as_box3 a) (as_box3 b)); auto.
  - unfold indexable. rewrite map_length. exact L.
  - apply Forall_forall. intros x H. apply in_map_iff in H as (y & <- & H). rewrite Forall_forall in W. destruct (W y H) as (A & B & C).
    split; [|split]; apply alt_real_false; assumption.
  - apply map_nth_error. exact Ha.
  - apply map_nth_error. exact Hb.
Qed.

Section Space.
  Context (o : narrow3) (nb : nat) (fixed : nat -> bool) (shape : nat -> shape3) (ps : list portal3) (q0 q1 : dvec).
  Hypothesis Sized : forall i, (i < nb)%nat -> sized3 (shape i).
  Hypothesis Turned : forall i, (i < nb)%nat -> rotation (ori3 nb q1 i).
  Hypothesis Few : (N.of_nat nb * (1 + N.of_nat (length ps)) <= 4294967296)%N.
  Notation bx := (end_box3 nb shape q1).
  Lemma few_bodies3 : (N.of_nat nb <= 4294967296)%N.
  Proof. lia. Qed.

  (* what the box of body i at x encloses: for a staple without the thickness of its wire *)
  Definition reach_at (i : nat) (x : v3) (p : v3) : Prop :=
    match shape i with
    | Staple3 s => placed x (ori3 nb q1 i) (hull (st_p s)) p
    | _ => body3_points (Body3 x (ori3 nb q1 i) (shape i)) p
    end.
  Lemma box_tight3 : forall i x, (i < nb)%nat -> tight3 (bx i x) (reach_at i x) /\ exists p, reach_at i x p.
  Proof.
    intros i x L. pose proof (Turned i L) as Rt. pose proof (Sized i L) as Sz.
    assert (H : exists b, body3_aabb (Body3 x (ori3 nb q1 i) (shape i)) = Some b /\ tight3 b (reach_at i x)).
    { unfold body3_aabb, reach_at, body3_points, sized3 in *. cbn [b3_shape b3_x b3_R]. destruct (shape i) as [w|r|s|vs].
      - eexists. split; [reflexivity|]. apply box3_aabb_tight; [exact Rt|lra|lra|lra].
      - eexists. split; [reflexivity|]. apply sphere_aabb_tight. lra.
      - pose proof (vertices_aabb_tight (st_p s) x (ori3 nb q1 i)) as T. destruct (vertices_aabb _ _ _) as [b|]; [exists b; split; [reflexivity|exact T]|].
        exfalso. destruct Sz as (w & l & D & -> & _). cbn [covers3] in T. eapply T. eexists. split; [|reflexivity].
        apply hull_vertex. cbn [mk_staple st_p]. left. reflexivity.
      - pose proof (vertices_aabb_tight vs x (ori3 nb q1 i)) as T. destruct (vertices_aabb _ _ _) as [b|]; [exists b; split; [reflexivity|exact T]|].
        exfalso. destruct vs as [|v vs]; [apply Sz; reflexivity|]. eapply T. eexists. split; [|reflexivity]. apply hull_vertex. left. reflexivity. }
    destruct H as (b & E & T). split; [unfold end_box3; rewrite E; exact T|].
    unfold reach_at, body3_points, sized3 in *. cbn [b3_shape b3_x b3_R]. destruct (shape i) as [w|r|s|vs].
    - exists x. unfold in_box3, dot3, sub3. cbn [c0 c1 c2]. rewrite !Rminus_eq_0, !Rmult_0_r, !Rplus_0_l, Rabs_R0. lra.
    - exists x. unfold in_ball3, dot3, sub3. cbn [c0 c1 c2]. pose proof (sq_nn r). lra.
    - destruct Sz as (w & l & D & -> & _). eexists. eexists. split; [|reflexivity]. apply hull_vertex. cbn [mk_staple st_p]. left. reflexivity.
    - destruct vs as [|v vs]; [exfalso; apply Sz; reflexivity|]. eexists. eexists. split; [|reflexivity]. apply hull_vertex. left. reflexivity.
  Qed.
  Lemma box_ordered3 : forall i x, (i < nb)%nat -> ordered3 (bx i x).
  Proof.
    intros i x L. destruct (box_tight3 i x L) as [[E _] (p & P)]. apply E in P. unfold within3 in P. unfold ordered3. lra.
  Qed.
  Lemma reach_end : forall i, reach_at i (pos3 q1 i) = reach3 nb shape q1 i.
  Proof. reflexivity. Qed.
  Lemma reaches3_iff : forall i p, (i < nb)%nat ->
    (aabb_in3 (fst (bx i (pos3 q1 i))) (snd (bx i (pos3 q1 i))) p = true <-> reaches3 (reach3 nb shape q1 i) p).
  Proof.
    intros i p L. pose proof (proj1 (box_tight3 i (pos3 q1 i) L)) as T. rewrite reach_end in T. destruct (box_ordered3 i (pos3 q1 i) L) as (O0 & O1 & O2).
    rewrite aabb_in3_iff by assumption. split.
    - intros (x & X0 & X1 & X2 & H). exists (bx i (pos3 q1 i)), x. split; [exact T|]. split; [repeat split; tauto|exact H].
    - intros (b & x & Tb & (X0 & X1 & X2) & H). rewrite (tight3_unique _ _ _ Tb T) in *. exists x. repeat split; tauto.
  Qed.
  Notation nearb := (near_box (fun p b => aabb_touches3 p (fst b) (snd b)) bx (pos3 q1)).
  Lemma near_iff3 : forall p s i, (i < nb)%nat -> (nearb p s i <-> near3 nb shape q1 p s i).
  Proof.
    intros p s i L. unfold near_box, near3, aabb_touches3. pose proof (reaches3_iff i (pt_a p) L) as A. pose proof (reaches3_iff i (pt_b p) L) as B.
    destruct (aabb_in3 _ _ (pt_a p)); destruct (aabb_in3 _ _ (pt_b p)); destruct s; split; intros H; try discriminate; try reflexivity.
    all: try (apply A; reflexivity).
    all: try (exfalso; apply (proj1 H); apply A; reflexivity).
    all: try (apply A in H; discriminate).
    - split; [intros X; apply A in X; discriminate|apply B; reflexivity].
    - exfalso. destruct H as [_ H]. apply B in H. discriminate.
  Qed.
  Notation V := (view3 nb shape ps q1).
  Lemma view_iff3 : forall i k s y, view nearb teleport_point3 nb ps (pos3 q1) i k s y <-> V i k s y.
  Proof.
    intros i k s y. split; intros W; destruct W as [L|k p s y L Ep T Ey].
    1, 3: exact (View_in_place _ _ _ _ _ _ L).
    all: apply (View_through _ _ _ _ _ _ k p s y L Ep); [|exact Ey]; apply (near_iff3 p s i L); exact T.
  Qed.
  Lemma view_body3 : forall i k s y, V i k s y -> (i < nb)%nat.
  Proof. intros i k s y W. destruct W; assumption. Qed.

  (* ---------- balls ---------- *)
  Lemma active_touch : forall i j x y r s, (i < nb)%nat -> (j < nb)%nat -> shape i = Sphere3 r -> shape j = Sphere3 s ->
    (balls_active x y r s = true <-> balls_touch shape i j x y).
  Proof.
    intros i j x y r s Li Lj Ei Ej. pose proof (Sized i Li) as Si. pose proof (Sized j Lj) as Sj. rewrite Ei in Si. rewrite Ej in Sj. cbn [sized3] in *.
    rewrite balls_active_exact by lra. unfold balls_touch. split.
    - intros M. exists r, s. auto.
    - intros (r' & s' & Hr & Hs & M). congruence.
  Qed.
  Lemma balls_touch_sym : forall i j x y, balls_touch shape i j x y -> balls_touch shape j i y x.
  Proof. intros i j x y (r & s & A & B & (p & C & D)). exists s, r. split; [exact B|]. split; [exact A|]. exists p. split; assumption. Qed.
  Lemma balls_touch_overlap : forall i j, balls_touch shape i j (pos3 q1 i) (pos3 q1 j) -> overlap3 nb shape q1 i j.
  Proof. intros i j (r & s & A & B & M). unfold overlap3, body3_points, body_at3. cbn [b3_shape b3_x]. rewrite A, B. exact M. Qed.
  Lemma balls_touch_boxes : forall i j x y, (i < nb)%nat -> (j < nb)%nat -> balls_touch shape i j x y -> meet3 (bx i x) (bx j y).
  Proof.
    intros i j x y Li Lj (r & s & Ei & Ej & (p & P0 & P1)). apply meet3_iff; [apply box_ordered3; exact Li|apply box_ordered3; exact Lj|].
    exists p. split.
    - apply (proj1 (proj1 (box_tight3 i x Li))). unfold reach_at, body3_points. cbn [b3_shape b3_x]. rewrite Ei. exact P0.
    - apply (proj1 (proj1 (box_tight3 j y Lj))). unfold reach_at, body3_points. cbn [b3_shape b3_x]. rewrite Ej. exact P1.
  Qed.
  Lemma ends_meet3 : forall i j, (i < nb)%nat -> (j < nb)%nat -> (meet3 (bx i (pos3 q1 i)) (bx j (pos3 q1 j)) <-> bounds_meet3 nb shape q1 i j).
  Proof.
    intros i j Li Lj. pose proof (proj1 (box_tight3 i (pos3 q1 i) Li)) as Ti. pose proof (proj1 (box_tight3 j (pos3 q1 j) Lj)) as Tj. rewrite reach_end in Ti, Tj.
    rewrite meet3_iff by (apply box_ordered3; assumption). split.
    - intros M. exists (bx i (pos3 q1 i)), (bx j (pos3 q1 j)). split; [exact Ti|]. split; [exact Tj|exact M].
    - intros (a & b & Ta & Tb & M). rewrite (tight3_unique _ _ _ Ta Ti), (tight3_unique _ _ _ Tb Tj) in M. exact M.
  Qed.
  Lemma direct3_eq : forall i j, direct3 o nb fixed shape q0 q1 i j = dispatch3 o nb fixed shape q0 q1 i j.
  Proof. intros i j. unfold direct3, dispatch3. destruct (fixed i && fixed j); reflexivity. Qed.

  Lemma tele_centre_image3 : forall q b k s x, tele_centre3 ps q (N.of_nat b) k s = Ok x -> image3 ps k s (pos3 q b) x.
  Proof.
    intros q b k s x E. unfold tele_centre3 in E. rewrite Nnat.Nat2N.id in E. unfold image3. destruct k as [k|]; [|congruence].
    destruct (nth_error ps (N.to_nat k)) as [p|]; [|discriminate]. exists p. split; [reflexivity|exact E].
  Qed.
  Lemma tele_centre_view3 : forall b k s y x, V b k s y -> tele_centre3 ps q1 (N.of_nat b) k s = Ok x -> x = y.
  Proof.
    intros b k s y x W E. apply tele_centre_image3 in E. destruct W as [L|k p s y L Ep T Ey]; [exact E|]. destruct E as (p' & Ep' & E). assert (p' = p) by congruence. subst p'. congruence.
  Qed.
  Lemma tele_centre_some : forall q b k s y, V b k s y -> exists x, tele_centre3 ps q (N.of_nat b) k s = Ok x.
  Proof. intros q b k s y W. unfold tele_centre3. destruct W as [L|k p s y L Ep T Ey]; [eexists; reflexivity|]. rewrite Ep. eexists. reflexivity. Qed.

  (* ---------- the contact ---------- *)
  Lemma arm30 : forall x y r s, scale3 (r / (r + s)) (sub3 y x) = sub3 (add3 x (scale3 (r / (r + s)) (sub3 y x))) x.
  Proof. intros [x0 x1 x2] [y0 y1 y2] r s. unfold add3, scale3, sub3. cbn [c0 c1 c2]. f_equal; ring. Qed.
  Lemma arm31 : forall x y r s, scale3 (r / (r + s) - 1) (sub3 y x) = sub3 (add3 x (scale3 (r / (r + s)) (sub3 y x))) y.
  Proof. intros [x0 x1 x2] [y0 y1 y2] r s. unfold add3, scale3, sub3. cbn [c0 c1 c2]. f_equal; ring. Qed.
  Lemma points3 : forall x y : v3, x <> y -> points_from3 y x (normalized3 (sub3 x y)).
  Proof.
    intros [a0 a1 a2] [b0 b1 b2] D. apply points_from3_norm. unfold dist2, dot3, sub3. cbn [c0 c1 c2].
    pose proof (sq_nn (a0 - b0)). pose proof (sq_nn (a1 - b1)). pose proof (sq_nn (a2 - b2)).
    destruct (Req_dec (a0 - b0) 0) as [Z|Z]; [|pose proof (sq_pos _ Z); lra]. destruct (Req_dec (a1 - b1) 0) as [Z'|Z']; [|pose proof (sq_pos _ Z'); lra].
    destruct (Req_dec (a2 - b2) 0) as [Z''|Z'']; [|pose proof (sq_pos _ Z''); lra]. exfalso. apply D. f_equal; lra.
  Qed.
  Lemma sub_zero : forall a, sub3 a zero3 = a.
  Proof. intros [x y z]. unfold sub3, zero3. cbn [c0 c1 c2]. f_equal; ring. Qed.
  Lemma kin_joins : forall i k s j l t x y ri rj, fixed i = false -> fixed j = true -> image3 ps k s (pos3 q0 i) x -> image3 ps l t (pos3 q0 j) y -> shape i = Sphere3 ri -> shape j = Sphere3 rj ->
    joins3 nb ps shape fixed q0 i k s j l t (KinSphere i ri (normalized3 (sub3 x y)) j).
  Proof.
    intros i k s j l t x y ri rj Fi Fj Ix Iy Ei Ej. split; [exact Fi|]. split; [reflexivity|]. exists x, y, ri, rj. split; [exact Ix|]. split; [exact Iy|]. split; [exact Ei|]. split; [exact Ej|].
    split; [apply points3|]. rewrite Fj. intros q v _. cbn [rb3_relvel rb3_normal]. rewrite sub_zero. reflexivity.
  Qed.
  Lemma make3_spec : forall i k s y j l t z cs, V i k s y -> V j l t z ->
    make3 fixed shape ps q0 (mkT (N.of_nat i) (N.of_nat j) k l s t) = Ok cs ->
    ~ (fixed i = true /\ fixed j = true) /\ exists c, cs = [c]
    /\ ((fixed i = false /\ joins3 nb ps shape fixed q0 i k s j l t c) \/ (fixed i = true /\ joins3 nb ps shape fixed q0 j l t i k s c)).
  Proof.
    intros i k s y j l t z cs Vi Vj E. unfold make3 in E. cbn [t_b0 t_b1 t_p0 t_p1 t_s0 t_s1] in E. rewrite !Nnat.Nat2N.id in E.
    pose proof (view_body3 _ _ _ _ Vi) as Li. pose proof (view_body3 _ _ _ _ Vj) as Lj.
    destruct (shape i) as [|ri| |] eqn:Ei; try discriminate. destruct (shape j) as [|rj| |] eqn:Ej; try discriminate.
    apply obind_Ok_inv in E as (x0 & X0 & E). apply obind_Ok_inv in E as (x1 & X1 & E). apply tele_centre_image3 in X0, X1.
    destruct (fixed i) eqn:Fi; destruct (fixed j) eqn:Fj; cbn [negb andb] in E; try discriminate; injection E as <-; (split; [intros [? ?]; discriminate|]); eexists; (split; [reflexivity|]).
    - right. split; [reflexivity|]. apply kin_joins with (rj := ri); assumption.
    - left. split; [reflexivity|]. apply kin_joins with (rj := rj); assumption.
    - left. split; [reflexivity|]. split; [exact Fi|]. split; [reflexivity|]. exists x0, x1, ri, rj. split; [exact X0|]. split; [exact X1|]. split; [exact Ei|]. split; [exact Ej|].
      split; [apply points3|]. rewrite Fj. exists (add3 x0 (scale3 (ri / (ri + rj)) (sub3 x1 x0))). split.
      + apply divides3_mid. pose proof (Sized i Li) as A. pose proof (Sized j Lj) as B. rewrite Ei in A. rewrite Ej in B. cbn [sized3] in *. lra.
      + intros q v. cbn [mk_tele_sphere_sphere rb3_relvel]. rewrite <- arm30, <- arm31. reflexivity.
  Qed.
  Lemma happens3_view : forall i k s y j l t z w, V i k s y -> V j l t z -> happens3 shape ps q1 (mkT (N.of_nat i) (N.of_nat j) k l s t) = Ok w ->
    (w = true <-> balls_touch shape i j y z).
  Proof.
    intros i k s y j l t z w Vi Vj E. unfold happens3 in E. cbn [t_b0 t_b1 t_p0 t_p1 t_s0 t_s1] in E. apply obind_Ok_inv in E as (x0 & X0 & E). apply obind_Ok_inv in E as (x1 & X1 & E).
    apply (tele_centre_view3 _ _ _ _ _ Vi) in X0. apply (tele_centre_view3 _ _ _ _ _ Vj) in X1. subst x0 x1. rewrite !Nnat.Nat2N.id in E.
    destruct (shape i) as [|ri| |] eqn:Ei; try discriminate. destruct (shape j) as [|rj| |] eqn:Ej; try discriminate. injection E as <-.
    apply active_touch; [exact (view_body3 _ _ _ _ Vi)|exact (view_body3 _ _ _ _ Vj)|exact Ei|exact Ej].
  Qed.
  Lemma in_place3_overlap : forall i j r s, (i < nb)%nat -> (j < nb)%nat -> shape i = Sphere3 r -> shape j = Sphere3 s ->
    in_place3 o nb fixed shape q0 q1 i j = Ok true -> overlap3 nb shape q1 i j.
  Proof.
    intros i j r s Li Lj Ei Ej E. unfold in_place3 in E. apply obind_Ok_inv in E as (cs & D & E). unfold dispatch3 in D. destruct (fixed i && fixed j); [injection D as <-; discriminate|].
    assert (Ov : forall a b ra rb, (a < nb)%nat -> (b < nb)%nat -> shape a = Sphere3 ra -> shape b = Sphere3 rb -> sphere_sphere_narrow a b ra rb (fixed b) q0 q1 <> [] -> overlap3 nb shape q1 a b).
    { intros a b ra rb La Lb Ea Eb. unfold sphere_sphere_narrow. intros H. apply balls_touch_overlap, (active_touch a b _ _ ra rb La Lb Ea Eb).
      unfold pos3. destruct (balls_active _ _ _ _); [reflexivity|]. exfalso. apply H. reflexivity. }
    destruct (fixed i); cbv zeta in D; rewrite Ei, Ej in D; injection D as D; rewrite <- D in E.
    - apply overlap3_sym, (Ov j i s r Lj Li Ej Ei). intros X. rewrite X in E. discriminate.
    - apply (Ov i j r s Li Lj Ei Ej). intros X. rewrite X in E. discriminate.
  Qed.

  Theorem portal_set3_spec : forall set, portal_set3 o nb fixed shape ps q0 q1 = Ok set -> exists found tele, set = found ++ tele
    /\ (forall c a b, pair3 c = Some (a, b) -> a <> b ->
          (In c found <-> (a < nb)%nat /\ (b < nb)%nat /\ fixed a = false /\ (fixed b = false -> (a < b)%nat)
                          /\ bounds_meet3 nb shape q1 a b /\ from_pair3 o nb fixed shape q0 q1 a b c))
    /\ (forall c, In c tele -> exists i k s y j l t z, V i k s y /\ V j l t z /\ (fixed j = false -> (i <= j)%nat) /\ (k <> None \/ l <> None)
          /\ balls_touch shape i j y z /\ joins3 nb ps shape fixed q0 i k s j l t c)
    /\ (forall i k s y j l t z, V i k s y -> V j l t z -> (i, k, s) <> (j, l, t) -> (k <> None \/ l <> None) -> ~ (fixed i = true /\ fixed j = true) ->
          balls_touch shape i j y z -> ~ (k <> None /\ l <> None /\ overlap3 nb shape q1 i j) -> in_contact pair3 tele i j)
    /\ (forall i j, (count_between pair3 i j tele <= 1)%nat).
  Proof.
    intros set Built. unfold portal_set3 in Built.
    apply (search_spec _ _ _ _ _ _ _ _ _ _ _ _ meet3 ordered3 grid3_sound grid3_complete (fun i x L => box_ordered3 i x L) Few meet3_sym) in Built.
    destruct Built as (found & ts & tele & -> & Et & Nd & Fs & Fc & Ts & Tc). exists found, tele. split; [reflexivity|].
    pose proof (gather_ok _ _ Et) as G.
    assert (Each : forall t, In t ts -> exists c i k s y j l t' z, V i k s y /\ V j l t' z /\ (fixed j = false -> (i <= j)%nat) /\ (k <> None \/ l <> None)
      /\ balls_touch shape i j y z /\ (pair_of t = (i, j) \/ pair_of t = (j, i)) /\ (fst (pair_of t) <= snd (pair_of t))%nat /\ make3 fixed shape ps q0 t = Ok [c] /\ joins3 nb ps shape fixed q0 i k s j l t' c).
    { intros t It. destruct (Ts t It) as (b0 & k0 & s0 & y0 & b1 & k1 & s1 & y1 & V0 & V1 & NP & _ & -> & H).
      destruct (crossing_ordered _ _ _ _ _ _ _ _ _ _ _ _ _ True V0 V1 NP) as (i & k & s & y & j & l & t' & z & Vi & Vj & Lij & NP' & Em & Ei & Ej & _).
      apply view_iff3 in Vi, Vj. pose proof (tcoll_pair b0 b1 k0 k1 s0 s1) as Pr. rewrite <- Ei, <- Ej in Pr. clear Ei Ej. rewrite Em in H, It, Pr |- *.
      pose proof (proj1 (happens3_view i k s y j l t' z true Vi Vj H) eq_refl) as T.
      destruct (gather_all _ _ Et (make3 fixed shape ps q0 (mkT (N.of_nat i) (N.of_nat j) k l s t'))) as (cs & Ecs); [apply in_map; exact It|].
      destruct (make3_spec i k s y j l t' z cs Vi Vj Ecs) as (Nf & c & -> & [[Fi J]|[Fi J]]); exists c.
      - exists i, k, s, y, j, l, t', z. split; [exact Vi|]. split; [exact Vj|]. split; [intros _; exact Lij|]. split; [exact NP'|]. split; [exact T|].
        split; [left; exact Pr|]. split; [rewrite Pr; exact Lij|]. split; [exact Ecs|exact J].
      - exists j, l, t', z, i, k, s, y. split; [exact Vj|]. split; [exact Vi|]. split; [congruence|]. split; [tauto|]. split; [apply balls_touch_sym; exact T|].
        split; [right; exact Pr|]. split; [rewrite Pr; exact Lij|]. split; [exact Ecs|exact J]. }
    split; [|split; [|split]].
    - intros c a b Pc Nab.
      assert (Sym : bounds_meet3 nb shape q1 a b <-> bounds_meet3 nb shape q1 b a).
      { unfold bounds_meet3. split; intros (x & y & X & Y & M); exists y, x; (split; [exact Y|split; [exact X|apply meets_sym; exact M]]). }
      split.
      + intros H. destruct (Fs c H) as (i & j & cs & Lij & Lj & M & D & Hc). rewrite direct3_eq in D. destruct (Nat.eq_dec i j) as [->|Ne].
        * exfalso. destruct (dispatch3_self o nb fixed shape q0 q1 Sized Turned j Lj) as [[D' _]|(cs' & D' & P)]; [congruence|].
          assert (cs = cs') by congruence. subst cs'. rewrite (P c Hc) in Pc. congruence.
        * destruct (dispatch3_ok o nb fixed shape q0 q1 few_bodies3 Sized Turned i j ltac:(lia) Lj) as [[_ D']|[_ (l' & D' & P)]]; [congruence|]. assert (cs = l') by congruence. subst l'.
          apply ends_meet3 in M; [|lia|exact Lj].
          apply P in Hc. destruct Hc as (a' & b' & Ab & Fa & Fb & F). pose proof (from_pair3_pair o nb fixed shape q0 q1 a' b' c F) as Pc'. rewrite Pc in Pc'. injection Pc' as <- <-.
          destruct Ab as [[-> ->]|[-> ->]]; (split; [lia|]); (split; [lia|]); (split; [exact Fa|]); (split; [exact Fb|]); (split; [|exact F]); [exact M|apply Sym; exact M].
      + intros (Ha & Hb & Fa & Fb & B & F).
        assert (K : forall i j, (i < j)%nat -> (j < nb)%nat -> ((a = i /\ b = j) \/ (a = j /\ b = i)) -> bounds_meet3 nb shape q1 i j -> In c found).
        { intros i j Hij Hj Ab B'. apply ends_meet3 in B'; [|lia|exact Hj]. destruct (Fc i j Hij Hj B') as (l & D & H). rewrite direct3_eq in D. apply H.
          destruct (dispatch3_ok o nb fixed shape q0 q1 few_bodies3 Sized Turned i j Hij Hj) as [[_ D']|[_ (l' & D' & P)]]; [congruence|]. assert (l = l') by congruence. subst l'.
          apply P. exists a, b. split; [tauto|]. split; [exact Fa|]. split; [exact Fb|exact F]. }
        destruct (Nat.lt_total a b) as [L|[L|L]]; [apply (K a b L Hb); [tauto|exact B]|contradiction|apply (K b a L Ha); [tauto|apply Sym; exact B]].
    - intros c H. apply G in H as (cs & Il & Hc). apply in_map_iff in Il as (t & Em & It).
      destruct (Each t It) as (c' & i & k & s & y & j & l & t' & z & Vi & Vj & Lij & NP & T & _ & _ & Em' & J).
      assert (cs = [c']) by congruence. subst cs. destruct Hc as [->|[]]. exists i, k, s, y, j, l, t', z. do 5 (split; [assumption|]). exact J.
    - intros i k s y j l t z Vi Vj Ne NP Nf T No. pose proof (view_body3 _ _ _ _ Vi) as Li. pose proof (view_body3 _ _ _ _ Vj) as Lj.
      pose proof (balls_touch_boxes i j y z Li Lj T) as M.
      assert (Sp : exists r s, shape i = Sphere3 r /\ shape j = Sphere3 s). { destruct T as (r & s' & A & B & _). exists r, s'. split; assumption. }
      destruct Sp as (ri & rj & Ei & Ej).
      assert (Vi' := Vi). assert (Vj' := Vj). apply view_iff3 in Vi', Vj'.
      destruct (Tc i k s y j l t z Vi' Vj' Ne NP M) as (a & ka & sa & b & kb & sb & Ab & _ & Cs).
      assert (I : In (Nat.min i j, Nat.max i j) (map pair_of ts)).
      { destruct Cs as [(Ka & Kb & Ip)|[F|(w & Hw & Iw)]].
        - exfalso. apply No. destruct Ab as [E|E]; injection E as -> -> -> -> -> ->.
          + split; [exact Ka|]. split; [exact Kb|]. apply (in_place3_overlap i j ri rj); assumption.
          + split; [exact Kb|]. split; [exact Ka|]. apply overlap3_sym, (in_place3_overlap j i rj ri); assumption.
        - exfalso. apply Nf. apply andb_true_iff in F. destruct Ab as [E|E]; injection E as -> -> -> -> -> ->; tauto.
        - destruct Ab as [E|E]; injection E as -> -> -> -> -> ->.
          + apply Iw. destruct (crossing_ordered _ _ _ _ _ _ _ _ _ _ _ _ _ True Vi' Vj' NP) as (i' & k' & s' & y' & j' & l' & t' & z' & Vi2 & Vj2 & _ & _ & Em & _ & _ & Ca).
            rewrite Em in Hw. apply view_iff3 in Vi2, Vj2.
            apply (happens3_view i' k' s' y' j' l' t' z' w Vi2 Vj2 Hw). destruct Ca as [E|E]; injection E as -> -> -> -> -> -> -> ->; [exact T|apply balls_touch_sym, T].
          + rewrite (Nat.min_comm i j), (Nat.max_comm i j). apply Iw.
            destruct (crossing_ordered _ _ _ _ _ _ _ _ _ _ _ _ _ True Vj' Vi' ltac:(tauto)) as (i' & k' & s' & y' & j' & l' & t' & z' & Vi2 & Vj2 & _ & _ & Em & _ & _ & Ca).
            rewrite Em in Hw. apply view_iff3 in Vi2, Vj2.
            apply (happens3_view i' k' s' y' j' l' t' z' w Vi2 Vj2 Hw). destruct Ca as [E|E]; injection E as -> -> -> -> -> -> -> ->; [apply balls_touch_sym, T|exact T]. }
      apply in_map_iff in I as (d & Pd & Id). destruct (Each d Id) as (c & i' & k' & s' & y' & j' & l' & t' & z' & _ & _ & _ & _ & _ & Pd' & _ & Em & J).
      rewrite Pd in Pd'. exists c. split; [apply G; exists [c]; split; [apply in_map_iff; exists d; split; assumption|left; reflexivity]|].
      destruct J as (_ & Pc & _). rewrite Pc. destruct (Nat.le_gt_cases i j).
      + rewrite Nat.min_l, Nat.max_r in Pd' by lia. destruct Pd' as [E|E]; injection E as -> ->; [left|right]; reflexivity.
      + rewrite Nat.min_r, Nat.max_l in Pd' by lia. destruct Pd' as [E|E]; injection E as -> ->; [right|left]; reflexivity.
    - intros i j. unfold count_between. set (P := fun c => match pair3 c with Some (a, b) => ((a =? i) && (b =? j) || (a =? j) && (b =? i))%nat | None => false end).
      assert (Each' : forall t, In t ts -> exists i j c, (pair_of t = (i, j) \/ pair_of t = (j, i)) /\ (fst (pair_of t) <= snd (pair_of t))%nat /\ make3 fixed shape ps q0 t = Ok [c] /\ pair3 c = Some (i, j)).
      { intros t It. destruct (Each t It) as (c & i' & k' & s' & y' & j' & l' & t' & z' & _ & _ & _ & _ & _ & A & L & B & (_ & D & _)). exists i', j', c. auto. }
      clear - Nd Et Each'. revert tele Et. induction ts as [|t ts IH]; intros tele Et; cbn [map gather] in Et; [injection Et as <-; cbn; lia|].
      apply obind_Ok_inv in Et as (cs & Ecs & Et). apply obind_Ok_inv in Et as (rest & Er & Et). injection Et as <-.
      destruct (Each' t (or_introl eq_refl)) as (a & b & c & Pt & Lt & Em & Pc). assert (cs = [c]) by congruence. subst cs. cbn [map] in Nd. inversion Nd as [|? ? Ni Nd']; subst.
      cbn [app filter]. destruct (P c) eqn:Pb; [|apply (IH Nd'); [intros t' It'; apply Each'; right; exact It'|exact Er]].
      rewrite (gather_none (make3 fixed shape ps q0) P ts rest Er); [cbn [length]; lia|].
      intros t' cs' c' It' Em' Hc'. destruct (Each' t' (or_intror It')) as (a' & b' & c2 & Pt' & Lt' & Em2 & Pc2). assert (cs' = [c2]) by congruence. subst cs'.
      destruct Hc' as [->|[]]. destruct (P c') eqn:Pb'; [|reflexivity]. exfalso. apply Ni. apply in_map_iff. exists t'. split; [|exact It'].
      unfold P in Pb, Pb'. rewrite Pc in Pb. rewrite Pc2 in Pb'. destruct (pair_of t) as [u w], (pair_of t') as [u' w']. cbn [fst snd] in Lt, Lt'.
      assert (Q : (a = i /\ b = j) \/ (a = j /\ b = i)).
      { destruct (Nat.eqb_spec a i), (Nat.eqb_spec b j), (Nat.eqb_spec a j), (Nat.eqb_spec b i); cbn [andb orb] in Pb; try discriminate; tauto. }
      assert (Q' : (a' = i /\ b' = j) \/ (a' = j /\ b' = i)).
      { destruct (Nat.eqb_spec a' i), (Nat.eqb_spec b' j), (Nat.eqb_spec a' j), (Nat.eqb_spec b' i); cbn [andb orb] in Pb'; try discriminate; tauto. }
      destruct Pt as [E|E]; injection E as -> ->; destruct Pt' as [E|E]; injection E as -> ->; f_equal; lia.
  Qed.

  Theorem set3_portals : forall planes cyls set, rb3_active_set_portals o nb fixed shape ps q0 q1 planes cyls = Ok set ->
    exists found tele on_planes on_cyls, rb3_plane_set nb q0 q1 fixed shape planes = Ok on_planes /\ rb3_cylinder_set nb q0 q1 fixed shape cyls = Ok on_cyls
    /\ set = found ++ tele ++ map snd on_planes ++ map snd on_cyls
    /\ (forall c, In c (map snd on_planes ++ map snd on_cyls) -> pair3 c = None)
    /\ (forall c a b, pair3 c = Some (a, b) -> a <> b ->
          (In c found <-> (a < nb)%nat /\ (b < nb)%nat /\ fixed a = false /\ (fixed b = false -> (a < b)%nat)
                          /\ bounds_meet3 nb shape q1 a b /\ from_pair3 o nb fixed shape q0 q1 a b c))
    /\ (forall c, In c tele -> exists i k s y j l t z, V i k s y /\ V j l t z /\ (fixed j = false -> (i <= j)%nat) /\ (k <> None \/ l <> None)
          /\ balls_touch shape i j y z /\ joins3 nb ps shape fixed q0 i k s j l t c)
    /\ (forall i k s y j l t z, V i k s y -> V j l t z -> (i, k, s) <> (j, l, t) -> (k <> None \/ l <> None) -> ~ (fixed i = true /\ fixed j = true) ->
          balls_touch shape i j y z -> ~ (k <> None /\ l <> None /\ overlap3 nb shape q1 i j) -> in_contact pair3 tele i j)
    /\ (forall i j, (count_between pair3 i j tele <= 1)%nat).
  Proof.
    intros planes cyls set E. unfold rb3_active_set_portals in E. apply obind_Ok_inv in E as (bodies & Eb & E). apply obind_Ok_inv in E as (on_p & Ep & E). apply obind_Ok_inv in E as (on_c & Ec & E).
    injection E as <-. destruct (portal_set3_spec bodies Eb) as (found & tele & -> & R). exists found, tele, on_p, on_c. split; [exact Ep|]. split; [exact Ec|].
    split; [symmetry; apply app_assoc|]. split; [|exact R]. intros c H. exact (wall_pairs3 nb fixed shape q0 q1 planes cyls on_p on_c c Ep Ec H).
  Qed.

  Theorem set3_portals_run : forall M m, (0 < nb)%nat -> 0 < m -> 2 * M + 1 < 4294967000 * m ->
    (forall i, (i < nb)%nat -> exists r, shape i = Sphere3 r /\ m <= 2 * r) ->
    (forall i k s y p, V i k s y -> body3_points (Body3 y (ori3 nb q1 i) (shape i)) p -> Rabs (c0 p) <= M /\ Rabs (c1 p) <= M /\ Rabs (c2 p) <= M) ->
    exists bodies, portal_set3 o nb fixed shape ps q0 q1 = Ok bodies.
  Proof.
    intros M m Pb Pm HM Balls Bd. unfold portal_set3.
    assert (Di : forall i j, (i < nb)%nat -> (j < nb)%nat -> exists cs, dispatch3 o nb fixed shape q0 q1 i j = Ok cs).
    { intros i j Li Lj. destruct (Balls i Li) as (r & Er & _). destruct (Balls j Lj) as (s & Es & _). unfold dispatch3. destruct (fixed i && fixed j); [eexists; reflexivity|].
      destruct (fixed i); cbv zeta; rewrite Er, Es; eexists; reflexivity. }
    apply (search_runs _ _ _ _ _ _ _ _ _ _ _ _ meet3 ordered3 grid3_sound grid3_complete (fun i x L => box_ordered3 i x L) Few meet3_sym).
    - intros i p s _ _. eexists. reflexivity.
    - intros bs Ne Vs. destruct (real_total3 (map as_box3 bs) [] M m) as (out & Eo & _); [| |exact Pm|exact HM|exists out; exact Eo].
      + destruct bs; [exfalso; apply (Ne Pb); reflexivity|discriminate].
      + apply Forall_forall. intros b H. apply in_map_iff in H as (b' & <- & H). destruct (Vs b' H) as (i & k & s & y & Vi & ->). apply view_iff3 in Vi.
        assert (L := view_body3 _ _ _ _ Vi). destruct (Balls i L) as (r & Er & Hr). pose proof (Sized i L) as Sr. rewrite Er in Sr. cbn [sized3] in Sr.
        assert (In0 : forall dx dy dz, dx * dx + dy * dy + dz * dz <= r * r -> Rabs (c0 y + dx) <= M /\ Rabs (c1 y + dy) <= M /\ Rabs (c2 y + dz) <= M).
        { intros dx dy dz H'. apply (Bd i k s y (V3 (c0 y + dx) (c1 y + dy) (c2 y + dz)) Vi). unfold body3_points. cbn [b3_shape b3_x]. rewrite Er. unfold in_ball3, dot3, sub3. cbn [c0 c1 c2].
          replace (c0 y + dx - c0 y) with dx by ring. replace (c1 y + dy - c1 y) with dy by ring. replace (c2 y + dz - c2 y) with dz by ring. exact H'. }
        destruct (In0 r 0 0 ltac:(lra)) as (A & _ & _). destruct (In0 (- r) 0 0 ltac:(lra)) as (B & _ & _). destruct (In0 0 r 0 ltac:(lra)) as (_ & C & _).
        destruct (In0 0 (- r) 0 ltac:(lra)) as (_ & D & _). destruct (In0 0 0 r ltac:(lra)) as (_ & _ & E). destruct (In0 0 0 (- r) ltac:(lra)) as (_ & _ & F).
        apply abs_inv in A, B, C, D, E, F. unfold in_arena3, as_box3, end_box3, body3_aabb. cbn [b3_shape b3_x]. rewrite Er.
        cbn [fst snd sphere_aabb lo3 up3]. unfold Grid_Model.c0. cbn [fst snd]. unfold sub3, add3. cbn [c0 c1 c2]. split; [|cbn [real sc]; lra].
        intros n Hn. destruct n as [|[|[|n]]]; cbn [axis3]; unfold Grid_Model.c0, Grid_Model.c1, Grid_Model.c2; cbn [fst snd]; [lra|lra|lra|lia].
    - intros i j Li Lj. rewrite direct3_eq. apply Di; assumption.
    - intros i j Li Lj. unfold in_place3. destruct (Di i j Li Lj) as (cs & ->). eexists. reflexivity.
    - intros t (b0 & k0 & s0 & y0 & b1 & k1 & s1 & y1 & V0 & V1 & _ & ->). apply view_iff3 in V0, V1. pose proof (view_body3 _ _ _ _ V0) as L0. pose proof (view_body3 _ _ _ _ V1) as L1.
      destruct (Balls b0 L0) as (r & Er & _). destruct (Balls b1 L1) as (s & Es & _).
      unfold happens3, rb_tcoll. cbn [t_b0 t_b1 t_p0 t_p1 t_s0 t_s1]. destruct (tele_centre_some q1 _ _ _ _ V0) as (x0 & X0). destruct (tele_centre_some q1 _ _ _ _ V1) as (x1 & X1).
      destruct (N.of_nat b0 <? N.of_nat b1)%N; rewrite X0, X1; cbn [obind]; rewrite !Nnat.Nat2N.id, Er, Es; eexists; reflexivity.
    - assert (Mk : forall i k s y j l t z, V i k s y -> V j l t z -> fixed i && fixed j = false -> exists cs, make3 fixed shape ps q0 (mkT (N.of_nat i) (N.of_nat j) k l s t) = Ok cs).
      { intros i k s y j l t z Vi Vj F. pose proof (view_body3 _ _ _ _ Vi) as Li. pose proof (view_body3 _ _ _ _ Vj) as Lj.
        destruct (Balls i Li) as (r & Er & _). destruct (Balls j Lj) as (s' & Es & _).
        unfold make3. cbn [t_b0 t_b1 t_p0 t_p1 t_s0 t_s1]. rewrite !Nnat.Nat2N.id, Er, Es.
        destruct (tele_centre_some q0 _ _ _ _ Vi) as (x0 & ->). destruct (tele_centre_some q0 _ _ _ _ Vj) as (x1 & ->). cbn [obind].
        destruct (fixed i), (fixed j); cbn [andb negb] in *; try discriminate; eexists; reflexivity. }
      intros t (b0 & k0 & s0 & y0 & b1 & k1 & s1 & y1 & V0 & V1 & F & ->). apply view_iff3 in V0, V1. unfold rb_tcoll.
      destruct (N.of_nat b0 <? N.of_nat b1)%N; eapply Mk; try eassumption. rewrite andb_comm. exact F.
  Qed.
End Space.

(* without portals the search is the one without portals *)
Theorem set3_no_portals : forall o nb fixed shape q0 q1 planes cyls, (N.of_nat nb <= 4294967296)%N ->
  rb3_active_set_portals o nb fixed shape [] q0 q1 planes cyls = rb3_active_set o nb fixed shape planes cyls q0 q1.
Proof.
  intros o nb fixed shape q0 q1 planes cyls Few. unfold rb3_active_set_portals, rb3_active_set.
  assert (H : portal_set3 o nb fixed shape [] q0 q1 = body_body_set3 o nb fixed shape q0 q1); [|rewrite H; reflexivity].
  unfold portal_set3, body_body_set3, search.
  assert (Ei : body_images (fun p b => aabb_touches3 p (fst b) (snd b)) teleport_point3 (end_box3 nb shape q1) nb [] (pos3 q1) = Ok []) by reflexivity.
  rewrite Ei. cbn [obind map]. rewrite app_nil_r.
  assert (Eg : grid3 (map (fun i => end_box3 nb shape q1 i (pos3 q1 i)) (seq 0 nb)) = getPotentialOverlaps3 real (map (aabb3 nb shape q1) (seq 0 nb)) []).
  { unfold grid3. rewrite map_map. f_equal. apply map_ext. intros i. unfold end_box3, aabb3. destruct (body3_aabb _) as [[lo up]|]; reflexivity. }
  destruct (grid3 (map (fun i => end_box3 nb shape q1 i (pos3 q1 i)) (seq 0 nb))) as [out| |] eqn:Eo; rewrite <- Eg; cbn [obind]; try reflexivity.
  assert (Lo : forall p, In p out -> (fst p < N.of_nat nb)%N /\ (snd p < N.of_nat nb)%N).
  { intros [i j] H. destruct (grid3_sound _ _ _ _ ltac:(rewrite map_length, seq_length; exact Few) Eo H) as (_ & a & b & Ha & Hb & _). cbn [fst snd].
    assert (A : (N.to_nat i < nb)%nat) by (rewrite <- (seq_length nb 0), <- (map_length (fun i => end_box3 nb shape q1 i (pos3 q1 i))); apply nth_error_Some; congruence).
    assert (B : (N.to_nat j < nb)%nat) by (rewrite <- (seq_length nb 0), <- (map_length (fun i => end_box3 nb shape q1 i (pos3 q1 i))); apply nth_error_Some; congruence). lia. }
  clear Eo Eg.
  assert (L : forall found, (forall p, In p out -> (fst p < N.of_nat nb)%N /\ (snd p < N.of_nat nb)%N) ->
    ofold (consider (Bx := v3 * v3) nb fixed (direct3 o nb fixed shape q0 q1) (in_place3 o nb fixed shape q0 q1) (happens3 shape [] q1) []) out (found, [])
    = obind (gather (map (fun p => dispatch3 o nb fixed shape q0 q1 (N.to_nat (fst p)) (N.to_nat (snd p))) out)) (fun cs => Ok (found ++ cs, []))).
  { clear Lo. induction out as [|p out IH]; intros found Lo; cbn [ofold map gather obind]; [rewrite app_nil_r; reflexivity|].
    unfold consider at 1. destruct (Lo p (or_introl eq_refl)) as [A B]. apply N.ltb_lt in A, B. rewrite A, B. cbn [negb andb]. rewrite direct3_eq.
    destruct (dispatch3 o nb fixed shape q0 q1 (N.to_nat (fst p)) (N.to_nat (snd p))) as [cs| |]; cbn [obind]; try reflexivity.
    rewrite IH by (intros q Hq; apply Lo; right; exact Hq). destruct (gather _) as [r| |]; cbn [obind]; try reflexivity. rewrite app_assoc. reflexivity. }
  rewrite (L [] Lo). destruct (gather _) as [r| |]; cbn [obind fst snd map gather app]; try reflexivity. rewrite app_nil_r. reflexivity.
Qed.
