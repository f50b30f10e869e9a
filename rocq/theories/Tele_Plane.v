(* The plane: discs seen through portals. *)
From Coq Require Import List Reals Arith NArith Bool Lra Lia.
From Verif Require Import Outcome Portal_Model Portal_Spec Portal_Proofs Portal_Active Grid_Model Grid_Spec Grid_Proofs Grid_Arith Grid_Dim Grid_Real Ccd_Model Ccd_Spec Ccd_Proofs Lin_Model
  ContactRb2_Model ContactRb3_Model Rot_Model Rot_Spec Rot_Alg Geom_Model Geom_Spec Geom_Sets Geom_Circle Geom_Boxes Geom_BoxBox Geom_Aabb Wall_Model Wall_Spec Wall_Geo Wall_Thms Wall_More
  Narrow_Model Narrow_Spec Narrow_Proofs Narrow_Thms Tele_Model Tele_Spec Tele_Search.
Import ListNotations.
Local Open Scope R_scope.

(* ---------- boxes ---------- *)
Definition as_box2 (b : vec * vec) : Grid_Model.box2 real := Grid_Model.Box2 (ar := real) (fst b) (snd b).
Definition ordered2 (b : vec * vec) : Prop := fst (fst b) <= fst (snd b) /\ snd (fst b) <= snd (snd b).
Definition meet2 (a b : vec * vec) : Prop := overlaps2 (as_box2 a) (as_box2 b) = true.
Lemma meet2_iff : forall a b, ordered2 a -> ordered2 b -> (meet2 a b <-> boxes_meet2 a b).
Proof.
  intros a b [A0 A1] [B0 B1]. unfold meet2. split.
  - intros O. apply overlaps2_inv in O. cbn [as_box2 lo2 up2] in O. destruct O as (A & B & C & D). apply alt_real_false in A, B, C, D.
    unfold boxes_meet2, meets, Geom_Spec.within2. cbn [real sc] in *.
    exists (Rmax (fst (fst a)) (fst (fst b)), Rmax (snd (fst a)) (snd (fst b))). cbn [fst snd].
    pose proof (Rmax_l (fst (fst a)) (fst (fst b))). pose proof (Rmax_r (fst (fst a)) (fst (fst b))).
    pose proof (Rmax_l (snd (fst a)) (snd (fst b))). pose proof (Rmax_r (snd (fst a)) (snd (fst b))).
    repeat split; try assumption; apply Rmax_lub; assumption.
  - intros (p & Pa & Pb). unfold Geom_Spec.within2 in *. apply overlaps2_intro; apply alt_real_false; cbn [as_box2 lo2 up2 real sc] in *; lra.
Qed.
Lemma meet2_sym : forall a b, meet2 a b -> meet2 b a.
Proof. intros a b O. unfold meet2 in *. apply overlaps2_inv in O. destruct O as (A & B & C & D). apply overlaps2_intro; assumption. Qed.
Lemma meets_within_sym : forall a b, boxes_meet2 a b -> boxes_meet2 b a.
Proof. intros a b (p & A & B). exists p. split; assumption. Qed.
Lemma nth_error_map_inv : forall {A B} (f : A -> B) l n y, nth_error (map f l) n = Some y -> exists x, nth_error l n = Some x /\ y = f x.
Proof. intros A B f l n y H. rewrite nth_error_map in H. destruct (nth_error l n) as [x|]; [|discriminate]. injection H as <-. exists x. split; reflexivity. Qed.
Lemma grid2_sound : forall bs out i j, (N.of_nat (length bs) <= 4294967296)%N -> grid2 bs = Ok out -> In (i, j) out ->
  (i <= j)%N /\ exists a b, nth_error bs (N.to_nat i) = Some a /\ nth_error bs (N.to_nat j) = Some b /\ meet2 a b.
Proof.
  intros bs out i j L E H. apply (any_sound2 real _ _ _ _ _ (ltac:(unfold indexable; rewrite map_length; exact L)) E) in H.
  destruct H as [[]|(Lij & a & b & Ha & Hb & O)]. split; [exact Lij|]. apply nth_error_map_inv in Ha as (a' & Ha & ->). apply nth_error_map_inv in Hb as (b' & Hb & ->).
  exists a', b'. repeat split; assumption.
Qed.
Lemma grid2_complete : forall bs out i j a b, (N.of_nat (length bs) <= 4294967296)%N -> Forall ordered2 bs -> grid2 bs = Ok out -> (i < j)%N ->
  nth_error bs (N.to_nat i) = Some a -> nth_error bs (N.to_nat j) = Some b -> meet2 a b -> In (i, j) out.
Proof.
  intros bs out i j a b L W E Hij Ha Hb M.
  apply (any_complete2 real real_laws (map as_box2 bs) [] out i j (as_box2 a) (as_box2 b)); auto.
  - unfold indexable. rewrite map_length. exact L.
  - apply Forall_forall. intros x H. apply in_map_iff in H as (y & <- & H). rewrite Forall_forall in W. destruct (W y H) as [A B]. split; apply alt_real_false; assumption.
  - apply map_nth_error. exact Ha.
  - apply map_nth_error. exact Hb.
Qed.
Lemma tight2_ordered : forall b (S : vec -> Prop) p, S p -> tight2 b S -> ordered2 b.
Proof. intros b S p P [E _]. apply E in P. unfold Geom_Spec.within2 in P. unfold ordered2. lra. Qed.

Lemma balls_overlap_iff : forall x y r s, balls_overlap x y r s = true <-> vdot (vsub x y) (vsub x y) <= (r + s) * (r + s).
Proof. intros x y r s. unfold balls_overlap. destruct (Ccd_Proofs.Rleb_spec (vdot (vsub x y) (vsub x y)) ((r + s) * (r + s))); split; intros; try reflexivity; try discriminate; lra. Qed.

Section Plane.
  Context (conv : int_floor) (nb : nat) (fixed : nat -> bool) (shape : nat -> shape2) (ps : list portal2) (q0 q1 v : dvec).
  Hypothesis Sized : forall i, (i < nb)%nat -> sized2 (shape i).
  Hypothesis Few : (N.of_nat nb * (1 + N.of_nat (length ps)) <= 4294967296)%N.

  Definition pose (i : nat) (x : vec) : body2 := Body2 x (q1 (3 * i + 2)%nat) (shape i).
  Notation bx := (end_box2 shape q1).
  Notation at1 := (fun i => seg2 q1 (3 * i)).
  Lemma box_tight : forall i x, (i < nb)%nat -> tight2 (bx i x) (body2_points (pose i x)).
  Proof.
    intros i x L. pose proof (Sized i L) as Sz. unfold end_box2, body2_aabb, body2_points, pose, sized2 in *. cbn [b2_shape b2_x b2_theta].
    destruct (shape i); [apply circle_aabb_tight|apply box_aabb_tight]; lra.
  Qed.
  Lemma pose_centre : forall i x, (i < nb)%nat -> body2_points (pose i x) x.
  Proof.
    intros i x L. pose proof (Sized i L) as Sz. unfold body2_points, pose, sized2 in *. cbn [b2_shape b2_x b2_theta]. destruct (shape i) as [r|w].
    - unfold in_disc, vdot, vsub. cbn [fst snd]. pose proof (sq_nn r). lra.
    - unfold in_box2, vdot, vsub. cbn [fst snd]. rewrite !Rminus_eq_0, !Rmult_0_r, Rplus_0_l, Rabs_R0. lra.
  Qed.
  Lemma box_ordered : forall i x, (i < nb)%nat -> ordered2 (bx i x).
  Proof. intros i x L. exact (tight2_ordered _ _ _ (pose_centre i x L) (box_tight i x L)). Qed.
  Lemma at_end : forall i, pose i (seg2 q1 (3 * i)) = body_at2 shape q1 i.
  Proof. reflexivity. Qed.
  Lemma reaches2_iff : forall i p, (i < nb)%nat ->
    (aabb_in2 (fst (bx i (seg2 q1 (3 * i)))) (snd (bx i (seg2 q1 (3 * i)))) p = true <-> reaches2 (body2_points (body_at2 shape q1 i)) p).
  Proof.
    intros i p L. pose proof (box_tight i (seg2 q1 (3 * i)) L) as T. rewrite at_end in T. destruct (box_ordered i (seg2 q1 (3 * i)) L) as [O0 O1].
    rewrite aabb_in2_iff by assumption. split.
    - intros (x & X0 & X1 & H). exists (bx i (seg2 q1 (3 * i))), x. split; [exact T|]. split; [split; assumption|exact H].
    - intros (b & x & Tb & [X0 X1] & H). rewrite (Narrow_Proofs.tight2_unique _ _ _ Tb T) in *. exists x. repeat split; tauto.
  Qed.
  Notation nearb := (near_box (fun p b => aabb_touches2 p (fst b) (snd b)) bx at1).
  Lemma near_iff : forall p s i, (i < nb)%nat -> (nearb p s i <-> near2 shape q1 p s i).
  Proof.
    intros p s i L. unfold near_box, near2, aabb_touches2. pose proof (reaches2_iff i (po_a p) L) as A. pose proof (reaches2_iff i (po_b p) L) as B.
    destruct (aabb_in2 _ _ (po_a p)); destruct (aabb_in2 _ _ (po_b p)); destruct s; split; intros H; try discriminate; try reflexivity.
    all: try (apply A; reflexivity).
    all: try (exfalso; apply (proj1 H); apply A; reflexivity).
    all: try (apply A in H; discriminate).
    - split; [intros X; apply A in X; discriminate|apply B; reflexivity].
    - exfalso. destruct H as [_ H]. apply B in H. discriminate.
  Qed.
  Lemma view_iff : forall i k s y, view nearb (teleport_point2 conv) nb ps at1 i k s y <-> view2 conv nb shape ps q1 i k s y.
  Proof.
    intros i k s y. split; intros V; destruct V as [L|k p s y L Ep T Ey].
    1, 3: exact (View_in_place _ _ _ _ _ _ L).
    all: apply (View_through _ _ _ _ _ _ k p s y L Ep); [|exact Ey]; apply (near_iff p s i L); exact T.
  Qed.

  (* ---------- discs ---------- *)
  Lemma active2_inv : forall i j x y w, (i < nb)%nat -> (j < nb)%nat -> active2 shape i j x y = Ok w ->
    exists r s, shape i = Circle2 r /\ shape j = Circle2 s /\ w = balls_overlap x y r s /\ (w = true <-> discs_touch shape i j x y).
  Proof.
    intros i j x y w Li Lj E. pose proof (Sized i Li) as Si. pose proof (Sized j Lj) as Sj. unfold active2 in E.
    destruct (shape i) as [r|] eqn:Ei; [|discriminate]. destruct (shape j) as [s|] eqn:Ej; [|discriminate]. injection E as <-. exists r, s.
    split; [reflexivity|]. split; [reflexivity|]. split; [reflexivity|]. cbn [sized2] in *. rewrite balls_overlap_iff, discs_meet by lra.
    unfold discs_touch. rewrite Ei, Ej. split.
    - intros M. exists r, s. auto.
    - intros (r' & s' & Hr & Hs & M). congruence.
  Qed.
  Lemma discs_touch_boxes : forall i j x y, (i < nb)%nat -> (j < nb)%nat -> discs_touch shape i j x y -> meet2 (bx i x) (bx j y).
  Proof.
    intros i j x y Li Lj (r & s & Ei & Ej & (p & P0 & P1)). apply meet2_iff; [apply box_ordered; exact Li|apply box_ordered; exact Lj|].
    exists p. split.
    - apply (proj1 (box_tight i x Li)). unfold body2_points, pose. cbn [b2_shape b2_x]. rewrite Ei. exact P0.
    - apply (proj1 (box_tight j y Lj)). unfold body2_points, pose. cbn [b2_shape b2_x]. rewrite Ej. exact P1.
  Qed.
  Lemma discs_touch_sym : forall i j x y, discs_touch shape i j x y -> discs_touch shape j i y x.
  Proof. intros i j x y (r & s & A & B & (p & C & D)). exists s, r. split; [exact B|]. split; [exact A|]. exists p. split; assumption. Qed.
  Lemma discs_touch_overlap : forall i j, discs_touch shape i j (seg2 q1 (3 * i)) (seg2 q1 (3 * j)) -> overlap2 shape q1 i j.
  Proof.
    intros i j (r & s & A & B & M). unfold overlap2, body2_points, body_at2. cbn [b2_shape b2_x]. rewrite A, B. exact M.
  Qed.

  Lemma tele_centre_image : forall q b k s x, tele_centre2 conv ps q (N.of_nat b) k s = Ok x -> image2 conv ps k s (seg2 q (3 * b)) x.
  Proof.
    intros q b k s x E. unfold tele_centre2 in E. rewrite Nnat.Nat2N.id in E. unfold image2. destruct k as [k|]; [|congruence].
    destruct (nth_error ps (N.to_nat k)) as [p|]; [|discriminate]. exists p. split; [reflexivity|exact E].
  Qed.
  Lemma tele_centre_view : forall b k s y x, view2 conv nb shape ps q1 b k s y -> tele_centre2 conv ps q1 (N.of_nat b) k s = Ok x -> x = y.
  Proof.
    intros b k s y x V E. apply tele_centre_image in E. destruct V as [L|k p s y L Ep T Ey]; [exact E|]. destruct E as (p' & Ep' & E). congruence.
  Qed.
  Lemma view_body : forall i k s y, view2 conv nb shape ps q1 i k s y -> (i < nb)%nat.
  Proof. intros i k s y V. destruct V; assumption. Qed.

  (* ---------- the contact ---------- *)
  Lemma still_seen : forall k s u, lees_edwards_index ps k = Ok false -> seen_velocity ps k s u = u.
  Proof.
    intros k s u E. unfold lees_edwards_index in E. destruct k as [k|]; [|reflexivity]. cbn [seen_velocity].
    destruct (nth_error ps (N.to_nat k)) as [p|]; [|reflexivity]. injection E as E. unfold lees_edwards in E. apply negb_false_iff in E.
    destruct (Reqb_spec (po_v p) 0) as [->|]; [|discriminate]. destruct u as [u0 u1]. unfold vadd, vscale. cbn [fst snd]. f_equal; ring.
  Qed.
  Lemma kick_seen2 : forall b k s y u kick, view2 conv nb shape ps q1 b k s y -> aabb_kick2 shape ps q1 k (N.of_nat b) = Ok kick -> seen_velocity ps k s u = vadd u kick.
  Proof.
    intros b k s y u kick V E. destruct V as [L|k p s y L Ep T Ey]; [discriminate|]. unfold aabb_kick2 in E. rewrite Ep, Nnat.Nat2N.id in E.
    injection E as <-. cbn [seen_velocity]. rewrite Ep. pose proof (reaches2_iff b (po_a p) L) as A. cbn [near2] in T.
    unfold near2 in T. destruct (aabb_in2 _ _ (po_a p)); destruct s; try reflexivity; exfalso.
    - apply (proj1 T). apply A. reflexivity.
    - apply A in T. discriminate.
  Qed.
  Lemma arm0 : forall x y r s, 0 < r + s -> vscale (r / (r + s)) (vsub y x) = vsub (vadd x (vscale (r / (r + s)) (vsub y x))) x.
  Proof. intros [x0 x1] [y0 y1] r s H. unfold vadd, vscale, vsub. cbn [fst snd]. f_equal; ring. Qed.
  Lemma arm1 : forall x y r s, 0 < r + s -> vscale (r / (r + s) - 1) (vsub y x) = vsub (vadd x (vscale (r / (r + s)) (vsub y x))) y.
  Proof. intros [x0 x1] [y0 y1] r s H. unfold vadd, vscale, vsub. cbn [fst snd]. f_equal; ring. Qed.
  Lemma make2_spec : forall i k s y j l t z cs c, view2 conv nb shape ps q1 i k s y -> view2 conv nb shape ps q1 j l t z ->
    make2 conv fixed shape ps q0 q1 (mkT (N.of_nat i) (N.of_nat j) k l s t) = Ok cs ->
    fixed i = false /\ fixed j = false /\ discs_touch shape i j y z = discs_touch shape i j y z
    /\ (discs_touch shape i j y z -> exists c, cs = [c] /\ pair2 c = Some (i, j)) /\ (In c cs -> discs_touch shape i j y z /\ joins2 conv ps shape q0 i k s j l t c).
  Proof.
    intros i k s y j l t z cs c V W E. unfold make2 in E. cbn [t_b0 t_b1 t_p0 t_p1 t_s0 t_s1] in E. rewrite !Nnat.Nat2N.id in E.
    destruct (fixed i); [discriminate|]. destruct (fixed j); [discriminate|]. cbn [orb] in E. split; [reflexivity|]. split; [reflexivity|]. split; [reflexivity|].
    apply obind_Ok_inv in E as (x0 & X0 & E). apply obind_Ok_inv in E as (x1 & X1 & E). apply obind_Ok_inv in E as (y0 & Y0 & E). apply obind_Ok_inv in E as (y1 & Y1 & E).
    apply obind_Ok_inv in E as (le0 & L0 & E). apply obind_Ok_inv in E as (le1 & L1 & E). apply obind_Ok_inv in E as (kick & K & E).
    apply (tele_centre_view _ _ _ _ _ V) in Y0. apply (tele_centre_view _ _ _ _ _ W) in Y1. subst y0 y1. apply tele_centre_image in X0, X1.
    pose proof (view_body _ _ _ _ V) as Li. pose proof (view_body _ _ _ _ W) as Lj.
    destruct (shape i) as [r|] eqn:Ei; [|discriminate]. destruct (shape j) as [r'|] eqn:Ej; [|discriminate].
    assert (Sr : 0 < r /\ 0 < r'). { pose proof (Sized i Li) as A. pose proof (Sized j Lj) as B. rewrite Ei in A. rewrite Ej in B. split; assumption. }
    assert (Ac : active2 shape i j y z = Ok (balls_overlap y z r r')) by (unfold active2; rewrite Ei, Ej; reflexivity).
    destruct (active2_inv i j y z _ Li Lj Ac) as (_ & _ & _ & _ & _ & T).
    destruct (balls_overlap y z r r'); injection E as <-.
    2: { split; [intros H; apply T in H; discriminate|intros []]. }
    split; [intros _; eexists; split; [reflexivity|destruct kick; reflexivity]|]. intros [<-|[]]. split; [apply T; reflexivity|]. split; [destruct kick; reflexivity|].
    exists x0, x1, r, r'. split; [exact X0|]. split; [exact X1|]. split; [exact Ei|]. split; [exact Ej|]. split.
    { intros D. destruct kick; cbn [mk_kick_circle_circle mk_tele_circle_circle rb2_normal]; apply circle_normal; exact D. }
    exists (vadd x0 (vscale (r / (r + r')) (vsub x1 x0))). split; [apply divides2_mid; lra|]. intros NS q u.
    pose proof (lees_edwards_slides ps _ _ L0) as Sl0. pose proof (lees_edwards_slides ps _ _ L1) as Sl1.
    destruct le0, le1; cbn [negb andb] in K.
    - exfalso. apply NS. split; [apply Sl0|apply Sl1]; reflexivity.
    - apply obind_Ok_inv in K as (w & Kw & K). injection K as <-. cbn [mk_kick_circle_circle rb2_relvel]. rewrite (still_seen l t _ L1), (kick_seen2 i k s y _ w V Kw).
      rewrite <- arm0, <- arm1 by lra. unfold vsub, vadd, vneg. cbn [fst snd]. f_equal; ring.
    - apply obind_Ok_inv in K as (w & Kw & K). injection K as <-. cbn [mk_kick_circle_circle rb2_relvel]. rewrite (still_seen k s _ L0), (kick_seen2 j l t z _ w W Kw).
      rewrite <- arm0, <- arm1 by lra. unfold vsub, vadd. cbn [fst snd]. f_equal; ring.
    - injection K as <-. cbn [mk_tele_circle_circle rb2_relvel]. rewrite (still_seen k s _ L0), (still_seen l t _ L1), <- arm0, <- arm1 by lra. reflexivity.
  Qed.
End Plane.
