(* Only discs and balls may come near each other across a portal. *)
From Coq Require Import List Reals Arith NArith Bool Lra Lia.
From Verif Require Import Outcome Portal_Model Portal_Spec Portal_Proofs Grid_Model Ccd_Model Ccd_Spec Ccd_Proofs Lin_Model
  ContactRb2_Model ContactRb3_Model Rot_Model Rot_Spec Geom_Model Geom_Spec Geom_Sets Geom_Aabb Wall_Model Wall_Spec
  Narrow_Model Narrow_Spec Narrow_Proofs Narrow_Space Tele_Model Tele_Spec Tele_Search Tele_Plane Tele_Planar Tele_Space.
Import ListNotations.
Local Open Scope R_scope.

Lemma happens2_discs : forall conv shape ps q1 i j k l s t w, happens2 conv shape ps q1 (mkT (N.of_nat i) (N.of_nat j) k l s t) = Ok w ->
  exists r r', shape i = Circle2 r /\ shape j = Circle2 r'.
Proof.
  intros conv shape ps q1 i j k l s t w E. unfold happens2 in E. apply obind_Ok_inv in E as (x0 & _ & E). apply obind_Ok_inv in E as (x1 & _ & E).
  cbn [t_b0 t_b1] in E. rewrite !Nnat.Nat2N.id in E. unfold active2 in E. destruct (shape i); [|discriminate]. destruct (shape j); [|discriminate]. eauto.
Qed.
Lemma happens3_balls : forall shape ps q1 i j k l s t w, happens3 shape ps q1 (mkT (N.of_nat i) (N.of_nat j) k l s t) = Ok w ->
  exists r r', shape i = Sphere3 r /\ shape j = Sphere3 r'.
Proof.
  intros shape ps q1 i j k l s t w E. unfold happens3 in E. apply obind_Ok_inv in E as (x0 & _ & E). apply obind_Ok_inv in E as (x1 & _ & E).
  cbn [t_b0 t_b1] in E. rewrite !Nnat.Nat2N.id in E. destruct (shape i); try discriminate. destruct (shape j); try discriminate. eauto.
Qed.
Lemma tcoll_cases : forall a b ka kb sa sb,
  rb_tcoll (N.of_nat a) (N.of_nat b) ka kb sa sb = mkT (N.of_nat a) (N.of_nat b) ka kb sa sb
  \/ rb_tcoll (N.of_nat a) (N.of_nat b) ka kb sa sb = mkT (N.of_nat b) (N.of_nat a) kb ka sb sa.
Proof. intros. unfold rb_tcoll. destruct (N.of_nat a <? N.of_nat b)%N; tauto. Qed.

Theorem only_discs : forall conv nb fixed shape ps q0 q1 v planes set, (forall i, (i < nb)%nat -> sized2 (shape i)) ->
  (N.of_nat nb * (1 + N.of_nat (length ps)) <= 4294967296)%N -> ps <> [] ->
  rb2_active_set_portals conv nb fixed shape ps q0 q1 v planes = Ok set ->
  forall i k s y j l t z, view2 conv nb shape ps q1 i k s y -> view2 conv nb shape ps q1 j l t z -> (i, k, s) <> (j, l, t) ->
  (k <> None \/ l <> None) -> ~ (fixed i = true /\ fixed j = true) -> views_meet2 shape q1 i y j z ->
  exists r r', shape i = Circle2 r /\ shape j = Circle2 r'.
Proof.
  intros conv nb fixed shape ps q0 q1 v planes set Sized Few Np E i k s y j l t z Vi Vj Ne NP Nf (a0 & b0 & Ta & Tb & M).
  unfold rb2_active_set_portals in E. apply obind_Ok_inv in E as (bodies & E & _).
  assert (Eb : portal_set2 conv nb fixed shape ps q0 q1 v = Ok bodies) by (destruct ps; [contradiction Np; reflexivity|exact E]). clear E.
  unfold portal_set2 in Eb.
  apply (search_spec _ _ _ _ _ _ _ _ _ _ _ _ meet2 ordered2 grid2_sound grid2_complete (fun i x L => box_ordered nb shape q1 Sized i x L) Few meet2_sym) in Eb.
  destruct Eb as (found & ts & tele & _ & _ & _ & _ & _ & _ & Tc).
  pose proof (view_body _ _ _ _ _ _ _ _ _ Vi) as Li. pose proof (view_body _ _ _ _ _ _ _ _ _ Vj) as Lj.
  assert (M' : meet2 (end_box2 shape q1 i y) (end_box2 shape q1 j z)).
  { apply meet2_iff; [apply (box_ordered nb shape q1 Sized); assumption|apply (box_ordered nb shape q1 Sized); assumption|].
    rewrite (Narrow_Proofs.tight2_unique _ _ _ Ta (box_tight nb shape q1 Sized i y Li)), (Narrow_Proofs.tight2_unique _ _ _ Tb (box_tight nb shape q1 Sized j z Lj)) in M. exact M. }
  apply (view_iff conv nb fixed shape ps q1 Sized) in Vi. apply (view_iff conv nb fixed shape ps q1 Sized) in Vj.
  destruct (Tc i k s y j l t z Vi Vj Ne NP M') as (a & ka & sa & b & kb & sb & Ab & _ & Cs).
  assert (D : exists r r', shape a = Circle2 r /\ shape b = Circle2 r').
  { destruct Cs as [(_ & _ & Ip)|[F|(w & Hw & _)]].
    - unfold in_place2, active2 in Ip. destruct (shape a); [|discriminate]. destruct (shape b); [|discriminate]. eauto.
    - exfalso. apply Nf. apply andb_true_iff in F. destruct Ab as [X|X]; injection X as -> -> -> -> -> ->; tauto.
    - destruct (tcoll_cases a b ka kb sa sb) as [X|X]; rewrite X in Hw; apply happens2_discs in Hw as (r & r' & A & B); eauto. }
  destruct D as (r & r' & A & B). destruct Ab as [X|X]; injection X as -> -> -> -> -> ->; eauto.
Qed.

Theorem only_balls : forall o nb fixed shape ps q0 q1 planes cyls set, (forall i, (i < nb)%nat -> sized3 (shape i)) ->
  (forall i, (i < nb)%nat -> rotation (ori3 nb q1 i)) -> (N.of_nat nb * (1 + N.of_nat (length ps)) <= 4294967296)%N ->
  rb3_active_set_portals o nb fixed shape ps q0 q1 planes cyls = Ok set ->
  forall i k s y j z, view3 nb shape ps q1 i (Some k) s y -> view3 nb shape ps q1 j None false z -> ~ (fixed i = true /\ fixed j = true) ->
  (forall w, shape i <> Staple3 w) -> (forall w, shape j <> Staple3 w) -> views_meet3 nb shape q1 i y j z ->
  exists r r', shape i = Sphere3 r /\ shape j = Sphere3 r'.
Proof.
  intros o nb fixed shape ps q0 q1 planes cyls set Sized Turned Few E i k s y j z Vi Vj Nf Ni Nj (a0 & b0 & Ta & Tb & M).
  unfold rb3_active_set_portals in E. apply obind_Ok_inv in E as (bodies & Eb & _). unfold portal_set3 in Eb.
  apply (search_spec _ _ _ _ _ _ _ _ _ _ _ _ meet3 ordered3 grid3_sound grid3_complete (fun i x L => box_ordered3 nb shape q1 Sized Turned i x L) Few meet3_sym) in Eb.
  destruct Eb as (found & ts & tele & _ & _ & _ & _ & _ & _ & Tc).
  assert (Li : (i < nb)%nat) by (inversion Vi; assumption). assert (Lj : (j < nb)%nat) by (inversion Vj; assumption).
  pose proof (proj1 (box_tight3 nb shape q1 Sized Turned i y Li)) as Bi. pose proof (proj1 (box_tight3 nb shape q1 Sized Turned j z Lj)) as Bj.
  assert (Ri : forall i x, (forall w, shape i <> Staple3 w) -> reach_at nb shape q1 i x = body3_points (Body3 x (ori3 nb q1 i) (shape i))).
  { intros i' x N. unfold reach_at. destruct (shape i') as [w|r|w|vs] eqn:Es; try reflexivity. contradiction (N w eq_refl). }
  rewrite Ri in Bi, Bj by assumption.
  assert (M' : meet3 (end_box3 nb shape q1 i y) (end_box3 nb shape q1 j z)).
  { apply meet3_iff; [apply (box_ordered3 nb shape q1 Sized Turned); assumption|apply (box_ordered3 nb shape q1 Sized Turned); assumption|].
    rewrite (tight3_unique _ _ _ Ta Bi), (tight3_unique _ _ _ Tb Bj) in M. exact M. }
  apply (view_iff3 nb fixed shape ps q1 Sized Turned) in Vi. apply (view_iff3 nb fixed shape ps q1 Sized Turned) in Vj.
  destruct (Tc i (Some k) s y j None false z Vi Vj ltac:(congruence) ltac:(left; discriminate) M') as (a & ka & sa & b & kb & sb & Ab & _ & Cs).
  assert (D : exists r r', shape a = Sphere3 r /\ shape b = Sphere3 r').
  { destruct Cs as [(Ka & Kb & _)|[F|(w & Hw & _)]].
    - exfalso. destruct Ab as [X|X]; injection X as -> -> -> -> -> ->; congruence.
    - exfalso. apply Nf. apply andb_true_iff in F. destruct Ab as [X|X]; injection X as -> -> -> -> -> ->; tauto.
    - destruct (tcoll_cases a b ka kb sa sb) as [X|X]; rewrite X in Hw; apply happens3_balls in Hw as (r & r' & A & B); eauto. }
  destruct D as (r & r' & A & B). destruct Ab as [X|X]; injection X as -> -> -> -> -> ->; eauto.
Qed.
