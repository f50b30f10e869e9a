(* The set of contacts of planar bodies with portals. *)
From Coq Require Import List Reals Arith NArith Bool Lra Lia.
From Verif Require Import Outcome Portal_Model Portal_Spec Portal_Proofs Portal_Active Portal_Runs Grid_Model Grid_Spec Grid_Proofs Grid_Arith Grid_Dim Grid_Real Ccd_Model Ccd_Spec Ccd_Proofs Lin_Model
  ContactRb2_Model ContactRb3_Model Rot_Model Rot_Spec Rot_Alg Geom_Model Geom_Spec Geom_Sets Geom_Circle Geom_Boxes Geom_BoxBox Geom_Aabb Wall_Model Wall_Spec Wall_Geo Wall_Thms Wall_More
  Narrow_Model Narrow_Spec Narrow_Proofs Narrow_Thms Narrow_Total Tele_Model Tele_Spec Tele_Search Tele_Plane.
Import ListNotations.
Local Open Scope R_scope.

Lemma gather_all : forall {A} (l : list (outcome (list A))) s, gather l = Ok s -> forall o, In o l -> exists a, o = Ok a.
Proof.
  intros A l. induction l as [|x l IH]; intros s E o H; [destruct H|]. cbn [gather] in E. apply obind_Ok_inv in E as (a & Ea & E). apply obind_Ok_inv in E as (b & Eb & _).
  destruct H as [<-|H]; [exists a; exact Ea|apply (IH b Eb o H)].
Qed.
Lemma tcoll_pair : forall b0 b1 k0 k1 s0 s1, pair_of (rb_tcoll (N.of_nat b0) (N.of_nat b1) k0 k1 s0 s1) = (Nat.min b0 b1, Nat.max b0 b1).
Proof. intros b0 b1 k0 k1 s0 s1. unfold pair_of, rb_tcoll. cbn [t_b0 t_b1]. destruct (N.ltb_spec (N.of_nat b0) (N.of_nat b1)); rewrite !Nnat.Nat2N.id; f_equal; lia. Qed.
(* the contact of two views has the lower body number first *)
Lemma crossing_ordered : forall {Po Pt} (near : Po -> bool -> nat -> Prop) (through : Po -> bool -> Pt -> outcome Pt) nb ps at1 b0 k0 s0 y0 b1 k1 s1 y1 (Q : Prop),
  view near through nb ps at1 b0 k0 s0 y0 -> view near through nb ps at1 b1 k1 s1 y1 -> (k0 <> None \/ k1 <> None) ->
  exists i k s y j l t z, view near through nb ps at1 i k s y /\ view near through nb ps at1 j l t z /\ (i <= j)%nat /\ (k <> None \/ l <> None)
    /\ rb_tcoll (N.of_nat b0) (N.of_nat b1) k0 k1 s0 s1 = mkT (N.of_nat i) (N.of_nat j) k l s t /\ i = Nat.min b0 b1 /\ j = Nat.max b0 b1
    /\ ((i, k, s, y, j, l, t, z) = (b0, k0, s0, y0, b1, k1, s1, y1) \/ (i, k, s, y, j, l, t, z) = (b1, k1, s1, y1, b0, k0, s0, y0)).
Proof.
  intros Po Pt near through nb ps at1 b0 k0 s0 y0 b1 k1 s1 y1 Q V0 V1 NP. unfold rb_tcoll. destruct (N.ltb_spec (N.of_nat b0) (N.of_nat b1)).
  - exists b0, k0, s0, y0, b1, k1, s1, y1. repeat (split; [assumption||reflexivity||lia|]). left. reflexivity.
  - exists b1, k1, s1, y1, b0, k0, s0, y0. split; [exact V1|]. split; [exact V0|]. split; [lia|]. split; [tauto|]. split; [reflexivity|]. split; [lia|]. split; [lia|]. right. reflexivity.
Qed.

Section Planar.
  Context (conv : int_floor) (nb : nat) (fixed : nat -> bool) (shape : nat -> shape2) (ps : list portal2) (q0 q1 v : dvec).
  Hypothesis Sized : forall i, (i < nb)%nat -> sized2 (shape i).
  Hypothesis Few : (N.of_nat nb * (1 + N.of_nat (length ps)) <= 4294967296)%N.
  Notation bx := (end_box2 shape q1).
  Notation at1 := (fun i => seg2 q1 (3 * i)).
  Notation V := (view2 conv nb shape ps q1).
  Lemma few_bodies : (N.of_nat nb <= 4294967296)%N.
  Proof. lia. Qed.

  Lemma ends_meet_iff : forall i j, (i < nb)%nat -> (j < nb)%nat -> (meet2 (bx i (at1 i)) (bx j (at1 j)) <-> ends_meet2 shape q1 i j).
  Proof.
    intros i j Li Lj. pose proof (box_tight nb shape q1 Sized i (at1 i) Li) as Ti. pose proof (box_tight nb shape q1 Sized j (at1 j) Lj) as Tj. rewrite at_end in Ti, Tj.
    rewrite meet2_iff by (apply (box_ordered nb shape q1 Sized); assumption). split.
    - intros M. exists (bx i (at1 i)), (bx j (at1 j)). split; [exact Ti|]. split; [exact Tj|exact M].
    - intros (a & b & Ta & Tb & M). rewrite (Narrow_Proofs.tight2_unique _ _ _ Ta Ti), (Narrow_Proofs.tight2_unique _ _ _ Tb Tj) in M. exact M.
  Qed.
  Lemma overlap_ends : forall i j, (i < nb)%nat -> (j < nb)%nat -> overlap2 shape q1 i j -> ends_meet2 shape q1 i j.
  Proof.
    intros i j Li Lj (p & Pi & Pj). pose proof (box_tight nb shape q1 Sized i (at1 i) Li) as Ti. pose proof (box_tight nb shape q1 Sized j (at1 j) Lj) as Tj. rewrite at_end in Ti, Tj.
    exists (bx i (at1 i)), (bx j (at1 j)). split; [exact Ti|]. split; [exact Tj|]. exists p. split; [apply Ti, Pi|apply Tj, Pj].
  Qed.
  Lemma overlap_collide : forall i j, overlap2 shape q1 i j -> collide2 shape q0 q1 i j.
  Proof.
    intros i j M. unfold collide2. destruct (shape i) as [r|] eqn:Ei; [|exact M]. destruct (shape j) as [s|] eqn:Ej; [|exact M].
    exists 1. split; [lra|]. unfold overlap2, body2_points, body_at2 in M. cbn [b2_shape b2_x] in M. rewrite Ei, Ej in M.
    replace (at_time (seg2 q0 (3 * i)) (seg2 q1 (3 * i)) 1) with (seg2 q1 (3 * i)) by (unfold at_time, seg2, vadd, vscale, vsub; cbn [fst snd]; f_equal; ring).
    replace (at_time (seg2 q0 (3 * j)) (seg2 q1 (3 * j)) 1) with (seg2 q1 (3 * j)) by (unfold at_time, seg2, vadd, vscale, vsub; cbn [fst snd]; f_equal; ring).
    exact M.
  Qed.

  (* a set that the program builds *)
  Section Built.
  Variable set : list rb2_contact.
  Hypothesis Built : portal_set2 conv nb fixed shape ps q0 q1 v = Ok set.

  Lemma happens2_view : forall i k s y j l t z w, V i k s y -> V j l t z -> happens2 conv shape ps q1 (mkT (N.of_nat i) (N.of_nat j) k l s t) = Ok w ->
    (w = true <-> discs_touch shape i j y z).
  Proof.
    intros i k s y j l t z w Vi Vj E. unfold happens2 in E. cbn [t_b0 t_b1 t_p0 t_p1 t_s0 t_s1] in E. apply obind_Ok_inv in E as (x0 & X0 & E). apply obind_Ok_inv in E as (x1 & X1 & E).
    apply (tele_centre_view _ _ _ _ _ _ _ _ _ _ Vi) in X0. apply (tele_centre_view _ _ _ _ _ _ _ _ _ _ Vj) in X1. subst x0 x1. rewrite !Nnat.Nat2N.id in E.
    destruct (active2_inv nb shape Sized i j y z w (view_body _ _ _ _ _ _ _ _ _ Vi) (view_body _ _ _ _ _ _ _ _ _ Vj) E) as (_ & _ & _ & _ & _ & T). exact T.
  Qed.
  Lemma in_place2_overlap : forall i j, (i < nb)%nat -> (j < nb)%nat -> in_place2 shape q1 i j = Ok true -> overlap2 shape q1 i j.
  Proof.
    intros i j Li Lj E. destruct (active2_inv nb shape Sized i j _ _ _ Li Lj E) as (_ & _ & _ & _ & _ & T). apply discs_touch_overlap, T. reflexivity.
  Qed.

  Theorem portal_set2_spec : exists found tele, set = found ++ tele
    (* in place *)
    /\ (forall c a b, pair2 c = Some (a, b) -> a <> b ->
          (In c found <-> exists i j cs, (i < j)%nat /\ (j < nb)%nat /\ ends_meet2 shape q1 i j /\ dispatch2 fixed shape q0 q1 v i j = Ok cs /\ In c cs))
    /\ (forall i j, (i < j)%nat -> (j < nb)%nat -> ends_meet2 shape q1 i j -> ~ unsupported2 fixed shape i j)
    /\ (forall c, In c found -> exists a b, pair2 c = Some (a, b))
    (* across portals *)
    /\ (forall c, In c tele -> exists i k s y j l t z, V i k s y /\ V j l t z /\ (i <= j)%nat /\ (k <> None \/ l <> None) /\ fixed i = false /\ fixed j = false
          /\ discs_touch shape i j y z /\ joins2 conv ps shape q0 i k s j l t c)
    /\ (forall i k s y j l t z, V i k s y -> V j l t z -> (i, k, s) <> (j, l, t) -> (k <> None \/ l <> None) -> ~ (fixed i = true /\ fixed j = true) ->
          discs_touch shape i j y z -> ~ (k <> None /\ l <> None /\ overlap2 shape q1 i j) -> in_contact pair2 tele i j)
    /\ (forall i j, (count_between pair2 i j tele <= 1)%nat).
  Proof.
    unfold portal_set2 in Built.
    assert (Built' : search (fun p b => aabb_touches2 p (fst b) (snd b)) (teleport_point2 conv) bx grid2 nb fixed ps at1
      (dispatch2 fixed shape q0 q1 v) (in_place2 shape q1) (happens2 conv shape ps q1) (make2 conv fixed shape ps q0 q1) = Ok set) by exact Built.
    apply (search_spec _ _ _ _ _ _ _ _ _ _ _ _ meet2 ordered2 grid2_sound grid2_complete (fun i x L => box_ordered nb shape q1 Sized i x L) Few meet2_sym) in Built'.
    destruct Built' as (found & ts & tele & -> & Et & Nd & Fs & Fc & Ts & Tc). exists found, tele. split; [reflexivity|].
    pose proof (gather_ok _ _ Et) as G.
    (* what the elements of the set give *)
    assert (Each : forall t, In t ts -> exists i k s y j l t' z c, V i k s y /\ V j l t' z /\ (i <= j)%nat /\ (k <> None \/ l <> None) /\ fixed i = false /\ fixed j = false
      /\ discs_touch shape i j y z /\ pair_of t = (i, j) /\ make2 conv fixed shape ps q0 q1 t = Ok [c] /\ joins2 conv ps shape q0 i k s j l t' c).
    { intros t It. destruct (Ts t It) as (b0 & k0 & s0 & y0 & b1 & k1 & s1 & y1 & V0 & V1 & NP & _ & -> & H).
      destruct (crossing_ordered _ _ _ _ _ _ _ _ _ _ _ _ _ True V0 V1 NP) as (i & k & s & y & j & l & t' & z & Vi & Vj & Lij & NP' & Em & -> & -> & _).
      apply (view_iff conv nb fixed shape ps q1 Sized) in Vi. apply (view_iff conv nb fixed shape ps q1 Sized) in Vj.
      pose proof (tcoll_pair b0 b1 k0 k1 s0 s1) as Pr. rewrite Em in H, It, Pr |- *.
      set (i := Nat.min b0 b1) in *. set (j := Nat.max b0 b1) in *. clearbody i j.
      pose proof (proj1 (happens2_view i k s y j l t' z true Vi Vj H) eq_refl) as T.
      destruct (gather_all _ _ Et (make2 conv fixed shape ps q0 q1 (mkT (N.of_nat i) (N.of_nat j) k l s t'))) as (cs & Ecs); [apply in_map; exact It|].
      destruct (make2_spec conv nb fixed shape ps q0 q1 Sized i k s y j l t' z cs (BodyBody2 0 0 (0, 0) (0, 0) (0, 0)) Vi Vj Ecs) as (Fi & Fj & _ & One & _).
      destruct (One T) as (c & -> & Pc). exists i, k, s, y, j, l, t', z, c. do 9 (split; [assumption|]).
      destruct (make2_spec conv nb fixed shape ps q0 q1 Sized i k s y j l t' z [c] c Vi Vj Ecs) as (_ & _ & _ & _ & J).
      exact (proj2 (J (or_introl eq_refl))). }
    split; [|split; [|split; [|split; [|split]]]].
    - intros c a b Pc Nab. split.
      + intros H. destruct (Fs c H) as (i & j & cs & Lij & Lj & M & D & Hc). destruct (Nat.eq_dec i j) as [->|Ne].
        * exfalso. destruct (dispatch2_self nb fixed shape q0 q1 v Sized j Lj) as (cs' & D' & P). assert (cs = cs') by congruence. subst cs'. rewrite (P c Hc) in Pc. congruence.
        * exists i, j, cs. split; [lia|]. split; [exact Lj|]. split; [apply ends_meet_iff; [lia|exact Lj|exact M]|]. split; assumption.
      + intros (i & j & cs & Lij & Lj & M & D & Hc). apply ends_meet_iff in M; [|lia|exact Lj]. destruct (Fc i j Lij Lj M) as (cs' & D' & H). apply H. congruence.
    - intros i j Lij Lj M U. apply ends_meet_iff in M; [|lia|exact Lj]. destruct (Fc i j Lij Lj M) as (cs' & D' & _).
      destruct (dispatch2_ok nb fixed shape q0 q1 v few_bodies Sized i j Lij Lj) as [[_ D]|[NU _]]; [congruence|contradiction].
    - intros c H. destruct (Fs c H) as (i & j & cs & Lij & Lj & M & D & Hc). destruct (Nat.eq_dec i j) as [->|Ne].
      + destruct (dispatch2_self nb fixed shape q0 q1 v Sized j Lj) as (cs' & D' & P). assert (cs = cs') by congruence. subst cs'. exists j, j. apply P, Hc.
      + destruct (dispatch2_ok nb fixed shape q0 q1 v few_bodies Sized i j ltac:(lia) Lj) as [[_ D']|[_ (cs' & D' & _ & _ & _ & P)]]; [congruence|].
        assert (cs = cs') by congruence. subst cs'. destruct (P c Hc) as (a & b & _ & _ & _ & (Pc & _)). exists a, b. exact Pc.
    - intros c H. apply G in H as (cs & Il & Hc). apply in_map_iff in Il as (t & Em & It).
      destruct (Each t It) as (i & k & s & y & j & l & t' & z & c' & Vi & Vj & Lij & NP & Fi & Fj & T & _ & Em' & J).
      assert (cs = [c']) by congruence. subst cs. destruct Hc as [->|[]]. exists i, k, s, y, j, l, t', z. do 7 (split; [assumption|]). exact J.
    - intros i k s y j l t z Vi Vj Ne NP Nf T No. pose proof (view_body _ _ _ _ _ _ _ _ _ Vi) as Li. pose proof (view_body _ _ _ _ _ _ _ _ _ Vj) as Lj.
      pose proof (discs_touch_boxes nb shape q1 Sized i j y z Li Lj T) as M.
      assert (Vi' := Vi). assert (Vj' := Vj). apply (view_iff conv nb fixed shape ps q1 Sized) in Vi'. apply (view_iff conv nb fixed shape ps q1 Sized) in Vj'.
      destruct (Tc i k s y j l t z Vi' Vj' Ne NP M) as (a & ka & sa & b & kb & sb & Ab & _ & Cs).
      assert (I : In (Nat.min i j, Nat.max i j) (map pair_of ts)).
      { destruct Cs as [(Ka & Kb & Ip)|[F|(w & Hw & Iw)]].
        - exfalso. apply No. destruct Ab as [E|E]; injection E as -> -> -> -> -> ->.
          + split; [exact Ka|]. split; [exact Kb|]. apply in_place2_overlap; assumption.
          + split; [exact Kb|]. split; [exact Ka|]. destruct (in_place2_overlap j i Lj Li Ip) as (p & P0 & P1). exists p. split; assumption.
        - exfalso. apply Nf. apply andb_true_iff in F. destruct Ab as [E|E]; injection E as -> -> -> -> -> ->; tauto.
        - destruct Ab as [E|E]; injection E as -> -> -> -> -> ->.
          + apply Iw. destruct (crossing_ordered _ _ _ _ _ _ _ _ _ _ _ _ _ True Vi' Vj' NP) as (i' & k' & s' & y' & j' & l' & t' & z' & Vi2 & Vj2 & _ & _ & Em & _ & _ & Ca).
            rewrite Em in Hw. apply (view_iff conv nb fixed shape ps q1 Sized) in Vi2. apply (view_iff conv nb fixed shape ps q1 Sized) in Vj2.
            apply (happens2_view i' k' s' y' j' l' t' z' w Vi2 Vj2 Hw). destruct Ca as [E|E]; injection E as -> -> -> -> -> -> -> ->; [exact T|apply discs_touch_sym, T].
          + rewrite (Nat.min_comm i j), (Nat.max_comm i j). apply Iw.
            destruct (crossing_ordered _ _ _ _ _ _ _ _ _ _ _ _ _ True Vj' Vi' ltac:(tauto)) as (i' & k' & s' & y' & j' & l' & t' & z' & Vi2 & Vj2 & _ & _ & Em & _ & _ & Ca).
            rewrite Em in Hw. apply (view_iff conv nb fixed shape ps q1 Sized) in Vi2. apply (view_iff conv nb fixed shape ps q1 Sized) in Vj2.
            apply (happens2_view i' k' s' y' j' l' t' z' w Vi2 Vj2 Hw). destruct Ca as [E|E]; injection E as -> -> -> -> -> -> -> ->; [apply discs_touch_sym, T|exact T]. }
      apply in_map_iff in I as (d & Pd & Id). destruct (Each d Id) as (i' & k' & s' & y' & j' & l' & t' & z' & c & _ & _ & _ & _ & _ & _ & _ & Pd' & Em & J).
      rewrite Pd in Pd'. exists c. split; [apply G; exists [c]; split; [apply in_map_iff; exists d; split; assumption|left; reflexivity]|].
      destruct J as [Pc _]. rewrite Pc. destruct (Nat.le_gt_cases i j).
      + rewrite Nat.min_l, Nat.max_r in Pd' by lia. left. congruence.
      + rewrite Nat.min_r, Nat.max_l in Pd' by lia. right. congruence.
    - intros i j. unfold count_between. set (P := fun c => match pair2 c with Some (a, b) => ((a =? i) && (b =? j) || (a =? j) && (b =? i))%nat | None => false end).
      assert (Each' : forall t, In t ts -> exists i j c, (i <= j)%nat /\ pair_of t = (i, j) /\ make2 conv fixed shape ps q0 q1 t = Ok [c] /\ pair2 c = Some (i, j)).
      { intros t It. destruct (Each t It) as (i' & k' & s' & y' & j' & l' & t' & z' & c & _ & _ & L & _ & _ & _ & _ & A & B & (D & _)). exists i', j', c. auto. }
      clear - Nd Et Each'. revert tele Et. induction ts as [|t ts IH]; intros tele Et; cbn [map gather] in Et; [injection Et as <-; cbn; lia|].
      apply obind_Ok_inv in Et as (cs & Ecs & Et). apply obind_Ok_inv in Et as (rest & Er & Et). injection Et as <-.
      destruct (Each' t (or_introl eq_refl)) as (a & b & c & Lab & Pt & Em & Pc). assert (cs = [c]) by congruence. subst cs. cbn [map] in Nd. inversion Nd as [|? ? Ni Nd']; subst.
      cbn [app filter]. destruct (P c) eqn:Pb; [|apply (IH Nd'); [intros t' It'; apply Each'; right; exact It'|exact Er]].
      rewrite (gather_none (make2 conv fixed shape ps q0 q1) P ts rest Er); [cbn [length]; lia|].
      intros t' cs' c' It' Em' Hc'. destruct (Each' t' (or_intror It')) as (a' & b' & c2 & Lab' & Pt' & Em2 & Pc2). assert (cs' = [c2]) by congruence. subst cs'.
      destruct Hc' as [->|[]]. destruct (P c') eqn:Pb'; [|reflexivity]. exfalso. apply Ni. rewrite Pt. apply in_map_iff. exists t'. split; [|exact It']. rewrite Pt'.
      unfold P in Pb, Pb'. rewrite Pc in Pb. rewrite Pc2 in Pb'.
      destruct (Nat.eqb_spec a i), (Nat.eqb_spec b j), (Nat.eqb_spec a j), (Nat.eqb_spec b i); cbn [andb orb] in Pb; try discriminate;
      destruct (Nat.eqb_spec a' i), (Nat.eqb_spec b' j), (Nat.eqb_spec a' j), (Nat.eqb_spec b' i); cbn [andb orb] in Pb'; try discriminate; f_equal; lia.
  Qed.
  End Built.

  Theorem set2_portals : forall planes set, ps <> [] -> rb2_active_set_portals conv nb fixed shape ps q0 q1 v planes = Ok set ->
    exists found tele, set = found ++ tele ++ map snd (rb2_plane_set q1 fixed shape nb planes)
    /\ (forall i j, (i < j)%nat -> (j < nb)%nat ->
          (in_contact pair2 found i j <-> ~ (fixed i = true /\ fixed j = true) /\ collide2 shape q0 q1 i j /\ ends_meet2 shape q1 i j))
    /\ (forall c a b, In c found -> pair2 c = Some (a, b) -> a <> b -> (a < nb)%nat /\ (b < nb)%nat /\ fixed a = false /\ (fixed b = false -> (a < b)%nat)
          /\ two_sided2 c = negb (fixed b) /\ describes2 shape q0 q1 a b c (rb2_normal c)
          /\ (fixed b = true -> exists r n, shape a = Circle2 r /\ c = KinCircle a r n b (seg2 q0 (3 * b)) (seg2 v (3 * b)) (v (3 * b + 2)%nat)))
    /\ (forall c, In c tele -> exists i k s y j l t z, V i k s y /\ V j l t z /\ (i <= j)%nat /\ (k <> None \/ l <> None) /\ fixed i = false /\ fixed j = false
          /\ discs_touch shape i j y z /\ joins2 conv ps shape q0 i k s j l t c)
    /\ (forall i k s y j l t z, V i k s y -> V j l t z -> (i, k, s) <> (j, l, t) -> (k <> None \/ l <> None) -> ~ (fixed i = true /\ fixed j = true) ->
          discs_touch shape i j y z -> ~ (k <> None /\ l <> None /\ overlap2 shape q1 i j) -> in_contact pair2 tele i j)
    /\ (forall i j, (count_between pair2 i j tele <= 1)%nat).
  Proof.
    intros planes set Np E. unfold rb2_active_set_portals in E. apply obind_Ok_inv in E as (bodies & E & Es). injection Es as <-.
    assert (Eb : portal_set2 conv nb fixed shape ps q0 q1 v = Ok bodies) by (destruct ps; [contradiction Np; reflexivity|exact E]). clear E.
    destruct (portal_set2_spec bodies Eb) as (found & tele & -> & F & U & _ & T & Tc & Cn). exists found, tele. split; [symmetry; apply app_assoc|].
    split; [|split; [|split; [exact T|split; [exact Tc|exact Cn]]]].
    - intros i j Hij Hj. split.
      + intros (c & Hc & Pc). assert (X : exists i' j' cs, (i' < j')%nat /\ (j' < nb)%nat /\ ends_meet2 shape q1 i' j' /\ dispatch2 fixed shape q0 q1 v i' j' = Ok cs /\ In c cs).
        { destruct Pc as [Pc|Pc]; apply (F c _ _ Pc); try lia; exact Hc. }
        destruct X as (i' & j' & cs & Hij' & Hj' & M & D & Hcs).
        destruct (dispatch2_ok nb fixed shape q0 q1 v few_bodies Sized i' j' Hij' Hj') as [[_ D']|[_ (cs' & D' & N & _ & _ & P)]]; [congruence|]. assert (cs' = cs) by congruence. subst cs'.
        destruct (P c Hcs) as (a & b & Ab & _ & _ & (Pc' & _)).
        assert (i' = i /\ j' = j) as [-> ->] by (destruct Pc as [Pc|Pc]; rewrite Pc in Pc'; injection Pc' as -> ->; lia).
        destruct cs as [|c' cs]; [destruct Hcs|]. destruct (proj1 N ltac:(discriminate)) as [Nf C]. repeat (split; [assumption|]). exact M.
      + intros (Nf & C & M). destruct (dispatch2_ok nb fixed shape q0 q1 v few_bodies Sized i j Hij Hj) as [[U' _]|[_ (cs & D & N & _ & _ & P)]].
        * exfalso. exact (U i j Hij Hj M U').
        * destruct cs as [|c cs]; [exfalso; apply (proj2 N); [split; assumption|reflexivity]|]. destruct (P c (or_introl eq_refl)) as (a & b & Ab & _ & _ & (Pc & _)).
          exists c. split; [apply (F c a b Pc ltac:(lia)); exists i, j, (c :: cs); repeat (split; [assumption|]); left; reflexivity|].
          destruct Ab as [[-> ->]|[-> ->]]; [left|right]; exact Pc.
    - intros c a b Hc Pc Nab. apply (F c a b Pc Nab) in Hc as (i & j & cs & Hij & Hj & _ & D & Hcs).
      destruct (dispatch2_ok nb fixed shape q0 q1 v few_bodies Sized i j Hij Hj) as [[_ D']|[_ (cs' & D' & _ & _ & _ & P)]]; [congruence|]. assert (cs' = cs) by congruence. subst cs'.
      destruct (P c Hcs) as (a' & b' & Ab & Fa & Fb & (Pc' & Ts & De & Ki)). rewrite Pc in Pc'. injection Pc' as <- <-.
      split; [lia|]. split; [lia|]. repeat (split; [assumption|]). exact Ki.
  Qed.

  Theorem set2_portals_run : always_answers conv -> forall planes M m, (0 < nb)%nat -> 0 < m -> 2 * M + 1 < 4294967000 * m ->
    (forall i, (i < nb)%nat -> fixed i = false /\ exists r, shape i = Circle2 r /\ m <= 2 * r) ->
    (forall i k s y p, V i k s y -> body2_points (pose shape q1 i y) p -> Rabs (fst p) <= M /\ Rabs (snd p) <= M) ->
    ps <> [] -> exists set, rb2_active_set_portals conv nb fixed shape ps q0 q1 v planes = Ok set.
  Proof.
    intros Aa planes M m Pb Pm HM Free Bd Np.
    assert (Tp : forall p s x, exists y, teleport_point2 conv p s x = Ok y). { intros p [|] x; apply through2_always; exact Aa. }
    assert (Tc : forall q i k s y, V i k s y -> exists x, tele_centre2 conv ps q (N.of_nat i) k s = Ok x).
    { intros q i k s y Vi. unfold tele_centre2. destruct Vi as [L|k p s y L Ep _ _]; [eexists; reflexivity|]. rewrite Ep. apply Tp. }
    assert (Ac : forall i j x y, (i < nb)%nat -> (j < nb)%nat -> exists w, active2 shape i j x y = Ok w).
    { intros i j x y Li Lj. destruct (Free i Li) as (_ & r & Er & _). destruct (Free j Lj) as (_ & s & Es & _). unfold active2. rewrite Er, Es. eexists. reflexivity. }
    assert (Ru : exists bodies, portal_set2 conv nb fixed shape ps q0 q1 v = Ok bodies).
    { unfold portal_set2. apply (search_runs _ _ _ _ _ _ _ _ _ _ _ _ meet2 ordered2 grid2_sound grid2_complete (fun i x L => box_ordered nb shape q1 Sized i x L) Few meet2_sym).
      - intros i p s _ _. apply Tp.
      - intros bs Ne Vs. destruct (real_total2 (map as_box2 bs) [] M m) as (out & Eo); [| |exact Pm|exact HM|exists out; exact Eo].
        + destruct bs; [exfalso; apply (Ne Pb); reflexivity|discriminate].
        + apply Forall_forall. intros b H. apply in_map_iff in H as (b' & <- & H). destruct (Vs b' H) as (i & k & s & y & Vi & ->). apply (view_iff conv nb fixed shape ps q1 Sized) in Vi.
          assert (L := view_body _ _ _ _ _ _ _ _ _ Vi). destruct (Free i L) as (_ & r & Er & Hr).
          assert (Pt : forall p, body2_points (pose shape q1 i y) p -> Rabs (fst p) <= M /\ Rabs (snd p) <= M) by (intros p; apply (Bd i k s y p Vi)).
          pose proof (Sized i L) as Sr. rewrite Er in Sr. cbn [sized2] in Sr.
          assert (In0 : forall dx dy, dx * dx + dy * dy <= r * r -> Rabs (fst y + dx) <= M /\ Rabs (snd y + dy) <= M).
          { intros dx dy H'. apply (Pt (fst y + dx, snd y + dy)). unfold body2_points, pose. cbn [b2_shape b2_x]. rewrite Er. unfold in_disc, vdot, vsub. cbn [fst snd].
            replace (fst y + dx - fst y) with dx by ring. replace (snd y + dy - snd y) with dy by ring. exact H'. }
          destruct (In0 r 0 ltac:(lra)) as [A _]. destruct (In0 (- r) 0 ltac:(lra)) as [B _]. destruct (In0 0 r ltac:(lra)) as [_ C]. destruct (In0 0 (- r) ltac:(lra)) as [_ D].
          apply abs_inv in A, B, C, D. unfold in_arena, as_box2, end_box2, body2_aabb. cbn [b2_shape b2_x]. rewrite Er. cbn [lo2 up2 fst snd circle_aabb real sc].
          unfold vsub, vadd. cbn [fst snd]. lra.
      - intros i j Li Lj. destruct (Nat.lt_total i j) as [L|[->|L]].
        + destruct (dispatch2_ok nb fixed shape q0 q1 v few_bodies Sized i j L Lj) as [[U _]|[_ (cs & D & _)]]; [|exists cs; exact D].
          exfalso. destruct (Free i Li) as (Fi & _). destruct (Free j Lj) as (Fj & _). unfold unsupported2 in U. intuition congruence.
        + destruct (dispatch2_self nb fixed shape q0 q1 v Sized j Lj) as (cs & D & _). exists cs. exact D.
        + destruct (Free i Li) as (Fi & r & Er & _). destruct (Free j Lj) as (Fj & s & Es & _). rewrite dispatch2_core, Fi, Fj. cbn [andb]. unfold core2. rewrite Er, Es. eexists. reflexivity.
      - intros i j Li Lj. apply Ac; assumption.
      - intros t (b0 & k0 & s0 & y0 & b1 & k1 & s1 & y1 & V0 & V1 & _ & ->).
        apply (view_iff conv nb fixed shape ps q1 Sized) in V0. apply (view_iff conv nb fixed shape ps q1 Sized) in V1.
        pose proof (view_body _ _ _ _ _ _ _ _ _ V0). pose proof (view_body _ _ _ _ _ _ _ _ _ V1).
        unfold happens2, rb_tcoll. cbn [t_b0 t_b1 t_p0 t_p1 t_s0 t_s1].
        destruct (Tc q1 _ _ _ _ V0) as (x0 & X0). destruct (Tc q1 _ _ _ _ V1) as (x1 & X1).
        destruct (N.of_nat b0 <? N.of_nat b1)%N; rewrite X0, X1; cbn [obind]; rewrite !Nnat.Nat2N.id; apply Ac; assumption.
      - assert (Mk : forall i k s y j l t z, V i k s y -> V j l t z -> exists cs, make2 conv fixed shape ps q0 q1 (mkT (N.of_nat i) (N.of_nat j) k l s t) = Ok cs).
        { intros i k s y j l t z Vi Vj. pose proof (view_body _ _ _ _ _ _ _ _ _ Vi) as Li. pose proof (view_body _ _ _ _ _ _ _ _ _ Vj) as Lj.
          destruct (Free i Li) as (Fi & r & Er & _). destruct (Free j Lj) as (Fj & s' & Es & _).
          unfold make2. cbn [t_b0 t_b1 t_p0 t_p1 t_s0 t_s1]. rewrite !Nnat.Nat2N.id, Fi, Fj. cbn [orb].
          destruct (Tc q0 _ _ _ _ Vi) as (x0 & ->). destruct (Tc q0 _ _ _ _ Vj) as (x1 & ->). destruct (Tc q1 _ _ _ _ Vi) as (y0 & ->). destruct (Tc q1 _ _ _ _ Vj) as (y1 & ->). cbn [obind].
          assert (Le : forall b k s y, V b k s y -> exists e, lees_edwards_index ps k = Ok e /\ (e = true -> exists u, aabb_kick2 shape ps q1 k (N.of_nat b) = Ok u)).
          { intros b k' s2 y' Vb. unfold lees_edwards_index, aabb_kick2. destruct Vb as [L|k' p s2 y' L Ep _ _]; [exists false; split; [reflexivity|discriminate]|]. rewrite Ep.
            eexists. split; [reflexivity|]. intros _. eexists. reflexivity. }
          destruct (Le i k s y Vi) as (e0 & -> & K0). destruct (Le j l t z Vj) as (e1 & -> & K1). cbn [obind].
          assert (Kk : exists kick, (if negb e0 && negb e1 then Ok None else if e1 then obind (aabb_kick2 shape ps q1 l (N.of_nat j)) (fun u => Ok (Some u))
            else obind (aabb_kick2 shape ps q1 k (N.of_nat i)) (fun u => Ok (Some (vneg u)))) = Ok kick).
          { destruct e1; [destruct (K1 eq_refl) as (u & ->); destruct e0; eexists; reflexivity|]. destruct e0; [destruct (K0 eq_refl) as (u & ->); eexists; reflexivity|eexists; reflexivity]. }
          destruct Kk as (kick & ->). cbn [obind]. rewrite Er, Es. destruct (balls_overlap y0 y1 r s'); eexists; reflexivity. }
        intros t (b0 & k0 & s0 & y0 & b1 & k1 & s1 & y1 & V0 & V1 & _ & ->).
        apply (view_iff conv nb fixed shape ps q1 Sized) in V0. apply (view_iff conv nb fixed shape ps q1 Sized) in V1.
        unfold rb_tcoll. destruct (N.of_nat b0 <? N.of_nat b1)%N; eapply Mk; eassumption. }
    destruct Ru as (bodies & Eb). unfold rb2_active_set_portals. destruct ps; [contradiction Np; reflexivity|]. rewrite Eb. eexists. reflexivity.
  Qed.
  Theorem set2_no_portals : forall planes, rb2_active_set_portals conv nb fixed shape [] q0 q1 v planes = rb2_active_set nb fixed shape planes q0 q1 v.
  Proof. reflexivity. Qed.
End Planar.
