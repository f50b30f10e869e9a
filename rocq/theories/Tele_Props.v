(* C68: rigid bodies that touch across a portal. *)
From Coq Require Import List Reals Arith NArith Bool Lra Lia.
From Verif Require Import Outcome Ccd_Model Ccd_Spec ContactRb2_Model ContactRb3_Model Rot_Model Rot_Spec Rot_Alg Lin_Model Geom_Model Geom_Spec Geom_Sets Geom_Circle Geom_Aabb
  Portal_Model Portal_Spec Portal_Proofs Portal_Runs Portal_Ex Wall_Model Wall_Spec Wall_More Narrow_Model Narrow_Spec Narrow_Proofs Narrow_Thms Narrow_Space Narrow_Total Narrow_Ex
  Tele_Model Tele_Spec Tele_Search Tele_Plane Tele_Planar Tele_Space Tele_Only Tele_Ex.
Import ListNotations.
Local Open Scope R_scope.

(* The contacts of planar bodies in a world with portals. They come in three groups. Two bodies in place are in contact exactly if
   not both are scripted, their bounds meet at the end of the step, and they collide; the contact is described as without portals.
   A contact across portals joins two free discs that touch where they are seen, at least one of them through a plane that its
   bounds reach. Discs that touch like that get a contact - unless both are seen through planes and they also touch in place -
   and no two bodies get two. The contacts with fixed planes are those of a world without portals. *)
Theorem C68_planar : forall conv nb fixed shape ps q0 q1 v planes set, (forall i, (i < nb)%nat -> sized2 (shape i)) ->
  (N.of_nat nb * (1 + N.of_nat (length ps)) <= 4294967296)%N -> ps <> [] ->
  rb2_active_set_portals conv nb fixed shape ps q0 q1 v planes = Ok set ->
  let V := view2 conv nb shape ps q1 in
  exists found tele, set = found ++ tele ++ map snd (rb2_plane_set q1 fixed shape nb planes)
  /\ (forall i j, (i < j)%nat -> (j < nb)%nat ->
        (in_contact pair2 found i j <-> ~ (fixed i = true /\ fixed j = true) /\ collide2 shape q0 q1 i j /\ ends_meet2 shape q1 i j))
  /\ (forall c a b, In c found -> pair2 c = Some (a, b) -> a <> b -> (a < nb)%nat /\ (b < nb)%nat /\ fixed a = false /\ (fixed b = false -> (a < b)%nat)
        /\ two_sided2 c = negb (fixed b) /\ describes2 shape q0 q1 a b c (rb2_normal c)
        /\ (fixed b = true -> exists r n, shape a = Circle2 r /\ c = KinCircle a r n b (seg2 q0 (3 * b)) (seg2 v (3 * b)) (v (3 * b + 2)%nat)))
  /\ (forall c, In c tele -> exists i k s y j l t z, V i k s y /\ V j l t z /\ (i <= j)%nat /\ (k <> None \/ l <> None) /\ fixed i = false /\ fixed j = false
        /\ discs_touch shape i j y z /\ joins2 conv ps shape q0 i k s j l t c)
  /\ (forall i k s y j l t z, V i k s y -> V j l t z -> (i, k, s) <> (j, l, t) -> (k <> None \/ l <> None) -> ~ (fixed i = true /\ fixed j = true) ->
        discs_touch shape i j y z -> ~ (k <> None /\ l <> None /\ overlap2 shape q1 i j) -> in_contact pair2 tele i j)
  /\ (forall i j, (count_between pair2 i j tele <= 1)%nat).
Proof. intros conv nb fixed shape ps q0 q1 v planes set Sized Few Np E V. exact (set2_portals conv nb fixed shape ps q0 q1 v Sized Few planes set Np E). Qed.
Print Assumptions C68_planar.

(* So bodies that overlap at the end of the step are in contact, in place. *)
Theorem C68_planar_overlap : forall conv nb fixed shape ps q0 q1 v planes set i j, (forall i, (i < nb)%nat -> sized2 (shape i)) ->
  (N.of_nat nb * (1 + N.of_nat (length ps)) <= 4294967296)%N -> rb2_active_set_portals conv nb fixed shape ps q0 q1 v planes = Ok set ->
  (i < j)%nat -> (j < nb)%nat -> ~ (fixed i = true /\ fixed j = true) -> overlap2 shape q1 i j -> in_contact pair2 set i j.
Proof.
  intros conv nb fixed shape ps q0 q1 v planes set i j Sized Few E Hij Hj Nf O. pose proof (overlap_collide shape q0 q1 i j O) as C.
  destruct ps as [|p ps].
  - rewrite (set2_no_portals conv nb fixed shape q0 q1 v) in E.
    apply (set2_exact nb fixed shape q0 q1 v ltac:(lia) Sized planes set i j E Hij Hj). split; assumption.
  - destruct (set2_portals conv nb fixed shape (p :: ps) q0 q1 v Sized Few planes set ltac:(discriminate) E) as (found & tele & -> & F & _).
    destruct (proj2 (F i j Hij Hj)) as (c & Hc & Pc).
    + split; [exact Nf|]. split; [exact C|]. apply (overlap_ends nb shape q1 Sized); [lia|exact Hj|exact O].
    + exists c. split; [apply in_or_app; left; exact Hc|exact Pc].
Qed.
Print Assumptions C68_planar_overlap.

(* The set is built whenever all bodies are free discs and everything that can be seen lies in an arena at most about 2^31
   times larger than the smallest disc. *)
Theorem C68_planar_runs : forall conv nb fixed shape ps q0 q1 v planes M m, always_answers conv -> (forall i, (i < nb)%nat -> sized2 (shape i)) ->
  (N.of_nat nb * (1 + N.of_nat (length ps)) <= 4294967296)%N -> (0 < nb)%nat -> 0 < m -> 2 * M + 1 < 4294967000 * m ->
  (forall i, (i < nb)%nat -> fixed i = false /\ exists r, shape i = Circle2 r /\ m <= 2 * r) ->
  (forall i k s y p, view2 conv nb shape ps q1 i k s y -> body2_points (Body2 y (q1 (3 * i + 2)%nat) (shape i)) p -> Rabs (fst p) <= M /\ Rabs (snd p) <= M) ->
  ps <> [] -> exists set, rb2_active_set_portals conv nb fixed shape ps q0 q1 v planes = Ok set.
Proof.
  intros conv nb fixed shape ps q0 q1 v planes M m An Sized Few Pb Pm HM Free Bd Np.
  exact (set2_portals_run conv nb fixed shape ps q0 q1 v Sized Few An planes M m Pb Pm HM Free Bd Np).
Qed.
Print Assumptions C68_planar_runs.

(* Without portals the set is the one of C56. *)
Theorem C68_no_portals : (forall conv nb fixed shape q0 q1 v planes,
    rb2_active_set_portals conv nb fixed shape [] q0 q1 v planes = rb2_active_set nb fixed shape planes q0 q1 v)
  /\ (forall o nb fixed shape q0 q1 planes cyls, (N.of_nat nb <= 4294967296)%N ->
    rb3_active_set_portals o nb fixed shape [] q0 q1 planes cyls = rb3_active_set o nb fixed shape planes cyls q0 q1).
Proof. split; [exact set2_no_portals|exact set3_no_portals]. Qed.
Print Assumptions C68_no_portals.

(* In space: contacts in place are those that the tests for two shapes give for bodies whose bounds meet at the end of the
   step; a contact across portals joins two balls that touch where they are seen, one of which may be scripted; balls that
   touch like that get a contact - unless both are seen through planes and they also overlap in place - and no two bodies get
   two; all other contacts are those with fixed planes and cylinders. *)
Theorem C68_spatial : forall o nb fixed shape ps q0 q1 planes cyls set, (forall i, (i < nb)%nat -> sized3 (shape i)) ->
  (forall i, (i < nb)%nat -> rotation (ori3 nb q1 i)) -> (N.of_nat nb * (1 + N.of_nat (length ps)) <= 4294967296)%N ->
  rb3_active_set_portals o nb fixed shape ps q0 q1 planes cyls = Ok set ->
  let V := view3 nb shape ps q1 in
  exists found tele on_planes on_cyls, rb3_plane_set nb q0 q1 fixed shape planes = Ok on_planes /\ rb3_cylinder_set nb q0 q1 fixed shape cyls = Ok on_cyls
  /\ set = found ++ tele ++ map snd on_planes ++ map snd on_cyls
  /\ (forall c, In c (map snd on_planes ++ map snd on_cyls) -> pair3 c = None)
  /\ (forall c a b, pair3 c = Some (a, b) -> a <> b ->
        (In c found <-> (a < nb)%nat /\ (b < nb)%nat /\ fixed a = false /\ (fixed b = false -> (a < b)%nat)
                        /\ bounds_meet3 nb shape q1 a b /\ from_pair3 o nb fixed shape q0 q1 a b c))
  /\ (forall c, In c tele -> exists i k s y j l t z, V i k s y /\ V j l t z /\ (fixed j = false -> (i <= j)%nat) /\ (k <> None \/ l <> None)
        /\ balls_touch shape i j y z /\ joins3 nb ps shape fixed q0 i k s j l t c)
  /\ (forall i k s y j l t z, V i k s y -> V j l t z -> (i, k, s) <> (j, l, t) -> (k <> None \/ l <> None) -> ~ (fixed i = true /\ fixed j = true) ->
        balls_touch shape i j y z -> ~ (k <> None /\ l <> None /\ overlap3 nb shape q1 i j) -> in_contact pair3 tele i j)
  /\ (forall i j, (count_between pair3 i j tele <= 1)%nat).
Proof. intros o nb fixed shape ps q0 q1 planes cyls set Sized Turned Few E V. exact (set3_portals o nb fixed shape ps q0 q1 Sized Turned Few planes cyls set E). Qed.
Print Assumptions C68_spatial.

Theorem C68_spatial_runs : forall o nb fixed shape ps q0 q1 M m, (forall i, (i < nb)%nat -> sized3 (shape i)) ->
  (forall i, (i < nb)%nat -> rotation (ori3 nb q1 i)) -> (N.of_nat nb * (1 + N.of_nat (length ps)) <= 4294967296)%N ->
  (0 < nb)%nat -> 0 < m -> 2 * M + 1 < 4294967000 * m ->
  (forall i, (i < nb)%nat -> exists r, shape i = Sphere3 r /\ m <= 2 * r) ->
  (forall i k s y p, view3 nb shape ps q1 i k s y -> body3_points (Body3 y (ori3 nb q1 i) (shape i)) p -> Rabs (c0 p) <= M /\ Rabs (c1 p) <= M /\ Rabs (c2 p) <= M) ->
  exists set, rb3_active_set_portals o nb fixed shape ps q0 q1 [] [] = Ok set.
Proof.
  intros o nb fixed shape ps q0 q1 M m Sized Turned Few Pb Pm HM Balls Bd.
  destruct (set3_portals_run o nb fixed shape ps q0 q1 Sized Turned Few M m Pb Pm HM Balls Bd) as (bodies & E).
  unfold rb3_active_set_portals. rewrite E. eexists. reflexivity.
Qed.
Print Assumptions C68_spatial_runs.

(* ---------- what portals cannot do ---------- *)
(* Only discs and balls may come near another body across a portal: if the bounds of a body seen through a plane meet those of
   another one (or of itself), a set of contacts is built only if both are discs, in space balls. *)
Theorem C68_planar_only_discs : forall conv nb fixed shape ps q0 q1 v planes set, (forall i, (i < nb)%nat -> sized2 (shape i)) ->
  (N.of_nat nb * (1 + N.of_nat (length ps)) <= 4294967296)%N -> ps <> [] ->
  rb2_active_set_portals conv nb fixed shape ps q0 q1 v planes = Ok set ->
  forall i k s y j l t z, view2 conv nb shape ps q1 i k s y -> view2 conv nb shape ps q1 j l t z -> (i, k, s) <> (j, l, t) ->
  (k <> None \/ l <> None) -> ~ (fixed i = true /\ fixed j = true) -> views_meet2 shape q1 i y j z ->
  exists r r', shape i = Circle2 r /\ shape j = Circle2 r'.
Proof. exact only_discs. Qed.
Print Assumptions C68_planar_only_discs.
Theorem C68_spatial_only_balls : forall o nb fixed shape ps q0 q1 planes cyls set, (forall i, (i < nb)%nat -> sized3 (shape i)) ->
  (forall i, (i < nb)%nat -> rotation (ori3 nb q1 i)) -> (N.of_nat nb * (1 + N.of_nat (length ps)) <= 4294967296)%N ->
  rb3_active_set_portals o nb fixed shape ps q0 q1 planes cyls = Ok set ->
  forall i k s y j z, view3 nb shape ps q1 i (Some k) s y -> view3 nb shape ps q1 j None false z -> ~ (fixed i = true /\ fixed j = true) ->
  (forall w, shape i <> Staple3 w) -> (forall w, shape j <> Staple3 w) -> views_meet3 nb shape q1 i y j z ->
  exists r r', shape i = Sphere3 r /\ shape j = Sphere3 r'.
Proof. exact only_balls. Qed.
Print Assumptions C68_spatial_only_balls.

Lemma few_hole : forall nb w, (nb <= 2)%nat -> (N.of_nat nb * (1 + N.of_nat (length (hole w))) <= 4294967296)%N.
Proof. intros nb w H. cbn [length hole]. lia. Qed.
Lemma few_hole3 : forall nb w, (nb <= 2)%nat -> (N.of_nat nb * (1 + N.of_nat (length (hole3 w))) <= 4294967296)%N.
Proof. intros nb w H. cbn [length hole3]. lia. Qed.

(* Two discs that touch only across the portal. *)
Example C68_planar_case : exists set, rb2_active_set_portals hardware 2 (fun _ => false) (discs2 1 0.5) (hole 2.5)
    (ex_q2 0 0.2 1.2 1.9) (ex_q2 0 0.2 1.2 1.9) (vals []) [] = Ok set /\ in_contact pair2 set 0 1 /\ ~ overlap2 (discs2 1 0.5) (ex_q2 0 0.2 1.2 1.9) 0 1.
Proof.
  destruct (discs_run 2.5 2 1 0.5 (ex_q2 0 0.2 1.2 1.9) 0 0.2 1.2 1.9 (vals []) []) as (set & E); try lia; try lra; try (apply abs_in; lra).
  exists set. split; [exact E|].
  destruct (C68_planar hardware 2 (fun _ => false) (discs2 1 0.5) (hole 2.5) _ _ _ _ set (discs_sized 2 1 0.5 ltac:(lra) ltac:(lra)) (few_hole 2 2.5 ltac:(lia)) ltac:(discriminate) E)
    as (found & tele & -> & _ & _ & _ & Tc & _). split.
  - destruct (Tc 0%nat (Some 0%N) false (0, 2.5 + 0.2) 1%nat None false (1.2, 1.9)) as (c & Hc & Pc).
    + apply disc_view; [lia|lra|lra|]. split; [lia|]. cbn [cen2 rad2 fst snd]. right. left. repeat split. lra.
    + apply disc_view; [lia|lra|lra|]. split; [lia|]. cbn [cen2 rad2 fst snd]. left. repeat split.
    + discriminate.
    + left. discriminate.
    + intros [A _]. discriminate.
    + apply discs_touch_iff; [lra|lra|]. cbn [rad2]. unfold sqdist. vcalc. lra.
    + intros (_ & X & _). apply X. reflexivity.
    + exists c. split; [apply in_or_app; right; apply in_or_app; left; exact Hc|exact Pc].
  - intros O. apply discs_overlap_iff in O; [|lra|lra|lia|lia]. cbn [rad2 cen2] in O. unfold sqdist in O. vcalc. lra.
Qed.

(* Two balls that touch only across the portal. *)
Example C68_spatial_case : exists set, rb3_active_set_portals no_narrow 2 (fun _ => false) (balls3 0.5 0.5) (hole3 2.5) (col3 0.2 1.9) (col3 0.2 1.9) [] [] = Ok set
    /\ in_contact pair3 set 0 1.
Proof.
  destruct (balls_run no_narrow (fun _ => false) 2.5 0.5 0.5 (col3 0.2 1.9) 0.2 1.9) as (set & E); try lra.
  exists set. split; [exact E|].
  destruct (C68_spatial no_narrow 2 (fun _ => false) (balls3 0.5 0.5) (hole3 2.5) _ _ _ _ set (balls_sized 2 0.5 0.5 ltac:(lra) ltac:(lra))
    (fun i L => ex_rotation3 0 0.2 0 0 1.9 0 i L) (few_hole3 2 2.5 ltac:(lia)) E) as (found & tele & op & oc & _ & _ & -> & _ & _ & _ & Tc & _).
  destruct (Tc 0%nat (Some 0%N) false (V3 0 (2.5 + 0.2) 0) 1%nat None false (V3 0 1.9 0)) as (c & Hc & Pc).
  - apply ball_view; [lia|lra|lra|lra|lra|]. split; [lia|]. cbn [alt3 rad2]. right. repeat split. lra.
  - apply ball_view; [lia|lra|lra|lra|lra|]. split; [lia|]. cbn [alt3 rad2]. left. repeat split.
  - discriminate.
  - left. discriminate.
  - intros [A _]. discriminate.
  - apply balls_touch_iff; [lra|lra|]. cbn [rad2]. unfold sqdist3, dot3, sub3. cbn [c0 c1 c2]. lra.
  - intros (_ & X & _). apply X. reflexivity.
  - exists c. split; [apply in_or_app; right; apply in_or_app; left; exact Hc|exact Pc].
Qed.

(* Once there is a portal, discs are only looked at when their bounds meet at the end of the step: a disc that passes right through
   another one is missed, however far the portal is - without the portal it is not. *)
Theorem C68_tunnelling_refuted : exists shape q0 q1 set set', (forall i, (i < 2)%nat -> sized2 (shape i)) /\ collide2 shape q0 q1 0 1
  /\ rb2_active_set_portals hardware 2 (fun _ => false) shape (hole 10) q0 q1 (vals []) [] = Ok set /\ ~ in_contact pair2 set 0 1
  /\ rb2_active_set_portals hardware 2 (fun _ => false) shape [] q0 q1 (vals []) [] = Ok set' /\ in_contact pair2 set' 0 1.
Proof.
  pose (q0 := ex_q2 2 5 5 5). pose (q1 := ex_q2 8 5 5 5).
  assert (Sz := discs_sized 2 1 1 ltac:(lra) ltac:(lra)).
  assert (Co : collide2 (discs2 1 1) q0 q1 0 1).
  { unfold collide2, discs2, discs_sweep. exists 0.5. split; [lra|]. apply discs_meet; [lra|lra|lra|].
    unfold at_time, q0, q1, ex_q2, seg2, vals, vdot, vsub, vadd, vscale. cbn [fst snd nth Nat.mul Nat.add]. lra. }
  destruct (discs_run 10 2 1 1 q0 8 5 5 5 (vals []) []) as (set & E); try lia; try lra; try (apply abs_in; lra).
  destruct (set2_runs 2 (fun _ => false) (discs2 1 1) [] q0 q1 (vals []) 20 1) as [[(i & j & Hij & Hj & U & _) _]|[_ (set' & E')]].
  - lia.
  - exact Sz.
  - lia.
  - lra.
  - lra.
  - intros i p Hi H. unfold reach2 in H. rewrite discs2_circle in H. destruct H as (t & Ht & H). unfold in_disc, at_time in H.
    replace (rad2 1 1 i) with 1 in H by (destruct i; reflexivity). apply side in H; [|lra]. destruct p as [p0 p1].
    destruct i as [|[|i]]; [| |lia]; unfold q0, q1, ex_q2, seg2, vals, vsub, vadd, vscale in H; cbn [fst snd nth Nat.mul Nat.add] in *; split; apply abs_in; lra.
  - intros i Hi. exists (vsub (seg2 q0 (3 * i)) (1, 0)), (vadd (seg2 q0 (3 * i)) (1, 0)). unfold reach2. rewrite discs2_circle.
    replace (rad2 1 1 i) with 1 by (destruct i; reflexivity).
    unfold in_disc, at_time, vdot, vsub, vadd, vscale. cbn [fst snd]. split; [exists 0; lra|]. split; [exists 0; lra|lra].
  - exfalso. unfold unsupported2 in U. destruct i as [|i], j as [|j]; cbn [discs2] in U; intuition (try congruence; try discriminate).
  - exists (discs2 1 1), q0, q1, set, set'. split; [exact Sz|]. split; [exact Co|]. split; [exact E|]. split; [|split; [exact E'|]].
    + intros (c & Hc & Pc).
      destruct (C68_planar hardware 2 (fun _ => false) (discs2 1 1) (hole 10) _ _ _ _ set Sz (few_hole 2 10 ltac:(lia)) ltac:(discriminate) E) as (found & tele & -> & F & _ & T & _).
      apply in_app_or in Hc as [Hc|Hc]; [|apply in_app_or in Hc as [Hc|Hc]].
      * destruct (proj1 (F 0%nat 1%nat ltac:(lia) ltac:(lia))) as (_ & _ & (a & b & Ta & Tb & (p & Pa & Pb))); [exists c; split; assumption|].
        unfold body2_points, body_at2 in Ta, Tb. cbn [b2_shape b2_x discs2] in Ta, Tb.
        rewrite (Narrow_Proofs.tight2_unique _ _ _ Ta (circle_aabb_tight 1 _ 0 ltac:(lra))) in Pa.
        rewrite (Narrow_Proofs.tight2_unique _ _ _ Tb (circle_aabb_tight 1 _ 0 ltac:(lra))) in Pb.
        unfold q1, ex_q2, seg2, vals, Geom_Spec.within2, circle_aabb, vsub, vadd in Pa, Pb. cbn [fst snd nth Nat.mul Nat.add] in Pa, Pb. lra.
      * destruct (T c Hc) as (i & k & s & y & j & l & t & z & Vi & Vj & _ & NP & _).
        apply disc_view in Vi; [|lia|lra|lra]. apply disc_view in Vj; [|lia|lra|lra]. destruct Vi as (Li & Vi), Vj as (Lj & Vj). cbv zeta in Vi, Vj.
        assert (Ci : snd (cen2 8 5 5 5 i) = 5 /\ rad2 1 1 i = 1) by (destruct i; split; reflexivity).
        assert (Cj : snd (cen2 8 5 5 5 j) = 5 /\ rad2 1 1 j = 1) by (destruct j; split; reflexivity).
        destruct Ci as [C0 C1], Cj as [D0 D1]. rewrite C0, C1 in Vi. rewrite D0, D1 in Vj.
        destruct NP as [NP|NP]; [destruct Vi as [(-> & _)|[(_ & _ & X & _)|(_ & _ & _ & X & _)]]|destruct Vj as [(-> & _)|[(_ & _ & X & _)|(_ & _ & _ & X & _)]]];
          try (apply NP; reflexivity); lra.
      * cbn in Hc. destruct Hc.
    + apply (set2_exact 2 (fun _ => false) (discs2 1 1) q0 q1 (vals []) ltac:(lia) Sz [] set' 0%nat 1%nat E' ltac:(lia) ltac:(lia)). split; [intros [A _]; discriminate|exact Co].
Qed.
Print Assumptions C68_tunnelling_refuted.

(* A disc whose image touches it is in contact with itself. *)
Theorem C68_self_contact_refuted : exists shape q set, sized2 (shape 0%nat) /\
  rb2_active_set_portals hardware 1 (fun _ => false) shape (hole 1.2) q q (vals []) [] = Ok set /\ in_contact pair2 set 0 0.
Proof.
  destruct (discs_run 1.2 1 1 1 (ex_q2 0 0.1 0 0) 0 0.1 0 0 (vals []) []) as (set & E); try lia; try lra; try (apply abs_in; lra).
  exists (discs2 1 1), (ex_q2 0 0.1 0 0), set. split; [cbn; lra|]. split; [exact E|].
  destruct (C68_planar hardware 1 (fun _ => false) (discs2 1 1) (hole 1.2) _ _ _ _ set (discs_sized 1 1 1 ltac:(lra) ltac:(lra)) (few_hole 1 1.2 ltac:(lia)) ltac:(discriminate) E)
    as (found & tele & -> & _ & _ & _ & Tc & _).
  destruct (Tc 0%nat (Some 0%N) false (0, 1.2 + 0.1) 0%nat None false (0, 0.1)) as (c & Hc & Pc).
  - apply disc_view; [lia|lra|lra|]. split; [lia|]. cbn [cen2 rad2 fst snd]. right. left. repeat split. lra.
  - apply disc_view; [lia|lra|lra|]. split; [lia|]. cbn [cen2 rad2 fst snd]. left. repeat split.
  - discriminate.
  - left. discriminate.
  - intros [A _]. discriminate.
  - apply discs_touch_iff; [lra|lra|]. cbn [rad2]. unfold sqdist. vcalc. lra.
  - intros (_ & X & _). apply X. reflexivity.
  - exists c. split; [apply in_or_app; right; apply in_or_app; left; exact Hc|exact Pc].
Qed.
Print Assumptions C68_self_contact_refuted.

(* In the plane a scripted disc that touches a free one across a portal: no set of contacts is built, the program ends. *)
Theorem C68_scripted_disc_refuted : forall v planes, exists fixed shape q, (forall i, (i < 2)%nat -> sized2 (shape i)) /\ fixed 0%nat = false
  /\ forall set, rb2_active_set_portals hardware 2 fixed shape (hole 2.5) q q v planes <> Ok set.
Proof.
  intros v planes. exists (fun i => Nat.eqb i 1), (discs2 1 0.5), (ex_q2 0 0.2 1.2 1.9). split; [apply discs_sized; lra|]. split; [reflexivity|].
  intros set E.
  destruct (C68_planar hardware 2 (fun i => Nat.eqb i 1) (discs2 1 0.5) (hole 2.5) _ _ _ _ set (discs_sized 2 1 0.5 ltac:(lra) ltac:(lra)) (few_hole 2 2.5 ltac:(lia)) ltac:(discriminate) E)
    as (found & tele & -> & _ & _ & T & Tc & _).
  destruct (Tc 0%nat (Some 0%N) false (0, 2.5 + 0.2) 1%nat None false (1.2, 1.9)) as (c & Hc & Pc).
  - apply disc_view; [lia|lra|lra|]. split; [lia|]. cbn [cen2 rad2 fst snd]. right. left. repeat split. lra.
  - apply disc_view; [lia|lra|lra|]. split; [lia|]. cbn [cen2 rad2 fst snd]. left. repeat split.
  - discriminate.
  - left. discriminate.
  - intros [A _]. discriminate.
  - apply discs_touch_iff; [lra|lra|]. cbn [rad2]. unfold sqdist. vcalc. lra.
  - intros (_ & X & _). apply X. reflexivity.
  - destruct (T c Hc) as (i & k & s & y & j & l & t & z & _ & _ & _ & _ & Fi & Fj & _ & (Pc' & _)).
    destruct Pc as [Pc|Pc]; rewrite Pc in Pc'; injection Pc' as <- <-; discriminate.
Qed.
Print Assumptions C68_scripted_disc_refuted.

(* A box that is cut by a plane of a portal and is seen near another body: the same. Here the box is near itself. *)
Theorem C68_box_refuted : forall v planes, exists shape q, sized2 (shape 0%nat)
  /\ forall set, rb2_active_set_portals hardware 1 (fun _ => false) shape (hole 1) q q v planes <> Ok set.
Proof.
  intros v planes. pose (shape := fun _ : nat => Box2 (1, 1)). exists shape, (vals []). split; [cbn; lra|]. intros set E.
  assert (T : forall x, tight2 (box_aabb (1, 1) x 0) (in_box2 x 0 (1, 1))) by (intros x; apply box_aabb_tight; cbn; lra).
  assert (Bx : forall x y, Geom_Spec.within2 (box_aabb (1, 1) (x, y) 0) (x, y)).
  { intros x y. apply (T (x, y)). apply box_at_origin. cbn [fst snd]. rewrite !Rminus_eq_0, Rabs_R0. lra. }
  destruct (C68_planar_only_discs hardware 1 (fun _ => false) shape (hole 1) (vals []) (vals []) v planes set) with (i := 0%nat) (k := Some 0%N) (s := false) (y := (0, 1 + 0))
    (j := 0%nat) (l := @None N) (t := false) (z := (0, 0)) as (r & r' & X & _).
  - intros i _. cbn. lra.
  - apply few_hole. lia.
  - discriminate.
  - exact E.
  - apply (View_through _ _ _ _ _ _ 0%N (fixed_portal2 floor2 (ceiling 1)) false); [lia|reflexivity| |].
    + unfold near2, body2_points, body_at2, shape, vals, seg2. cbn [b2_shape b2_x b2_theta nth Nat.mul Nat.add fixed_portal2 po_a].
      exists (box_aabb (1, 1) (0, 0) 0), (0, 0). split; [apply T|]. split; [apply Bx|]. unfold floor2. vcalc. lra.
    + unfold seen2, vals, seg2. cbn [nth Nat.mul Nat.add]. apply through_floor.
  - assert (L : (0 < 1)%nat) by lia. exact (View_in_place _ _ _ _ _ _ L).
  - discriminate.
  - left. discriminate.
  - intros [A _]. discriminate.
  - exists (box_aabb (1, 1) (0, 1 + 0) 0), (box_aabb (1, 1) (0, 0) 0). unfold body2_points, shape, vals. cbn [b2_shape b2_x b2_theta nth Nat.mul Nat.add].
    split; [apply T|]. split; [apply T|]. exists (0, 1). split.
    + replace (0, 1) with (0, 1 + 0) by (f_equal; ring). apply Bx.
    + apply (T (0, 0)). apply box_at_origin. cbn [fst snd]. split; apply abs_in; lra.
  - discriminate X.
Qed.
Print Assumptions C68_box_refuted.

(* A disc that reaches both planes of a portal is seen through plane A only: here it touches, seen through plane B, another
   disc, and there is no contact (the debug build stops). *)
Theorem C68_both_planes_refuted : exists shape q set y z, (forall i, (i < 2)%nat -> sized2 (shape i))
  /\ reaches2 (body2_points (body_at2 shape q 0)) (ceiling 1) /\ through2_b hardware (fixed_portal2 floor2 (ceiling 1)) (seg2 q 0) = Ok y
  /\ z = seg2 q 3 /\ discs_touch shape 0 1 y z
  /\ rb2_active_set_portals hardware 2 (fun _ => false) shape (hole 1) q q (vals []) [] = Ok set /\ ~ in_contact pair2 set 0 1.
Proof.
  pose (q := ex_q2 0 0.9 1 0.2).
  destruct (discs_run 1 2 1 0.1 q 0 0.9 1 0.2 (vals []) []) as (set & E); try lia; try lra; try (apply abs_in; lra).
  exists (discs2 1 0.1), q, set, (0, 0.9 - 1), (1, 0.2). split; [apply discs_sized; lra|].
  split; [unfold body2_points, body_at2; cbn [b2_shape b2_x discs2]; apply reaches_ceiling; [lra|]; unfold q, ex_q2, seg2, vals; cbn [fst snd nth Nat.mul Nat.add]; lra|].
  split; [apply (through_ceiling 1 0 0.9)|]. split; [reflexivity|].
  split; [apply discs_touch_iff; [lra|lra|]; cbn [rad2]; unfold sqdist; vcalc; lra|]. split; [exact E|].
  intros (c & Hc & Pc).
  assert (Nt : ~ sqdist (0, 0.9) (1, 0.2) <= (1 + 0.1) * (1 + 0.1)) by (unfold sqdist; vcalc; lra).
  destruct (C68_planar hardware 2 (fun _ => false) (discs2 1 0.1) (hole 1) _ _ _ _ set (discs_sized 2 1 0.1 ltac:(lra) ltac:(lra)) (few_hole 2 1 ltac:(lia)) ltac:(discriminate) E) as (found & tele & -> & F & _ & T & _).
  apply in_app_or in Hc as [Hc|Hc]; [|apply in_app_or in Hc as [Hc|Hc]].
  - destruct (proj1 (F 0%nat 1%nat ltac:(lia) ltac:(lia))) as (_ & (u & Hu & M) & _); [exists c; split; assumption|].
    apply discs_meet in M; [|lra|lra|lra]. apply Nt. unfold sqdist.
    unfold at_time, q, ex_q2, seg2, vals, vdot, vadd, vscale, vsub in M |- *. cbn [fst snd nth Nat.mul Nat.add] in M |- *. lra.
  - destruct (T c Hc) as (i & k & s & y & j & l & t & z & Vi & Vj & Lij & NP & _ & _ & To & (Pc' & _)).
    assert (i = 0%nat /\ j = 1%nat) as [-> ->] by (destruct Pc as [Pc|Pc]; rewrite Pc in Pc'; injection Pc' as X Y; split; lia).
    apply disc_view in Vi; [|lia|lra|lra]. apply disc_view in Vj; [|lia|lra|lra]. destruct Vi as (_ & Vi), Vj as (_ & Vj). cbn [cen2 rad2 fst snd] in Vi, Vj.
    apply discs_touch_iff in To; [|lra|lra]. cbn [rad2] in To. unfold sqdist in *.
    destruct Vj as [(-> & -> & ->)|[(_ & _ & X & _)|(_ & _ & _ & X & _)]]; [|lra|lra].
    destruct Vi as [(-> & _ & ->)|[(_ & _ & _ & ->)|(_ & _ & X & _ & _)]]; [destruct NP as [X|X]; apply X; reflexivity|vcalc; lra|lra].
  - cbn in Hc. destruct Hc.
Qed.
Print Assumptions C68_both_planes_refuted.
