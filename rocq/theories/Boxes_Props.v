(* C69: the contacts between two boxes in space. *)
From Coq Require Import List Reals Arith NArith Bool Lra Lia.
From Verif Require Import Ccd_Model Lin_Model ContactRb3_Model Rot_Model Rot_Spec Rot_Alg Outcome Geom_Model Geom_Spec Geom_Sets Geom_Circle Geom_Space Geom_Aabb Geom_Sets Wall_Model Wall_Spec Narrow_Model Narrow_Spec Narrow_Ex Boxes_Scene Boxes_Model Boxes_Spec Boxes_Zono Boxes_Facet Boxes_Sat Boxes_Geom Boxes_All Boxes_Ex.
Import ListNotations.
Local Open Scope R_scope.

(* boxes without a common point get no contact *)
Theorem C69_apart : forall x1 A1 w1 x2 A2 w2, rotation A1 -> rotation A2 -> positive3 w1 -> positive3 w2 ->
  (~ exists z, in_box3 x1 A1 w1 z /\ in_box3 x2 A2 w2 z) -> box_box3 x1 A1 w1 x2 A2 w2 = [].
Proof. exact all_apart. Qed.
Print Assumptions C69_apart.

(* boxes with a common point inside one of them get a contact *)
Theorem C69_overlapping : forall x1 A1 w1 x2 A2 w2, rotation A1 -> rotation A2 -> positive3 w1 -> positive3 w2 ->
  (exists z, in_box3 x1 A1 w1 z /\ in_box3 x2 A2 w2 z /\ (deep_in x1 A1 w1 z \/ deep_in x2 A2 w2 z)) -> box_box3 x1 A1 w1 x2 A2 w2 <> [].
Proof.
  intros x1 A1 w1 x2 A2 w2 T1 T2 P1 P2 (z & B1 & B2 & [D|D]); apply all_overlapping; try assumption; [exists z; split; assumption|].
  destruct (deep_swap x2 A2 w2 x1 A1 w1 P1 (ex_intro _ z (conj D B1))) as (z' & Z2 & Z1). exists z'. split; assumption.
Qed.
Print Assumptions C69_overlapping.

(* The contacts, at most eight, share one unit normal, from the second box to the first. Turned round, it is a direction n along
   which the boxes overlap by some d: no more than along any face normal, and at most five percent more than along any
   direction. The points are those of a face of one of the boxes or of a pair of edges *)
Theorem C69_contacts : forall x1 A1 w1 x2 A2 w2, rotation A1 -> rotation A2 -> positive3 w1 -> positive3 w2 ->
  (exists z, in_box3 x1 A1 w1 z /\ in_box3 x2 A2 w2 z) ->
  exists n d,
    (forall q m, In (q, m) (box_box3 x1 A1 w1 x2 A2 w2) -> m = neg3 n)
    /\ dot3 n n = 1 /\ 0 <= dot3 n (sub3 x2 x1) /\ 0 <= d
    /\ overlap3 n (in_box3 x1 A1 w1) (in_box3 x2 A2 w2) d
    /\ (forall u e, dot3 u u = 1 -> overlap3 u (in_box3 x1 A1 w1) (in_box3 x2 A2 w2) e -> d <= 105 / 100 * e)
    /\ (forall u e, face_of A1 u \/ face_of A2 u -> overlap3 u (in_box3 x1 A1 w1) (in_box3 x2 A2 w2) e -> d <= e)
    /\ (length (box_box3 x1 A1 w1 x2 A2 w2) <= 8)%nat
    /\ (0 < d -> box_box3 x1 A1 w1 x2 A2 w2 <> [])
    /\ (face_contacts3 x1 A1 w1 x2 A2 w2 n d (map fst (box_box3 x1 A1 w1 x2 A2 w2))
        \/ face_contacts3 x2 A2 w2 x1 A1 w1 (neg3 n) d (map fst (box_box3 x1 A1 w1 x2 A2 w2))
        \/ exists q, map fst (box_box3 x1 A1 w1 x2 A2 w2) = [q] /\ edge_contact3 x1 A1 w1 x2 A2 w2 n q d).
Proof. exact all_contacts. Qed.
Print Assumptions C69_contacts.

(* In a simulation, two boxes of which at most one is scripted are in contact only if they share a point at the end of the
   step, and are in contact if they share a point inside one of them *)
Theorem C69_scene : forall o nb fixed shape planes cyls q0 q1 set i j v w, n3_box_box o = box_box3 ->
  (N.of_nat nb <= 4294967296)%N -> (forall i, (i < nb)%nat -> sized3 (shape i)) -> (forall i, (i < nb)%nat -> rotation (ori3 nb q1 i)) ->
  rb3_active_set o nb fixed shape planes cyls q0 q1 = Ok set ->
  (i < j)%nat -> (j < nb)%nat -> shape i = Box3 v -> shape j = Box3 w ->
  (in_contact pair3 set i j -> ~ (fixed i = true /\ fixed j = true) /\ Narrow_Spec.overlap3 nb shape q1 i j)
  /\ (~ (fixed i = true /\ fixed j = true) ->
      (exists z, deep_in (pos3 q1 i) (ori3 nb q1 i) v z /\ in_box3 (pos3 q1 j) (ori3 nb q1 j) w z) -> in_contact pair3 set i j).
Proof. intros o nb fixed shape planes cyls q0 q1 set i j v w Real Few Sized Turned. apply (scene_boxes o nb fixed shape q0 q1 Few Sized Turned Real). Qed.
Print Assumptions C69_scene.

(* Boxes that meet only in their surfaces can get no contact: two cubes that share an edge. In a build with assertions the
   program stops there, since at least one contact is asserted *)
Theorem C69_touching_refuted : exists x1 A1 w1 x2 A2 w2,
  rotation A1 /\ rotation A2 /\ positive3 w1 /\ positive3 w2
  /\ (exists z, in_box3 x1 A1 w1 z /\ in_box3 x2 A2 w2 z) /\ box_box3 x1 A1 w1 x2 A2 w2 = [].
Proof.
  exists zero3, id3, cube, (V3 2 2 0), id3, cube.
  split; [apply rotation_id|]. split; [apply rotation_id|]. split; [apply cube_pos|]. split; [apply cube_pos|]. split; [apply touch_common|apply touch_none].
Qed.
Print Assumptions C69_touching_refuted.

(* ---------- cases ---------- *)
Example C69_apart_case : box_box3 zero3 turned_x cube (V3 0 0 3) turned_y cube = [].
Proof.
  apply C69_apart; [apply turned_x_rot|apply turned_y_rot|apply cube_pos|apply cube_pos|].
  intros (z & Ha & Hb). apply (proj1 (in_box_zono _ _ _ _ turned_x_rot cube_pos)) in Ha. apply (proj1 (in_box_zono _ _ _ _ turned_y_rot cube_pos)) in Hb.
  apply (zono_bound _ _ (V3 0 0 1)) in Ha. apply (zono_bound _ _ (V3 0 0 (-1))) in Hb.
  revert Ha Hb. unfold gens, turned_x, turned_y, cube, mat_col, zero3, sub3, scale3. cbn. unfold dot3. cbn. rabs.
  destruct z as [x y z]. cbn. intros. lra.
Qed.
Example C69_overlapping_case : box_box3 zero3 turned_x cube above_it turned_y cube <> [].
Proof. 
  apply C69_overlapping; [apply turned_x_rot|apply turned_y_rot|apply cube_pos|apply cube_pos|].
  destruct turned_deep as (z & D & H). exists z. split; [destruct D as (D0 & D1 & D2); unfold in_box3; lra|]. split; [exact H|left; exact D].
 Qed.
(* one contact of two edges: the overlap along the vertical direction is too small for a face *)
Example C69_edges_case : exists n q d, box_box3 zero3 turned_x cube above_it turned_y cube = [(q, neg3 n)]
  /\ edge_contact3 zero3 turned_x cube above_it turned_y cube n q d.
Proof.
  destruct (C69_contacts zero3 turned_x cube above_it turned_y cube turned_x_rot turned_y_rot cube_pos cube_pos) as (n & d & N & Un & _ & _ & O & L & _ & _ & _ & C).
  { destruct turned_deep as (z & (D0 & D1 & D2) & H). exists z. split; [|exact H]. unfold in_box3. lra. }
  exists n.
  assert (Ds : d <= 105 / 100 * (1 / 10)) by (apply (L (V3 0 0 1)); [unfold dot3; cbn; ring|apply turned_up]).
  apply overlap_gap in O; try apply turned_x_rot; try apply turned_y_rot; try apply cube_pos.
  destruct C as [(F & _)|[(F & _)|(q & E & Ec)]].
  - exfalso. pose proof (turned_gap n (or_introl F)). lra.
  - exfalso. assert (F' : face_of turned_y n).
    { destruct F as [F|F]; [right; exact F|left; rewrite neg_neg3 in F; exact F]. }
    pose proof (turned_gap n (or_intror F')). lra.
  - exists q, d. split; [|exact Ec]. destruct (box_box3 zero3 turned_x cube above_it turned_y cube) as [|[q' m] [|y l]] eqn:Eb; cbn in E; try discriminate.
    injection E as <-. rewrite (N q' m (or_introl eq_refl)). reflexivity.
Qed.
Example C69_scene_case : (exists set, rb3_active_set boxes_only 2 all_free (two Narrow_Ex.cube Narrow_Ex.cube) [] [] (ex_q3 0 0 0 1 1 1) (ex_q3 0 0 0 1 1 1) = Ok set /\ in_contact pair3 set 0 1)
  /\ (exists set, rb3_active_set boxes_only 2 all_free (two Narrow_Ex.cube Narrow_Ex.cube) [] [] (ex_q3 0 0 0 3 0 0) (ex_q3 0 0 0 3 0 0) = Ok set /\ ~ in_contact pair3 set 0 1).
Proof.
  split.
  - destruct (two_cubes 1 1 1) as (set & E & _ & K); try (apply abs_in; lra). exists set. split; [exact E|]. apply K; rewrite Rabs_pos_eq; lra.
  - destruct (two_cubes 3 0 0) as (set & E & K & _); try (apply abs_in; lra). exists set. split; [exact E|]. intros C. destruct (K C) as (p & A & B). revert A B.
    unfold body3_points, body_at3, two, Narrow_Ex.cube. cbn [b3_shape b3_x b3_R]. destruct (ex_pos3 0 0 0 3 0 0) as [P0 P1]. rewrite P0, P1, !ex_turned3 by lia.
    rewrite !in_box3_id. cbn [c0 c1 c2]. intros (A & _) (B & _). apply abs_inv in A, B. lra.
Qed.
