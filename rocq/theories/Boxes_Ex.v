(* Cases of two boxes. *)
From Coq Require Import List Reals Arith Bool Lra Lia.
From Verif Require Import Ccd_Model Lin_Model ContactRb3_Model Rot_Model Rot_Spec Rot_Alg Geom_Spec Geom_Space Boxes_Model Boxes_Spec Boxes_Zono Boxes_Facet Boxes_Sat Boxes_Geom Boxes_All.
Import ListNotations.
Local Open Scope R_scope.

Definition cube : v3 := V3 1 1 1.
Lemma cube_pos : positive3 cube.
Proof. unfold positive3, cube. cbn. lra. Qed.

(* ---------- two cubes that touch along an edge ---------- *)
Section Keep.
Variables (p1 : v3) (A : m3) (sa p2 : v3) (B : m3) (sb : v3).
(* once the depth is zero no later test changes what was found *)
Lemma keep_one : forall t s s', sat_depth s = Some 0 -> run_one p1 A sa p2 B sb t s = Some s' -> s' = s.
Proof.
  intros t s s' D E. unfold run_one, edge_test, axis_test in E. cbv zeta in E. destruct (t_edge t).
  - match type of E with context [Rlt_dec 0 ?x] => destruct (Rlt_dec 0 x) as [H|H]; [discriminate|] end.
    match type of E with context [Rlt_dec 0 (sqrt ?x)] => destruct (Rlt_dec 0 (sqrt x)) as [L|L]; [|congruence]; set (l := sqrt x) in * end.
    rewrite D in E. unfold above in E.
    match type of E with context [Rlt_dec 0 ?x] => destruct (Rlt_dec 0 x) as [K|K]; [exfalso|congruence] end.
    match type of H with ~ 0 < ?x => assert (x / l <= 0) end; [|lra].
    pose proof (Rinv_0_lt_compat _ L). unfold Rdiv. nra.
  - match type of E with context [Rlt_dec 0 ?x] => destruct (Rlt_dec 0 x) as [H|H]; [discriminate|] end.
    rewrite D in E. unfold above in E. match type of E with context [Rlt_dec 0 ?x] => destruct (Rlt_dec 0 x) as [K|K]; [contradiction|congruence] end.
Qed.
Lemma keep_run : forall ts s s', sat_depth s = Some 0 -> run_tests (map (run_one p1 A sa p2 B sb) ts) s = Some s' -> s' = s.
Proof.
  induction ts as [|t ts IH]; intros s s' D E; cbn in E; [congruence|].
  destruct (run_one p1 A sa p2 B sb t s) as [s1|] eqn:O; [|discriminate]. pose proof (keep_one t s s1 D O). subst s1. apply IH; assumption.
Qed.
End Keep.

Ltac rabs := repeat match goal with
  | |- context [Rabs ?x] => first [rewrite (Rabs_pos_eq x) by lra|rewrite (Rabs_left x) by lra]
  end.
Lemma touch_common : exists z, in_box3 zero3 id3 cube z /\ in_box3 (V3 2 2 0) id3 cube z.
Proof.
  exists (V3 1 1 0). unfold in_box3, cube, zero3, id3, diag3, tr, dot3, sub3. cbn. split; repeat split; rabs; lra.
Qed.
Lemma touch_search : search zero3 id3 cube (V3 2 2 0) id3 cube = Some (Sat (Some 0) false 1 zero3).
Proof.
  destruct (search zero3 id3 cube (V3 2 2 0) id3 cube) as [s|] eqn:E.
  2:{ exfalso. apply (none_apart zero3 id3 cube (V3 2 2 0) id3 cube rotation_id rotation_id cube_pos cube_pos) in E. apply E, touch_common. }
  f_equal. unfold search in E. rewrite (tests_are zero3 id3 cube (V3 2 2 0) id3 cube rotation_id rotation_id cube_pos cube_pos) in E.
  unfold all_tests in E. cbn [map run_tests] in E.
  match type of E with match ?x with _ => _ end = _ => assert (F : x = Some (Sat (Some 0) false 1 zero3)) end.
  { unfold run_one. cbn [t_edge t_axis t_code].
    assert (D : dot3 (mat_col id3 0) (sub3 (V3 2 2 0) zero3) = 2) by (unfold dot3, mat_col, id3, diag3, sub3, zero3; cbn; ring).
    assert (W : width (gens id3 cube ++ gens id3 cube) (mat_col id3 0) = 2).
    { rewrite (width_cols id3 cube id3 cube cube_pos cube_pos). unfold cube, dot3, mat_col, id3, diag3. cbn. rabs. ring. }
    rewrite D, W. unfold axis_test. cbv zeta. cbn [first_sat sat_depth above sat_normal].
    replace (Rabs 2 - 2) with 0 by (rabs; ring). destruct (Rlt_dec 0 0); [lra|]. unfold negative. destruct (Rlt_dec 2 0); [lra|]. reflexivity. }
  rewrite F in E. 
  match type of E with _ = Some s => apply (keep_run zero3 id3 cube (V3 2 2 0) id3 cube (tl (all_tests id3 id3))) in E end; [exact E|reflexivity].
Qed.
Lemma touch_none : box_box3 zero3 id3 cube (V3 2 2 0) id3 cube = [].
Proof.
  unfold box_box3, box_box_contacts. rewrite touch_search. cbn [sat_code Nat.ltb Nat.leb sat_invert sat_world Nat.sub].
  assert (Z : face_points zero3 id3 cube (V3 2 2 0) id3 cube (mat_col id3 0) 0 = []).
  { unfold face_points.
    assert (I : incident_axes (abs3 (mul3 (tr id3) (mat_col id3 0))) = (0, 1, 2)%nat).
    { unfold incident_axes, abs3, mul3, tr, id3, diag3, mat_col, dot3. cbn. 
      match goal with |- context [Rlt_dec (Rabs ?a) (Rabs ?b)] => replace a with 1 by ring; replace b with 0 by ring end.
      destruct (Rlt_dec (Rabs 1) (Rabs 0)) as [L|L]; [revert L; rabs; intros; lra|].
      match goal with |- context [Rlt_dec (Rabs ?a) (Rabs ?b)] => replace a with 0 by ring; replace b with 1 by ring end.
      destruct (Rlt_dec (Rabs 0) (Rabs 1)) as [K|K]; [reflexivity|revert K; rabs; intros; lra]. }
    rewrite I. cbn [other_axes].
    set (nr := at3 (mul3 (tr id3) (mat_col id3 0)) 0). assert (Nr : nr = 1) by (unfold nr, mul3, tr, id3, diag3, mat_col, dot3; cbn; ring).
    destruct (Rlt_dec nr 0) as [L|L]; [lra|]. clear L Nr nr.
    match goal with |- map _ (filter _ ?r) = [] => assert (Er : r = []); [|rewrite Er; reflexivity] end.
    match goal with |- rect_quad ?h0 ?h1 ?q = [] => change (rect_quad 1 1 q = []);
      replace q with [(1, -1); (1, 1); (3, 1); (3, -1)] end.
    2:{ unfold cube, dot3, sub3, scale3, id3, diag3, mat_col, zero3. cbn. repeat (f_equal; try (f_equal; ring)); ring. }
    unfold rect_quad.
    assert (C1 : chop false (-1) 1 [(1, -1); (1, 1); (3, 1); (3, -1)] = ([(1, -1); (1, 1); (3, 1); (3, -1)], false)).
    { unfold chop, chop_loop, inside, coord. cbn [fst snd].
      repeat match goal with |- context [Rlt_dec ?a ?b] => destruct (Rlt_dec a b); [|exfalso; lra] end. reflexivity. }
    rewrite C1.
    assert (C2 : chop false 1 1 [(1, -1); (1, 1); (3, 1); (3, -1)] = ([], false)).
    { unfold chop, chop_loop, inside, coord. cbn [fst snd].
      repeat match goal with |- context [Rlt_dec ?a ?b] => destruct (Rlt_dec a b); [exfalso; lra|] end. reflexivity. }
    rewrite C2. reflexivity. }
  rewrite Z. reflexivity.
Qed.

(* ---------- an edge on an edge ---------- *)
(* one cube is turned about the x axis, the other about the y axis, and the second is above the first *)
Definition turned_x : m3 := M3 (V3 1 0 0) (V3 0 (3 / 5) (- (4 / 5))) (V3 0 (4 / 5) (3 / 5)).
Definition turned_y : m3 := M3 (V3 (3 / 5) 0 (- (4 / 5))) (V3 0 1 0) (V3 (4 / 5) 0 (3 / 5)).
Lemma turned_x_rot : rotation turned_x.
Proof. unfold rotation, turned_x, mm, vmul, tr, id3, diag3, det3, mul3, dot3, tr. cbn. split; [repeat f_equal; lra|lra]. Qed.
Lemma turned_y_rot : rotation turned_y.
Proof. unfold rotation, turned_y, mm, vmul, tr, id3, diag3, det3, mul3, dot3, tr. cbn. split; [repeat f_equal; lra|lra]. Qed.
Definition above_it : v3 := V3 0 0 (27 / 10).
Lemma turned_deep : exists z, deep_in zero3 turned_x cube z /\ in_box3 above_it turned_y cube z.
Proof.
  exists (V3 (1 / 5) (- (1 / 5)) (27 / 20)). unfold deep_in, in_box3, turned_x, turned_y, above_it, cube, zero3, tr, dot3, sub3. cbn.
  split; repeat split; apply Rabs_def1 || apply Rabs_le; lra.
Qed.
Lemma turned_gap : forall u, face_of turned_x u \/ face_of turned_y u -> 1 / 2 < gap zero3 turned_x cube above_it turned_y cube u.
Proof.
  assert (X : forall u, box_axis turned_x u \/ box_axis turned_y u -> 1 / 2 < gap zero3 turned_x cube above_it turned_y cube u /\ 1 / 2 < gap zero3 turned_x cube above_it turned_y cube (neg3 u)).
  { intros u Hu. unfold gap. rewrite width_neg, (width_cols turned_x cube turned_y cube cube_pos cube_pos).
    unfold box_axis in Hu. destruct Hu as [[->|[->| ->]]|[->|[->| ->]]];
      unfold turned_x, turned_y, above_it, cube, mat_col, zero3, neg3, tr, dot3, sub3; cbn; rabs; split; lra. }
  intros u [[H|H]|[H|H]].
  - apply X. left. exact H.
  - rewrite <- (neg_neg3 u). apply X. left. exact H.
  - apply X. right. exact H.
  - rewrite <- (neg_neg3 u). apply X. right. exact H.
Qed.
Lemma turned_up : overlap3 (V3 0 0 1) (in_box3 zero3 turned_x cube) (in_box3 above_it turned_y cube) (1 / 10).
Proof.
  apply overlap_gap; try apply turned_x_rot; try apply turned_y_rot; try apply cube_pos.
  unfold gap. rewrite (width_cols turned_x cube turned_y cube cube_pos cube_pos).
  unfold turned_x, turned_y, above_it, cube, mat_col, zero3, dot3, sub3; cbn; rabs; lra.
Qed.
