(* The contacts of two boxes: both ways put together. *)
From Coq Require Import List Reals Arith Bool Lra Lia.
From Verif Require Import Ccd_Model Lin_Model ContactRb3_Model Rot_Model Rot_Spec Rot_Alg Geom_Spec Geom_Space Boxes_Model Boxes_Spec Boxes_Zono Boxes_Facet Boxes_Sat Boxes_Geom Boxes_Clip Boxes_Face Boxes_Points Boxes_Case Boxes_Edge.
Import ListNotations.
Local Open Scope R_scope.

Lemma neg_scale : forall u, scale3 (-1) u = neg3 u.
Proof. intros. unfold scale3, neg3. f_equal; ring. Qed.
Lemma neg_neg3 : forall u, neg3 (neg3 u) = u.
Proof. intros [a b c]. unfold neg3. cbn [c0 c1 c2]. f_equal; ring. Qed.

Section All.
Variables (p1 : v3) (A : m3) (sa p2 : v3) (B : m3) (sb : v3).
Hypothesis RA : rotation A.
Hypothesis RB : rotation B.
Hypothesis PA : positive3 sa.
Hypothesis PB : positive3 sb.
Local Notation boxa := (in_box3 p1 A sa).
Local Notation boxb := (in_box3 p2 B sb).

Lemma gap_swap : forall u, gap p2 B sb p1 A sa (neg3 u) = gap p1 A sa p2 B sb u.
Proof.
  intros u. unfold gap. rewrite !width_app, !width_neg. autorewrite with dots. ring.
Qed.

Theorem all_apart : (~ exists z, boxa z /\ boxb z) -> box_box3 p1 A sa p2 B sb = [].
Proof.
  intros N. apply (none_apart p1 A sa p2 B sb RA RB PA PB) in N. unfold box_box3, box_box_contacts. rewrite N. reflexivity.
Qed.

Theorem all_contacts : (exists z, boxa z /\ boxb z) -> exists n d,
  (forall q m, In (q, m) (box_box3 p1 A sa p2 B sb) -> m = neg3 n)
  /\ dot3 n n = 1 /\ 0 <= dot3 n (sub3 p2 p1) /\ 0 <= d
  /\ overlap3 n boxa boxb d
  /\ (forall u e, dot3 u u = 1 -> overlap3 u boxa boxb e -> d <= 105 / 100 * e)
  /\ (forall u e, face_of A u \/ face_of B u -> overlap3 u boxa boxb e -> d <= e)
  /\ (length (box_box3 p1 A sa p2 B sb) <= 8)%nat
  /\ (0 < d -> box_box3 p1 A sa p2 B sb <> [])
  /\ (face_contacts3 p1 A sa p2 B sb n d (map fst (box_box3 p1 A sa p2 B sb))
      \/ face_contacts3 p2 B sb p1 A sa (neg3 n) d (map fst (box_box3 p1 A sa p2 B sb))
      \/ exists q, map fst (box_box3 p1 A sa p2 B sb) = [q] /\ edge_contact3 p1 A sa p2 B sb n q d).
Proof.
  intros C. destruct (search p1 A sa p2 B sb) as [s|] eqn:E.
  2:{ exfalso. apply (none_apart p1 A sa p2 B sb RA RB PA PB) in E. contradiction. }
  exists (sat_world A B s), (sat_value s).
  destruct (found_normal p1 A sa p2 B sb RA RB PA PB s E) as (Un & Np & Dg).
  pose proof (depth_nn p1 A sa p2 B sb RA RB PA PB s E) as Dn.
  pose proof (found_faces p1 A sa p2 B sb RA RB PA PB s E) as Ff.
  pose proof (found_least p1 A sa p2 B sb RA RB PA PB s E) as Fl.
  destruct (found_world p1 A sa p2 B sb RA RB PA PB s E) as (w & Ch & Wp & _ & Nw & _).
  set (n := sat_world A B s) in *. set (d := sat_value s) in *.
  assert (X : exists pts : list (v3 * R), box_box3 p1 A sa p2 B sb = map (fun x => (fst x, neg3 n)) pts /\ (length pts <= 8)%nat /\ (0 < d -> pts <> [])
     /\ (face_contacts3 p1 A sa p2 B sb n d (map fst pts) \/ face_contacts3 p2 B sb p1 A sa (neg3 n) d (map fst pts)
         \/ exists q, map fst pts = [q] /\ edge_contact3 p1 A sa p2 B sb n q d)).
  { unfold box_box3, box_box_contacts. rewrite E. fold n d.
    destruct Ch as [(i & Hi & Ci & Wi)|[(i & Hi & Ci & Wi)|(i & j & Hi & Hj & Cij & Wij)]].
    - rewrite Ci. replace (Nat.ltb 6 (S i)) with false by (symmetry; apply Nat.ltb_ge; lia).
      replace (Nat.leb (S i) 3) with true by (symmetry; apply Nat.leb_le; lia). replace (S i - 1)%nat with i by lia.
      exists (face_points p1 A sa p2 B sb n i). split; [rewrite neg_scale; reflexivity|].
      assert (N1 : norm3 w = 1) by (rewrite Wi; apply unit_norm, col_unit, RA).
      set (sg := (if negative (dot3 w (sub3 p2 p1)) then -1 else 1) * / norm3 w) in Nw.
      assert (Sg : sg * sg = 1) by (unfold sg; rewrite N1, Rinv_1; destruct (negative _); ring).
      rewrite Wi in Nw.
      destruct (face_case p1 A sa p2 B sb sg i RA RB PA PB Hi Sg) as (F1 & F2 & F3 & _); rewrite <- Nw, <- Dg in *; [exact Dn|exact Fl|].
      split; [exact F2|]. split; [exact F3|]. left. exact F1.
    - rewrite Ci. replace (Nat.ltb 6 (4 + i)) with false by (symmetry; apply Nat.ltb_ge; lia).
      replace (Nat.leb (4 + i) 3) with false by (symmetry; apply Nat.leb_gt; lia). replace (4 + i - 4)%nat with i by lia.
      exists (face_points p2 B sb p1 A sa (neg3 n) i). split; [rewrite neg_scale; reflexivity|].
      assert (N1 : norm3 w = 1) by (rewrite Wi; apply unit_norm, col_unit, RB).
      set (sg := (if negative (dot3 w (sub3 p2 p1)) then -1 else 1) * / norm3 w) in Nw.
      assert (Sg : (- sg) * (- sg) = 1) by (unfold sg; rewrite N1, Rinv_1; destruct (negative _); ring).
      rewrite Wi in Nw. assert (Nn : neg3 n = scale3 (- sg) (mat_col B i)) by (rewrite Nw; unfold neg3, scale3; cbn [c0 c1 c2]; f_equal; ring).
      assert (Dg' : d = gap p2 B sb p1 A sa (neg3 n)) by (rewrite gap_swap; exact Dg).
      destruct (face_case p2 B sb p1 A sa (- sg) i RB RA PB PA Hi Sg) as (F1 & F2 & F3 & _); rewrite <- Nn, <- Dg' in *; [exact Dn| |].
      { intros u. rewrite <- (neg_neg3 u) at 2. rewrite gap_swap.
        replace (norm3 u) with (norm3 (neg3 u)) by (unfold norm3; rewrite dot3_neg_l, dot3_neg_r; f_equal; ring). apply Fl. }
      split; [exact F2|]. split; [exact F3|]. right. left. exact F1.
    - assert (L6 : (6 < sat_code s)%nat) by lia. replace (Nat.ltb 6 (sat_code s)) with true by (symmetry; apply Nat.ltb_lt; exact L6).
      pose proof (edge_case p1 A sa p2 B sb s RA RB PA PB E L6) as Ec. fold n d in Ec.
      exists [(edge_point p1 A sa p2 B sb n (sat_code s), d)]. split; [rewrite neg_scale; reflexivity|].
      split; [cbn; lia|]. split; [discriminate|]. right. right. eexists. split; [reflexivity|exact Ec]. }
  destruct X as (pts & Eb & Lb & Nb & Cb). rewrite Eb, map_length, map_map. cbn [fst].
  split. { intros q m I. apply in_map_iff in I. destruct I as (x & Ex & _). congruence. }
  split; [exact Un|]. split; [exact Np|]. split; [exact Dn|].
  split; [apply overlap_gap; assumption|].
  split. { intros u e Uu O. apply overlap_gap in O; try assumption. subst e. specialize (Fl u). rewrite (unit_norm u Uu) in Fl. lra. }
  split. { intros u e Hu O. apply overlap_gap in O; try assumption. subst e. apply Ff, Hu. }
  split; [exact Lb|]. split; [|exact Cb]. intros Dp Em. apply (Nb Dp). destruct pts; [reflexivity|discriminate].
Qed.

(* boxes that share a point off their surfaces overlap along every direction *)
Lemma deep_gap : forall z n, deep_in p1 A sa z -> boxb z -> n <> zero3 -> 0 < gap p1 A sa p2 B sb n.
Proof.
  intros z n (D0 & D1 & D2) Hb Nz.
  change (row0 (tr A)) with (mat_col A 0) in D0. change (row1 (tr A)) with (mat_col A 1) in D1. change (row2_ (tr A)) with (mat_col A 2) in D2.
  apply in_box_zono in Hb; try assumption. apply (zono_bound _ _ (neg3 n)) in Hb. rewrite width_neg, dot3_neg_l in Hb.
  unfold gap. rewrite width_app. destruct PA as (P0 & P1 & P2).
  assert (W : dot3 n (sub3 z p1) < width (gens A sa) n).
  { pose proof (frame_dot A n (sub3 z p1) RA) as F. rewrite F. unfold gens. cbn [width]. rewrite !abs_scale by assumption. rewrite !(dot3_comm (sub3 z p1)).
    assert (T : forall x y k, Rabs y < k -> x * y <= k * Rabs x /\ (x <> 0 -> x * y < k * Rabs x)).
    { intros x y k Hk. pose proof (Rle_abs (x * y)) as L. rewrite Rabs_mult in L. pose proof (Rabs_pos x). split.
      - assert (Rabs x * Rabs y <= Rabs x * k) by (apply Rmult_le_compat_l; lra). lra.
      - intros Nx. pose proof (Rabs_pos_lt x Nx). assert (Rabs x * Rabs y < Rabs x * k) by (apply Rmult_lt_compat_l; lra). lra. }
    destruct (T (dot3 n (mat_col A 0)) _ _ D0) as [L0 S0]. destruct (T (dot3 n (mat_col A 1)) _ _ D1) as [L1 S1]. destruct (T (dot3 n (mat_col A 2)) _ _ D2) as [L2 S2].
    destruct (Req_dec (dot3 n (mat_col A 0)) 0) as [E0|E0]; [|specialize (S0 E0); lra].
    destruct (Req_dec (dot3 n (mat_col A 1)) 0) as [E1|E1]; [|specialize (S1 E1); lra].
    destruct (Req_dec (dot3 n (mat_col A 2)) 0) as [E2|E2]; [|specialize (S2 E2); lra].
    exfalso. apply Nz, dot3_sq_zero. rewrite (frame_dot A n n RA), E0, E1, E2. ring. }
  rewrite !dot3_sub_r in *. lra.
Qed.
Theorem all_overlapping : (exists z, deep_in p1 A sa z /\ boxb z) -> box_box3 p1 A sa p2 B sb <> [].
Proof.
  intros (z & Da & Hb).
  assert (Ha : boxa z) by (destruct Da as (D0 & D1 & D2); unfold in_box3; lra).
  destruct all_contacts as (n & d & _ & Un & _ & _ & O & _ & _ & _ & Ne & _); [exists z; split; assumption|].
  apply Ne. apply overlap_gap in O; try assumption. subst d. apply (deep_gap z n Da Hb). apply unit_nonzero, Un.
Qed.
End All.
