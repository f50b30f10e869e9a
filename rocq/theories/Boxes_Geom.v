(* Boxes as sums of segments: when they meet, and how far they reach into each other along a direction. *)
From Coq Require Import List Reals Arith Bool Lra Lia.
From Verif Require Import Ccd_Model Lin_Model ContactRb3_Model Rot_Model Rot_Spec Rot_Alg Geom_Spec Geom_Space Boxes_Model Boxes_Spec Boxes_Zono Boxes_Facet Boxes_Sat.
Import ListNotations.
Local Open Scope R_scope.

Lemma zono_app : forall G H x y, zono G x -> zono H y -> zono (G ++ H) (add3 x y).
Proof.
  induction G as [|g G IH]; intros H x y Zx Zy; cbn [app zono] in *.
  - subst x. replace (add3 zero3 y) with y; [exact Zy|]. destruct y. unfold add3, zero3. cbn. f_equal; ring.
  - destruct Zx as (t & T & Z). exists t. split; [exact T|].
    replace (sub3 (add3 x y) (scale3 t g)) with (add3 (sub3 x (scale3 t g)) y); [apply IH; assumption|].
    unfold add3, sub3. cbn. f_equal; ring.
Qed.
Lemma zono_split : forall G H x, zono (G ++ H) x -> exists y, zono G y /\ zono H (sub3 x y).
Proof.
  induction G as [|g G IH]; intros H x Z; cbn [app zono] in *.
  - exists zero3. split; [reflexivity|]. replace (sub3 x zero3) with x; [exact Z|]. destruct x. unfold sub3, zero3. cbn. f_equal; ring.
  - destruct Z as (t & T & Z). destruct (IH H _ Z) as (y & Y1 & Y2). exists (add3 y (scale3 t g)). split.
    + exists t. split; [exact T|]. replace (sub3 (add3 y (scale3 t g)) (scale3 t g)) with y; [exact Y1|].
      destruct y. unfold add3, sub3. cbn. f_equal; ring.
    + replace (sub3 x (add3 y (scale3 t g))) with (sub3 (sub3 x (scale3 t g)) y); [exact Y2|]. unfold add3, sub3. cbn. f_equal; ring.
Qed.
Lemma zono_neg : forall G x, zono G x -> zono G (neg3 x).
Proof.
  induction G as [|g G IH]; intros x Z; cbn [zono] in *.
  - subst. unfold neg3, zero3. cbn. f_equal; ring.
  - destruct Z as (t & T & Z). exists (- t). split; [lra|]. apply IH in Z.
    replace (sub3 (neg3 x) (scale3 (- t) g)) with (neg3 (sub3 x (scale3 t g))); [exact Z|]. unfold neg3, sub3, scale3. cbn. f_equal; ring.
Qed.
Lemma width_attained : forall G n, exists y, zono G y /\ dot3 n y = width G n.
Proof.
  induction G as [|g G IH]; intros n; cbn [zono width].
  - exists zero3. split; [reflexivity|apply dot3_zero_r].
  - destruct (IH n) as (y & Z & E). destruct (Rle_dec 0 (dot3 n g)) as [K|K].
    + exists (add3 y g). split.
      * exists 1. split; [lra|]. replace (sub3 (add3 y g) (scale3 1 g)) with y; [exact Z|]. destruct y. unfold sub3, add3, scale3. cbn. f_equal; ring.
      * rewrite dot3_add_r, E, Rabs_pos_eq by exact K. ring.
    + exists (sub3 y g). split.
      * exists (-1). split; [lra|]. replace (sub3 (sub3 y g) (scale3 (-1) g)) with y; [exact Z|]. destruct y. unfold sub3, scale3. cbn. f_equal; ring.
      * rewrite dot3_sub_r, E, Rabs_left by lra. ring.
Qed.
Lemma width_neg : forall G n, width G (neg3 n) = width G n.
Proof. induction G as [|g G IH]; intros n; cbn [width]; [reflexivity|]. rewrite IH, dot3_neg_l, Rabs_Ropp. reflexivity. Qed.

Lemma abs_le_mult : forall t k, 0 < k -> -1 <= t <= 1 -> Rabs (t * k) <= k.
Proof. intros t k K T. apply Rabs_le. nra. Qed.
Lemma abs_le_div : forall x k, 0 < k -> Rabs x <= k -> -1 <= x / k <= 1.
Proof.
  intros x k K H. apply Rabs_def2_weak in H || idtac.
  assert (- k <= x <= k) by (unfold Rabs in H; destruct (Rcase_abs x); lra).
  split; [apply Rmult_le_reg_r with k; [lra|]; unfold Rdiv; rewrite Rmult_assoc, Rinv_l by lra; lra
         |apply Rmult_le_reg_r with k; [lra|]; unfold Rdiv; rewrite Rmult_assoc, Rinv_l by lra; lra].
Qed.

(* a vector by its components in a frame *)
Lemma frame_eq : forall A x, rotation A ->
  x = add3 (add3 (scale3 (dot3 (mat_col A 0) x) (mat_col A 0)) (scale3 (dot3 (mat_col A 1) x) (mat_col A 1))) (scale3 (dot3 (mat_col A 2) x) (mat_col A 2)).
Proof.
  intros A x RA. pose proof (rot_back A x RA) as E. rewrite <- E at 1.
  unfold mul3, tr, mat_col, at3, add3, scale3, dot3. cbn. f_equal; ring.
Qed.

Lemma in_box_cols : forall x M s z, in_box3 x M s z <->
  Rabs (dot3 (mat_col M 0) (sub3 z x)) <= c0 s /\ Rabs (dot3 (mat_col M 1) (sub3 z x)) <= c1 s /\ Rabs (dot3 (mat_col M 2) (sub3 z x)) <= c2 s.
Proof. intros. reflexivity. Qed.

Lemma in_box_zono : forall x M s z, rotation M -> positive3 s -> (in_box3 x M s z <-> zono (gens M s) (sub3 z x)).
Proof.
  intros x M s z RM (P0 & P1 & P2). rewrite in_box_cols.
  pose proof (rotation_ortho M RM) as (U & V & W & UV & UW & VW).
  assert (VU := UV). rewrite dot3_comm in VU. assert (WU := UW). rewrite dot3_comm in WU. assert (WV := VW). rewrite dot3_comm in WV.
  set (y := sub3 z x). split.
  - intros (B0 & B1 & B2). cbn [zono gens].
    exists (dot3 (mat_col M 0) y / c0 s). split; [apply abs_le_div; assumption|].
    exists (dot3 (mat_col M 1) y / c1 s). split; [apply abs_le_div; assumption|].
    exists (dot3 (mat_col M 2) y / c2 s). split; [apply abs_le_div; assumption|].
    pose proof (frame_eq M y RM) as E.
    set (d0 := dot3 (mat_col M 0) y) in *. set (d1 := dot3 (mat_col M 1) y) in *. set (d2 := dot3 (mat_col M 2) y) in *.
    rewrite E. unfold sub3, add3, scale3, zero3. cbn [c0 c1 c2]. f_equal; field; lra.
  - cbn [zono gens]. intros (t0 & T0 & t1 & T1 & t2 & T2 & E).
    assert (Y : y = add3 (add3 (scale3 (t0 * c0 s) (mat_col M 0)) (scale3 (t1 * c1 s) (mat_col M 1))) (scale3 (t2 * c2 s) (mat_col M 2))).
    { clear - E. destruct y as [y0 y1 y2]. 
      pose proof (f_equal c0 E) as E0. pose proof (f_equal c1 E) as E1. pose proof (f_equal c2 E) as E2. clear E.
      unfold sub3, scale3, zero3, add3 in *. cbn [c0 c1 c2] in *. f_equal; lra. }
    rewrite Y. autorewrite with dots. rewrite U, V, W, UV, UW, VW, VU, WU, WV.
    split; [|split].
    + replace (_ + _ + _) with (t0 * c0 s) by ring. apply abs_le_mult; assumption.
    + replace (_ + _ + _) with (t1 * c1 s) by ring. apply abs_le_mult; assumption.
    + replace (_ + _ + _) with (t2 * c2 s) by ring. apply abs_le_mult; assumption.
Qed.

Section Pair.
Variables (p1 : v3) (A : m3) (sa p2 : v3) (B : m3) (sb : v3).
Hypothesis RA : rotation A.
Hypothesis RB : rotation B.
Hypothesis PA : positive3 sa.
Hypothesis PB : positive3 sb.
Local Notation G := (gens A sa ++ gens B sb).
Local Notation p := (sub3 p2 p1).
Local Notation boxa := (in_box3 p1 A sa).
Local Notation boxb := (in_box3 p2 B sb).

Lemma common_zono : (exists z, boxa z /\ boxb z) <-> zono G p.
Proof.
  split.
  - intros (z & Za & Zb). apply in_box_zono in Za; [|assumption..]. apply in_box_zono in Zb; [|assumption..].
    replace p with (add3 (sub3 z p1) (neg3 (sub3 z p2))) by (unfold add3, neg3, sub3; cbn; f_equal; ring).
    apply zono_app; [exact Za|apply zono_neg; exact Zb].
  - intros Z. apply zono_split in Z. destruct Z as (y & Y1 & Y2). exists (add3 p1 y). split; apply in_box_zono; try assumption.
    + rewrite sub_add3. exact Y1.
    + apply zono_neg in Y2. replace (sub3 (add3 p1 y) p2) with (neg3 (sub3 p y)); [exact Y2|]. unfold add3, neg3, sub3. cbn. f_equal; ring.
Qed.

Theorem none_apart : search p1 A sa p2 B sb = None <-> ~ exists z, boxa z /\ boxb z.
Proof.
  split.
  - intros E. apply (search_none p1 A sa p2 B sb RA RB PA PB) in E. destruct E as (w & _ & K). intros C. apply common_zono in C.
    unfold apart_along in K. pose proof (zono_bound _ _ w C). pose proof (zono_bound _ _ (neg3 w) C) as N. rewrite width_neg, dot3_neg_l in N.
    unfold Rabs in K. destruct (Rcase_abs (dot3 w p)); lra.
  - intros N. destruct (search p1 A sa p2 B sb) as [s|] eqn:E; [exfalso|reflexivity]. apply N, common_zono, zono_support.
    intros n. destruct (Rle_dec (dot3 n p) (width G n)) as [L|L]; [exact L|exfalso].
    assert (X : exists n, 0 < excess G p n) by (exists n; unfold excess; lra).
    destruct (axes_decide A B sa sb p RA RB PA PB X) as (w & I & K).
    assert (S : search p1 A sa p2 B sb = None) by (apply (search_none p1 A sa p2 B sb RA RB PA PB); exists w; split; assumption).
    congruence.
Qed.

(* the overlap along u *)
Definition gap (u : v3) : R := width G u - dot3 u p.
Lemma overlap_gap : forall u d, overlap3 u boxa boxb d <-> d = gap u.
Proof.
  intros u d.
  assert (At : exists a b, boxa a /\ boxb b /\ dot3 u (sub3 a b) = gap u).
  { destruct (width_attained G u) as (y & Z & E). apply zono_split in Z. destruct Z as (y1 & Y1 & Y2).
    exists (add3 p1 y1), (sub3 p2 (sub3 y y1)). split; [|split].
    - apply in_box_zono; try assumption. rewrite sub_add3. exact Y1.
    - apply in_box_zono; try assumption. apply zono_neg in Y2. replace (sub3 (sub3 p2 (sub3 y y1)) p2) with (neg3 (sub3 y y1)); [exact Y2|].
      unfold sub3, neg3. cbn. f_equal; ring.
    - unfold gap. rewrite <- E. unfold dot3, sub3, add3. cbn. ring. }
  assert (Up : forall a b, boxa a -> boxb b -> dot3 u (sub3 a b) <= gap u).
  { intros a b Ha Hb. apply in_box_zono in Ha; try assumption. apply in_box_zono in Hb; try assumption.
    apply zono_neg in Hb. pose proof (zono_app _ _ _ _ Ha Hb) as Z. apply (zono_bound _ _ u) in Z. unfold gap.
    replace (dot3 u (sub3 a b)) with (dot3 u (add3 (sub3 a p1) (neg3 (sub3 b p2))) - dot3 u p); [lra|].
    unfold dot3, sub3, add3, neg3. cbn. ring. }
  split.
  - intros [(a & b & Ha & Hb & <-) M]. destruct At as (a' & b' & Ha' & Hb' & E'). pose proof (M a' b' Ha' Hb'). pose proof (Up a b Ha Hb). lra.
  - intros ->. split; [exact At|exact Up].
Qed.

(* what the search found *)
Variable s : sat.
Hypothesis found : search p1 A sa p2 B sb = Some s.

Local Notation n := (sat_world A B s).
Local Notation d := (sat_value s).

(* which test was the last to lower the depth *)
Definition chosen (w : v3) : Prop :=
  (exists i, (i < 3)%nat /\ sat_code s = S i /\ w = mat_col A i)
  \/ (exists i, (i < 3)%nat /\ sat_code s = (4 + i)%nat /\ w = mat_col B i)
  \/ (exists i j, (i < 3)%nat /\ (j < 3)%nat /\ sat_code s = (7 + 3 * i + j)%nat /\ w = cross3 (mat_col A i) (mat_col B j)).

Lemma chosen_tests : forall t, In t (all_tests A B) -> sat_code s = t_code t -> chosen (t_axis t).
Proof.
  intros t I C. unfold all_tests in I. cbn [In] in I. unfold chosen.
  destruct I as [<-|I]; [left; exists 0%nat; repeat split; [lia|exact C]|].
  destruct I as [<-|I]; [left; exists 1%nat; repeat split; [lia|exact C]|].
  destruct I as [<-|I]; [left; exists 2%nat; repeat split; [lia|exact C]|].
  destruct I as [<-|I]; [right; left; exists 0%nat; repeat split; [lia|exact C]|].
  destruct I as [<-|I]; [right; left; exists 1%nat; repeat split; [lia|exact C]|].
  destruct I as [<-|I]; [right; left; exists 2%nat; repeat split; [lia|exact C]|].
  destruct I as [<-|I]; [right; right; exists 0%nat, 0%nat; repeat split; try lia; exact C|].
  destruct I as [<-|I]; [right; right; exists 0%nat, 1%nat; repeat split; try lia; exact C|].
  destruct I as [<-|I]; [right; right; exists 0%nat, 2%nat; repeat split; try lia; exact C|].
  destruct I as [<-|I]; [right; right; exists 1%nat, 0%nat; repeat split; try lia; exact C|].
  destruct I as [<-|I]; [right; right; exists 1%nat, 1%nat; repeat split; try lia; exact C|].
  destruct I as [<-|I]; [right; right; exists 1%nat, 2%nat; repeat split; try lia; exact C|].
  destruct I as [<-|I]; [right; right; exists 2%nat, 0%nat; repeat split; try lia; exact C|].
  destruct I as [<-|I]; [right; right; exists 2%nat, 1%nat; repeat split; try lia; exact C|].
  destruct I as [<-|I]; [right; right; exists 2%nat, 2%nat; repeat split; try lia; exact C|].
  destruct I.
Qed.

Lemma norm_sq : forall w, norm3 w * norm3 w = dot3 w w.
Proof. intros. unfold norm3. apply sqrt_sqrt, dot3_sq_nn. Qed.
Lemma norm_nn : forall w, 0 <= norm3 w.
Proof. intros. apply sqrt_pos. Qed.
Lemma norm_zero : forall w, norm3 w = 0 -> w = zero3.
Proof. intros w E. apply dot3_sq_zero. rewrite <- norm_sq, E. ring. Qed.
Lemma cauchy : forall u v, Rabs (dot3 u v) <= norm3 u * norm3 v.
Proof.
  intros u v.
  assert (L : dot3 u v * dot3 u v <= (norm3 u * norm3 v) * (norm3 u * norm3 v)).
  { replace ((norm3 u * norm3 v) * (norm3 u * norm3 v)) with ((norm3 u * norm3 u) * (norm3 v * norm3 v)) by ring. rewrite !norm_sq.
    assert (I : dot3 u u * dot3 v v - dot3 u v * dot3 u v = dot3 (cross3 u v) (cross3 u v)) by (unfold dot3, cross3; cbn; ring).
    pose proof (dot3_sq_nn (cross3 u v)). lra. }
  apply Rsqr_le_abs_0 in L. rewrite (Rabs_pos_eq (norm3 u * norm3 v)) in L; [exact L|].
  apply Rmult_le_pos; apply norm_nn.
Qed.
Lemma col_unit : forall M i, rotation M -> dot3 (mat_col M i) (mat_col M i) = 1.
Proof.
  intros M i RM. pose proof (rotation_ortho M RM) as (U & V & W & _). destruct i as [|[|i]]; [exact U|exact V|exact W].
Qed.
Lemma negative_abs : forall x, Rabs x = (if negative x then - x else x).
Proof. intros x. unfold negative, Rabs. destruct (Rcase_abs x); destruct (Rlt_dec x 0); lra. Qed.
Lemma mul_tr_back : forall w, mul3 A (mul3 (tr A) w) = w.
Proof. intros. apply rot_back, RA. Qed.

Lemma found_world : exists w, chosen w /\ 0 < norm3 w /\ d = reach p1 A sa p2 B sb w / norm3 w
  /\ n = scale3 ((if negative (dot3 w p) then -1 else 1) * / norm3 w) w
  /\ (forall w', In w' (axes A B) -> 0 < norm3 w' -> d <= 105 / 100 * (reach p1 A sa p2 B sb w' / norm3 w'))
  /\ (forall w', box_axis A w' \/ box_axis B w' -> d <= reach p1 A sa p2 B sb w').
Proof.
  destruct (search_some p1 A sa p2 B sb RA RB PA PB s found) as [(t & d0 & I & D & C & Np & Dv & Dl & V & M & All) Sep].
  pose proof (chosen_tests t I C) as Ch. exists (t_axis t).
  assert (Dd : d = - d0) by (unfold sat_value; rewrite D; ring).
  split; [exact Ch|]. split; [exact Np|]. split; [rewrite Dd, Dv; ring|].
  assert (Rn : forall w, In w (axes A B) -> 0 <= reach p1 A sa p2 B sb w) by (intros w Iw; unfold reach; pose proof (Sep w Iw); lra).
  assert (Un : forall w, dot3 w w = 1 -> norm3 w = 1) by (intros; apply unit_norm; assumption).
  split; [|split].
  - unfold sat_world. rewrite V.
    destruct Ch as [(i & Hi & Ci & Wi)|[(i & Hi & Ci & Wi)|(i & j & Hi & Hj & Cij & Wij)]].
    + rewrite Ci, Wi. rewrite (Un (mat_col A i)) by (apply col_unit, RA).
      replace (Nat.leb (S i) 6) with true by (symmetry; apply Nat.leb_le; lia).
      replace (Nat.leb (S i) 3) with true by (symmetry; apply Nat.leb_le; lia).
      replace (S i - 1)%nat with i by lia. rewrite Rinv_1.
      destruct (negative (dot3 (mat_col A i) p)); rewrite Rmult_1_r; [reflexivity|].
      destruct (mat_col A i) as [x y z]. unfold scale3. cbn [c0 c1 c2]. rewrite !Rmult_1_l. reflexivity.
    + rewrite Ci, Wi. rewrite (Un (mat_col B i)) by (apply col_unit, RB).
      replace (Nat.leb (4 + i) 6) with true by (symmetry; apply Nat.leb_le; lia).
      replace (Nat.leb (4 + i) 3) with false by (symmetry; apply Nat.leb_gt; lia).
      replace (4 + i - 4)%nat with i by lia. rewrite Rinv_1.
      destruct (negative (dot3 (mat_col B i) p)); rewrite Rmult_1_r; [reflexivity|].
      destruct (mat_col B i) as [x y z]. unfold scale3. cbn [c0 c1 c2]. rewrite !Rmult_1_l. reflexivity.
    + replace (Nat.leb (sat_code s) 6) with false by (symmetry; apply Nat.leb_gt; lia).
      assert (TE : t_edge t = true).
      { destruct (t_edge t) eqn:TE; [reflexivity|exfalso]. assert (t_code t <= 6)%nat; [|lia].
        clear - I TE. unfold all_tests in I. cbn [In] in I. repeat (destruct I as [<-|I]; [cbn in *; try discriminate; lia|]). destruct I. }
      rewrite (M TE). 
      replace (mul3 A (scale3 (/ norm3 (t_axis t)) (mul3 (tr A) (t_axis t)))) with (scale3 (/ norm3 (t_axis t)) (mul3 A (mul3 (tr A) (t_axis t)))).
      2:{ unfold mul3, scale3, dot3. cbn. f_equal; ring. }
      rewrite mul_tr_back. clear V. destruct (negative (dot3 (t_axis t) p)); unfold scale3; cbn; f_equal; ring.
  - intros w' I' Np'. apply axes_are in I'; try assumption. destruct I' as (t' & I' & <-). specialize (All t' I' Np').
    assert (0 <= reach p1 A sa p2 B sb (t_axis t') / norm3 (t_axis t')).
    { apply Rmult_le_pos; [apply Rn; apply axes_are; try assumption; exists t'; split; [exact I'|reflexivity]|]. apply Rlt_le, Rinv_0_lt_compat, Np'. }
    destruct (t_edge t'); lra.
  - intros w' Hw'.
    assert (X : exists t', In t' (all_tests A B) /\ t_edge t' = false /\ t_axis t' = w').
    { destruct Hw' as [[->|[->| ->]]|[->|[->| ->]]];
        [exists (Tst false (mat_col A 0) 1)|exists (Tst false (mat_col A 1) 2)|exists (Tst false (mat_col A 2) 3)
        |exists (Tst false (mat_col B 0) 4)|exists (Tst false (mat_col B 1) 5)|exists (Tst false (mat_col B 2) 6)];
        (split; [unfold all_tests; cbn [In]; tauto|split; reflexivity]). }
    destruct X as (t' & I' & TE' & <-). pose proof (face_units A B RA RB t' I' TE') as N1.
    specialize (All t' I'). rewrite TE', N1 in All. specialize (All ltac:(lra)). rewrite Dd. lra.
Qed.

Lemma reach_gap : forall w, reach p1 A sa p2 B sb w <= gap w /\ reach p1 A sa p2 B sb w <= gap (neg3 w).
Proof.
  intros w. unfold reach, gap. rewrite width_neg, dot3_neg_l. unfold Rabs. destruct (Rcase_abs _); lra.
Qed.

Theorem found_normal : dot3 n n = 1 /\ 0 <= dot3 n p /\ d = gap n.
Proof.
  destruct found_world as (w & _ & Np & D & N & _ & _). rewrite N, D.
  assert (K : / norm3 w * norm3 w = 1) by (apply Rinv_l; lra). pose proof (Rinv_0_lt_compat _ Np) as Ip. pose proof (norm_sq w) as Q.
  unfold gap, reach. rewrite width_scale, !dot3_scale_l, !dot3_scale_r, negative_abs.
  destruct (negative (dot3 w p)) eqn:Ng; unfold negative in Ng; destruct (Rlt_dec (dot3 w p) 0); try discriminate; cbv iota.
  - split; [rewrite <- Q; transitivity ((/ norm3 w * norm3 w) * (/ norm3 w * norm3 w)); [ring|rewrite K; ring]|]. split; [assert (0 <= / norm3 w * - dot3 w p) by (apply Rmult_le_pos; lra); lra|].
    rewrite Rabs_mult, (Rabs_left (-1)), (Rabs_pos_eq (/ norm3 w)) by lra. unfold Rdiv. ring.
  - split; [rewrite <- Q; transitivity ((/ norm3 w * norm3 w) * (/ norm3 w * norm3 w)); [ring|rewrite K; ring]|]. split; [assert (0 <= / norm3 w * dot3 w p) by (apply Rmult_le_pos; lra); lra|].
    rewrite Rabs_mult, (Rabs_pos_eq 1), (Rabs_pos_eq (/ norm3 w)) by lra. unfold Rdiv. ring.
Qed.

Lemma common : zono G p.
Proof.
  apply zono_support. intros m. destruct (Rle_dec (dot3 m p) (width G m)) as [L|L]; [exact L|exfalso].
  assert (X : exists n, 0 < excess G p n) by (exists m; unfold excess; lra).
  destruct (axes_decide A B sa sb p RA RB PA PB X) as (w & I & K).
  assert (E : search p1 A sa p2 B sb = None) by (apply (search_none p1 A sa p2 B sb RA RB PA PB); exists w; split; assumption).
  congruence.
Qed.
Lemma gap_nn : forall u, 0 <= gap u.
Proof. intros u. unfold gap. pose proof (zono_bound _ _ u common). lra. Qed.
Lemma depth_nn : 0 <= d.
Proof. destruct found_normal as (_ & _ & ->). apply gap_nn. Qed.

Theorem found_faces : forall u, face_of A u \/ face_of B u -> d <= gap u.
Proof.
  intros u Hu. destruct found_world as (w & _ & _ & _ & _ & _ & F).
  assert (X : (box_axis A u \/ box_axis B u) \/ (box_axis A (neg3 u) \/ box_axis B (neg3 u))).
  { destruct Hu as [[K|K]|[K|K]]; [left; left|right; left|left; right|right; right]; exact K. }
  destruct X as [X|X]; pose proof (F _ X) as Y.
  - pose proof (reach_gap u). lra.
  - pose proof (reach_gap (neg3 u)) as [_ Z]. replace (neg3 (neg3 u)) with u in Z; [lra|]. destruct u. unfold neg3. cbn. f_equal; ring.
Qed.

Theorem found_least : forall w, d * norm3 w <= 105 / 100 * gap w.
Proof.
  intros w. destruct (Rle_dec (d * norm3 w) (105 / 100 * gap w)) as [L|L]; [exact L|exfalso].
  pose proof (norm_nn w) as Nn. pose proof (gap_nn w) as Gn. pose proof depth_nn as Dn.
  assert (Np : 0 < norm3 w).
  { destruct (Req_dec (norm3 w) 0) as [E|E]; [rewrite E in L; lra|lra]. }
  set (r := d / (105 / 100)). assert (Rr : r * (105 / 100) = d) by (unfold r; field).
  assert (Rp : 0 <= r) by lra.
  set (t := r / norm3 w). assert (T : t * norm3 w = r) by (unfold t; field; lra).
  assert (Tp : 0 <= t) by (unfold t; apply Rmult_le_pos; [exact Rp|apply Rlt_le, Rinv_0_lt_compat, Np]).
  assert (X : exists m, 0 < excess G (add3 p (scale3 t w)) m).
  { exists w. unfold excess. autorewrite with dots. rewrite <- norm_sq. unfold gap in L. autorewrite with dots in L.
    replace (t * (norm3 w * norm3 w)) with (r * norm3 w) by (rewrite <- T; ring).
    assert (d * norm3 w = 105 / 100 * (r * norm3 w)) by (rewrite <- Rr; ring). lra. }
  destruct (axes_decide A B sa sb _ RA RB PA PB X) as (v & I & K).
  unfold apart_along in K. rewrite dot3_add_r, dot3_scale_r in K.
  pose proof (Rabs_triang (dot3 v p) (t * dot3 v w)) as Tr. rewrite Rabs_mult, (Rabs_pos_eq t Tp) in Tr.
  assert (Cs : t * Rabs (dot3 v w) <= r * norm3 v).
  { rewrite <- T. pose proof (cauchy v w). replace (t * norm3 w * norm3 v) with (t * (norm3 v * norm3 w)) by ring. apply Rmult_le_compat_l; assumption. }
  assert (Rv : reach p1 A sa p2 B sb v < r * norm3 v) by (unfold reach; lra).
  assert (Vp : 0 < norm3 v).
  { pose proof (norm_nn v). destruct (Req_dec (norm3 v) 0) as [E|E]; [|lra]. exfalso. apply norm_zero in E. subst v.
    rewrite !dot3_zero_l, Rmult_0_r, Rplus_0_r, Rabs_R0 in K. pose proof (width_nn G zero3). lra. }
  destruct found_world as (_ & _ & _ & _ & _ & F & _). specialize (F v I Vp).
  assert (Q : reach p1 A sa p2 B sb v / norm3 v < r).
  { apply Rmult_lt_reg_r with (norm3 v); [exact Vp|]. unfold Rdiv. rewrite Rmult_assoc, Rinv_l by lra. lra. }
  lra.
Qed.
End Pair.
