(* The fifteen tests of the code are the fifteen directions; what the search returns. *)
From Coq Require Import List Reals Arith Bool Lra Lia.
From Verif Require Import Ccd_Model Lin_Model ContactRb3_Model Rot_Model Rot_Spec Rot_Alg Geom_Space Boxes_Model Boxes_Zono Boxes_Facet.
Import ListNotations.
Local Open Scope R_scope.

Section Tests.
Variables (p1 : v3) (A : m3) (sa p2 : v3) (B : m3) (sb : v3).
Hypothesis RA : rotation A.
Hypothesis RB : rotation B.
Hypothesis PA : positive3 sa.
Hypothesis PB : positive3 sb.
Let p := sub3 p2 p1.
Let G := gens A sa ++ gens B sb.
Local Notation a0 := (mat_col A 0). Local Notation a1 := (mat_col A 1). Local Notation a2 := (mat_col A 2).
Local Notation b0 := (mat_col B 0). Local Notation b1 := (mat_col B 1). Local Notation b2 := (mat_col B 2).

Record tst := Tst { t_edge : bool; t_axis : v3; t_code : nat }.
Definition run_one (t : tst) (s : sat) : option sat :=
  if t_edge t then
    let m := mul3 (tr A) (t_axis t) in
    edge_test (dot3 (t_axis t) p) (width G (t_axis t)) (c0 m) (c1 m) (c2 m) (t_code t) s
  else axis_test (dot3 (t_axis t) p) (width G (t_axis t)) (t_code t) s.
Definition all_tests : list tst :=
  [ Tst false a0 1; Tst false a1 2; Tst false a2 3; Tst false b0 4; Tst false b1 5; Tst false b2 6;
    Tst true (cross3 a0 b0) 7; Tst true (cross3 a0 b1) 8; Tst true (cross3 a0 b2) 9;
    Tst true (cross3 a1 b0) 10; Tst true (cross3 a1 b1) 11; Tst true (cross3 a1 b2) 12;
    Tst true (cross3 a2 b0) 13; Tst true (cross3 a2 b1) 14; Tst true (cross3 a2 b2) 15 ].

Lemma ent_rel : forall i j, (i < 3)%nat -> (j < 3)%nat -> ent (mm (tr A) B) i j = dot3 (mat_col A i) (mat_col B j).
Proof.
  intros i j Hi Hj. destruct i as [|[|[|i]]]; [| | |lia]; (destruct j as [|[|[|j]]]; [| | |lia]);
    unfold ent, mm, vmul, mul3, tr, mat_col, at3, dot3; cbn; ring.
Qed.
Lemma ent_abs : forall M i j, (i < 3)%nat -> (j < 3)%nat -> ent (abs_mat M) i j = Rabs (ent M i j).
Proof.
  intros M i j Hi Hj. destruct i as [|[|[|i]]]; [| | |lia]; (destruct j as [|[|[|j]]]; [| | |lia]); reflexivity.
Qed.
Lemma tripA : forall u v w, dot3 (cross3 u v) w = dot3 (cross3 w u) v.
Proof. intros. unfold dot3, cross3. cbn. ring. Qed.
Lemma tripB : forall u v w, dot3 (cross3 u v) w = dot3 u (cross3 v w).
Proof. intros. unfold dot3, cross3. cbn. ring. Qed.
Lemma cross_swap : forall u v w, cross3 u v = w -> cross3 v u = neg3 w.
Proof. intros u v w <-. unfold cross3, neg3. cbn. f_equal; ring. Qed.
Lemma cross_same : forall u, cross3 u u = zero3.
Proof. intros. unfold cross3, zero3. cbn. f_equal; ring. Qed.
Lemma abs_scale : forall w k u, 0 < k -> Rabs (dot3 w (scale3 k u)) = k * Rabs (dot3 w u).
Proof. intros w k u K. rewrite dot3_scale_r, Rabs_mult, (Rabs_pos_eq k) by lra. reflexivity. Qed.

Lemma width_cols : forall w, width G w =
  c0 sa * Rabs (dot3 w a0) + c1 sa * Rabs (dot3 w a1) + c2 sa * Rabs (dot3 w a2)
  + (c0 sb * Rabs (dot3 w b0) + c1 sb * Rabs (dot3 w b1) + c2 sb * Rabs (dot3 w b2)).
Proof.
  intros w. destruct PA as (A0 & A1 & A2). destruct PB as (B0 & B1 & B2).
  unfold G, gens. cbn [app width]. rewrite !abs_scale by assumption. ring.
Qed.

Lemma local_axis : forall w, mul3 (tr A) w = V3 (dot3 w a0) (dot3 w a1) (dot3 w a2).
Proof. intros w. unfold mul3, tr, mat_col, at3, dot3. cbn. f_equal; ring. Qed.
Lemma local_axis' : forall w, mul3 (tr B) w = V3 (dot3 w b0) (dot3 w b1) (dot3 w b2).
Proof. intros w. unfold mul3, tr, mat_col, at3, dot3. cbn. f_equal; ring. Qed.

Lemma tests_are : tests p1 A sa p2 B sb = map run_one all_tests.
Proof.
  pose proof (rotation_ortho A RA) as (U & V & W & UV & UW & VW).
  pose proof (rotation_ortho B RB) as (U' & V' & W' & UV' & UW' & VW').
  assert (VU := UV). rewrite dot3_comm in VU. assert (WU := UW). rewrite dot3_comm in WU. assert (WV := VW). rewrite dot3_comm in WV.
  assert (VU' := UV'). rewrite dot3_comm in VU'. assert (WU' := UW'). rewrite dot3_comm in WU'. assert (WV' := VW'). rewrite dot3_comm in WV'.
  pose proof (frame_cross A RA) as (C01 & C12 & C20). pose proof (frame_cross B RB) as (D01 & D12 & D20).
  pose proof (cross_swap _ _ _ C01) as C10. pose proof (cross_swap _ _ _ C12) as C21. pose proof (cross_swap _ _ _ C20) as C02.
  pose proof (cross_swap _ _ _ D01) as D10. pose proof (cross_swap _ _ _ D12) as D21. pose proof (cross_swap _ _ _ D20) as D02.
  assert (Dist : forall w, dot3 w p = dot3 w a0 * dot3 p a0 + dot3 w a1 * dot3 p a1 + dot3 w a2 * dot3 p a2) by (intros; apply frame_dot, RA).
  assert (RR : forall i j, (i < 3)%nat -> (j < 3)%nat -> ent (mm (tr A) B) i j = dot3 (mat_col A i) (mat_col B j)) by exact ent_rel.
  assert (QQ : forall i j, (i < 3)%nat -> (j < 3)%nat -> ent (abs_mat (mm (tr A) B)) i j = Rabs (dot3 (mat_col A i) (mat_col B j)))
    by (intros; rewrite ent_abs, ent_rel by assumption; reflexivity).
  assert (KA : forall u v k, dot3 (cross3 u v) k = dot3 (cross3 k u) v) by exact tripA.
  unfold tests, all_tests. cbn [map]. unfold run_one. cbn [t_edge t_axis t_code].
  rewrite !RR, !QQ by lia. fold p. rewrite !local_axis, local_axis'. cbn [c0 c1 c2 at3].
  rewrite !width_cols.
  assert (QbA : forall i, (i < 3)%nat -> at3 (mul3 (abs_mat (mm (tr A) B)) sb) i
     = c0 sb * Rabs (dot3 (mat_col A i) b0) + c1 sb * Rabs (dot3 (mat_col A i) b1) + c2 sb * Rabs (dot3 (mat_col A i) b2)).
  { intros i Hi.
    replace (at3 (mul3 (abs_mat (mm (tr A) B)) sb) i) with
      (ent (abs_mat (mm (tr A) B)) i 0 * c0 sb + ent (abs_mat (mm (tr A) B)) i 1 * c1 sb + ent (abs_mat (mm (tr A) B)) i 2 * c2 sb)
      by (destruct i as [|[|[|i]]]; [| | |lia]; unfold mul3, ent, dot3; reflexivity).
    rewrite !QQ by lia. ring. }
  assert (QTB : forall i, (i < 3)%nat -> at3 (mul3 (tr (abs_mat (mm (tr A) B))) sa) i
     = c0 sa * Rabs (dot3 (mat_col B i) a0) + c1 sa * Rabs (dot3 (mat_col B i) a1) + c2 sa * Rabs (dot3 (mat_col B i) a2)).
  { intros i Hi.
    replace (at3 (mul3 (tr (abs_mat (mm (tr A) B))) sa) i) with
      (ent (abs_mat (mm (tr A) B)) 0 i * c0 sa + ent (abs_mat (mm (tr A) B)) 1 i * c1 sa + ent (abs_mat (mm (tr A) B)) 2 i * c2 sa)
      by (destruct i as [|[|[|i]]]; [| | |lia]; unfold mul3, ent, dot3, tr; reflexivity).
    rewrite !QQ by lia. rewrite !(dot3_comm _ (mat_col B i)). ring. }
  pose proof (QbA 0%nat ltac:(lia)) as Q0. pose proof (QbA 1%nat ltac:(lia)) as Q1. pose proof (QbA 2%nat ltac:(lia)) as Q2.
  pose proof (QTB 0%nat ltac:(lia)) as T0. pose proof (QTB 1%nat ltac:(lia)) as T1. pose proof (QTB 2%nat ltac:(lia)) as T2.
  cbn [at3] in Q0, Q1, Q2, T0, T1, T2.
  unfold add3. cbn [c0 c1 c2]. rewrite Q0, Q1, Q2, T0, T1, T2.
  assert (R0 : Rabs 0 = 0) by apply Rabs_R0. assert (R1 : Rabs 1 = 1) by apply Rabs_R1.
  rewrite !(Dist (cross3 _ _)).
  rewrite !(tripB _ _ b0), !(tripB _ _ b1), !(tripB _ _ b2), !(tripA _ _ a0), !(tripA _ _ a1), !(tripA _ _ a2).
  rewrite ?C01, ?C12, ?C20, ?C10, ?C21, ?C02, ?D01, ?D12, ?D20, ?D10, ?D21, ?D02, ?cross_same.
  rewrite ?dot3_neg_l, ?dot3_neg_r, ?dot3_zero_l, ?dot3_zero_r, ?Rabs_Ropp.
  rewrite ?U, ?V, ?W, ?UV, ?UW, ?VW, ?VU, ?WU, ?WV, ?U', ?V', ?W', ?UV', ?UW', ?VW', ?VU', ?WU', ?WV', ?R0, ?R1.
  assert (EE : forall d d' w w' x x' y y' z z' k, d = d' -> w = w' -> x = x' -> y = y' -> z = z' ->
    edge_test d w x y z k = fun s => edge_test d' w' x' y' z' k s) by (intros; subst; reflexivity).
  assert (AE : forall d d' w w' k, d = d' -> w = w' -> axis_test d w k = fun s => axis_test d' w' k s) by (intros; subst; reflexivity).
  repeat (apply f_equal2; [first [apply AE|apply EE]; rewrite ?(dot3_comm p), ?(dot3_comm b0), ?(dot3_comm b1), ?(dot3_comm b2); ring|]).
  reflexivity.
Qed.

(* ---------- the search ---------- *)
(* how far the boxes reach into each other along w *)
Definition reach (w : v3) : R := width G w - Rabs (dot3 w p).
Definition norm3 (w : v3) : R := sqrt (dot3 w w).

(* the state found so far: the least of the overlaps up to the fudge factor *)
Definition fits (done : list tst) (s : sat) : Prop :=
  exists t d, In t done /\ sat_depth s = Some d /\ sat_code s = t_code t /\ 0 < norm3 (t_axis t)
    /\ d = - (reach (t_axis t) / norm3 (t_axis t)) /\ d <= 0
    /\ sat_invert s = negative (dot3 (t_axis t) p)
    /\ (t_edge t = true -> sat_normal s = scale3 (/ norm3 (t_axis t)) (mul3 (tr A) (t_axis t)))
    /\ (forall t', In t' done -> 0 < norm3 (t_axis t') -> - d <= (if t_edge t' then 105 / 100 else 1) * (reach (t_axis t') / norm3 (t_axis t'))).

Lemma norm_local : forall w, c0 (mul3 (tr A) w) * c0 (mul3 (tr A) w) + c1 (mul3 (tr A) w) * c1 (mul3 (tr A) w) + c2 (mul3 (tr A) w) * c2 (mul3 (tr A) w) = dot3 w w.
Proof. intros w. rewrite <- (rot_dot (tr A) w w) by (apply rotation_tr, RA). reflexivity. Qed.

Lemma step_none : forall t s, run_one t s = None <-> apart_along G p (t_axis t).
Proof.
  intros t s. unfold run_one, edge_test, axis_test, apart_along. cbn zeta.
  destruct (t_edge t).
  - destruct (Rlt_dec 0 (Rabs (dot3 (t_axis t) p) - width G (t_axis t))) as [H|H].
    + split; intros; [lra|reflexivity].
    + split; [|intros; lra]. destruct (Rlt_dec 0 _); intros E; discriminate.
  - destruct (Rlt_dec 0 (Rabs (dot3 (t_axis t) p) - width G (t_axis t))) as [H|H].
    + split; intros; [lra|reflexivity].
    + split; [intros E; discriminate|intros; lra].
Qed.

Lemma step_some : forall t s s' done, run_one t s = Some s' -> (t_edge t = false -> norm3 (t_axis t) = 1) ->
  (done = [] /\ s = first_sat /\ t_edge t = false) \/ fits done s -> fits (done ++ [t]) s'.
Proof.
  intros t s s' done E N1 Hs. unfold run_one, edge_test, axis_test in E. cbn zeta in E.
  rewrite norm_local in E. fold (norm3 (t_axis t)) in E.
  destruct (t_edge t) eqn:TE.
  - destruct Hs as [(_ & _ & K)|(t0 & d & I0 & D0 & C0 & P0 & R0 & L0 & V0 & M0 & A0)]; [discriminate|].
    destruct (Rlt_dec 0 (Rabs (dot3 (t_axis t) p) - width G (t_axis t))) as [H|H]; [discriminate|].
    destruct (Rlt_dec 0 (norm3 (t_axis t))) as [Np|Np].
    + match type of E with Some ?x = Some s' => assert (EE : s' = x) by congruence; clear E; subst s' end. rewrite D0. unfold above.
      assert (RV : (Rabs (dot3 (t_axis t) p) - width G (t_axis t)) / norm3 (t_axis t) = - (reach (t_axis t) / norm3 (t_axis t)))
        by (unfold reach; field; lra).
      rewrite RV. set (r := reach (t_axis t) / norm3 (t_axis t)) in *.
      assert (Rr : 0 <= r).
      { unfold r, reach. apply Rmult_le_pos; [lra|]. apply Rlt_le, Rinv_0_lt_compat, Np. }
      destruct (Rlt_dec d (- r * (105 / 100))) as [K|K].
      * exists t, (- r). cbn [sat_depth sat_code sat_invert sat_normal].
        split; [apply in_or_app; right; left; reflexivity|]. split; [reflexivity|]. split; [reflexivity|]. split; [exact Np|].
        split; [reflexivity|]. split; [lra|]. split; [reflexivity|]. split.
        { intros _. unfold scale3, Rdiv. f_equal; ring. }
        intros t' I' Np'. apply in_app_or in I'. destruct I' as [I'|[<-|[]]].
        -- specialize (A0 t' I' Np'). lra.
        -- rewrite TE. fold r. lra.
      * exists t0, d. split; [apply in_or_app; left; exact I0|]. do 7 (split; [assumption|]).
        intros t' I' Np'. apply in_app_or in I'. destruct I' as [I'|[<-|[]]]; [apply A0; assumption|]. rewrite TE. fold r. lra.
    + match type of E with Some ?x = Some s' => assert (EE : s' = x) by congruence; clear E; subst s' end. exists t0, d. split; [apply in_or_app; left; exact I0|]. do 7 (split; [assumption|]).
      intros t' I' Np'. apply in_app_or in I'. destruct I' as [I'|[<-|[]]]; [apply A0; assumption|contradiction].
  - specialize (N1 eq_refl).
    destruct (Rlt_dec 0 (Rabs (dot3 (t_axis t) p) - width G (t_axis t))) as [H|H]; [discriminate|].
    match type of E with Some ?x = Some s' => assert (EE : s' = x) by congruence; clear E; subst s' end.
    assert (RV : Rabs (dot3 (t_axis t) p) - width G (t_axis t) = - (reach (t_axis t) / norm3 (t_axis t))) by (unfold reach; rewrite N1; field).
    rewrite RV. set (r := reach (t_axis t) / norm3 (t_axis t)) in *.
    assert (Rr : 0 <= r) by lra.
    assert (New : forall m, (forall t', In t' done -> 0 < norm3 (t_axis t') -> r <= (if t_edge t' then 105 / 100 else 1) * (reach (t_axis t') / norm3 (t_axis t'))) ->
      fits (done ++ [t]) (Sat (Some (- r)) (negative (dot3 (t_axis t) p)) (t_code t) m)).
    { intros m Hall. exists t, (- r). cbn [sat_depth sat_code sat_invert sat_normal].
      split; [apply in_or_app; right; left; reflexivity|]. split; [reflexivity|]. split; [reflexivity|]. split; [rewrite N1; lra|].
      split; [reflexivity|]. split; [lra|]. split; [reflexivity|]. split; [rewrite TE; discriminate|].
      intros t' I' Np'. apply in_app_or in I'. destruct I' as [I'|[<-|[]]].
      - specialize (Hall t' I' Np'). lra.
      - rewrite TE. fold r. lra. }
    destruct Hs as [(-> & -> & _)|(t0 & d & I0 & D0 & C0 & P0 & R0 & L0 & V0 & M0 & A0)].
    + cbn [above first_sat sat_depth]. apply New. intros t' [].
    + rewrite D0. unfold above. destruct (Rlt_dec d (- r)) as [K|K].
      * apply New. intros t' I' Np'. specialize (A0 t' I' Np'). lra.
      * exists t0, d. split; [apply in_or_app; left; exact I0|]. do 7 (split; [assumption|]).
        intros t' I' Np'. apply in_app_or in I'. destruct I' as [I'|[<-|[]]]; [apply A0; assumption|]. rewrite TE. fold r. lra.
Qed.

Lemma run_none : forall ts s, run_tests (map run_one ts) s = None -> exists t, In t ts /\ apart_along G p (t_axis t).
Proof.
  induction ts as [|t ts IH]; intros s E; cbn in E; [discriminate|].
  destruct (run_one t s) as [s'|] eqn:O.
  - destruct (IH s' E) as (t' & I & K). exists t'. split; [right; exact I|exact K].
  - exists t. split; [left; reflexivity|]. apply (step_none t s), O.
Qed.
Lemma run_some : forall ts done s s', run_tests (map run_one ts) s = Some s' ->
  (forall t, In t ts -> t_edge t = false -> norm3 (t_axis t) = 1) ->
  fits done s -> fits (done ++ ts) s' /\ (forall t, In t ts -> ~ apart_along G p (t_axis t)).
Proof.
  induction ts as [|t ts IH]; intros done s s' E N F; cbn in E.
  - injection E as <-. rewrite app_nil_r. split; [exact F|intros t []].
  - destruct (run_one t s) as [s1|] eqn:O; [|discriminate].
    destruct (IH (done ++ [t]) s1 s' E) as [F' K].
    + intros t' I. apply N. right. exact I.
    + apply (step_some t s s1 done O); [apply N; left; reflexivity|right; exact F].
    + split; [rewrite <- app_assoc in F'; exact F'|]. intros t' [<-|I]; [|apply K; exact I].
      intros C. apply (step_none t s) in C. congruence.
Qed.

Lemma unit_norm : forall w, dot3 w w = 1 -> norm3 w = 1.
Proof. intros w E. unfold norm3. rewrite E. apply sqrt_1. Qed.

Lemma face_units : forall t, In t all_tests -> t_edge t = false -> norm3 (t_axis t) = 1.
Proof.
  intros t I E. pose proof (rotation_ortho A RA) as (U & V & W & _). pose proof (rotation_ortho B RB) as (U' & V' & W' & _).
  unfold all_tests in I. cbn [In] in I. repeat (destruct I as [<-|I]; [cbn [t_edge t_axis] in *; try discriminate; apply unit_norm; assumption|]). destruct I.
Qed.

Lemma axes_are : forall w, In w (axes A B) <-> exists t, In t all_tests /\ t_axis t = w.
Proof.
  intros w. change (axes A B) with (map t_axis all_tests). rewrite in_map_iff. split; intros (t & X & Y); exists t; split; assumption.
Qed.

Theorem search_none : search p1 A sa p2 B sb = None <-> exists w, In w (axes A B) /\ apart_along G p w.
Proof.
  unfold search. rewrite tests_are. split.
  - intros E. apply run_none in E. destruct E as (t & I & K). exists (t_axis t). split; [|exact K]. apply axes_are. exists t. split; [exact I|reflexivity].
  - intros (w & I & K). apply axes_are in I. destruct I as (t & I & <-).
    assert (Hn : forall ts s, In t ts -> run_tests (map run_one ts) s = None).
    { induction ts as [|t0 ts IH]; intros s J; [destruct J|]. cbn. destruct (run_one t0 s) as [s1|] eqn:O; [|reflexivity].
      destruct J as [<-|J]; [|apply IH; exact J]. apply (step_none t0 s) in K. congruence. }
    apply Hn, I.
Qed.
Theorem search_some : forall s, search p1 A sa p2 B sb = Some s -> fits all_tests s /\ forall w, In w (axes A B) -> Rabs (dot3 w p) <= width G w.
Proof.
  intros s E. unfold search in E. rewrite tests_are in E.
  assert (N := face_units).
  unfold all_tests in E, N. cbn [map run_tests] in E.
  destruct (run_one (Tst false a0 1) first_sat) as [s1|] eqn:O; [|discriminate].
  match type of E with context [run_one ?t s1] => idtac end.
  set (rest := tl all_tests).
  assert (E' : run_tests (map run_one rest) s1 = Some s) by exact E.
  destruct (run_some rest [Tst false a0 1] s1 s E') as [F K].
  - intros t I. apply N. right. exact I.
  - apply (step_some _ _ _ [] O); [|left; repeat split]. intros _. apply N; [left; reflexivity|reflexivity].
  - split; [exact F|]. intros w I. apply axes_are in I. destruct I as (t & I & <-).
    destruct (Rle_dec (Rabs (dot3 (t_axis t) p)) (width G (t_axis t))) as [L|L]; [exact L|exfalso].
    assert (AP : apart_along G p (t_axis t)) by (unfold apart_along; lra).
    destruct I as [<-|I]; [apply (step_none _ first_sat) in AP; congruence|]. apply (K t I AP).
Qed.
End Tests.
