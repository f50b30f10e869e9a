(* One edge against another. *)
From Coq Require Import List Reals Arith Bool Lra Lia.
From Verif Require Import Ccd_Model Lin_Model ContactRb3_Model Rot_Model Rot_Spec Rot_Alg Geom_Spec Geom_Space Boxes_Model Boxes_Spec Boxes_Zono Boxes_Facet Boxes_Sat Boxes_Geom Boxes_Clip Boxes_Face.
Import ListNotations.
Local Open Scope R_scope.

Lemma corner_sum : forall x M s n k, exists t0 t1 t2,
  sub3 (corner x M s n k) x = add3 (add3 (scale3 (t0 * c0 s) (mat_col M 0)) (scale3 (t1 * c1 s) (mat_col M 1))) (scale3 (t2 * c2 s) (mat_col M 2))
  /\ t0 = (if Rlt_dec 0 (dot3 n (mat_col M 0)) then k else - k)
  /\ t1 = (if Rlt_dec 0 (dot3 n (mat_col M 1)) then k else - k)
  /\ t2 = (if Rlt_dec 0 (dot3 n (mat_col M 2)) then k else - k).
Proof.
  intros. do 3 eexists. split; [|repeat split]. unfold corner. cbn [at3].
  set (a := if Rlt_dec 0 (dot3 n (mat_col M 0)) then k else - k). set (b := if Rlt_dec 0 (dot3 n (mat_col M 1)) then k else - k).
  set (c := if Rlt_dec 0 (dot3 n (mat_col M 2)) then k else - k). clearbody a b c.
  generalize (mat_col M 0) (mat_col M 1) (mat_col M 2). intros u v w. unfold sub3, add3, scale3. cbn [c0 c1 c2]. f_equal; ring.
Qed.
Lemma sign_times : forall k x, k * k = 1 -> k * ((if Rlt_dec 0 x then k else - k) * x) = Rabs x.
Proof. intros k x K. unfold Rabs. destruct (Rlt_dec 0 x); destruct (Rcase_abs x); nra. Qed.

(* the corner is as far along n, or against n, as the box goes *)
Lemma corner_top : forall x M s n k, rotation M -> positive3 s -> k * k = 1 ->
  highest (in_box3 x M s) (scale3 k n) (corner x M s n k) /\ k * dot3 n (sub3 (corner x M s n k) x) = width (gens M s) n.
Proof.
  intros x M s n k RM PM K. destruct (corner_sum x M s n k) as (t0 & t1 & t2 & E & T0 & T1 & T2).
  assert (Tt : forall y, (if Rlt_dec 0 y then k else - k) * (if Rlt_dec 0 y then k else - k) = 1) by (intros y; destruct (Rlt_dec 0 y); lra).
  assert (V : k * dot3 n (sub3 (corner x M s n k) x) = width (gens M s) n).
  { rewrite E, !dot3_add_r, !dot3_scale_r. destruct PM as (P0 & P1 & P2). unfold gens. cbn [width]. rewrite !abs_scale by assumption.
    rewrite <- (sign_times k (dot3 n (mat_col M 0)) K), <- (sign_times k (dot3 n (mat_col M 1)) K), <- (sign_times k (dot3 n (mat_col M 2)) K).
    rewrite <- T0, <- T1, <- T2. ring. }
  split; [|exact V]. split.
  - apply in_box_zono; [exact RM|exact PM|]. rewrite E. unfold gens. cbn [zono].
    assert (B : forall t, t * t = 1 -> -1 <= t <= 1) by (intros; nra).
    exists t0. split; [apply B; rewrite T0; apply Tt|]. exists t1. split; [apply B; rewrite T1; apply Tt|]. exists t2. split; [apply B; rewrite T2; apply Tt|].
    generalize (mat_col M 0) (mat_col M 1) (mat_col M 2). intros u v w. unfold sub3, add3, scale3, zero3. cbn [c0 c1 c2]. f_equal; ring.
  - intros y Y. apply in_box_zono in Y; [|exact RM|exact PM]. apply (zono_bound _ _ (scale3 k n)) in Y. rewrite width_scale in Y.
    assert (Ak : Rabs k = 1) by (assert (k = 1 \/ k = -1) as [-> | ->] by nra; [apply Rabs_R1|rewrite Rabs_left; lra]).
    rewrite Ak, Rmult_1_l, <- V in Y. rewrite !dot3_scale_l, !dot3_sub_r in *. lra.
Qed.

Section EdgeCase.
Variables (p1 : v3) (A : m3) (sa p2 : v3) (B : m3) (sb : v3) (s : sat).
Hypothesis RA : rotation A.
Hypothesis RB : rotation B.
Hypothesis PA : positive3 sa.
Hypothesis PB : positive3 sb.
Hypothesis found : search p1 A sa p2 B sb = Some s.
Local Notation n := (sat_world A B s).
Local Notation d := (sat_value s).

Lemma col_axis : forall M i, box_axis M (mat_col M i).
Proof. intros M i. unfold box_axis. destruct i as [|[|i]]; [left|right; left|right; right]; reflexivity. Qed.

Theorem edge_case : (6 < sat_code s)%nat -> edge_contact3 p1 A sa p2 B sb n (edge_point p1 A sa p2 B sb n (sat_code s)) d.
Proof.
  intros Hc. destruct (found_normal p1 A sa p2 B sb RA RB PA PB s found) as (Un & _ & Dg).
  destruct (found_world p1 A sa p2 B sb RA RB PA PB s found) as (w & Ch & Np & _ & Nw & _).
  destruct Ch as [(i & Hi & Ci & _)|[(i & Hi & Ci & _)|(i & j & Hi & Hj & Cij & Wij)]]; [lia|lia|].
  assert (Ei : ((sat_code s - 7) / 3 = i)%nat).
  { rewrite Cij. replace (7 + 3 * i + j - 7)%nat with (i * 3 + j)%nat by lia. rewrite Nat.div_add_l by lia. rewrite Nat.div_small by lia. lia. }
  assert (Ej : ((sat_code s - 7) mod 3 = j)%nat).
  { rewrite Cij. replace (7 + 3 * i + j - 7)%nat with (j + i * 3)%nat by lia. rewrite Nat.mod_add by lia. apply Nat.mod_small. lia. }
  set (ua := mat_col A i) in *. set (ub := mat_col B j) in *.
  assert (Na : dot3 n ua = 0) by (rewrite Nw, dot3_scale_l, Wij, cross_perp_l; ring).
  assert (Nb : dot3 n ub = 0) by (rewrite Nw, dot3_scale_l, Wij, cross_perp_r; ring).
  destruct (corner_top p1 A sa n 1 RA PA ltac:(ring)) as [Ta Va].
  destruct (corner_top p2 B sb n (-1) RB PB ltac:(ring)) as [Tb Vb].
  replace (scale3 1 n) with n in Ta by (destruct n; unfold scale3; cbn; f_equal; ring).
  replace (scale3 (-1) n) with (neg3 n) in Tb by (unfold scale3, neg3; f_equal; ring).
  unfold edge_contact3, edge_point. rewrite Ei, Ej. fold ua ub.
  set (ea := corner p1 A sa n 1) in *. set (eb := corner p2 B sb n (-1)) in *.
  unfold line_closest. cbv zeta.
  destruct (Rle_dec (1 - dot3 ua ub * dot3 ua ub) (1 / 10000)) as [L|L].
  - exists ua, ub, ea, eb, 0, 0. split; [apply col_axis|]. split; [apply col_axis|]. split; [exact Na|]. split; [exact Nb|].
    split; [exact Ta|]. split; [exact Tb|]. split; [reflexivity|]. destruct (Rle_dec _ _); [split; reflexivity|contradiction].
  - set (q1 := dot3 ua (sub3 eb ea)). set (q2 := - dot3 ub (sub3 eb ea)). set (c := dot3 ua ub) in *.
    exists ua, ub, ea, eb, ((q1 + c * q2) * (1 / (1 - c * c))), ((c * q1 + q2) * (1 / (1 - c * c))).
    split; [apply col_axis|]. split; [apply col_axis|]. split; [exact Na|]. split; [exact Nb|].
    split; [exact Ta|]. split; [exact Tb|]. split; [reflexivity|]. fold c. destruct (Rle_dec _ _) as [L'|L']; [contradiction|].
    set (al := (q1 + c * q2) * (1 / (1 - c * c))). set (be := (c * q1 + q2) * (1 / (1 - c * c))).
    set (y := sub3 (add3 ea (scale3 al ua)) (add3 eb (scale3 be ub))).
    assert (Ua : dot3 ua ua = 1) by (apply col_unit, RA). assert (Ub : dot3 ub ub = 1) by (apply col_unit, RB).
    assert (Ya : dot3 y ua = 0).
    { unfold y. autorewrite with dots. rewrite (dot3_comm ub ua), Ua. fold c.
      replace (dot3 ea ua - dot3 eb ua) with (- q1) by (unfold q1; rewrite dot3_sub_r, !(dot3_comm ua); ring).
      assert (X : dot3 ea ua + al * 1 - (dot3 eb ua + be * c) = - q1 + al - be * c) by (unfold q1; rewrite dot3_sub_r, !(dot3_comm ua); ring).
      rewrite X. unfold al, be. field. lra. }
    assert (Yb : dot3 y ub = 0).
    { unfold y. autorewrite with dots. rewrite Ub. fold c.
      assert (X : dot3 ea ub + al * c - (dot3 eb ub + be * 1) = q2 + al * c - be) by (unfold q2; rewrite dot3_sub_r, !(dot3_comm ub); ring).
      rewrite X. unfold al, be. field. lra. }
    assert (Cn : cross3 ua ub <> zero3).
    { intros E. rewrite Wij, E in Np. unfold norm3 in Np. rewrite dot3_zero_r, sqrt_0 in Np. lra. }
    destruct (parallel_normals y n ua ub Ya Yb Na Nb Cn (unit_nonzero _ Un)) as [k K].
    rewrite K. f_equal. 
    assert (Ky : k = dot3 n y) by (rewrite K, dot3_scale_r, Un; ring).
    rewrite Ky, Dg. unfold gap. rewrite width_app, <- Va, <- Vb. unfold y. autorewrite with dots. rewrite Na, Nb. ring.
Qed.
End EdgeCase.
