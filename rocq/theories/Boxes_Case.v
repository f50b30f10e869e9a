(* The two ways the code makes contacts, in terms of the two boxes as sets. *)
From Coq Require Import List Reals Arith Bool Lra Lia.
From Verif Require Import Ccd_Model Lin_Model ContactRb3_Model Rot_Model Rot_Spec Rot_Alg Geom_Spec Geom_Space Boxes_Model Boxes_Spec Boxes_Zono Boxes_Facet Boxes_Sat Boxes_Geom Boxes_Clip Boxes_Face Boxes_Points.
Import ListNotations.
Local Open Scope R_scope.

(* ---------- the axes of a box in the order the code takes them ---------- *)
Definition perm3 (l a b : nat) : Prop := (l = 0 /\ a = 1 /\ b = 2)%nat \/ (l = 1 /\ a = 0 /\ b = 2)%nat \/ (l = 2 /\ a = 0 /\ b = 1)%nat.
Lemma other_perm : forall k, (k < 3)%nat -> perm3 k (fst (other_axes k)) (snd (other_axes k)).
Proof. intros k K. unfold perm3, other_axes. destruct k as [|[|[|k]]]; cbn; lia. Qed.
Lemma incident_spec : forall a, exists l i j, incident_axes a = (l, i, j) /\ perm3 l i j /\ at3 a i <= at3 a l /\ at3 a j <= at3 a l.
Proof.
  intros a. unfold incident_axes, perm3.
  destruct (Rlt_dec (c0 a) (c1 a)); [destruct (Rlt_dec (c2 a) (c1 a))|destruct (Rlt_dec (c2 a) (c0 a))];
    do 3 eexists; (split; [reflexivity|]); (split; [lia|]); cbn [at3]; lra.
Qed.
Lemma perm_ortho : forall M l i j k, rotation M -> perm3 l i j -> k * k = 1 -> ortho (scale3 k (mat_col M l)) (mat_col M i) (mat_col M j).
Proof.
  intros M l i j k RM P K. pose proof (rotation_ortho M RM) as (U & V & W & UV & UW & VW).
  unfold ortho. autorewrite with dots.
  destruct P as [(-> & -> & ->)|[(-> & -> & ->)|(-> & -> & ->)]]; rewrite ?(dot3_comm (mat_col M 1) (mat_col M 0)), ?(dot3_comm (mat_col M 2) (mat_col M 0)), ?(dot3_comm (mat_col M 2) (mat_col M 1)), ?U, ?V, ?W, ?UV, ?UW, ?VW;
    repeat split; lra.
Qed.
Lemma sign_abs : forall k x, k * k = 1 -> Rabs (k * x) = Rabs x.
Proof. intros k x K. rewrite Rabs_mult. assert (E : k = 1 \/ k = -1) by nra. destruct E as [-> | ->]; [rewrite Rabs_R1|rewrite Rabs_left by lra]; ring. Qed.
Lemma perm_box : forall x M s l i j k y, perm3 l i j -> k * k = 1 -> (in_box3 x M s y <->
  Rabs (dot3 (scale3 k (mat_col M l)) (sub3 y x)) <= at3 s l /\ Rabs (dot3 (mat_col M i) (sub3 y x)) <= at3 s i /\ Rabs (dot3 (mat_col M j) (sub3 y x)) <= at3 s j).
Proof.
  intros x M s l i j k y P K. rewrite in_box_cols, dot3_scale_l, (sign_abs _ _ K).
  destruct P as [(-> & -> & ->)|[(-> & -> & ->)|(-> & -> & ->)]]; cbn [at3]; tauto.
Qed.
Lemma perm_deep : forall x M s l i j k y, perm3 l i j -> k * k = 1 -> (deep_in x M s y <->
  Rabs (dot3 (scale3 k (mat_col M l)) (sub3 y x)) < at3 s l /\ Rabs (dot3 (mat_col M i) (sub3 y x)) < at3 s i /\ Rabs (dot3 (mat_col M j) (sub3 y x)) < at3 s j).
Proof.
  intros x M s l i j k y P K. rewrite dot3_scale_l, (sign_abs _ _ K). unfold deep_in.
  change (row0 (tr M)) with (mat_col M 0). change (row1 (tr M)) with (mat_col M 1). change (row2_ (tr M)) with (mat_col M 2).
  destruct P as [(-> & -> & ->)|[(-> & -> & ->)|(-> & -> & ->)]]; cbn [at3]; tauto.
Qed.
Lemma perm_pos : forall s l i j, positive3 s -> perm3 l i j -> 0 < at3 s l /\ 0 < at3 s i /\ 0 < at3 s j.
Proof. intros s l i j (P0 & P1 & P2) P. destruct P as [(-> & -> & ->)|[(-> & -> & ->)|(-> & -> & ->)]]; cbn [at3]; tauto. Qed.
Lemma perm_axis : forall M l i j m, perm3 l i j -> (box_axis M m <-> m = mat_col M l \/ m = mat_col M i \/ m = mat_col M j).
Proof.
  intros M l i j m P. unfold box_axis.
  change (row0 (tr M)) with (mat_col M 0). change (row1 (tr M)) with (mat_col M 1). change (row2_ (tr M)) with (mat_col M 2).
  destruct P as [(-> & -> & ->)|[(-> & -> & ->)|(-> & -> & ->)]]; tauto.
Qed.
Lemma perm_width : forall M s l i j k n, positive3 s -> perm3 l i j -> k * k = 1 ->
  width (gens M s) n = at3 s l * Rabs (dot3 n (scale3 k (mat_col M l))) + at3 s i * Rabs (dot3 n (mat_col M i)) + at3 s j * Rabs (dot3 n (mat_col M j)).
Proof.
  intros M s l i j k n (P0 & P1 & P2) P K. rewrite dot3_scale_r, (sign_abs _ _ K). unfold gens. cbn [width]. rewrite !abs_scale by assumption.
  destruct P as [(-> & -> & ->)|[(-> & -> & ->)|(-> & -> & ->)]]; cbn [at3]; ring.
Qed.
Lemma perm_face : forall M l i j k, perm3 l i j -> k * k = 1 -> face_of M (scale3 k (mat_col M l)).
Proof.
  intros M l i j k P K. assert (E : k = 1 \/ k = -1) by nra. destruct E as [-> | ->]; [left|right]; apply (perm_axis M l i j _ P); left;
    destruct (mat_col M l) as [x y z]; unfold scale3, neg3; cbn [c0 c1 c2]; f_equal; ring.
Qed.

(* ---------- the top of a box ---------- *)
Section Top.
Variables (S : v3 -> Prop) (x z f1 f2 : v3) (k0 k1 k2 : R).
Hypothesis O : ortho z f1 f2.
Hypothesis K0 : 0 < k0.
Hypothesis K1 : 0 < k1.
Hypothesis K2 : 0 < k2.
Hypothesis SS : forall y, S y <-> Rabs (dot3 z (sub3 y x)) <= k0 /\ Rabs (dot3 f1 (sub3 y x)) <= k1 /\ Rabs (dot3 f2 (sub3 y x)) <= k2.

Lemma top_is : forall y, highest S z y <-> dot3 z (sub3 y x) = k0 /\ Rabs (dot3 f1 (sub3 y x)) <= k1 /\ Rabs (dot3 f2 (sub3 y x)) <= k2.
Proof.
  intros y. unfold highest. destruct O as (Z & F1 & F2 & Z1 & Z2 & F12). split.
  - intros [H M]. apply SS in H. destruct H as (B0 & B1 & B2). split; [|split; assumption].
    assert (T : S (add3 y (scale3 (k0 - dot3 z (sub3 y x)) z))).
    { apply SS. replace (sub3 (add3 y (scale3 (k0 - dot3 z (sub3 y x)) z)) x) with (add3 (sub3 y x) (scale3 (k0 - dot3 z (sub3 y x)) z))
        by (unfold add3, sub3; cbn [c0 c1 c2]; f_equal; ring).
      rewrite !(dot3_add_r _ (sub3 y x)), !dot3_scale_r, Z, (dot3_comm f1 z), (dot3_comm f2 z), Z1, Z2, !Rmult_0_r, !Rplus_0_r.
      split; [|split; assumption]. apply Rabs_le. lra. }
    specialize (M _ T). replace (sub3 (add3 y (scale3 (k0 - dot3 z (sub3 y x)) z)) y) with (scale3 (k0 - dot3 z (sub3 y x)) z) in M
      by (unfold add3, sub3, scale3; cbn [c0 c1 c2]; f_equal; ring).
    rewrite dot3_scale_r, Z in M. unfold Rabs in B0. destruct (Rcase_abs _); lra.
  - intros (B0 & B1 & B2). split; [apply SS; split; [rewrite B0; apply Rabs_le; lra|split; assumption]|].
    intros y' H'. apply SS in H'. destruct H' as (B0' & _). rewrite !dot3_sub_r in *. unfold Rabs in B0'. destruct (Rcase_abs _); lra.
Qed.
Lemma below_is : forall y e, below S z y e <-> e = k0 - dot3 z (sub3 y x).
Proof.
  intros y e. unfold below. split.
  - intros (t & H & E). apply top_is in H. destruct H as (H & _). rewrite !dot3_sub_r in *. lra.
  - intros ->. exists (add3 x (scale3 k0 z)). destruct O as (Z & F1 & F2 & Z1 & Z2 & F12). split.
    + apply top_is. rewrite sub_add3, !dot3_scale_r, Z, (dot3_comm f1 z), (dot3_comm f2 z), Z1, Z2, Rmult_0_r, Rabs_R0. lra.
    + rewrite !dot3_sub_r, dot3_add_r, dot3_scale_r, Z. ring.
Qed.
End Top.

(* ---------- a face against a box ---------- *)
Section FaceCase.
Variables (pa : v3) (Ra : m3) (Sa pb : v3) (Rb : m3) (Sb : v3) (sg : R) (N : nat).
Hypothesis RA : rotation Ra.
Hypothesis RB : rotation Rb.
Hypothesis PA : positive3 Sa.
Hypothesis PB : positive3 Sb.
Hypothesis HN : (N < 3)%nat.
Hypothesis Sg : sg * sg = 1.
Local Notation n := (scale3 sg (mat_col Ra N)).
Local Notation d := (gap pa Ra Sa pb Rb Sb n).
Hypothesis D0 : 0 <= d.
Hypothesis least : forall u, d * norm3 u <= 105 / 100 * gap pa Ra Sa pb Rb Sb u.
Local Notation q := (sub3 pb pa).
Local Notation points := (face_points pa Ra Sa pb Rb Sb n N).

Lemma face_frame : exists l i j k, perm3 l i j /\ k * k = 1
  /\ 0 < dot3 (scale3 k (mat_col Rb l)) n
  /\ Rabs (dot3 (mat_col Rb i) n) <= dot3 (scale3 k (mat_col Rb l)) n /\ Rabs (dot3 (mat_col Rb j) n) <= dot3 (scale3 k (mat_col Rb l)) n
  /\ points = gen_points pa (mat_col Ra (fst (other_axes N))) (mat_col Ra (snd (other_axes N))) (mat_col Rb i) (mat_col Rb j)
       (sub3 q (scale3 (at3 Sb l) (scale3 k (mat_col Rb l)))) n (at3 Sa N) (at3 Sa (fst (other_axes N))) (at3 Sa (snd (other_axes N))) (at3 Sb i) (at3 Sb j).
Proof.
  destruct (incident_spec (abs3 (mul3 (tr Rb) n))) as (l & i & j & E & P & Li & Lj).
  assert (At : forall m, at3 (mul3 (tr Rb) n) m = dot3 (mat_col Rb m) n).
  { intros m. destruct m as [|[|m]]; reflexivity. }
  assert (Ab : forall m, at3 (abs3 (mul3 (tr Rb) n)) m = Rabs (dot3 (mat_col Rb m) n)).
  { intros m. rewrite <- At. destruct m as [|[|m]]; reflexivity. }
  rewrite !Ab in Li, Lj.
  exists l, i, j, (if Rlt_dec (at3 (mul3 (tr Rb) n) l) 0 then -1 else 1).
  assert (K : (if Rlt_dec (at3 (mul3 (tr Rb) n) l) 0 then -1 else 1) * (if Rlt_dec (at3 (mul3 (tr Rb) n) l) 0 then -1 else 1) = 1) by (destruct (Rlt_dec _ _); ring).
  assert (Cv : dot3 (scale3 (if Rlt_dec (at3 (mul3 (tr Rb) n) l) 0 then -1 else 1) (mat_col Rb l)) n = Rabs (dot3 (mat_col Rb l) n)).
  { rewrite dot3_scale_l, At. unfold Rabs. set (y := dot3 (mat_col Rb l) n); clearbody y; destruct (Rlt_dec y 0) as [L1|L1]; destruct (Rcase_abs y) as [L2|L2]; lra. }
  split; [exact P|]. split; [exact K|]. rewrite Cv. split; [|split; [exact Li|split; [exact Lj|]]].
  - assert (NN : dot3 n n = 1) by (rewrite dot3_scale_l, dot3_scale_r, (col_unit Ra N RA); lra).
    assert (O1 : ortho (scale3 1 (mat_col Rb l)) (mat_col Rb i) (mat_col Rb j)) by (apply perm_ortho; [exact RB|exact P|ring]).
    pose proof (frame_pair _ _ _ n n O1) as F. rewrite NN in F. rewrite dot3_scale_r, !(dot3_comm n) in F.
    destruct (Req_dec (dot3 (mat_col Rb l) n) 0) as [Z|Z]; [exfalso|apply Rabs_pos_lt; exact Z].
    rewrite Z, Rabs_R0 in *. 
    assert (dot3 (mat_col Rb i) n = 0) by (unfold Rabs in Li; destruct (Rcase_abs _); lra).
    assert (dot3 (mat_col Rb j) n = 0) by (unfold Rabs in Lj; destruct (Rcase_abs _); lra). nra.
  - unfold face_points. rewrite E. destruct (other_axes N) as [o1 o2]. cbn [fst snd].
    assert (Ec : (if Rlt_dec (at3 (mul3 (tr Rb) n) l) 0 then add3 q (scale3 (at3 Sb l) (mat_col Rb l)) else sub3 q (scale3 (at3 Sb l) (mat_col Rb l)))
      = sub3 q (scale3 (at3 Sb l) (scale3 (if Rlt_dec (at3 (mul3 (tr Rb) n) l) 0 then -1 else 1) (mat_col Rb l)))).
    { destruct (Rlt_dec _ _); unfold add3, sub3, scale3; cbn [c0 c1 c2]; f_equal; ring. }
    rewrite Ec. reflexivity.
Qed.

Theorem face_case : face_contacts3 pa Ra Sa pb Rb Sb n d (map fst points)
  /\ (length points <= 8)%nat /\ (0 < d -> points <> [])
  /\ (forall x e, In (x, e) points -> below (in_box3 pa Ra Sa) n x e).
Proof.
  destruct face_frame as (l & i & j & k & P & K & Cz & Ci & Cj & E). rewrite E.
  set (e1 := mat_col Ra (fst (other_axes N))) in *. set (e2 := mat_col Ra (snd (other_axes N))) in *.
  set (c := scale3 k (mat_col Rb l)) in *. set (v := mat_col Rb i) in *. set (w := mat_col Rb j) in *.
  set (z := n) in *.
  pose proof (other_perm N HN) as PN.
  assert (OA : ortho z e1 e2) by (apply perm_ortho; assumption).
  assert (OB : ortho c v w) by (apply perm_ortho; assumption).
  destruct (perm_pos Sa _ _ _ PA PN) as (H0 & H1 & H2). destruct (perm_pos Sb _ _ _ PB P) as (R0 & R1 & R2).
  assert (LG : forall u, lap z e1 e2 c v w (at3 Sa N) (at3 Sa (fst (other_axes N))) (at3 Sa (snd (other_axes N))) (at3 Sb l) (at3 Sb i) (at3 Sb j) q u = gap pa Ra Sa pb Rb Sb u).
  { intros u. unfold lap, gap. rewrite width_app, (perm_width Ra Sa _ _ _ sg u PA PN Sg), (perm_width Rb Sb _ _ _ k u PB P K). fold z e1 e2 c v w. ring. }
  assert (BA : forall y, in_box3 pa Ra Sa y <-> Rabs (dot3 z (sub3 y pa)) <= at3 Sa N /\ Rabs (dot3 e1 (sub3 y pa)) <= at3 Sa (fst (other_axes N)) /\ Rabs (dot3 e2 (sub3 y pa)) <= at3 Sa (snd (other_axes N)))
    by (intros; apply perm_box; assumption).
  assert (DA : forall y, deep_in pa Ra Sa y <-> Rabs (dot3 z (sub3 y pa)) < at3 Sa N /\ Rabs (dot3 e1 (sub3 y pa)) < at3 Sa (fst (other_axes N)) /\ Rabs (dot3 e2 (sub3 y pa)) < at3 Sa (snd (other_axes N)))
    by (intros; apply perm_deep; assumption).
  set (h0 := at3 Sa N) in *. set (h1 := at3 Sa (fst (other_axes N))) in *. set (h2 := at3 Sa (snd (other_axes N))) in *.
  set (r0 := at3 Sb l) in *. set (r1 := at3 Sb i) in *. set (r2 := at3 Sb j) in *.
  assert (BB : forall y, in_box3 pb Rb Sb y <-> Rabs (dot3 (neg3 c) (sub3 y pb)) <= r0 /\ Rabs (dot3 v (sub3 y pb)) <= r1 /\ Rabs (dot3 w (sub3 y pb)) <= r2).
  { intros y. rewrite (perm_box pb Rb Sb l i j k y P K). fold c v w r0 r1 r2. rewrite dot3_neg_l, Rabs_Ropp. reflexivity. }
  assert (ON : ortho (neg3 c) v w).
  { destruct OB as (C1 & C2 & C3 & C4 & C5 & C6). unfold ortho. rewrite !dot3_neg_l, dot3_neg_r. repeat split; lra. }
  assert (TA : forall y, highest (in_box3 pa Ra Sa) z y <-> dot3 z (sub3 y pa) = h0 /\ Rabs (dot3 e1 (sub3 y pa)) <= h1 /\ Rabs (dot3 e2 (sub3 y pa)) <= h2)
    by (apply top_is; assumption).
  assert (LA : forall y e, below (in_box3 pa Ra Sa) z y e <-> e = h0 - dot3 z (sub3 y pa)) by (apply (below_is _ pa z e1 e2 h0 h1 h2); assumption).
  assert (TB : forall y, highest (in_box3 pb Rb Sb) (neg3 c) y <-> dot3 (neg3 c) (sub3 y pb) = r0 /\ Rabs (dot3 v (sub3 y pb)) <= r1 /\ Rabs (dot3 w (sub3 y pb)) <= r2)
    by (apply top_is; assumption).
  set (center := sub3 q (scale3 r0 c)) in *.
  set (pts := gen_points pa e1 e2 v w center z h0 h1 h2 r1 r2) in *.
  (* a point of the face of the other box *)
  assert (Fc : forall f, highest (in_box3 pb Rb Sb) (neg3 c) f <-> exists k1 k2, Rabs k1 <= r1 /\ Rabs k2 <= r2 /\ f = add3 (add3 (add3 center (scale3 k1 v)) (scale3 k2 w)) pa).
  { intros f. rewrite TB. destruct OB as (C1 & C2 & C3 & C4 & C5 & C6). split.
    - intros (F0 & F1 & F2). exists (dot3 v (sub3 f pb)), (dot3 w (sub3 f pb)). split; [exact F1|]. split; [exact F2|].
      pose proof (frame_of c v w (sub3 f pb) (conj C1 (conj C2 (conj C3 (conj C4 (conj C5 C6)))))) as X.
      rewrite !(dot3_comm (sub3 f pb)) in X. rewrite dot3_neg_l in F0. assert (F0' : dot3 c (sub3 f pb) = - r0) by lra. rewrite F0' in X.
      unfold center. set (s := dot3 v (sub3 f pb)) in *. set (t := dot3 w (sub3 f pb)) in *.
      pose proof (f_equal c0 X) as X0. pose proof (f_equal c1 X) as X1. pose proof (f_equal c2 X) as X2. clear - X0 X1 X2.
      clearbody s t c v w. destruct f as [fx fy fz]. unfold add3, sub3, scale3 in *. cbn [c0 c1 c2] in *. f_equal; lra.
    - intros (k1 & k2 & K1 & K2 & ->).
      replace (sub3 (add3 (add3 (add3 center (scale3 k1 v)) (scale3 k2 w)) pa) pb) with (add3 (add3 (scale3 (- r0) c) (scale3 k1 v)) (scale3 k2 w)).
      2:{ unfold center, add3, sub3, scale3. cbn [c0 c1 c2]. f_equal; ring. }
      autorewrite with dots. rewrite (dot3_comm v c), (dot3_comm w c), (dot3_comm w v), C1, C2, C3, C4, C5, C6.
      split; [lra|]. split; [replace (- r0 * 0 + k1 * 1 + k2 * 0) with k1 by ring; exact K1|replace (- r0 * 0 + k1 * 0 + k2 * 1) with k2 by ring; exact K2]. }
  assert (Sub : forall y, sub3 (add3 y pa) pa = y) by (intros [y0 y1 y2]; unfold sub3, add3; cbn [c0 c1 c2]; f_equal; ring).
  (* over the face *)
  assert (Ov : forall y, over pa Ra Sa z y <-> Rabs (dot3 (sub3 y pa) e1) <= h1 /\ Rabs (dot3 (sub3 y pa) e2) <= h2).
  { intros y. rewrite (dot3_comm _ e1), (dot3_comm _ e2). destruct OA as (Z & E1 & E2 & Z1 & Z2 & E12).
    assert (X : forall t u, dot3 u (sub3 (add3 y (scale3 t z)) pa) = dot3 u (sub3 y pa) + t * dot3 u z) by (intros; autorewrite with dots; ring).
    unfold over. split.
    - intros (t & B). apply BA in B. rewrite !X, (dot3_comm e1 z), (dot3_comm e2 z), Z1, Z2, Rmult_0_r, !Rplus_0_r in B. tauto.
    - intros [B1 B2]. exists (- dot3 z (sub3 y pa)). apply BA. rewrite !X, (dot3_comm e1 z), (dot3_comm e2 z), Z1, Z2, Z, Rmult_0_r, !Rplus_0_r.
      split; [|tauto]. replace (dot3 z (sub3 y pa) + - dot3 z (sub3 y pa) * 1) with 0 by ring. rewrite Rabs_R0. lra. }
  assert (Dv : forall y, deep_over pa Ra Sa z y <-> Rabs (dot3 (sub3 y pa) e1) < h1 /\ Rabs (dot3 (sub3 y pa) e2) < h2).
  { intros y. rewrite (dot3_comm _ e1), (dot3_comm _ e2). destruct OA as (Z & E1 & E2 & Z1 & Z2 & E12).
    assert (X : forall t u, dot3 u (sub3 (add3 y (scale3 t z)) pa) = dot3 u (sub3 y pa) + t * dot3 u z) by (intros; autorewrite with dots; ring).
    unfold deep_over. split.
    - intros (t & B). apply DA in B. rewrite !X, (dot3_comm e1 z), (dot3_comm e2 z), Z1, Z2, Rmult_0_r, !Rplus_0_r in B. tauto.
    - intros [B1 B2]. exists (- dot3 z (sub3 y pa)). apply DA. rewrite !X, (dot3_comm e1 z), (dot3_comm e2 z), Z1, Z2, Z, Rmult_0_r, !Rplus_0_r.
      split; [|tauto]. replace (dot3 z (sub3 y pa) + - dot3 z (sub3 y pa) * 1) with 0 by ring. rewrite Rabs_R0. lra. }
  assert (Dd : lap z e1 e2 c v w h0 h1 h2 r0 r1 r2 q z = d) by apply LG.
  assert (Cm : 1 <= 3 * (dot3 c z * dot3 c z)).
  { pose proof (frame_pair c v w z z OB) as F. destruct OA as (Z & _). rewrite Z, !(dot3_comm z) in F. 
    assert (S1 : dot3 v z * dot3 v z <= dot3 c z * dot3 c z).
    { replace (dot3 v z * dot3 v z) with (Rabs (dot3 v z) * Rabs (dot3 v z)) by (rewrite <- Rabs_mult; apply Rabs_pos_eq; nra).
      apply Rmult_le_compat; try assumption; apply Rabs_pos. }
    assert (S2 : dot3 w z * dot3 w z <= dot3 c z * dot3 c z).
    { replace (dot3 w z * dot3 w z) with (Rabs (dot3 w z) * Rabs (dot3 w z)) by (rewrite <- Rabs_mult; apply Rabs_pos_eq; nra).
      apply Rmult_le_compat; try assumption; apply Rabs_pos. }
    lra. }
  assert (Snd : forall x e, In (x, e) pts -> exists k1 k2, Rabs k1 <= r1 /\ Rabs k2 <= r2
    /\ x = add3 (add3 (add3 center (scale3 k1 v)) (scale3 k2 w)) pa /\ e = h0 - dot3 z (add3 (add3 center (scale3 k1 v)) (scale3 k2 w)) /\ 0 <= e
    /\ Rabs (dot3 (add3 (add3 center (scale3 k1 v)) (scale3 k2 w)) e1) <= h1 /\ Rabs (dot3 (add3 (add3 center (scale3 k1 v)) (scale3 k2 w)) e2) <= h2)
    by (apply (points_sound z e1 e2 c v w h0 h1 h2 r0 r1 r2 q pa OA OB); assumption).
  assert (Low : forall k1 k2, Rabs k1 <= r1 -> Rabs k2 <= r2 -> h0 - dot3 z (add3 (add3 center (scale3 k1 v)) (scale3 k2 w)) <= d).
  { intros k1 k2 K1 K2. rewrite <- Dd. apply face_low; assumption. }
  split; [|split; [|split]].
  - split; [apply (perm_face Ra N _ _ sg PN Sg)|]. exists (neg3 c). split; [|split; [|split]].
    + split.
      * replace (neg3 c) with (scale3 (- k) (mat_col Rb l)) by (unfold c, neg3, scale3; cbn [c0 c1 c2]; f_equal; ring).
        apply (perm_face Rb l i j (- k) P). lra.
      * intros m' Hm'. rewrite dot3_neg_l.
        assert (X : forall m, box_axis Rb m -> Rabs (dot3 m z) <= dot3 c z).
        { intros m Hm. apply (perm_axis Rb l i j m P) in Hm. destruct Hm as [->|[->| ->]]; [|exact Ci|exact Cj].
          unfold c. rewrite dot3_scale_l. rewrite <- (sign_abs k (dot3 (mat_col Rb l) z) K). apply Req_le, Rabs_pos_eq.
          unfold c in Cz. rewrite dot3_scale_l in Cz. lra. }
        destruct Hm' as [Hm|Hm]; apply X in Hm; rewrite ?dot3_neg_l, ?Rabs_Ropp in Hm; unfold Rabs in Hm; destruct (Rcase_abs _); lra.
    + intros x I. apply in_map_iff in I. destruct I as ([x' e] & <- & I). cbn [fst].
      destruct (Snd _ _ I) as (k1 & k2 & K1 & K2 & -> & -> & Ep & B1 & B2).
      split; [apply Fc; exists k1, k2; repeat split; assumption|].
      exists (h0 - dot3 z (add3 (add3 center (scale3 k1 v)) (scale3 k2 w))). split; [split; [exact Ep|apply Low; assumption]|].
      apply TA. set (f := add3 (add3 center (scale3 k1 v)) (scale3 k2 w)) in *. destruct OA as (Z & E1 & E2 & Z1 & Z2 & E12).
      replace (sub3 (add3 (add3 f pa) (scale3 (h0 - dot3 z f) z)) pa) with (add3 f (scale3 (h0 - dot3 z f) z)) by (unfold add3, sub3; cbn [c0 c1 c2]; f_equal; ring).
      rewrite !(dot3_add_r _ f), !dot3_scale_r, Z, (dot3_comm e1 z), (dot3_comm e2 z), Z1, Z2, !Rmult_0_r, !Rplus_0_r, (dot3_comm e1 f), (dot3_comm e2 f).
      split; [ring|tauto].
    + intros f e Hf Ho Hb Ep. apply Fc in Hf. destruct Hf as (k1 & k2 & K1 & K2 & ->). apply Dv in Ho. rewrite Sub in Ho. apply LA in Hb. rewrite Sub in Hb. subst e.
      destruct (points_deepest z e1 e2 c v w h0 h1 h2 r0 r1 r2 q pa OA OB H1 H2 Cz k1 k2 K1 K2 (proj1 Ho) (proj2 Ho) Ep) as (x & e & I & L).
      exists x, e. split; [apply in_map_iff; exists (x, e); split; [reflexivity|exact I]|]. split; [|exact L].
      destruct (Snd _ _ I) as (s & t & _ & _ & -> & -> & _). apply LA. rewrite Sub. reflexivity.
    + intros Hall f u Hf Ho. apply Fc in Hf. destruct Hf as (k1 & k2 & K1 & K2 & ->). apply Dv in Ho. rewrite Sub in Ho.
      destruct (points_span z e1 e2 c v w h0 h1 h2 r0 r1 r2 q pa OA OB H1 H2 R1 R2 Cz) with (k1 := k1) (k2 := k2) (u := u) as (x & e & I & L); try tauto.
      * intros s t S1 S2 B1 B2. apply (Hall (add3 (add3 (add3 center (scale3 s v)) (scale3 t w)) pa)).
        -- apply Fc. exists s, t. repeat split; assumption.
        -- apply Ov. rewrite Sub. split; assumption.
        -- apply LA. rewrite Sub. reflexivity.
      * exists x. split; [apply in_map_iff; exists (x, e); split; [reflexivity|exact I]|exact L].
  - apply points_length.
  - intros Dp. destruct (face_meets z e1 e2 c v w h0 h1 h2 r0 r1 r2 q OA OB) as (k1 & k2 & K1 & K2 & B1 & B2 & Ep); try assumption; try (rewrite Dd; assumption).
    { intros u. rewrite !LG. apply least. }
    destruct (points_deepest z e1 e2 c v w h0 h1 h2 r0 r1 r2 q pa OA OB H1 H2 Cz k1 k2 K1 K2 B1 B2 Ep) as (x & e & I & _).
    fold center in I. fold pts in I. intros Em. rewrite Em in I. destruct I.
  - intros x e I. destruct (Snd _ _ I) as (s & t & _ & _ & -> & -> & _). apply LA. rewrite Sub. reflexivity.
Qed.
End FaceCase.
