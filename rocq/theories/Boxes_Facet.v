(* Two boxes: fifteen directions decide whether they meet. *)
From Coq Require Import List Reals Arith Bool Lra Lia.
From Verif Require Import Ccd_Model Lin_Model ContactRb3_Model Rot_Model Rot_Spec Rot_Alg Geom_Space Boxes_Model Boxes_Zono.
Import ListNotations.
Local Open Scope R_scope.

Definition gens (A : m3) (s : v3) : list v3 :=
  [scale3 (c0 s) (mat_col A 0); scale3 (c1 s) (mat_col A 1); scale3 (c2 s) (mat_col A 2)].
Definition axes (A B : m3) : list v3 :=
  [mat_col A 0; mat_col A 1; mat_col A 2; mat_col B 0; mat_col B 1; mat_col B 2;
   cross3 (mat_col A 0) (mat_col B 0); cross3 (mat_col A 0) (mat_col B 1); cross3 (mat_col A 0) (mat_col B 2);
   cross3 (mat_col A 1) (mat_col B 0); cross3 (mat_col A 1) (mat_col B 1); cross3 (mat_col A 1) (mat_col B 2);
   cross3 (mat_col A 2) (mat_col B 0); cross3 (mat_col A 2) (mat_col B 1); cross3 (mat_col A 2) (mat_col B 2)].

(* an orthonormal frame *)
Definition ortho (u v w : v3) : Prop :=
  dot3 u u = 1 /\ dot3 v v = 1 /\ dot3 w w = 1 /\ dot3 u v = 0 /\ dot3 u w = 0 /\ dot3 v w = 0.
Lemma orthonormal_cols : forall A, mm (tr A) A = id3 -> ortho (mat_col A 0) (mat_col A 1) (mat_col A 2).
Proof.
  intros [[a b c] [d e f] [g h i]] E. unfold mm, tr, vmul, mul3, tr, id3, diag3, dot3 in E. cbn in E.
  injection E as E1 E2 E3 E4 E5 E6 E7 E8 E9. unfold ortho, mat_col, at3, dot3. cbn. repeat split; lra.
Qed.
Lemma rotation_ortho : forall A, rotation A -> ortho (mat_col A 0) (mat_col A 1) (mat_col A 2).
Proof. intros A RA. apply orthonormal_cols, rotation_left, RA. Qed.
Lemma frame_dot : forall A x y, rotation A ->
  dot3 x y = dot3 x (mat_col A 0) * dot3 y (mat_col A 0) + dot3 x (mat_col A 1) * dot3 y (mat_col A 1) + dot3 x (mat_col A 2) * dot3 y (mat_col A 2).
Proof.
  intros A x y RA. rewrite <- (rot_dot (tr A) x y) by (apply rotation_tr; exact RA).
  unfold mul3, tr, mat_col, at3, dot3. cbn. ring.
Qed.
Lemma frame_cross : forall A, rotation A ->
  cross3 (mat_col A 0) (mat_col A 1) = mat_col A 2 /\ cross3 (mat_col A 1) (mat_col A 2) = mat_col A 0
  /\ cross3 (mat_col A 2) (mat_col A 0) = mat_col A 1.
Proof.
  intros A RA. pose proof (rotation_ortho A RA) as (U & V & W & UV & UW & VW).
  assert (D : dot3 (mat_col A 0) (cross3 (mat_col A 1) (mat_col A 2)) = 1).
  { destruct RA as [_ D]. rewrite <- D. unfold det3, dot3, cross3, mat_col, at3. cbn. ring. }
  assert (K : forall x y, (forall k, (k < 3)%nat -> dot3 x (mat_col A k) = dot3 y (mat_col A k)) -> x = y).
  { intros x y H. assert (Z : dot3 (sub3 x y) (sub3 x y) = 0).
    { rewrite (frame_dot A) by exact RA. rewrite !dot3_sub_l.
      rewrite (H 0%nat), (H 1%nat), (H 2%nat) by lia. ring. }
    apply dot3_sq_zero in Z. destruct x as [x0 x1 x2], y as [y0 y1 y2]. unfold sub3, zero3 in Z. cbn in Z.
    injection Z as Z0 Z1 Z2. f_equal; lra. }
  assert (T : forall a b c, dot3 (cross3 a b) c = dot3 a (cross3 b c)) by (intros; unfold dot3, cross3; cbn; ring).
  assert (C1 : forall a b, dot3 (cross3 a b) a = 0) by (intros; unfold dot3, cross3; cbn; ring).
  assert (C2 : forall a b, dot3 (cross3 a b) b = 0) by (intros; unfold dot3, cross3; cbn; ring).
  assert (D1 : dot3 (mat_col A 1) (cross3 (mat_col A 2) (mat_col A 0)) = 1) by (rewrite <- D; unfold dot3, cross3; cbn; ring).
  assert (D2 : dot3 (mat_col A 2) (cross3 (mat_col A 0) (mat_col A 1)) = 1) by (rewrite <- D; unfold dot3, cross3; cbn; ring).
  assert (VU := UV). rewrite dot3_comm in VU. assert (WU := UW). rewrite dot3_comm in WU. assert (WV := VW). rewrite dot3_comm in WV.
  rewrite dot3_comm in D, D1, D2.
  split; [|split]; apply K; intros [|[|[|k]]] Hk; try lia; rewrite ?C1, ?C2, ?D, ?D1, ?D2; symmetry; assumption.
Qed.

(* ---------- parallel and perpendicular ---------- *)
Lemma perp_parallel : forall n g h, dot3 n g = 0 -> cross3 g h = zero3 -> g <> zero3 -> dot3 n h = 0.
Proof.
  intros n g h N C Z.
  assert (GG : dot3 g g <> 0) by (intros E; apply Z, dot3_sq_zero, E).
  assert (I : dot3 g g * dot3 n h = dot3 g h * dot3 n g - dot3 n (cross3 g (cross3 g h))) by (unfold dot3, cross3; cbn; ring).
  rewrite C, N in I. assert (X : cross3 g zero3 = zero3) by (unfold cross3, zero3; cbn; f_equal; ring).
  rewrite X, dot3_zero_r in I. assert (J : dot3 g g * dot3 n h = 0) by lra. apply Rmult_integral in J. tauto.
Qed.
Lemma only_direction : forall n g h, dot3 n g = 0 -> dot3 n h = 0 ->
  scale3 (dot3 (cross3 g h) (cross3 g h)) n = scale3 (dot3 n (cross3 g h)) (cross3 g h).
Proof.
  intros n g h N1 N2.
  assert (I : sub3 (scale3 (dot3 (cross3 g h) (cross3 g h)) n) (scale3 (dot3 n (cross3 g h)) (cross3 g h))
              = cross3 (cross3 g h) (sub3 (scale3 (dot3 n h) g) (scale3 (dot3 n g) h))).
  { unfold sub3, scale3, dot3, cross3. cbn. f_equal; ring. }
  rewrite N1, N2 in I.
  destruct n as [n0 n1 n2]. set (k := cross3 g h) in *.
  unfold sub3, scale3, cross3 in I. cbn in I. injection I as I0 I1 I2.
  unfold scale3. cbn. f_equal; lra.
Qed.
Lemma parallel_normals : forall n w g h, dot3 n g = 0 -> dot3 n h = 0 -> dot3 w g = 0 -> dot3 w h = 0 ->
  cross3 g h <> zero3 -> w <> zero3 -> exists k, n = scale3 k w.
Proof.
  intros n w g h N1 N2 W1 W2 C Z.
  pose proof (only_direction n g h N1 N2) as En. pose proof (only_direction w g h W1 W2) as Ew.
  set (k := cross3 g h) in *.
  assert (KK : dot3 k k <> 0) by (intros E; apply C, dot3_sq_zero, E).
  assert (WK : dot3 w k <> 0).
  { intros E. rewrite E in Ew. apply Z. destruct w as [a b c]. unfold scale3 in Ew. cbn in Ew. injection Ew as E0 E1 E2.
    unfold zero3. f_equal; nra. }
  exists (dot3 n k / dot3 w k).
  destruct n as [n0 n1 n2], w as [w0 w1 w2]. set (nk := dot3 (V3 n0 n1 n2) k) in *. set (wk := dot3 (V3 w0 w1 w2) k) in *.
  set (kk := dot3 k k) in *. destruct k as [k0 k1 k2]. unfold scale3 in *. cbn in *.
  injection En as A0 A1 A2. injection Ew as B0 B1 B2.
  assert (S : forall x y z, kk * x = nk * z -> kk * y = wk * z -> x = nk / wk * y).
  { intros x y z X Y. apply Rmult_eq_reg_l with (kk * wk); [|apply Rmult_integral_contrapositive; split; assumption].
    replace (kk * wk * (nk / wk * y)) with (nk * (kk * y)) by (field; exact WK). rewrite Y.
    replace (kk * wk * x) with (wk * (kk * x)) by ring. rewrite X. ring. }
  f_equal; eapply S; eassumption.
Qed.

Lemma zero_in : forall G n, (exists g, In g G /\ dot3 n g = 0) \/ (forall g, In g G -> dot3 n g <> 0).
Proof.
  induction G as [|g G IH]; intros n; [right; intros g []|].
  destruct (Req_dec (dot3 n g) 0) as [E|E]; [left; exists g; split; [left; reflexivity|exact E]|].
  destruct (IH n) as [(h & I & H)|H]; [left; exists h; split; [right; exact I|exact H]|].
  right. intros h [<-|I]; [exact E|apply H; exact I].
Qed.
Lemma skew_in : forall G n g, (exists h, In h G /\ dot3 n h = 0 /\ cross3 g h <> zero3) \/ (forall h, In h G -> dot3 n h = 0 -> cross3 g h = zero3).
Proof.
  induction G as [|a G IH]; intros n g; [right; intros h []|].
  destruct (IH n g) as [(h & I & H)|H]; [left; exists h; split; [right; exact I|exact H]|].
  destruct (Req_dec (dot3 n a) 0) as [E|E].
  - destruct (Req_dec (dot3 (cross3 g a) (cross3 g a)) 0) as [Z|Z].
    + right. intros h [<-|I] Hh; [apply dot3_sq_zero; exact Z|apply H; assumption].
    + left. exists a. split; [left; reflexivity|]. split; [exact E|]. intros Z'. apply Z. rewrite Z'. apply dot3_zero_r.
  - right. intros h [<-|I] Hh; [contradiction|apply H; assumption].
Qed.

(* the direction found is perpendicular to two segments that are not parallel *)
Definition facet (G : list v3) (n : v3) : Prop :=
  exists g h, In g G /\ In h G /\ dot3 n g = 0 /\ dot3 n h = 0 /\ cross3 g h <> zero3.

Lemma excess_nonzero : forall G x n, 0 < excess G x n -> n <> zero3.
Proof. intros G x n E ->. unfold excess in E. rewrite dot3_zero_l in E. pose proof (width_nn G zero3). lra. Qed.

Lemma cross_scaled : forall a b u v, a <> 0 -> b <> 0 -> cross3 u v <> zero3 -> cross3 (scale3 a u) (scale3 b v) <> zero3.
Proof.
  intros a b u v A B C E. apply C.
  assert (I : cross3 (scale3 a u) (scale3 b v) = scale3 (a * b) (cross3 u v)) by (unfold cross3, scale3; cbn; f_equal; ring).
  rewrite I in E. destruct (cross3 u v) as [x y z]. unfold scale3, zero3 in *. cbn in E. injection E as E0 E1 E2.
  assert (AB : a * b <> 0) by (apply Rmult_integral_contrapositive; split; assumption).
  f_equal; apply Rmult_eq_reg_l with (a * b); try exact AB; lra.
Qed.
Lemma ortho_cross : forall u v, dot3 u u = 1 -> dot3 v v = 1 -> dot3 u v = 0 -> cross3 u v <> zero3.
Proof.
  intros u v U V UV E.
  assert (I : dot3 (cross3 u v) (cross3 u v) = dot3 u u * dot3 v v - dot3 u v * dot3 u v) by (unfold dot3, cross3; cbn; ring).
  rewrite E, U, V, UV, dot3_zero_r in I. lra.
Qed.

(* second turn, about u, in the frame u, v, w *)
Lemma second_turn : forall G x n u v w a b c, dot3 u u = 1 -> dot3 v v = 1 -> dot3 w w = 1 -> dot3 u v = 0 -> dot3 u w = 0 -> dot3 v w = 0 ->
  0 < a -> 0 < b -> 0 < c -> In (scale3 a u) G -> In (scale3 b v) G -> In (scale3 c w) G ->
  0 < excess G x n -> dot3 n u = 0 -> exists n', 0 < excess G x n' /\ facet G n'.
Proof.
  intros G x n u v w a b c U V W UV UW VW A B C IA IB IC X N.
  assert (NA : dot3 n (scale3 a u) = 0) by (rewrite dot3_scale_r, N; ring).
  assert (UN : scale3 a u <> zero3).
  { intros E. assert (K : dot3 (scale3 a u) (scale3 a u) = 0) by (rewrite E; apply dot3_zero_r).
    rewrite dot3_scale_l, dot3_scale_r, U in K. nra. }
  destruct (Req_dec (dot3 n v) 0) as [NV|NV].
  { exists n. split; [exact X|]. exists (scale3 a u), (scale3 b v). split; [exact IA|]. split; [exact IB|]. split; [exact NA|].
    split; [rewrite dot3_scale_r, NV; ring|]. apply cross_scaled; [lra|lra|apply ortho_cross; assumption]. }
  destruct (Req_dec (dot3 n w) 0) as [NW|NW].
  { exists n. split; [exact X|]. exists (scale3 a u), (scale3 c w). split; [exact IA|]. split; [exact IC|]. split; [exact NA|].
    split; [rewrite dot3_scale_r, NW; ring|]. apply cross_scaled; [lra|lra|apply ortho_cross; assumption]. }
  destruct (skew_in G n (scale3 a u)) as [(h & I & H & Hc)|P].
  { exists n. split; [exact X|]. exists (scale3 a u), h. repeat split; assumption. }
  set (e := sub3 (scale3 (dot3 n v) v) (scale3 (dot3 n w) w)).
  assert (EU : dot3 e (scale3 a u) = 0).
  { unfold e. autorewrite with dots. rewrite (dot3_comm v u), (dot3_comm w u), UV, UW. ring. }
  destruct (turn G x n e) as (n' & X' & (g & I & Ng & N'g) & Keep).
  - intros g I E. apply (perp_parallel e (scale3 a u) g EU (P g I E) UN).
  - exists (scale3 c w). split; [exact IC|]. split.
    + rewrite dot3_scale_r. apply Rmult_integral_contrapositive. split; [lra|exact NW].
    + unfold e. autorewrite with dots. rewrite VW, W. ring.
  - exists (scale3 b v). split; [exact IB|]. split.
    + rewrite dot3_scale_r. apply Rmult_integral_contrapositive. split; [lra|exact NV].
    + unfold e. autorewrite with dots. rewrite (dot3_comm w v), VW, V. ring.
  - exact X.
  - exists n'. split; [exact X'|]. exists (scale3 a u), g. split; [exact IA|]. split; [exact I|].
    split; [apply Keep; assumption|]. split; [exact N'g|]. intros E. apply Ng. apply (perp_parallel n (scale3 a u) g NA E UN).
Qed.

Lemma gens_turn : forall G A s x n, rotation A -> positive3 s -> (forall g, In g (gens A s) -> In g G) ->
  0 < excess G x n -> (exists g, In g (gens A s) /\ dot3 n g = 0) -> exists n', 0 < excess G x n' /\ facet G n'.
Proof.
  intros G A s x n RA (S0 & S1 & S2) Sub X (g & I & N).
  pose proof (rotation_ortho A RA) as (U & V & W & UV & UW & VW).
  assert (I0 : In (scale3 (c0 s) (mat_col A 0)) G) by (apply Sub; left; reflexivity).
  assert (I1 : In (scale3 (c1 s) (mat_col A 1)) G) by (apply Sub; right; left; reflexivity).
  assert (I2 : In (scale3 (c2 s) (mat_col A 2)) G) by (apply Sub; right; right; left; reflexivity).
  destruct I as [<-|[<-|[<-|[]]]]; rewrite dot3_scale_r in N; apply Rmult_integral in N; destruct N as [N|N]; try lra.
  - apply (second_turn G x n (mat_col A 0) (mat_col A 1) (mat_col A 2) (c0 s) (c1 s) (c2 s)); assumption.
  - apply (second_turn G x n (mat_col A 1) (mat_col A 0) (mat_col A 2) (c1 s) (c0 s) (c2 s)); try assumption. rewrite dot3_comm; exact UV.
  - apply (second_turn G x n (mat_col A 2) (mat_col A 0) (mat_col A 1) (c2 s) (c0 s) (c1 s)); try assumption; rewrite dot3_comm; assumption.
Qed.

Theorem some_facet : forall A B sa sb x, rotation A -> rotation B -> positive3 sa -> positive3 sb ->
  (exists n, 0 < excess (gens A sa ++ gens B sb) x n) ->
  exists n, 0 < excess (gens A sa ++ gens B sb) x n /\ facet (gens A sa ++ gens B sb) n.
Proof.
  intros A B sa sb x RA RB PA PB (n & X). set (G := gens A sa ++ gens B sb) in *.
  assert (SA : forall g, In g (gens A sa) -> In g G) by (intros; unfold G; apply in_or_app; left; assumption).
  assert (SB : forall g, In g (gens B sb) -> In g G) by (intros; unfold G; apply in_or_app; right; assumption).
  assert (K : forall n, 0 < excess G x n -> (exists g, In g G /\ dot3 n g = 0) -> exists n, 0 < excess G x n /\ facet G n).
  { intros m Xm (g & I & N). unfold G in I. apply in_app_or in I. destruct I as [I|I].
    - apply (gens_turn G A sa x m); try assumption. exists g. split; assumption.
    - apply (gens_turn G B sb x m); try assumption. exists g. split; assumption. }
  destruct (zero_in G n) as [Z|Z]; [apply (K n); assumption|].
  pose proof (rotation_ortho A RA) as (U & V & W & UV & UW & VW). destruct PA as (S0 & S1 & S2).
  assert (I0 : In (scale3 (c0 sa) (mat_col A 0)) G) by (apply SA; left; reflexivity).
  assert (I1 : In (scale3 (c1 sa) (mat_col A 1)) G) by (apply SA; right; left; reflexivity).
  set (e := sub3 (scale3 (dot3 n (mat_col A 0)) (mat_col A 0)) (scale3 (dot3 n (mat_col A 1)) (mat_col A 1))).
  destruct (turn G x n e) as (n' & X' & (g & I & _ & N'g) & _).
  - intros g I E. destruct (Z g I E).
  - exists (scale3 (c1 sa) (mat_col A 1)). split; [exact I1|]. split; [apply Z; exact I1|].
    unfold e. autorewrite with dots. rewrite UV, V. ring.
  - exists (scale3 (c0 sa) (mat_col A 0)). split; [exact I0|]. split; [apply Z; exact I0|].
    unfold e. autorewrite with dots. rewrite (dot3_comm (mat_col A 1) (mat_col A 0)), UV, U. ring.
  - exact X.
  - apply (K n'); [exact X'|]. exists g. split; assumption.
Qed.

(* ---------- the fifteen directions ---------- *)
Definition apart_along (G : list v3) (x w : v3) : Prop := width G w < Rabs (dot3 w x).

Lemma apart_parallel : forall G x n w g h, 0 < excess G x n -> dot3 n g = 0 -> dot3 n h = 0 -> dot3 w g = 0 -> dot3 w h = 0 ->
  cross3 g h <> zero3 -> w <> zero3 -> apart_along G x w.
Proof.
  intros G x n w g h X N1 N2 W1 W2 C Z. destruct (parallel_normals n w g h N1 N2 W1 W2 C Z) as [k ->].
  unfold excess in X. rewrite dot3_scale_l, width_scale in X. unfold apart_along.
  assert (K : k <> 0) by (intros ->; rewrite Rabs_R0 in X; lra).
  pose proof (Rabs_pos_lt k K) as KP.
  assert (k * dot3 w x <= Rabs k * Rabs (dot3 w x)) by (rewrite <- Rabs_mult; apply Rle_abs).
  nra.
Qed.

Lemma scale_zero_cross : forall a b u v, cross3 (scale3 a u) (scale3 b v) <> zero3 -> cross3 u v <> zero3.
Proof.
  intros a b u v C E. apply C.
  assert (I : cross3 (scale3 a u) (scale3 b v) = scale3 (a * b) (cross3 u v)) by (unfold cross3, scale3; cbn; f_equal; ring).
  rewrite I, E. unfold scale3, zero3. cbn. f_equal; ring.
Qed.
Lemma cross_self : forall a b u, cross3 (scale3 a u) (scale3 b u) = zero3.
Proof. intros. unfold cross3, scale3, zero3. cbn. f_equal; ring. Qed.
Lemma cross_perp_l : forall u v, dot3 (cross3 u v) u = 0.
Proof. intros. unfold dot3, cross3. cbn. ring. Qed.
Lemma cross_perp_r : forall u v, dot3 (cross3 u v) v = 0.
Proof. intros. unfold dot3, cross3. cbn. ring. Qed.
Lemma unit_nonzero : forall u, dot3 u u = 1 -> u <> zero3.
Proof. intros u U ->. rewrite dot3_zero_r in U. lra. Qed.
Lemma cross_anti : forall u v, cross3 u v <> zero3 -> cross3 v u <> zero3.
Proof.
  intros u v C E. apply C. unfold cross3, zero3 in *. cbn in *. injection E as E0 E1 E2. f_equal; lra.
Qed.

Theorem axes_decide : forall A B sa sb x, rotation A -> rotation B -> positive3 sa -> positive3 sb ->
  (exists n, 0 < excess (gens A sa ++ gens B sb) x n) ->
  exists w, In w (axes A B) /\ apart_along (gens A sa ++ gens B sb) x w.
Proof.
  intros A B sa sb x RA RB PA PB E. destruct (some_facet A B sa sb x RA RB PA PB E) as (n & X & g & h & Ig & Ih & Ng & Nh & C).
  clear E. set (G := gens A sa ++ gens B sb) in *.
  pose proof (rotation_ortho A RA) as (U & V & W & UV & UW & VW).
  pose proof (rotation_ortho B RB) as (U' & V' & W' & UV' & UW' & VW').
  assert (VU := UV). rewrite dot3_comm in VU. assert (WU := UW). rewrite dot3_comm in WU. assert (WV := VW). rewrite dot3_comm in WV.
  assert (VU' := UV'). rewrite dot3_comm in VU'. assert (WU' := UW'). rewrite dot3_comm in WU'. assert (WV' := VW'). rewrite dot3_comm in WV'.
  assert (K : forall w, In w (axes A B) -> dot3 w g = 0 -> dot3 w h = 0 -> w <> zero3 -> exists w, In w (axes A B) /\ apart_along G x w).
  { intros w I Wg Wh Z. exists w. split; [exact I|]. apply (apart_parallel G x n w g h); assumption. }
  unfold G, gens in Ig, Ih. cbn [app In] in Ig, Ih. unfold axes in *.
  destruct Ig as [<-|[<-|[<-|[<-|[<-|[<-|[]]]]]]]; destruct Ih as [<-|[<-|[<-|[<-|[<-|[<-|[]]]]]]];
    try (exfalso; apply C; apply cross_self);
    try (first
      [ apply (K (mat_col A 0)); [cbn [In]; tauto| | |apply unit_nonzero; assumption]; rewrite dot3_scale_r; (rewrite UV || rewrite UW); ring
      | apply (K (mat_col A 1)); [cbn [In]; tauto| | |apply unit_nonzero; assumption]; rewrite dot3_scale_r; (rewrite VU || rewrite VW); ring
      | apply (K (mat_col A 2)); [cbn [In]; tauto| | |apply unit_nonzero; assumption]; rewrite dot3_scale_r; (rewrite WU || rewrite WV); ring
      | apply (K (mat_col B 0)); [cbn [In]; tauto| | |apply unit_nonzero; assumption]; rewrite dot3_scale_r; (rewrite UV' || rewrite UW'); ring
      | apply (K (mat_col B 1)); [cbn [In]; tauto| | |apply unit_nonzero; assumption]; rewrite dot3_scale_r; (rewrite VU' || rewrite VW'); ring
      | apply (K (mat_col B 2)); [cbn [In]; tauto| | |apply unit_nonzero; assumption]; rewrite dot3_scale_r; (rewrite WU' || rewrite WV'); ring ]);
    apply scale_zero_cross in C;
    match type of C with cross3 (mat_col A ?i) (mat_col B ?j) <> _ =>
        apply (K (cross3 (mat_col A i) (mat_col B j))); [cbn [In]; tauto|rewrite dot3_scale_r, cross_perp_l; ring|rewrite dot3_scale_r, cross_perp_r; ring|exact C]
    | cross3 (mat_col B ?j) (mat_col A ?i) <> _ =>
        apply (K (cross3 (mat_col A i) (mat_col B j))); [cbn [In]; tauto|rewrite dot3_scale_r, cross_perp_r; ring|rewrite dot3_scale_r, cross_perp_l; ring|apply cross_anti; exact C]
    end.
Qed.
