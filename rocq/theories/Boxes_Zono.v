(* Sums of segments in space: membership by support functions, and the finitely many directions that decide it. *)
From Coq Require Import List Reals Arith Bool Lra Lia.
From Verif Require Import Ccd_Model Lin_Model ContactRb3_Model Rot_Model.
Import ListNotations.
Local Open Scope R_scope.

(* half the extent of { sum t_k g_k : |t_k| <= 1 } along n *)
Fixpoint width (G : list v3) (n : v3) : R :=
  match G with
  | [] => 0
  | g :: G => Rabs (dot3 n g) + width G n
  end.
Fixpoint zono (G : list v3) (x : v3) : Prop :=
  match G with
  | [] => x = zero3
  | g :: G => exists t, -1 <= t <= 1 /\ zono G (sub3 x (scale3 t g))
  end.

Lemma dot3_comm : forall a b, dot3 a b = dot3 b a.
Proof. intros. unfold dot3. ring. Qed.
Lemma dot3_sub_r : forall a b c, dot3 a (sub3 b c) = dot3 a b - dot3 a c.
Proof. intros. unfold dot3, sub3. cbn. ring. Qed.
Lemma dot3_add_r : forall a b c, dot3 a (add3 b c) = dot3 a b + dot3 a c.
Proof. intros. unfold dot3, add3. cbn. ring. Qed.
Lemma dot3_add_l : forall a b c, dot3 (add3 b c) a = dot3 b a + dot3 c a.
Proof. intros. unfold dot3, add3. cbn. ring. Qed.
Lemma dot3_sub_l : forall a b c, dot3 (sub3 b c) a = dot3 b a - dot3 c a.
Proof. intros. unfold dot3, sub3. cbn. ring. Qed.
Lemma dot3_scale_r : forall k a b, dot3 a (scale3 k b) = k * dot3 a b.
Proof. intros. unfold dot3, scale3. cbn. ring. Qed.
Lemma dot3_scale_l : forall k a b, dot3 (scale3 k a) b = k * dot3 a b.
Proof. intros. unfold dot3, scale3. cbn. ring. Qed.
Lemma dot3_zero_r : forall a, dot3 a zero3 = 0.
Proof. intros. unfold dot3, zero3. cbn. ring. Qed.
Lemma dot3_zero_l : forall a, dot3 zero3 a = 0.
Proof. intros. unfold dot3, zero3. cbn. ring. Qed.
Lemma dot3_neg_l : forall a b, dot3 (neg3 a) b = - dot3 a b.
Proof. intros. unfold dot3, neg3. cbn. ring. Qed.
Lemma dot3_neg_r : forall a b, dot3 a (neg3 b) = - dot3 a b.
Proof. intros. unfold dot3, neg3. cbn. ring. Qed.
Global Hint Rewrite dot3_sub_r dot3_add_r dot3_add_l dot3_sub_l dot3_scale_r dot3_scale_l dot3_zero_r dot3_zero_l dot3_neg_l dot3_neg_r : dots.

Lemma dot3_sq_zero : forall x, dot3 x x = 0 -> x = zero3.
Proof.
  intros [a b c]. unfold dot3, zero3. cbn. intros E.
  assert (a = 0) by nra. assert (b = 0) by nra. assert (c = 0) by nra. subst. reflexivity.
Qed.
Lemma dot3_sq_nn : forall x, 0 <= dot3 x x.
Proof. intros [a b c]. unfold dot3. cbn. nra. Qed.

Lemma width_nn : forall G n, 0 <= width G n.
Proof. induction G as [|g G IH]; intros n; cbn [width]; [lra|]. pose proof (Rabs_pos (dot3 n g)). pose proof (IH n). lra. Qed.
Lemma width_scale : forall G k n, width G (scale3 k n) = Rabs k * width G n.
Proof.
  induction G as [|g G IH]; intros k n; cbn [width]; [ring|]. rewrite IH, dot3_scale_l, Rabs_mult. ring.
Qed.
Lemma width_add : forall G m n, width G (add3 m n) <= width G m + width G n.
Proof.
  induction G as [|g G IH]; intros m n; cbn [width]; [lra|].
  rewrite dot3_add_l. pose proof (Rabs_triang (dot3 m g) (dot3 n g)). pose proof (IH m n). lra.
Qed.
Lemma width_app : forall G H n, width (G ++ H) n = width G n + width H n.
Proof. induction G as [|g G IH]; intros H n; cbn [width app]; [ring|]. rewrite IH. ring. Qed.

Lemma zono_bound : forall G x n, zono G x -> dot3 n x <= width G n.
Proof.
  induction G as [|g G IH]; intros x n; cbn [zono width].
  - intros ->. rewrite dot3_zero_r. lra.
  - intros (t & Ht & Z). apply (IH _ n) in Z. rewrite dot3_sub_r, dot3_scale_r in Z.
    assert (t * dot3 n g <= Rabs (dot3 n g)).
    { unfold Rabs. destruct (Rcase_abs (dot3 n g)); nra. }
    lra.
Qed.

(* a point that no direction separates from the sum is in it *)
Theorem zono_support : forall G x, (forall n, dot3 n x <= width G n) -> zono G x.
Proof.
  induction G as [|g G IH]; intros x Hall; cbn [zono width] in *.
  - apply dot3_sq_zero. pose proof (Hall x). pose proof (dot3_sq_nn x). lra.
  - destruct (Req_dec (dot3 g g) 0) as [G0|G0].
    { apply dot3_sq_zero in G0. subst g. exists 0. split; [lra|]. apply IH. intros n.
      autorewrite with dots. specialize (Hall n). rewrite dot3_zero_r, Rabs_R0 in Hall. lra. }
    set (E := fun r => exists m, dot3 m g = 1 /\ r = dot3 m x - width G m).
    assert (B1 : is_upper_bound E 1).
    { intros r (m & M1 & ->). specialize (Hall m). rewrite M1, Rabs_R1 in Hall. lra. }
    assert (NE : exists r, E r).
    { exists (dot3 (scale3 (/ dot3 g g) g) x - width G (scale3 (/ dot3 g g) g)). exists (scale3 (/ dot3 g g) g).
      split; [|reflexivity]. rewrite dot3_scale_l. field. exact G0. }
    destruct (completeness E (ex_intro _ 1 B1) NE) as [L [LU LL]].
    assert (L1 : L <= 1) by (apply LL; exact B1).
    assert (LUP : forall n, dot3 n g = -1 -> L <= width G n - dot3 n x).
    { intros n N1. apply LL. intros r (m & M1 & ->).
      pose proof (Hall (add3 m n)) as K. rewrite !dot3_add_l, M1, N1 in K.
      replace (1 + -1) with 0 in K by ring. rewrite Rabs_R0 in K. pose proof (width_add G m n). lra. }
    exists (Rmax L (-1)). split.
    { split; [apply Rmax_r|]. apply Rmax_lub; lra. }
    apply IH. intros n. rewrite dot3_sub_r, dot3_scale_r.
    destruct (Rtotal_order (dot3 n g) 0) as [K|[K|K]].
    + assert (I : 0 < / - dot3 n g) by (apply Rinv_0_lt_compat; lra).
      set (k := / - dot3 n g) in *.
      assert (MG : dot3 (scale3 k n) g = -1) by (rewrite dot3_scale_l; unfold k; field; lra).
      assert (T : Rmax L (-1) <= width G (scale3 k n) - dot3 (scale3 k n) x).
      { apply Rmax_lub; [apply LUP; exact MG|].
        pose proof (Hall (scale3 k n)) as H. rewrite MG in H. replace (-1) with (- (1)) in H by ring.
        rewrite Rabs_Ropp, Rabs_R1 in H. lra. }
      rewrite width_scale, dot3_scale_l, (Rabs_pos_eq k) in T by lra.
      assert (KG : k * dot3 n g = -1) by (rewrite dot3_scale_l in MG; exact MG).
      assert (Rmax L (-1) * - dot3 n g <= (k * width G n - k * dot3 n x) * - dot3 n g) by (apply Rmult_le_compat_r; lra).
      assert (width G n * (k * dot3 n g) = - width G n) by (rewrite KG; ring).
      assert (dot3 n x * (k * dot3 n g) = - dot3 n x) by (rewrite KG; ring).
      nra.
    + rewrite K. pose proof (Hall n) as H. rewrite K, Rabs_R0 in H. lra.
    + assert (I : 0 < / dot3 n g) by (apply Rinv_0_lt_compat; lra).
      set (k := / dot3 n g) in *.
      assert (MG : dot3 (scale3 k n) g = 1) by (rewrite dot3_scale_l; unfold k; field; lra).
      assert (T : dot3 (scale3 k n) x - width G (scale3 k n) <= Rmax L (-1)).
      { apply Rle_trans with L; [|apply Rmax_l]. apply LU. exists (scale3 k n). split; [exact MG|reflexivity]. }
      rewrite width_scale, dot3_scale_l, (Rabs_pos_eq k) in T by lra.
      assert (KG : k * dot3 n g = 1) by (rewrite dot3_scale_l in MG; exact MG).
      assert ((k * dot3 n x - k * width G n) * dot3 n g <= Rmax L (-1) * dot3 n g) by (apply Rmult_le_compat_r; lra).
      assert (width G n * (k * dot3 n g) = width G n) by (rewrite KG; ring).
      assert (dot3 n x * (k * dot3 n g) = dot3 n x) by (rewrite KG; ring).
      nra.
Qed.

(* ---------- walking to a wall ---------- *)
(* the first of the planes of G met on the way from n to n + e, if any *)
Lemma first_wall : forall G n e,
  (forall g, In g G -> dot3 n g = 0 -> dot3 e g = 0) ->
  (forall g, In g G -> 0 <= dot3 n g * (dot3 n g + dot3 e g))
  \/ exists t, 0 < t <= 1 /\ (exists g, In g G /\ dot3 n g <> 0 /\ dot3 n g + t * dot3 e g = 0)
       /\ forall g, In g G -> 0 <= dot3 n g * (dot3 n g + t * dot3 e g).
Proof.
  induction G as [|g G IH]; intros n e Hp; [left; intros g []|].
  assert (Hp' : forall g, In g G -> dot3 n g = 0 -> dot3 e g = 0) by (intros; apply Hp; [right|]; assumption).
  destruct (Rle_dec 0 (dot3 n g * (dot3 n g + dot3 e g))) as [K|K].
  - (* g is no obstacle up to 1 *)
    assert (Kt : forall t, 0 < t <= 1 -> 0 <= dot3 n g * (dot3 n g + t * dot3 e g)).
    { intros t Ht. pose proof (Rle_0_sqr (dot3 n g)) as Q. unfold Rsqr in Q. nra. }
    destruct (IH n e Hp') as [L|(t & Ht & (w & W1 & W2) & L)].
    + left. intros g' [<-|I]; [exact K|apply L; exact I].
    + right. exists t. split; [exact Ht|]. split; [exists w; split; [right; exact W1|exact W2]|].
      intros g' [<-|I]; [apply Kt; exact Ht|apply L; exact I].
  - assert (N0 : dot3 n g <> 0) by (intros Z; rewrite Z in K; lra).
    assert (E0 : dot3 e g <> 0).
    { intros Z. apply K. rewrite Z, Rplus_0_r. pose proof (Rle_0_sqr (dot3 n g)) as Q. exact Q. }
    set (tg := - dot3 n g / dot3 e g).
    assert (TG : dot3 n g + tg * dot3 e g = 0) by (unfold tg; field; exact E0).
    assert (TR : 0 < tg <= 1).
    { assert (dot3 n g * dot3 n g > 0) by (destruct (Rtotal_order (dot3 n g) 0) as [?|[?|?]]; nra).
      assert (Q : dot3 n g * dot3 n g + tg * (dot3 n g * dot3 e g) = 0) by (replace (dot3 n g * dot3 n g + tg * (dot3 n g * dot3 e g)) with (dot3 n g * (dot3 n g + tg * dot3 e g)) by ring; rewrite TG; ring).
      assert (dot3 n g * dot3 e g < - (dot3 n g * dot3 n g)) by nra.
      split; nra. }
    destruct (IH n e Hp') as [L|(t & Ht & (w & W1 & W2) & L)].
    + right. exists tg. split; [exact TR|]. split; [exists g; split; [left; reflexivity|split; assumption]|].
      intros g' [<-|I]; [rewrite TG; lra|].
      specialize (L g' I). pose proof (Rle_0_sqr (dot3 n g')) as Q. unfold Rsqr in Q. nra.
    + destruct (Rle_dec t tg) as [C|C].
      * right. exists t. split; [exact Ht|]. split; [exists w; split; [right; exact W1|exact W2]|].
        intros g' [<-|I]; [|apply L; exact I].
        assert (Q : dot3 n g * dot3 n g + tg * (dot3 n g * dot3 e g) = 0) by (replace (dot3 n g * dot3 n g + tg * (dot3 n g * dot3 e g)) with (dot3 n g * (dot3 n g + tg * dot3 e g)) by ring; rewrite TG; ring).
        pose proof (Rle_0_sqr (dot3 n g)) as Q1. unfold Rsqr in Q1.
        assert (dot3 n g * dot3 e g <= 0) by nra. nra.
      * right. exists tg. split; [exact TR|]. split; [exists g; split; [left; reflexivity|split; assumption]|].
        intros g' [<-|I]; [rewrite TG; lra|].
        specialize (L g' I). pose proof (Rle_0_sqr (dot3 n g')) as Q. unfold Rsqr in Q.
        (* convex between 0 and t *)
        assert (0 < t) by lra. assert (tg < t) by lra.
        assert (0 <= dot3 n g' * dot3 n g' * (t - tg) + tg * (dot3 n g' * (dot3 n g' + t * dot3 e g'))) by nra.
        assert (t * (dot3 n g' * (dot3 n g' + tg * dot3 e g')) = dot3 n g' * dot3 n g' * (t - tg) + tg * (dot3 n g' * (dot3 n g' + t * dot3 e g'))) by ring.
        nra.
Qed.

(* the excess of x over the sum along n *)
Definition excess (G : list v3) (x n : v3) : R := dot3 n x - width G n.

(* along directions that keep every sign the width is linear *)
Lemma width_linear : forall G n e s t, 0 <= s -> 0 <= t ->
  (forall g, In g G -> dot3 n g = 0 -> dot3 e g = 0) ->
  (forall g, In g G -> 0 <= dot3 n g * (dot3 n g + t * dot3 e g)) ->
  (forall g, In g G -> 0 <= dot3 n g * (dot3 n g - s * dot3 e g)) ->
  s * width G (add3 n (scale3 t e)) + t * width G (sub3 n (scale3 s e)) = (s + t) * width G n.
Proof.
  induction G as [|g G IH]; intros n e s t Hs Ht Hz Hp Hm; cbn [width]; [ring|].
  specialize (IH n e s t Hs Ht (fun g I => Hz g (or_intror I)) (fun g I => Hp g (or_intror I)) (fun g I => Hm g (or_intror I))).
  specialize (Hz g (or_introl eq_refl)). specialize (Hp g (or_introl eq_refl)). specialize (Hm g (or_introl eq_refl)).
  rewrite dot3_add_l, dot3_sub_l, !dot3_scale_l.
  assert (s * Rabs (dot3 n g + t * dot3 e g) + t * Rabs (dot3 n g - s * dot3 e g) = (s + t) * Rabs (dot3 n g)).
  { destruct (Rtotal_order (dot3 n g) 0) as [K|[K|K]].
    - rewrite !Rabs_left1 by nra. ring.
    - rewrite (Hz K), K. replace (0 + t * 0) with 0 by ring. replace (0 - s * 0) with 0 by ring. rewrite Rabs_R0. ring.
    - rewrite !Rabs_pos_eq by nra. ring. }
  nra.
Qed.

(* a separating direction can be turned in the plane of e until it meets another wall *)
Lemma turn : forall G x n e,
  (forall g, In g G -> dot3 n g = 0 -> dot3 e g = 0) ->
  (exists g, In g G /\ dot3 n g <> 0 /\ dot3 e g = - dot3 n g) ->
  (exists g, In g G /\ dot3 n g <> 0 /\ dot3 e g = dot3 n g) ->
  0 < excess G x n ->
  exists n', 0 < excess G x n' /\ (exists g, In g G /\ dot3 n g <> 0 /\ dot3 n' g = 0)
    /\ forall g, In g G -> dot3 n g = 0 -> dot3 n' g = 0.
Proof.
  intros G x n e Hz (gp & P1 & P2 & P3) (gm & M1 & M2 & M3) X.
  assert (F : exists t, 0 < t <= 1 /\ (exists g, In g G /\ dot3 n g <> 0 /\ dot3 n g + t * dot3 e g = 0)
       /\ forall g, In g G -> 0 <= dot3 n g * (dot3 n g + t * dot3 e g)).
  { destruct (first_wall G n e Hz) as [L|L]; [|exact L].
    exists 1. split; [lra|]. split; [exists gp; split; [exact P1|split; [exact P2|rewrite P3; ring]]|].
    intros g I. specialize (L g I). rewrite Rmult_1_l. exact L. }
  assert (Hz' : forall g, In g G -> dot3 n g = 0 -> dot3 (neg3 e) g = 0) by (intros g I E; rewrite dot3_neg_l, (Hz g I E); ring).
  assert (B : exists t, 0 < t <= 1 /\ (exists g, In g G /\ dot3 n g <> 0 /\ dot3 n g - t * dot3 e g = 0)
       /\ forall g, In g G -> 0 <= dot3 n g * (dot3 n g - t * dot3 e g)).
  { destruct (first_wall G n (neg3 e) Hz') as [L|(t & T1 & (g & I & N & E) & L)].
    - exists 1. split; [lra|]. split; [exists gm; split; [exact M1|split; [exact M2|rewrite M3; ring]]|].
      intros g I. specialize (L g I). rewrite dot3_neg_l in L. rewrite Rmult_1_l. exact L.
    - exists t. split; [exact T1|]. rewrite dot3_neg_l in E. split; [exists g; split; [exact I|split; [exact N|lra]]|].
      intros g' I'. specialize (L g' I'). rewrite dot3_neg_l in L.
      replace (dot3 n g' - t * dot3 e g') with (dot3 n g' + t * - dot3 e g') by ring. exact L. }
  destruct F as (t & T & (gt & GT1 & GT2 & GT3) & LT). destruct B as (s & Sr & (gs & GS1 & GS2 & GS3) & LS).
  pose proof (width_linear G n e s t ltac:(lra) ltac:(lra) Hz LT LS) as W.
  unfold excess in *.
  set (a := dot3 (add3 n (scale3 t e)) x - width G (add3 n (scale3 t e))).
  set (b := dot3 (sub3 n (scale3 s e)) x - width G (sub3 n (scale3 s e))).
  assert (AB : s * a + t * b = (s + t) * (dot3 n x - width G n)).
  { unfold a, b. rewrite dot3_add_l, dot3_sub_l, !dot3_scale_l. nra. }
  destruct (Rlt_dec 0 a) as [A|A].
  - exists (add3 n (scale3 t e)). split; [exact A|]. split.
    + exists gt. split; [exact GT1|]. split; [exact GT2|]. rewrite dot3_add_l, dot3_scale_l. exact GT3.
    + intros g I E. rewrite dot3_add_l, dot3_scale_l, E, (Hz g I E). ring.
  - exists (sub3 n (scale3 s e)). split; [unfold b in AB; nra|]. split.
    + exists gs. split; [exact GS1|]. split; [exact GS2|]. rewrite dot3_sub_l, dot3_scale_l. exact GS3.
    + intros g I E. rewrite dot3_sub_l, dot3_scale_l, E, (Hz g I E). ring.
Qed.
