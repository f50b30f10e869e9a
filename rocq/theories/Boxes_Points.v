(* The points the code returns for a face: on the face of the other box, over the reference face and not above it, the deepest
   among them, and at least one if the boxes overlap. *)
From Coq Require Import List Reals Arith Bool Lra Lia.
From Verif Require Import Ccd_Model Lin_Model ContactRb3_Model Rot_Model Boxes_Model Boxes_Zono Boxes_Facet Boxes_Sat Boxes_Geom Boxes_Clip Boxes_Face.
Import ListNotations.
Local Open Scope R_scope.

Definition gen_points (pa e1 e2 v w center z : v3) (h0 h1 h2 r1 r2 : R) : list (v3 * R) :=
  let k_1 := dot3 center e1 in
  let k_2 := dot3 center e2 in
  let m11 := dot3 e1 v in
  let m12 := dot3 e1 w in
  let m21 := dot3 e2 v in
  let m22 := dot3 e2 w in
  let k1 := m11 * r1 in let k2 := m21 * r1 in
  let k3 := m12 * r2 in let k4 := m22 * r2 in
  let quad := [ (k_1 - k1 - k3, k_2 - k2 - k4); (k_1 - k1 + k3, k_2 - k2 + k4);
                (k_1 + k1 + k3, k_2 + k2 + k4); (k_1 + k1 - k3, k_2 + k2 - k4) ] in
  let ret := rect_quad h1 h2 quad in
  let det1 := 1 / (m11 * m22 - m12 * m21) in
  let lift (xy : vec) :=
    let k1 := m22 * det1 * (fst xy - k_1) - m12 * det1 * (snd xy - k_2) in
    let k2 := - (m21 * det1) * (fst xy - k_1) + m11 * det1 * (snd xy - k_2) in
    add3 (add3 center (scale3 k1 v)) (scale3 k2 w) in
  map (fun xy => (add3 (lift xy) pa, h0 - dot3 z (lift xy)))
      (filter (fun xy => if Rle_dec 0 (h0 - dot3 z (lift xy)) then true else false) ret).

Section Points.
Variables (z e1 e2 c v w : v3) (h0 h1 h2 r0 r1 r2 : R) (q pa : v3).
Hypothesis OA : ortho z e1 e2.
Hypothesis OB : ortho c v w.
Hypothesis H0 : 0 < h0.
Hypothesis H1 : 0 < h1.
Hypothesis H2 : 0 < h2.
Hypothesis R0 : 0 < r0.
Hypothesis R1 : 0 < r1.
Hypothesis R2 : 0 < r2.
Hypothesis Cz : 0 < dot3 c z.
Local Notation center := (sub3 q (scale3 r0 c)).
Local Notation face k1 k2 := (add3 (add3 center (scale3 k1 v)) (scale3 k2 w)).
Local Notation k_1 := (dot3 center e1). Local Notation k_2 := (dot3 center e2).
Local Notation m11 := (dot3 e1 v). Local Notation m12 := (dot3 e1 w).
Local Notation m21 := (dot3 e2 v). Local Notation m22 := (dot3 e2 w).
Local Notation det := (m11 * m22 - m12 * m21).
Local Notation lift1 xy := (m22 * (1 / det) * (fst xy - k_1) - m12 * (1 / det) * (snd xy - k_2)).
Local Notation lift2 xy := (- (m21 * (1 / det)) * (fst xy - k_1) + m11 * (1 / det) * (snd xy - k_2)).
Local Notation quad := [ (k_1 - m11 * r1 - m12 * r2, k_2 - m21 * r1 - m22 * r2); (k_1 - m11 * r1 + m12 * r2, k_2 - m21 * r1 + m22 * r2);
                (k_1 + m11 * r1 + m12 * r2, k_2 + m21 * r1 + m22 * r2); (k_1 + m11 * r1 - m12 * r2, k_2 + m21 * r1 - m22 * r2) ].

Lemma det_nonzero : det <> 0.
Proof.
  destruct OA as (Z & E1 & E2 & Z1 & Z2 & E12). destruct OB as (C & V & W & CV & CW & VW).
  assert (I : det = dot3 (cross3 e1 e2) (cross3 v w)) by (unfold dot3, cross3; cbn; ring). rewrite I. intros N.
  assert (NA : cross3 e1 e2 <> zero3) by (apply ortho_cross; assumption).
  assert (NB : cross3 v w <> zero3) by (apply ortho_cross; assumption).
  destruct (parallel_normals z (cross3 e1 e2) e1 e2 Z1 Z2 (cross_perp_l _ _) (cross_perp_r _ _) NA NA) as [k K].
  destruct (parallel_normals c (cross3 v w) v w CV CW (cross_perp_l _ _) (cross_perp_r _ _) NB NB) as [l L].
  rewrite K, L, dot3_scale_l, dot3_scale_r, (dot3_comm (cross3 v w)), N in Cz. lra.
Qed.

(* coordinates of a point of the face, and back *)
Lemma lift_coords : forall k1 k2, lift1 (dot3 (face k1 k2) e1, dot3 (face k1 k2) e2) = k1 /\ lift2 (dot3 (face k1 k2) e1, dot3 (face k1 k2) e2) = k2.
Proof.
  intros k1 k2. pose proof det_nonzero as D. cbn [fst snd]. rewrite !(dot3_add_l _ (add3 _ _)), !(dot3_add_l _ center), !dot3_scale_l.
  rewrite !(dot3_comm v), !(dot3_comm w). split; field; exact D.
Qed.
Lemma coords_lift : forall xy, dot3 (face (lift1 xy) (lift2 xy)) e1 = fst xy /\ dot3 (face (lift1 xy) (lift2 xy)) e2 = snd xy.
Proof.
  intros xy. pose proof det_nonzero as D. rewrite !(dot3_add_l _ (add3 _ _)), !(dot3_add_l _ center), !dot3_scale_l.
  rewrite !(dot3_comm v), !(dot3_comm w). split; field; exact D.
Qed.
Lemma quad_in : forall k1 k2, Rabs k1 <= r1 -> Rabs k2 <= r2 -> hull2 quad (dot3 (face k1 k2) e1, dot3 (face k1 k2) e2).
Proof.
  intros k1 k2 K1 K2 f F.
  pose proof (F _ (or_introl eq_refl)) as F1. pose proof (F _ (or_intror (or_introl eq_refl))) as F2.
  pose proof (F _ (or_intror (or_intror (or_introl eq_refl)))) as F3. pose proof (F _ (or_intror (or_intror (or_intror (or_introl eq_refl))))) as F4.
  unfold ev in *. cbn [fst snd] in *. rewrite !(dot3_add_l _ (add3 _ _)), !(dot3_add_l _ center), !dot3_scale_l.
  rewrite !(dot3_comm v), !(dot3_comm w).
  set (E0 := fa f * k_1 + fb f * k_2 + fc f) in *. set (E1 := fa f * m11 + fb f * m21) in *. set (E2 := fa f * m12 + fb f * m22) in *.
  assert (X : forall s t, fa f * (k_1 + s * m11 + t * m12) + fb f * (k_2 + s * m21 + t * m22) + fc f = E0 + s * E1 + t * E2) by (intros; unfold E0, E1, E2; ring).
  rewrite X.
  assert (G : 0 <= E0 - r1 * Rabs E1 - r2 * Rabs E2).
  { unfold E0, E1, E2 in *. unfold Rabs. destruct (Rcase_abs _); destruct (Rcase_abs _); nra. }
  assert (A1 : - (r1 * Rabs E1) <= k1 * E1).
  { pose proof (Rabs_pos E1). pose proof (Rle_abs (- (k1 * E1))) as L. rewrite Rabs_Ropp, Rabs_mult in L.
    assert (Rabs k1 * Rabs E1 <= r1 * Rabs E1) by (apply Rmult_le_compat_r; assumption). lra. }
  assert (A2 : - (r2 * Rabs E2) <= k2 * E2).
  { pose proof (Rabs_pos E2). pose proof (Rle_abs (- (k2 * E2))) as L. rewrite Rabs_Ropp, Rabs_mult in L.
    assert (Rabs k2 * Rabs E2 <= r2 * Rabs E2) by (apply Rmult_le_compat_r; assumption). lra. }
  lra.
Qed.
Lemma quad_out : forall xy, hull2 quad xy -> Rabs (lift1 xy) <= r1 /\ Rabs (lift2 xy) <= r2.
Proof.
  intros xy H. pose proof det_nonzero as D.
  assert (Lo : forall a b k (r : R), (forall x y, In (x, y) quad -> 0 <= a * x + b * y + k) -> 0 <= a * fst xy + b * snd xy + k).
  { intros a b k r Hq. apply (H (Aff a b k)). intros [x y] I. apply Hq, I. }
  assert (V : forall x y, In (x, y) quad -> (lift1 (x, y) = r1 \/ lift1 (x, y) = - r1) /\ (lift2 (x, y) = r2 \/ lift2 (x, y) = - r2)).
  { intros x y I. cbn [In] in I. cbn [fst snd]. repeat (destruct I as [I|I]; [|]); try contradiction; injection I as <- <-;
    (split; [first [left; field; exact D|right; field; exact D]|first [left; field; exact D|right; field; exact D]]). }
  set (di := 1 / det) in *.
  split; apply Rabs_le; split.
  - pose proof (Lo (m22 * di) (- (m12 * di)) (- (m22 * di * k_1) + m12 * di * k_2 + r1) 0) as K.
    enough (0 <= m22 * di * fst xy + - (m12 * di) * snd xy + (- (m22 * di * k_1) + m12 * di * k_2 + r1)) by lra.
    apply K. intros x y I. destruct (V x y I) as [[E|E] _]; cbn [fst snd] in E; lra.
  - pose proof (Lo (- (m22 * di)) (m12 * di) (m22 * di * k_1 - m12 * di * k_2 + r1) 0) as K.
    enough (0 <= - (m22 * di) * fst xy + m12 * di * snd xy + (m22 * di * k_1 - m12 * di * k_2 + r1)) by lra.
    apply K. intros x y I. destruct (V x y I) as [[E|E] _]; cbn [fst snd] in E; lra.
  - pose proof (Lo (- (m21 * di)) (m11 * di) (m21 * di * k_1 - m11 * di * k_2 + r2) 0) as K.
    enough (0 <= - (m21 * di) * fst xy + m11 * di * snd xy + (m21 * di * k_1 - m11 * di * k_2 + r2)) by lra.
    apply K. intros x y I. destruct (V x y I) as [_ [E|E]]; cbn [fst snd] in E; lra.
  - pose proof (Lo (m21 * di) (- (m11 * di)) (- (m21 * di * k_1) + m11 * di * k_2 + r2) 0) as K.
    enough (0 <= m21 * di * fst xy + - (m11 * di) * snd xy + (- (m21 * di * k_1) + m11 * di * k_2 + r2)) by lra.
    apply K. intros x y I. destruct (V x y I) as [_ [E|E]]; cbn [fst snd] in E; lra.
Qed.

Local Notation points := (gen_points pa e1 e2 v w center z h0 h1 h2 r1 r2).
Lemma points_in : forall x dep, In (x, dep) points <-> exists xy, In xy (rect_quad h1 h2 quad)
  /\ x = add3 (face (lift1 xy) (lift2 xy)) pa /\ dep = h0 - dot3 z (face (lift1 xy) (lift2 xy)) /\ 0 <= dep.
Proof.
  intros x dep. unfold gen_points. cbv zeta. rewrite in_map_iff. split.
  - intros (xy & E & I). apply filter_In in I. destruct I as [I K]. exists xy. split; [exact I|].
    split; [congruence|]. split; [congruence|]. destruct (Rle_dec _ _) as [L|L]; [|discriminate]. inversion E. subst. exact L.
  - intros (xy & I & -> & -> & L). exists xy. split; [reflexivity|]. apply filter_In. split; [exact I|]. destruct (Rle_dec _ _); [reflexivity|contradiction].
Qed.

Theorem points_length : (length points <= 8)%nat.
Proof.
  unfold gen_points. cbv zeta. rewrite map_length.
  destruct (rect_quad_spec h1 h2 quad (parallelogram_convex k_1 k_2 (m11 * r1) (m21 * r1) (m12 * r2) (m22 * r2)) eq_refl) as [L _].
  etransitivity; [|exact L]. generalize (rect_quad h1 h2 quad). intros l. 
  match goal with |- (length (filter ?f l) <= _)%nat => induction l as [|a l IH]; cbn [filter length]; [lia|destruct (f a); cbn [length]; lia] end.
Qed.
Theorem points_sound : forall x dep, In (x, dep) points -> exists k1 k2, Rabs k1 <= r1 /\ Rabs k2 <= r2
  /\ x = add3 (face k1 k2) pa /\ dep = h0 - dot3 z (face k1 k2) /\ 0 <= dep /\ Rabs (dot3 (face k1 k2) e1) <= h1 /\ Rabs (dot3 (face k1 k2) e2) <= h2.
Proof.
  intros x dep I. apply points_in in I. destruct I as (xy & I & X & D & P).
  destruct (rect_quad_spec h1 h2 quad (parallelogram_convex k_1 k_2 (m11 * r1) (m21 * r1) (m12 * r2) (m22 * r2)) eq_refl) as (_ & S & _).
  destruct (S xy I) as (Hu & X1 & X2). destruct (quad_out xy Hu) as [K1 K2]. destruct (coords_lift xy) as [C1 C2].
  exists (lift1 xy), (lift2 xy). split; [exact K1|]. split; [exact K2|]. split; [exact X|]. split; [exact D|]. split; [exact P|].
  rewrite C1, C2. split; apply Rabs_le; assumption.
Qed.
(* for every direction some returned polygon point is at least as far along it *)
Lemma points_attain : forall k1 k2 u, Rabs k1 <= r1 -> Rabs k2 <= r2 -> Rabs (dot3 (face k1 k2) e1) < h1 -> Rabs (dot3 (face k1 k2) e2) < h2 ->
  exists xy, In xy (rect_quad h1 h2 quad) /\ dot3 u (face (lift1 xy) (lift2 xy)) <= dot3 u (face k1 k2).
Proof.
  intros k1 k2 u K1 K2 B1 B2.
  destruct (rect_quad_spec h1 h2 quad (parallelogram_convex k_1 k_2 (m11 * r1) (m21 * r1) (m12 * r2) (m22 * r2)) eq_refl) as (_ & _ & S).
  set (y := (dot3 (face k1 k2) e1, dot3 (face k1 k2) e2)).
  assert (Hu : hull2 (rect_quad h1 h2 quad) y).
  { apply S; [apply quad_in; assumption| |]; unfold y; cbn [fst snd].
    - unfold Rabs in B1. destruct (Rcase_abs _); lra.
    - unfold Rabs in B2. destruct (Rcase_abs _); lra. }
  set (di := 1 / det).
  set (g := Aff (m22 * di * dot3 u v - m21 * di * dot3 u w) (- (m12 * di) * dot3 u v + m11 * di * dot3 u w)
                (dot3 u center + (- (m22 * di * k_1) + m12 * di * k_2) * dot3 u v + (m21 * di * k_1 - m11 * di * k_2) * dot3 u w)).
  assert (Eg : forall xy, ev g xy = dot3 u (face (lift1 xy) (lift2 xy))).
  { intros xy. rewrite !(dot3_add_r _ (add3 _ _)), !(dot3_add_r _ center), !dot3_scale_r. fold di. unfold ev, g. cbn [fa fb fc]. ring. }
  destruct (hull2_attain _ _ g Hu) as (x & I & L). exists x. split; [exact I|]. rewrite !Eg in L.
  destruct (lift_coords k1 k2) as [L1 L2]. fold y in L1, L2. rewrite L1, L2 in L. exact L.
Qed.
Theorem points_deepest : forall k1 k2, Rabs k1 <= r1 -> Rabs k2 <= r2 -> Rabs (dot3 (face k1 k2) e1) < h1 -> Rabs (dot3 (face k1 k2) e2) < h2 ->
  0 <= h0 - dot3 z (face k1 k2) -> exists x dep, In (x, dep) points /\ h0 - dot3 z (face k1 k2) <= dep.
Proof.
  intros k1 k2 K1 K2 B1 B2 P. destruct (points_attain k1 k2 z K1 K2 B1 B2) as (xy & I & L).
  exists (add3 (face (lift1 xy) (lift2 xy)) pa), (h0 - dot3 z (face (lift1 xy) (lift2 xy))). split; [|lra].
  apply points_in. exists xy. split; [exact I|]. split; [reflexivity|]. split; [reflexivity|lra].
Qed.
Theorem points_span : 
  (forall k1 k2, Rabs k1 <= r1 -> Rabs k2 <= r2 -> Rabs (dot3 (face k1 k2) e1) <= h1 -> Rabs (dot3 (face k1 k2) e2) <= h2 -> 0 <= h0 - dot3 z (face k1 k2)) ->
  forall k1 k2 u, Rabs k1 <= r1 -> Rabs k2 <= r2 -> Rabs (dot3 (face k1 k2) e1) < h1 -> Rabs (dot3 (face k1 k2) e2) < h2 ->
  exists x dep, In (x, dep) points /\ dot3 u x <= dot3 u (add3 (face k1 k2) pa).
Proof.
  intros Hall k1 k2 u K1 K2 B1 B2. destruct (points_attain k1 k2 u K1 K2 B1 B2) as (xy & I & L).
  exists (add3 (face (lift1 xy) (lift2 xy)) pa), (h0 - dot3 z (face (lift1 xy) (lift2 xy))). split.
  - apply points_in. exists xy. split; [exact I|]. split; [reflexivity|]. split; [reflexivity|].
    destruct (rect_quad_spec h1 h2 quad (parallelogram_convex k_1 k_2 (m11 * r1) (m21 * r1) (m12 * r2) (m22 * r2)) eq_refl) as (_ & S & _).
    destruct (S xy I) as (Hu & X1 & X2). destruct (quad_out xy Hu) as [Q1 Q2]. destruct (coords_lift xy) as [C1 C2].
    apply Hall; [exact Q1|exact Q2|rewrite C1; apply Rabs_le; exact X1|rewrite C2; apply Rabs_le; exact X2].
  - rewrite (dot3_add_r _ (face k1 k2)), (dot3_add_r _ (face (lift1 xy) (lift2 xy))). lra.
Qed.
End Points.
