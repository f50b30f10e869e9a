(* The interpolated distance field: existence, uniqueness, and what detect computes. *)
From Coq Require Import List Reals NArith ZArith Bool Lia Lra Psatz.
From Verif Require Import Outcome Ccd_Model Lin_Model ContactRb3_Model Rot_Model Rot_Spec Sdf_Model Sdf_Spec.
Import ListNotations.
Open Scope R_scope.

(* ---------- one axis ---------- *)
Lemma count_add : forall i, count (i + 1) = count i + 1.
Proof. intros i. unfold count. rewrite N2Z.inj_add, plus_IZR. reflexivity. Qed.
Lemma count_0 : count 0 = 0.
Proof. reflexivity. Qed.
Lemma count_lt : forall i j, count i < count j -> (i < j)%N.
Proof. intros i j H. apply lt_IZR in H. lia. Qed.
Lemma count_le : forall i j, (i <= j)%N -> count i <= count j.
Proof. intros i j H. apply IZR_le. lia. Qed.
Lemma count_inj : forall i j, count i = count j -> i = j.
Proof. intros i j H. apply eq_IZR in H. lia. Qed.
Lemma count_nonneg : forall i, 0 <= count i.
Proof. intros i. rewrite <- count_0. apply count_le. lia. Qed.
Lemma cell_index_spec : forall o d x, 0 < d -> o <= x ->
  o + count (cell_index o d x) * d <= x < o + count (cell_index o d x + 1) * d.
Proof.
  intros o d x Hd Hx. unfold cell_index. set (r := (x - o) / d).
  assert (Er : x = o + r * d) by (unfold r; field; lra).
  assert (Hr : 0 <= r) by (unfold r, Rdiv; apply Rmult_le_pos; [lra|apply Rlt_le, Rinv_0_lt_compat, Hd]).
  destruct (base_Int_part r) as (H1 & H2). assert (0 <= Int_part r)%Z.
  { assert (-1 < Int_part r)%Z; [|lia]. apply lt_IZR. lra. }
  rewrite count_add. unfold count. rewrite Z2N.id by assumption. rewrite Er. split; nra.
Qed.
Lemma cell_index_unique : forall o d x i, 0 < d -> o + count i * d <= x < o + count (i + 1) * d -> cell_index o d x = i.
Proof.
  intros o d x i Hd Hx. assert (Ho : o <= x) by (pose proof (count_nonneg i); nra).
  pose proof (cell_index_spec o d x Hd Ho) as H. set (k := cell_index o d x) in *. clearbody k. rewrite count_add in *.
  assert (count k < count i + 1) by nra. assert (count i < count k + 1) by nra. rewrite <- count_add in *.
  apply count_lt in H0, H1. lia.
Qed.
(* position in a cell *)
Definition loc (o d : R) (i : N) (x : R) : R := (x - (o + count i * d)) / d.
Definition pick (n : N) (o d x : R) : N := N.min (cell_index o d x) (n - 2).
Definition lin (n : N) (o d : R) (g : N -> R) (x : R) : R :=
  let i := pick n o d x in (1 - loc o d i x) * g i + loc o d i x * g (i + 1)%N.
Lemma pick_cell : forall n o d x, 0 < d -> (2 <= n)%N -> o <= x <= o + count (n - 1) * d ->
  (pick n o d x + 1 < n)%N /\ o + count (pick n o d x) * d <= x <= o + count (pick n o d x + 1) * d.
Proof.
  intros n o d x Hd Hn Hx. pose proof (cell_index_spec o d x Hd (proj1 Hx)) as H. unfold pick. set (k := cell_index o d x) in *. clearbody k.
  split; [lia|]. destruct (N.min_spec k (n - 2)) as [(L & E)|(L & E)]; rewrite E; [lra|].
  pose proof (count_le _ _ L). split; [nra|]. replace (n - 2 + 1)%N with (n - 1)%N by lia. lra.
Qed.
Lemma pick_below : forall n o d x, 0 < d -> (2 <= n)%N -> o <= x < o + count (n - 1) * d ->
  pick n o d x = cell_index o d x /\ (cell_index o d x + 1 < n)%N.
Proof.
  intros n o d x Hd Hn Hx. pose proof (cell_index_spec o d x Hd (proj1 Hx)) as H. unfold pick. set (k := cell_index o d x) in *. clearbody k.
  assert (count k < count (n - 1)) by nra. apply count_lt in H0. split; lia.
Qed.
Lemma lin_cell : forall n o d g x i, 0 < d -> (i + 1 < n)%N -> o + count i * d <= x <= o + count (i + 1) * d ->
  lin n o d g x = (1 - loc o d i x) * g i + loc o d i x * g (i + 1)%N.
Proof.
  intros n o d g x i Hd Hi Hx. unfold lin. destruct (Rlt_dec x (o + count (i + 1) * d)) as [L|L].
  - assert (E : pick n o d x = i); [|rewrite E; reflexivity]. unfold pick. rewrite (cell_index_unique o d x i) by (auto; lra). lia.
  - assert (Ex : x = o + count (i + 1) * d) by lra. assert (Ei : cell_index o d x = (i + 1)%N).
    { apply cell_index_unique; [exact Hd|]. rewrite (count_add (i + 1)). rewrite Ex. split; nra. }
    destruct (N.eq_dec (i + 2) n) as [En|En].
    + assert (E : pick n o d x = i); [|rewrite E; reflexivity]. unfold pick. rewrite Ei. lia.
    + assert (E : pick n o d x = (i + 1)%N) by (unfold pick; rewrite Ei; lia). rewrite E.
      assert (loc o d (i + 1) x = 0) by (unfold loc; rewrite Ex; field; lra).
      assert (loc o d i x = 1) by (unfold loc; rewrite Ex, count_add; field; lra). rewrite H, H0. ring.
Qed.
Lemma lin_point : forall n o d g i, 0 < d -> (2 <= n)%N -> (i < n)%N -> lin n o d g (o + count i * d) = g i.
Proof.
  intros n o d g i Hd Hn Hi. destruct (N.eq_dec (i + 1) n) as [E|E].
  - assert (B : o + count (i - 1) * d <= o + count i * d <= o + count (i - 1 + 1) * d).
    { replace (i - 1 + 1)%N with i by lia. pose proof (count_le (i - 1) i ltac:(lia)). split; [nra|lra]. }
    rewrite (lin_cell n o d g _ (i - 1)) by (try exact B; try exact Hd; lia).
    replace (i - 1 + 1)%N with i by lia. assert (L : loc o d (i - 1) (o + count i * d) = 1).
    { unfold loc. replace (count i) with (count (i - 1) + 1) by (rewrite <- count_add; f_equal; lia). field; lra. }
    rewrite L. ring.
  - assert (B : o + count i * d <= o + count i * d <= o + count (i + 1) * d) by (rewrite count_add; split; nra).
    rewrite (lin_cell n o d g _ i) by (try exact B; try exact Hd; lia).
    assert (L : loc o d i (o + count i * d) = 0) by (unfold loc; field; lra). rewrite L. ring.
Qed.
Lemma loc_range : forall o d i x, 0 < d -> o + count i * d <= x <= o + count (i + 1) * d -> 0 <= loc o d i x <= 1.
Proof.
  intros o d i x Hd Hx. rewrite count_add in Hx. assert (E : x - (o + count i * d) = loc o d i x * d) by (unfold loc; field; lra). split; nra.
Qed.
Lemma loc_mix : forall o d i x y t, 0 < d -> loc o d i ((1 - t) * x + t * y) = (1 - t) * loc o d i x + t * loc o d i y.
Proof. intros. unfold loc. field. lra. Qed.
Lemma loc_back : forall o d i x, 0 < d -> x = (1 - loc o d i x) * (o + count i * d) + loc o d i x * (o + count (i + 1) * d).
Proof. intros. rewrite count_add. unfold loc. field. lra. Qed.

(* ---------- the field ---------- *)
Definition tri (m : mesh) (i j k : N) (a b c : R) : R :=
  let v000 := value_at m i j k in
  let v001 := value_at m i j (k + 1) in
  let v010 := value_at m i (j + 1) k in
  let v011 := value_at m i (j + 1) (k + 1) in
  let v100 := value_at m (i + 1) j k in
  let v101 := value_at m (i + 1) j (k + 1) in
  let v110 := value_at m (i + 1) (j + 1) k in
  let v111 := value_at m (i + 1) (j + 1) (k + 1) in
  (1 - c) * ((1 - b) * ((1 - a) * v000 + a * v100) + b * ((1 - a) * v010 + a * v110))
  + c * ((1 - b) * ((1 - a) * v001 + a * v101) + b * ((1 - a) * v011 + a * v111)).
Definition tri_at (m : mesh) (i j k : N) (x : v3) : R :=
  tri m i j k (loc (c0 (me_origin m)) (c0 (me_delta m)) i (c0 x)) (loc (c1 (me_origin m)) (c1 (me_delta m)) j (c1 x)) (loc (c2 (me_origin m)) (c2 (me_delta m)) k (c2 x)).
Definition field (m : mesh) (x : v3) : R :=
  lin (me_nz m) (c2 (me_origin m)) (c2 (me_delta m)) (fun k =>
    lin (me_ny m) (c1 (me_origin m)) (c1 (me_delta m)) (fun j =>
      lin (me_nx m) (c0 (me_origin m)) (c0 (me_delta m)) (fun i => value_at m i j k) (c0 x)) (c1 x)) (c2 x).
Ltac wf W := destruct W as (D0 & D1 & D2 & N0 & N1 & N2 & SZ & SB).
Ltac cellu H := let A := fresh "I" in let B := fresh "J" in let C := fresh "K" in let P := fresh "P" in let Q := fresh "Q" in let T := fresh "T" in
  destruct H as (A & B & C & P & Q & T); unfold grid_point, add3 in P, Q, T; cbn [c0 c1 c2] in P, Q, T.
Lemma field_cell : forall m i j k x, well_formed m -> cell m i j k x -> field m x = tri_at m i j k x.
Proof.
  intros m i j k x W H. wf W. cellu H. unfold field, tri_at, tri. rewrite (lin_cell _ _ _ _ _ k) by assumption.
  rewrite !(lin_cell (me_ny m) _ _ _ _ j) by assumption. rewrite !(lin_cell (me_nx m) _ _ _ _ i) by assumption. reflexivity.
Qed.
Lemma cell_mix : forall m i j k x y t, cell m i j k x -> cell m i j k y -> 0 <= t <= 1 -> cell m i j k (add3 (scale3 (1 - t) x) (scale3 t y)).
Proof.
  intros m i j k x y t (I & J & K & P & Q & T) (_ & _ & _ & P' & Q' & T') Ht. repeat split; try assumption; unfold add3, scale3; cbn [c0 c1 c2]; nra.
Qed.
Lemma field_interpolates : forall m, well_formed m -> interpolates m (field m).
Proof.
  intros m W. split.
  - intros i j k Hi Hj Hk. wf W. unfold field, grid_point, add3. cbn [c0 c1 c2]. rewrite !lin_point by assumption. reflexivity.
  - intros i j k x y t Hx Hy Ha Ht. rewrite !(field_cell m i j k) by (auto using cell_mix). wf W. unfold tri_at, tri, add3, scale3. cbn [c0 c1 c2].
    rewrite !loc_mix by assumption. destruct Ha as [(E & F)|[(E & F)|(E & F)]]; rewrite E, F; ring.
Qed.
Lemma interp_x : forall m f i j k x y z, well_formed m -> interpolates m f -> cell m i j k (V3 x y z) ->
  let t := loc (c0 (me_origin m)) (c0 (me_delta m)) i x in
  f (V3 x y z) = (1 - t) * f (V3 (c0 (grid_point m i j k)) y z) + t * f (V3 (c0 (grid_point m (i + 1) j k)) y z).
Proof.
  intros m f i j k x y z W (_ & F) H t. pose proof H as H'. wf W. cellu H.
  assert (T01 : 0 <= t <= 1) by (apply loc_range; assumption).
  rewrite <- (F i j k) ; [|..|exact T01].
  - f_equal. unfold add3, scale3, grid_point, add3. cbn [c0 c1 c2]. f_equal; [apply loc_back; assumption|ring|ring].
  - rewrite count_add in *. repeat split; unfold grid_point, add3 in *; cbn [c0 c1 c2] in *; rewrite ?count_add; try assumption; nra.
  - rewrite count_add in *. repeat split; unfold grid_point, add3 in *; cbn [c0 c1 c2] in *; rewrite ?count_add; try assumption; nra.
  - left. cbn. auto.
Qed.
Lemma interp_y : forall m f i j k x y z, well_formed m -> interpolates m f -> cell m i j k (V3 x y z) ->
  let t := loc (c1 (me_origin m)) (c1 (me_delta m)) j y in
  f (V3 x y z) = (1 - t) * f (V3 x (c1 (grid_point m i j k)) z) + t * f (V3 x (c1 (grid_point m i (j + 1) k)) z).
Proof.
  intros m f i j k x y z W (_ & F) H t. wf W. cellu H.
  assert (T01 : 0 <= t <= 1) by (apply loc_range; assumption).
  rewrite <- (F i j k) ; [|..|exact T01].
  - f_equal. unfold add3, scale3, grid_point, add3. cbn [c0 c1 c2]. f_equal; [ring|apply loc_back; assumption|ring].
  - rewrite count_add in *. repeat split; unfold grid_point, add3 in *; cbn [c0 c1 c2] in *; rewrite ?count_add; try assumption; nra.
  - rewrite count_add in *. repeat split; unfold grid_point, add3 in *; cbn [c0 c1 c2] in *; rewrite ?count_add; try assumption; nra.
  - right. left. cbn. auto.
Qed.
Lemma interp_z : forall m f i j k x y z, well_formed m -> interpolates m f -> cell m i j k (V3 x y z) ->
  let t := loc (c2 (me_origin m)) (c2 (me_delta m)) k z in
  f (V3 x y z) = (1 - t) * f (V3 x y (c2 (grid_point m i j k))) + t * f (V3 x y (c2 (grid_point m i j (k + 1)))).
Proof.
  intros m f i j k x y z W (_ & F) H t. wf W. cellu H.
  assert (T01 : 0 <= t <= 1) by (apply loc_range; assumption).
  rewrite <- (F i j k) ; [|..|exact T01].
  - f_equal. unfold add3, scale3, grid_point, add3. cbn [c0 c1 c2]. f_equal; [ring|ring|apply loc_back; assumption].
  - rewrite count_add in *. repeat split; unfold grid_point, add3 in *; cbn [c0 c1 c2] in *; rewrite ?count_add; try assumption; nra.
  - rewrite count_add in *. repeat split; unfold grid_point, add3 in *; cbn [c0 c1 c2] in *; rewrite ?count_add; try assumption; nra.
  - right. right. cbn. auto.
Qed.
Lemma interp_cell : forall m f i j k x, well_formed m -> interpolates m f -> cell m i j k x -> f x = tri_at m i j k x.
Proof.
  intros m f i j k [x y z] W IF H. pose proof W as W'. wf W'.
  assert (C : forall a b c, (a = x \/ a = c0 (grid_point m i j k) \/ a = c0 (grid_point m (i + 1) j k)) ->
    (b = y \/ b = c1 (grid_point m i j k) \/ b = c1 (grid_point m i (j + 1) k)) ->
    (c = z \/ c = c2 (grid_point m i j k) \/ c = c2 (grid_point m i j (k + 1))) -> cell m i j k (V3 a b c)).
  { intros a b c Ha Hb Hc. cellu H. unfold cell, between, grid_point, add3 in *. cbn [c0 c1 c2] in *. rewrite ?count_add in *.
    repeat split; try assumption; try (destruct Ha as [->|[->| ->]]; nra); try (destruct Hb as [->|[->| ->]]; nra); destruct Hc as [->|[->| ->]]; nra. }
  unfold tri_at, tri. cbn [c0 c1 c2]. rewrite (interp_z m f i j k x y z W IF H). f_equal; f_equal.
  - rewrite (interp_y m f i j k x y _ W IF) by (apply C; auto). f_equal; f_equal.
    + rewrite (interp_x m f i j k x _ _ W IF) by (apply C; auto). destruct IF as (V & _).
      change (V3 (c0 (grid_point m i j k)) (c1 (grid_point m i j k)) (c2 (grid_point m i j k))) with (grid_point m i j k).
      change (V3 (c0 (grid_point m (i + 1) j k)) (c1 (grid_point m i j k)) (c2 (grid_point m i j k))) with (grid_point m (i + 1) j k).
      cellu H. rewrite !V by lia. reflexivity.
    + rewrite (interp_x m f i j k x _ _ W IF) by (apply C; auto). destruct IF as (V & _).
      change (V3 (c0 (grid_point m i j k)) (c1 (grid_point m i (j + 1) k)) (c2 (grid_point m i j k))) with (grid_point m i (j + 1) k).
      change (V3 (c0 (grid_point m (i + 1) j k)) (c1 (grid_point m i (j + 1) k)) (c2 (grid_point m i j k))) with (grid_point m (i + 1) (j + 1) k).
      cellu H. rewrite !V by lia. reflexivity.
  - rewrite (interp_y m f i j k x y _ W IF) by (apply C; auto). f_equal; f_equal.
    + rewrite (interp_x m f i j k x _ _ W IF) by (apply C; auto). destruct IF as (V & _).
      change (V3 (c0 (grid_point m i j k)) (c1 (grid_point m i j k)) (c2 (grid_point m i j (k + 1)))) with (grid_point m i j (k + 1)).
      change (V3 (c0 (grid_point m (i + 1) j k)) (c1 (grid_point m i j k)) (c2 (grid_point m i j (k + 1)))) with (grid_point m (i + 1) j (k + 1)).
      cellu H. rewrite !V by lia. reflexivity.
    + rewrite (interp_x m f i j k x _ _ W IF) by (apply C; auto). destruct IF as (V & _).
      change (V3 (c0 (grid_point m i j k)) (c1 (grid_point m i (j + 1) k)) (c2 (grid_point m i j (k + 1)))) with (grid_point m i (j + 1) (k + 1)).
      change (V3 (c0 (grid_point m (i + 1) j k)) (c1 (grid_point m i (j + 1) k)) (c2 (grid_point m i j (k + 1)))) with (grid_point m (i + 1) (j + 1) (k + 1)).
      cellu H. rewrite !V by lia. reflexivity.
Qed.
Lemma grid_cell : forall m x, well_formed m -> in_grid m x -> exists i j k, cell m i j k x.
Proof.
  intros m x W (P & Q & T). wf W. unfold far_corner, grid_point, add3 in *. cbn [c0 c1 c2] in *.
  destruct (pick_cell _ _ _ _ D0 N0 P) as (A & A'). destruct (pick_cell _ _ _ _ D1 N1 Q) as (B & B'). destruct (pick_cell _ _ _ _ D2 N2 T) as (C & C').
  eexists _, _, _. split; [exact A|]. split; [exact B|]. split; [exact C|]. unfold between, grid_point, add3. cbn [c0 c1 c2]. split; [exact A'|]. split; [exact B'|exact C'].
Qed.
Lemma interp_unique : forall m f h x, well_formed m -> interpolates m f -> interpolates m h -> in_grid m x -> f x = h x.
Proof. intros m f h x W F H G. destruct (grid_cell m x W G) as (i & j & k & C). rewrite (interp_cell m f i j k), (interp_cell m h i j k); auto. Qed.

(* ---------- detect ---------- *)
Lemma slot_lt : forall a n b k, (a < n)%N -> (b < k)%N -> (b * n + a < n * k)%N.
Proof. intros a n b k Ha Hb. assert (b + 1 <= k)%N by lia. assert (n * (b + 1) <= n * k)%N by (apply N.mul_le_mono_l; assumption). lia. Qed.
Lemma dist_at_ok : forall m i j k, well_formed m -> (i < me_nx m)%N -> (j < me_ny m)%N -> (k < me_nz m)%N -> dist_at m i j k = Ok (value_at m i j k).
Proof.
  intros m i j k W Hi Hj Hk. wf W. unfold dist_at, value_at.
  assert (L : ((k * me_ny m + j) * me_nx m + i < me_size m)%N) .
  { rewrite SZ, <- N.mul_assoc. apply slot_lt; [exact Hi|]. apply slot_lt; assumption. }
  unfold u32. rewrite N.mod_small by lia. destruct (N.ltb_spec ((k * me_ny m + j) * me_nx m + i) (me_size m)); [|lia]. do 2 f_equal. lia.
Qed.
Lemma far_end : forall m, well_formed m -> grid_end m = far_corner m.
Proof.
  intros m W. wf W. unfold grid_end, far_corner, grid_point, add3. cbn [c0 c1 c2].
  assert (E : forall n, (2 <= n)%N -> (n <= 4294967296)%N -> u32 (n + 4294967295) = (n - 1)%N).
  { intros n H1 H2. unfold u32. replace (n + 4294967295)%N with (n - 1 + 1 * 4294967296)%N by lia. rewrite N.mod_add by lia. apply N.mod_small. lia. }
  rewrite !E; try assumption; try reflexivity; nia.
Qed.
Definition grad (m : mesh) (i j k : N) (x : v3) : v3 :=
  let v000 := value_at m i j k in
  let v001 := value_at m i j (k + 1) in
  let v010 := value_at m i (j + 1) k in
  let v011 := value_at m i (j + 1) (k + 1) in
  let v100 := value_at m (i + 1) j k in
  let v101 := value_at m (i + 1) j (k + 1) in
  let v110 := value_at m (i + 1) (j + 1) k in
  let v111 := value_at m (i + 1) (j + 1) (k + 1) in
  let a := loc (c0 (me_origin m)) (c0 (me_delta m)) i (c0 x) in
  let b := loc (c1 (me_origin m)) (c1 (me_delta m)) j (c1 x) in
  let c := loc (c2 (me_origin m)) (c2 (me_delta m)) k (c2 x) in
  V3 (((1 - c) * ((1 - b) * (v100 - v000) + b * (v110 - v010)) + c * ((1 - b) * (v101 - v001) + b * (v111 - v011))) / c0 (me_delta m))
     (((1 - c) * ((1 - a) * (v010 - v000) + a * (v110 - v100)) + c * ((1 - a) * (v011 - v001) + a * (v111 - v101))) / c1 (me_delta m))
     (((1 - b) * ((1 - a) * (v001 - v000) + a * (v101 - v100)) + b * ((1 - a) * (v011 - v010) + a * (v111 - v110))) / c2 (me_delta m)).
Lemma half_open_index : forall m i j k x, well_formed m -> half_open m i j k x ->
  cell_index (c0 (me_origin m)) (c0 (me_delta m)) (c0 x) = i /\ cell_index (c1 (me_origin m)) (c1 (me_delta m)) (c1 x) = j
  /\ cell_index (c2 (me_origin m)) (c2 (me_delta m)) (c2 x) = k.
Proof.
  intros m i j k x W (H & B0 & B1 & B2). wf W. cellu H. unfold grid_point, add3 in *. cbn [c0 c1 c2] in *.
  repeat split; apply cell_index_unique; auto; lra.
Qed.
Lemma half_open_exists : forall m x, well_formed m -> in_grid m x -> below x (far_corner m) -> exists i j k, half_open m i j k x.
Proof.
  intros m x W (P & Q & T) (B0 & B1 & B2). wf W. unfold far_corner, grid_point, add3 in *. cbn [c0 c1 c2] in *.
  destruct (pick_below _ _ _ _ D0 N0 (conj (proj1 P) B0)) as (_ & A). destruct (pick_below _ _ _ _ D1 N1 (conj (proj1 Q) B1)) as (_ & B). destruct (pick_below _ _ _ _ D2 N2 (conj (proj1 T) B2)) as (_ & C).
  pose proof (cell_index_spec _ _ _ D0 (proj1 P)) as A'. pose proof (cell_index_spec _ _ _ D1 (proj1 Q)) as B'. pose proof (cell_index_spec _ _ _ D2 (proj1 T)) as C'.
  eexists _, _, _. split; [split; [exact A|]; split; [exact B|]; split; [exact C|]|]; unfold between, below, grid_point, add3; cbn [c0 c1 c2].
  - split; [split; [apply A'|lra]|]. split; [split; [apply B'|lra]|]. split; [apply C'|lra].
  - split; [apply A'|]. split; [apply B'|apply C'].
Qed.
Lemma half_open_grid : forall m i j k x, well_formed m -> half_open m i j k x -> in_grid m x /\ below x (far_corner m).
Proof.
  intros m i j k x W (H & B0 & B1 & B2). wf W. cellu H. unfold in_grid, between, below, far_corner, grid_point, add3 in *. cbn [c0 c1 c2] in *.
  pose proof (count_le (i + 1) (me_nx m - 1) ltac:(lia)). pose proof (count_le (j + 1) (me_ny m - 1) ltac:(lia)). pose proof (count_le (k + 1) (me_nz m - 1) ltac:(lia)).
  pose proof (count_nonneg i). pose proof (count_nonneg j). pose proof (count_nonneg k). repeat split; nra.
Qed.
Lemma detect_cell : forall m i j k x, well_formed m -> half_open m i j k x ->
  detect m x = Ok (if Rlt_dec 0 (tri_at m i j k x) then None else Some (normalized3 (grad m i j k x))).
Proof.
  intros m i j k x W H. pose proof (half_open_index m i j k x W H) as (Ei & Ej & Ek). pose proof (half_open_grid m i j k x W H) as ((G0 & G1 & G2) & _).
  destruct H as ((I & J & K & _) & _). unfold detect. rewrite (far_end m W), Ei, Ej, Ek.
  destruct (Rlt_dec (c0 x) _); [lra|]. destruct (Rlt_dec (c1 x) _); [lra|]. destruct (Rlt_dec (c2 x) _); [lra|].
  destruct (Rlt_dec _ (c0 x)); [lra|]. destruct (Rlt_dec _ (c1 x)); [lra|]. destruct (Rlt_dec _ (c2 x)); [lra|].
  pose proof W as W'. wf W'. assert (U : forall a n, (a + 1 < n)%N -> (n <= 4294967296)%N -> u32 (a + 1) = (a + 1)%N) by (intros; unfold u32; apply N.mod_small; lia).
  rewrite !(U i (me_nx m)), !(U j (me_ny m)), !(U k (me_nz m)) by (auto; nia).
  rewrite !dist_at_ok by (auto; lia). cbn [obind]. unfold tri_at, tri, grad, loc.
  destruct (Rlt_dec 0 _) as [L|L]; reflexivity.
Qed.
Lemma detect_outside : forall m x, well_formed m -> ~ in_grid m x -> detect m x = Ok None.
Proof.
  intros m x W H. unfold detect. rewrite (far_end m W).
  destruct (Rlt_dec (c0 x) _); [reflexivity|]. destruct (Rlt_dec (c1 x) _); [reflexivity|]. destruct (Rlt_dec (c2 x) _); [reflexivity|].
  destruct (Rlt_dec _ (c0 x)); [reflexivity|]. destruct (Rlt_dec _ (c1 x)); [reflexivity|]. destruct (Rlt_dec _ (c2 x)); [reflexivity|].
  exfalso. apply H. unfold in_grid, between. lra.
Qed.
Lemma grad_slopes : forall m f i j k x, well_formed m -> interpolates m f -> cell m i j k x -> slopes m f i j k x (grad m i j k x).
Proof.
  intros m f i j k x W F H y Hy Ha. rewrite (interp_cell m f i j k y W F Hy), (interp_cell m f i j k x W F H). wf W.
  unfold tri_at, tri, grad, dot3, sub3. cbn [c0 c1 c2].
  destruct Ha as [(E & E')|[(E & E')|(E & E')]]; rewrite <- E, <- E'; unfold loc; field; repeat split; lra.
Qed.
Lemma slopes_unique : forall m f i j k x g h, well_formed m -> half_open m i j k x -> slopes m f i j k x g -> slopes m f i j k x h -> g = h.
Proof.
  intros m f i j k [x y z] g h W (H & B0 & B1 & B2) Sg Sh. pose proof H as (I & J & K & P & Q & T). cbn [c0 c1 c2] in *.
  set (u := grid_point m (i + 1) (j + 1) (k + 1)) in *.
  assert (C : forall a b c, (a = x \/ a = c0 u) -> (b = y \/ b = c1 u) -> (c = z \/ c = c2 u) -> cell m i j k (V3 a b c)).
  { intros a b c Ha Hb Hc. unfold cell, between. fold u. cbn [c0 c1 c2]. repeat split; try assumption; try (destruct Ha as [->| ->]; lra); try (destruct Hb as [->| ->]; lra); destruct Hc as [->| ->]; lra. }
  assert (E0 := Sg (V3 (c0 u) y z) ltac:(apply C; auto) ltac:(left; cbn; auto)). assert (F0 := Sh (V3 (c0 u) y z) ltac:(apply C; auto) ltac:(left; cbn; auto)).
  assert (E1 := Sg (V3 x (c1 u) z) ltac:(apply C; auto) ltac:(right; left; cbn; auto)). assert (F1 := Sh (V3 x (c1 u) z) ltac:(apply C; auto) ltac:(right; left; cbn; auto)).
  assert (E2 := Sg (V3 x y (c2 u)) ltac:(apply C; auto) ltac:(right; right; cbn; auto)). assert (F2 := Sh (V3 x y (c2 u)) ltac:(apply C; auto) ltac:(right; right; cbn; auto)).
  unfold dot3, sub3 in *. cbn [c0 c1 c2] in *. destruct g as [g0 g1 g2], h as [h0 h1 h2]. cbn [c0 c1 c2] in *.
  assert (K' : forall a b d, 0 < d -> a * d = b * d -> a = b) by (intros a b d Hd E; apply (Rmult_eq_reg_r d); [exact E|lra]).
  f_equal; [apply (K' _ _ (c0 u - x))|apply (K' _ _ (c1 u - y))|apply (K' _ _ (c2 u - z))]; lra.
Qed.
