(* Consequences for sampled functions, contacts of two meshes, and where detect is undefined. *)
From Coq Require Import List Reals NArith ZArith Bool Lia Lra Psatz Permutation.
From Verif Require Import Outcome Ccd_Model Lin_Model ContactRb3_Model Rot_Model Rot_Spec Rot_Alg Wall_Model Sdf_Model Sdf_Spec Sdf_Proofs.
Import ListNotations.
Open Scope R_scope.

Lemma dot3_self : forall g, 0 <= dot3 g g.
Proof. intros [a b c]. unfold dot3. cbn. nra. Qed.
Lemma normalized_direction : forall g, direction g (normalized3 g) \/ (g = zero3 /\ normalized3 g = zero3).
Proof.
  intros g. unfold normalized3. destruct (Rlt_dec 0 (dot3 g g)) as [H|H].
  - left. assert (S : 0 < sqrt (dot3 g g)) by (apply sqrt_lt_R0, H). assert (E : sqrt (dot3 g g) * sqrt (dot3 g g) = dot3 g g) by (apply sqrt_sqrt; lra).
    split.
    + set (r := sqrt (dot3 g g)) in *. replace (dot3 (scale3 (/ r) g) (scale3 (/ r) g)) with (dot3 g g / (r * r)) by (unfold dot3, scale3; cbn [c0 c1 c2]; field; lra).
      rewrite <- E. field. lra.
    + exists (sqrt (dot3 g g)). split; [exact S|]. destruct g as [a b c]. unfold scale3. cbn [c0 c1 c2]. f_equal; field; lra.
  - right. destruct g as [a b c]. unfold dot3, zero3 in *. cbn [c0 c1 c2] in *. assert (a = 0 /\ b = 0 /\ c = 0) as (-> & -> & ->) by (repeat split; nra). auto.
Qed.
Lemma direction_unique : forall g n n', direction g n -> direction g n' -> n = n'.
Proof.
  intros [a b c] [n0 n1 n2] [p0 p1 p2] (U & s & Hs & E) (U' & s' & Hs' & E'). unfold dot3, scale3 in *. cbn [c0 c1 c2] in *. injection E as -> -> ->. injection E' as E0 E1 E2.
  assert (S : s * s = s' * s').
  { replace (s * s) with (s * s * (n0 * n0 + n1 * n1 + n2 * n2)) by (rewrite U; ring). replace (s' * s') with (s' * s' * (p0 * p0 + p1 * p1 + p2 * p2)) by (rewrite U'; ring).
    replace (s * s * (n0 * n0 + n1 * n1 + n2 * n2)) with (s * n0 * (s * n0) + s * n1 * (s * n1) + s * n2 * (s * n2)) by ring. rewrite E0, E1, E2. ring. }
  assert (s = s') by nra. subst s'. f_equal; apply (Rmult_eq_reg_l s); lra.
Qed.
Lemma direction_zero : forall n, ~ direction zero3 n.
Proof.
  intros [a b c] (U & s & Hs & E). unfold zero3, scale3, dot3 in *. cbn [c0 c1 c2] in *. injection E as A B C.
  assert (Z : forall t, 0 = s * t -> t = 0) by (intros t Ht; apply (Rmult_eq_reg_l s); lra). apply Z in A, B, C. subst. lra.
Qed.
Lemma half_open_unique : forall m x i j k i' j' k', well_formed m -> half_open m i j k x -> half_open m i' j' k' x -> i = i' /\ j = j' /\ k = k'.
Proof.
  intros m x i j k i' j' k' W H H'. destruct (half_open_index _ _ _ _ _ W H) as (A & B & C). destruct (half_open_index _ _ _ _ _ W H') as (A' & B' & C').
  repeat split; congruence.
Qed.
Lemma normal_unique : forall m f x n n', well_formed m -> normal_of m f x n -> normal_of m f x n' -> n = n'.
Proof.
  intros m f x n n' W (i & j & k & g & H & S & D) (i' & j' & k' & g' & H' & S' & D').
  destruct (half_open_unique _ _ _ _ _ _ _ _ W H H') as (<- & <- & <-). assert (g = g') by (eapply slopes_unique; eauto). subst g'.
  destruct D as [D|(E & ->)], D' as [D'|(E' & ->)]; try reflexivity.
  - eapply direction_unique; eauto.
  - subst g. exfalso. eapply direction_zero; eauto.
  - subst g. exfalso. eapply direction_zero; eauto.
Qed.
(* the result of a test below the far faces *)
Lemma detect_spec : forall m f x, well_formed m -> interpolates m f -> (in_grid m x -> below x (far_corner m)) ->
  exists r, detect m x = Ok r /\ match r with
    | None => in_grid m x -> 0 < f x
    | Some n => in_grid m x /\ f x <= 0 /\ normal_of m f x n
    end.
Proof.
  intros m f x W F B. assert (G : in_grid m x \/ ~ in_grid m x).
  { unfold in_grid, between. set (o := me_origin m). set (e := far_corner m).
    destruct (Rle_dec (c0 o) (c0 x)), (Rle_dec (c0 x) (c0 e)), (Rle_dec (c1 o) (c1 x)), (Rle_dec (c1 x) (c1 e)), (Rle_dec (c2 o) (c2 x)), (Rle_dec (c2 x) (c2 e)); tauto. }
  destruct G as [G|G].
  - destruct (half_open_exists m x W G (B G)) as (i & j & k & H). rewrite (detect_cell m i j k x W H). eexists. split; [reflexivity|].
    rewrite <- (interp_cell m f i j k x W F (proj1 H)). destruct (Rlt_dec 0 (f x)) as [L|L]; [auto|]. split; [exact G|]. split; [lra|].
    exists i, j, k, (grad m i j k x). split; [exact H|]. split; [apply grad_slopes; auto; apply H|]. apply normalized_direction.
  - exists None. split; [apply detect_outside; assumption|]. intros C. contradiction.
Qed.

(* ---------- bounds ---------- *)
Lemma mix_bound : forall a b c B t, 0 <= t <= 1 -> Rabs (a - c) <= B -> Rabs (b - c) <= B -> Rabs ((1 - t) * a + t * b - c) <= B.
Proof.
  intros a b c B t Ht Ha Hb. assert (Ha' : - B <= a - c <= B) by (unfold Rabs in Ha; destruct (Rcase_abs (a - c)); lra).
  assert (Hb' : - B <= b - c <= B) by (unfold Rabs in Hb; destruct (Rcase_abs (b - c)); lra).
  apply Rabs_le. nra.
Qed.
Lemma tri_bound : forall m i j k x c B, well_formed m -> cell m i j k x ->
  (forall i' j' k', (i <= i' <= i + 1)%N -> (j <= j' <= j + 1)%N -> (k <= k' <= k + 1)%N -> Rabs (value_at m i' j' k' - c) <= B) ->
  Rabs (tri_at m i j k x - c) <= B.
Proof.
  intros m i j k x c B W H V. wf W. cellu H. unfold tri_at, tri.
  assert (A0 := loc_range _ _ _ _ D0 P). assert (A1 := loc_range _ _ _ _ D1 Q). assert (A2 := loc_range _ _ _ _ D2 T).
  repeat (apply mix_bound; [assumption| |]); apply V; lia.
Qed.
Lemma tri_range : forall m i j k x lo up, well_formed m -> cell m i j k x ->
  (forall i' j' k', (i <= i' <= i + 1)%N -> (j <= j' <= j + 1)%N -> (k <= k' <= k + 1)%N -> lo <= value_at m i' j' k' <= up) ->
  lo <= tri_at m i j k x <= up.
Proof.
  intros m i j k x lo up W H V. assert (E : Rabs (tri_at m i j k x - (lo + up) / 2) <= (up - lo) / 2).
  { apply tri_bound; auto. intros i' j' k' Hi Hj Hk. specialize (V i' j' k' Hi Hj Hk). apply Rabs_le. lra. }
  unfold Rabs in E. destruct (Rcase_abs _); lra.
Qed.
Lemma corner_near : forall m i j k x i' j' k', well_formed m -> cell m i j k x ->
  (i <= i' <= i + 1)%N -> (j <= j' <= j + 1)%N -> (k <= k' <= k + 1)%N -> distance (grid_point m i' j' k') x <= sqrt (dot3 (me_delta m) (me_delta m)).
Proof.
  intros m i j k x i' j' k' W H Hi Hj Hk. wf W. cellu H. unfold distance. apply sqrt_le_1_alt. unfold dot3, sub3, grid_point, add3. cbn [c0 c1 c2].
  assert (A : forall d u o a a', 0 < d -> (a <= a' <= a + 1)%N -> o + count a * d <= u <= o + count (a + 1) * d -> (o + count a' * d - u) * (o + count a' * d - u) <= d * d).
  { intros d u o a a' Hd Ha Hu. rewrite count_add in Hu. assert (a' = a \/ a' = (a + 1)%N) as [->| ->] by lia; rewrite ?count_add; nra. }
  pose proof (A _ _ _ _ _ D0 Hi P). pose proof (A _ _ _ _ _ D1 Hj Q). pose proof (A _ _ _ _ _ D2 Hk T). lra.
Qed.
Lemma sampled_near : forall m f g x, well_formed m -> interpolates m f -> sampled m g -> lipschitz g -> in_grid m x ->
  Rabs (f x - g x) <= sqrt (dot3 (me_delta m) (me_delta m)).
Proof.
  intros m f g x W F S L G. destruct (grid_cell m x W G) as (i & j & k & C). rewrite (interp_cell m f i j k x W F C). apply tri_bound; auto.
  intros i' j' k' Hi Hj Hk. pose proof C as (I & J & K & _). rewrite S by lia. eapply Rle_trans; [apply L|]. eapply corner_near; eauto.
Qed.
Lemma affine_interpolates : forall m a b, well_formed m -> sampled m (fun p => dot3 a p + b) -> interpolates m (fun p => dot3 a p + b).
Proof.
  intros m a b W S. split; [intros; symmetry; apply S; assumption|]. intros i j k x y t _ _ _ _. unfold dot3, add3, scale3. cbn [c0 c1 c2]. ring.
Qed.

(* ---------- two meshes ---------- *)
Lemma body_world : forall x R p, rotation R -> to_body x R (to_world x R p) = p.
Proof.
  intros x R p H. unfold to_body, to_world. replace (sub3 (add3 (mul3 R p) x) x) with (mul3 R p) by (destruct (mul3 R p), x; unfold sub3, add3; cbn; f_equal; ring).
  rewrite <- mul3_mm, rotation_left by assumption. apply mul3_id.
Qed.
Lemma world_body : forall x R p, rotation R -> to_world x R (to_body x R p) = p.
Proof.
  intros x R p (H & _). unfold to_body, to_world. rewrite <- mul3_mm, H, mul3_id. destruct p, x. unfold sub3, add3. cbn. f_equal; ring.
Qed.
Lemma local_point : forall xa Ra xb Rb s, add3 (mul3 (mm (tr Rb) Ra) s) (mul3 (tr Rb) (sub3 xa xb)) = to_body xb Rb (to_world xa Ra s).
Proof. intros xa Ra xb Rb s. unfold to_body, to_world. rewrite mul3_mm, <- mul3_add. f_equal. destruct (mul3 Ra s), xa, xb. unfold add3, sub3. cbn. f_equal; ring. Qed.
Lemma sample_spec : forall xa Ra xb Rb mb fb out s, rotation Rb -> well_formed mb -> interpolates mb fb ->
  (in_grid mb (to_body xb Rb (to_world xa Ra s)) -> below (to_body xb Rb (to_world xa Ra s)) (far_corner mb)) ->
  exists c, sample_contact xa Ra xb Rb mb out s = Ok (somes [c]) /\ contact_of xa Ra xb Rb mb fb out s c.
Proof.
  intros xa Ra xb Rb mb fb out s HR W F B. unfold sample_contact. rewrite local_point. destruct (detect_spec mb fb _ W F B) as ([n|] & E & H); rewrite E; cbn [obind].
  - destruct H as (G & L & N). eexists (Some (_, _)). split; [reflexivity|]. cbn. split; [|split; [exact G|split; [exact L|]]].
    + change (add3 (mul3 Rb (to_body xb Rb (to_world xa Ra s))) xb) with (to_world xb Rb (to_body xb Rb (to_world xa Ra s))). apply world_body, HR.
    + exists n. auto.
  - exists None. split; [reflexivity|exact H].
Qed.
Lemma gather_spec : forall {A B} (f : A -> outcome (list B)) (P : A -> option B -> Prop) l,
  (forall a, In a l -> exists c, f a = Ok (somes [c]) /\ P a c) -> exists cs, gather (map f l) = Ok (somes cs) /\ Forall2 P l cs.
Proof.
  intros A B f P l. induction l as [|a l IH]; intros H; [exists []; split; [reflexivity|constructor]|].
  destruct (H a (or_introl eq_refl)) as (c & E & Pc). destruct IH as (cs & E' & Pcs); [intros b Hb; apply H; right; exact Hb|].
  exists (c :: cs). split; [|constructor; assumption]. cbn [map gather]. rewrite E, E'. cbn [obind]. unfold somes. cbn [flat_map]. rewrite app_nil_r. reflexivity.
Qed.
Lemma mesh_mesh_spec : forall x0 R0 m0 f0 x1 R1 m1 f1, rotation R0 -> rotation R1 -> well_formed m0 -> well_formed m1 -> interpolates m0 f0 -> interpolates m1 f1 ->
  clear_of_far_faces x0 R0 m0 x1 R1 m1 -> clear_of_far_faces x1 R1 m1 x0 R0 m0 ->
  exists c01 c10, mesh_mesh x0 R0 m0 x1 R1 m1 = Ok (somes c01 ++ somes c10)
    /\ Forall2 (contact_of x0 R0 x1 R1 m1 f1 (fun n => n)) (me_samples m0) c01
    /\ Forall2 (contact_of x1 R1 x0 R0 m0 f0 neg3) (me_samples m1) c10.
Proof.
  intros x0 R0 m0 f0 x1 R1 m1 f1 H0 H1 W0 W1 F0 F1 C01 C10. unfold mesh_mesh.
  destruct (gather_spec (sample_contact x0 R0 x1 R1 m1 (fun n => n)) (contact_of x0 R0 x1 R1 m1 f1 (fun n => n)) (me_samples m0)) as (a & Ea & Pa).
  { intros s Hs. apply sample_spec; try assumption. apply C01, Hs. }
  destruct (gather_spec (sample_contact x1 R1 x0 R0 m0 neg3) (contact_of x1 R1 x0 R0 m0 f0 neg3) (me_samples m1)) as (b & Eb & Pb).
  { intros s Hs. apply sample_spec; try assumption. apply C10, Hs. }
  exists a, b. rewrite Ea, Eb. auto.
Qed.
(* exchanging the bodies *)
Lemma neg_neg : forall a, neg3 (neg3 a) = a.
Proof. intros [a b c]. unfold neg3. cbn. f_equal; ring. Qed.
Lemma sample_flip : forall xa Ra xb Rb mb out out', (forall n, out' n = neg3 (out n)) -> forall l r,
  gather (map (sample_contact xa Ra xb Rb mb out) l) = Ok r -> gather (map (sample_contact xa Ra xb Rb mb out') l) = Ok (map turn r).
Proof.
  intros xa Ra xb Rb mb out out' HO l. induction l as [|s l IH]; intros r H; [cbn in *; injection H as <-; reflexivity|].
  cbn [map gather] in *. apply obind_Ok_inv in H. destruct H as (a & H0 & H). apply obind_Ok_inv in H. destruct H as (a0 & H & E). injection E as <-.
  rewrite (IH _ H). clear IH H. unfold sample_contact in *. apply obind_Ok_inv in H0. destruct H0 as (a1 & H & H0). rewrite H.
  cbn [obind]. destruct a1 as [n|]; injection H0 as <-; cbn [obind map app]; [|reflexivity]. unfold turn at 1. cbn [fst snd]. rewrite HO. reflexivity.
Qed.
Lemma mesh_mesh_swap : forall x0 R0 m0 x1 R1 m1 l, mesh_mesh x0 R0 m0 x1 R1 m1 = Ok l ->
  exists l', mesh_mesh x1 R1 m1 x0 R0 m0 = Ok l' /\ Permutation l' (map turn l).
Proof.
  intros x0 R0 m0 x1 R1 m1 l H. unfold mesh_mesh in *. apply obind_Ok_inv in H. destruct H as (a & H0 & H). apply obind_Ok_inv in H. destruct H as (a0 & H & E). injection E as <-.
  rewrite (sample_flip x1 R1 x0 R0 m0 neg3 (fun n => n) ltac:(intros; symmetry; apply neg_neg) _ _ H).
  rewrite (sample_flip x0 R0 x1 R1 m1 (fun n => n) neg3 ltac:(reflexivity) _ _ H0). cbn [obind]. eexists. split; [reflexivity|].
  rewrite map_app. apply Permutation_app_comm.
Qed.
(* moving both bodies *)
Lemma sample_moved : forall t Q xa Ra xb Rb mb out, rotation Q -> (forall n, out (mul3 Q n) = mul3 Q (out n)) -> forall l r,
  gather (map (sample_contact xa Ra xb Rb mb out) l) = Ok r ->
  gather (map (sample_contact (to_world t Q xa) (mm Q Ra) (to_world t Q xb) (mm Q Rb) mb out) l) = Ok (map (moved t Q) r).
Proof.
  intros t Q xa Ra xb Rb mb out HQ HO l. induction l as [|s l IH]; intros r H; [cbn in *; injection H as <-; reflexivity|].
  cbn [map gather] in *. apply obind_Ok_inv in H. destruct H as (a & H0 & H). apply obind_Ok_inv in H. destruct H as (a0 & H & E). injection E as <-.
  rewrite (IH _ H). clear IH H. unfold sample_contact in *.
  assert (E1 : mm (tr (mm Q Rb)) (mm Q Ra) = mm (tr Rb) Ra) by (rewrite tr_mm, mm_assoc, <- (mm_assoc (tr Rb)), (rotation_left Q HQ), mm_id_r; reflexivity).
  assert (E2 : mul3 (tr (mm Q Rb)) (sub3 (to_world t Q xa) (to_world t Q xb)) = mul3 (tr Rb) (sub3 xa xb)).
  { replace (sub3 (to_world t Q xa) (to_world t Q xb)) with (mul3 Q (sub3 xa xb)).
    - rewrite tr_mm, mul3_mm. f_equal. rewrite <- mul3_mm, (rotation_left Q HQ), mul3_id. reflexivity.
    - unfold to_world. destruct Q as [[q0 q1 q2] [q3 q4 q5] [q6 q7 q8]], xa, xb, t. m3u. f_equal; ring. }
  rewrite E1, E2. apply obind_Ok_inv in H0. destruct H0 as (a1 & H & H0). rewrite H. cbn [obind]. destruct a1 as [n|]; injection H0 as <-; cbn [obind map app]; [|reflexivity].
  assert (M : forall p u, moved t Q (p, u) = (add3 (mul3 Q p) t, mul3 Q u)) by reflexivity. rewrite M. unfold to_world. rewrite !(mul3_mm Q Rb), HO. set (u := mul3 Rb (add3 _ _)). rewrite (mul3_add Q u xb).
  do 3 f_equal. destruct (mul3 Q u) as [u0 u1 u2], (mul3 Q xb) as [w0 w1 w2], t as [t0 t1 t2]. unfold add3. cbn [c0 c1 c2]. f_equal; ring.
Qed.
Lemma mesh_mesh_moved : forall t Q x0 R0 m0 x1 R1 m1 l, rotation Q -> mesh_mesh x0 R0 m0 x1 R1 m1 = Ok l ->
  mesh_mesh (to_world t Q x0) (mm Q R0) m0 (to_world t Q x1) (mm Q R1) m1 = Ok (map (moved t Q) l).
Proof.
  intros t Q x0 R0 m0 x1 R1 m1 l HQ H. unfold mesh_mesh in *. apply obind_Ok_inv in H. destruct H as (a & H0 & H). apply obind_Ok_inv in H. destruct H as (a0 & H & E). injection E as <-.
  rewrite (sample_moved t Q _ _ _ _ _ (fun n => n) HQ ltac:(reflexivity) _ _ H0). rewrite (sample_moved t Q _ _ _ _ _ neg3 HQ ltac:(intros [? ? ?]; destruct Q as [[? ? ?] [? ? ?] [? ? ?]]; m3u; f_equal; ring) _ _ H).
  cbn [obind]. rewrite map_app. reflexivity.
Qed.

(* ---------- the far faces ---------- *)
Definition reads (m : mesh) (x : v3) : N :=
  (cell_index (c0 (me_origin m)) (c0 (me_delta m)) (c0 x) + 1 + me_nx m * (cell_index (c1 (me_origin m)) (c1 (me_delta m)) (c1 x) + 1
   + me_ny m * (cell_index (c2 (me_origin m)) (c2 (me_delta m)) (c2 x) + 1)))%N.
Lemma index_le : forall n o d x, 0 < d -> (2 <= n)%N -> o <= x <= o + count (n - 1) * d ->
  (cell_index o d x <= n - 1)%N /\ (cell_index o d x = (n - 1)%N <-> x = o + count (n - 1) * d)
  /\ (o + count (n - 2) * d <= x <-> (n - 2 <= cell_index o d x)%N).
Proof.
  intros n o d x Hd Hn Hx. pose proof (cell_index_spec o d x Hd (proj1 Hx)) as H. set (k := cell_index o d x) in *. clearbody k.
  assert (K : (k <= n - 1)%N). { assert (count k <= count (n - 1)) by nra. apply le_IZR in H0. lia. }
  split; [exact K|]. split; [split|split].
  - intros ->. lra.
  - intros E. rewrite E in H. assert (count (n - 1) < count (k + 1)) by nra. apply count_lt in H0. lia.
  - intros L. assert (count (n - 2) < count (k + 1)) by nra. apply count_lt in H0. lia.
  - intros L. apply count_le in L. nra.
Qed.
Lemma reads_inside : forall m x, well_formed m -> (me_size m <= 2147483648)%N -> in_grid m x ->
  (detect m x = UB <-> (me_size m <= reads m x)%N).
Proof.
  intros m x W S G. pose proof (far_end m W) as FE. pose proof W as W'. wf W'. destruct G as (P & Q & T). pose proof P as P'. pose proof Q as Q'. pose proof T as T'.
  unfold far_corner, grid_point, add3 in P', Q', T'. cbn [c0 c1 c2] in P', Q', T'.
  destruct (index_le _ _ _ _ D0 N0 P') as (I & _). destruct (index_le _ _ _ _ D1 N1 Q') as (J & _). destruct (index_le _ _ _ _ D2 N2 T') as (K & _).
  unfold detect, reads. rewrite FE.
  destruct (Rlt_dec (c0 x) _); [lra|]. destruct (Rlt_dec (c1 x) _); [lra|]. destruct (Rlt_dec (c2 x) _); [lra|].
  destruct (Rlt_dec _ (c0 x)); [lra|]. destruct (Rlt_dec _ (c1 x)); [lra|]. destruct (Rlt_dec _ (c2 x)); [lra|].
  set (i := cell_index _ _ (c0 x)) in *. set (j := cell_index _ _ (c1 x)) in *. set (k := cell_index _ _ (c2 x)) in *. clearbody i j k.
  set (nx := me_nx m) in *. set (ny := me_ny m) in *. set (nz := me_nz m) in *.
  assert (B1 : (nx * ny * 2 <= 2147483648)%N) by (apply N.le_trans with (2 := S); rewrite SZ; apply N.mul_le_mono_l; exact N2).
  assert (B2 : (nx * 2 <= nx * ny)%N) by (apply N.mul_le_mono_l; exact N1).
  assert (BX : (nx <= 1073741824)%N) by lia.
  assert (B3 : (ny * 2 <= nx * ny)%N) by (rewrite N.mul_comm; apply N.mul_le_mono_r; exact N0).
  assert (B4 : (nz * 4 <= 2147483648)%N) by (apply N.le_trans with (2 := S); rewrite SZ; rewrite N.mul_comm; apply N.mul_le_mono_r; lia).
  rewrite !(fun a (H : (a < 4294967296)%N) => N.mod_small a 4294967296 H : u32 a = a) by lia.
  assert (V : forall a b c, (a <= nx)%N -> (b <= ny)%N -> (c <= nz)%N ->
    dist_at m a b c = if (a + nx * (b + ny * c) <? me_size m)%N then Ok (value_at m a b c) else UB).
  { intros a b c Ha Hb Hc. unfold dist_at, value_at. fold nx ny nz. replace ((c * ny + b) * nx + a)%N with (a + nx * (b + ny * c))%N by lia.
    assert (A1 : (nx * (ny * c) <= nx * (ny * nz))%N) by (apply N.mul_le_mono_l, N.mul_le_mono_l; exact Hc).
    assert (A2 : (nx * b <= nx * ny)%N) by (apply N.mul_le_mono_l; exact Hb).
    assert (A3 : (nx * (b + ny * c) = nx * b + nx * (ny * c))%N) by lia. assert (A4 : (nx * (ny * nz) = nx * ny * nz)%N) by lia.
    unfold u32. rewrite N.mod_small by lia. reflexivity. }
  rewrite !V by lia. clear V.
  assert (M1 : (nx * (j + 1 + ny * (k + 1)) = nx * j + nx + nx * ny * k + nx * ny)%N) by lia.
  assert (M2 : (nx * (j + ny * (k + 1)) = nx * j + nx * ny * k + nx * ny)%N) by lia.
  assert (M3 : (nx * (j + 1 + ny * k) = nx * j + nx + nx * ny * k)%N) by lia.
  assert (M4 : (nx * (j + ny * k) = nx * j + nx * ny * k)%N) by lia.
  rewrite M1, M2, M3, M4. set (p := (nx * j)%N) in *. set (q := (nx * ny * k)%N) in *. set (r := (nx * ny)%N) in *. clearbody p q r.
  destruct (N.ltb_spec (i + 1 + (p + nx + q + r)) (me_size m)) as [L|L].
  - destruct (N.ltb_spec (i + (p + q)) (me_size m)); [|lia]. destruct (N.ltb_spec (i + 1 + (p + q)) (me_size m)); [|lia].
    destruct (N.ltb_spec (i + (p + nx + q)) (me_size m)); [|lia]. destruct (N.ltb_spec (i + 1 + (p + nx + q)) (me_size m)); [|lia].
    destruct (N.ltb_spec (i + (p + q + r)) (me_size m)); [|lia]. destruct (N.ltb_spec (i + 1 + (p + q + r)) (me_size m)); [|lia].
    destruct (N.ltb_spec (i + (p + nx + q + r)) (me_size m)); [|lia]. cbn [obind].
    split; [|lia]. destruct (Rlt_dec 0 _); discriminate.
  - split; [intros _; lia|]. intros _.
    repeat match goal with |- context[if (?a <? ?b)%N then Ok ?v else UB] => destruct (a <? b)%N end; cbn [obind]; reflexivity.
Qed.
Lemma undefined_exactly : forall m x, well_formed m -> (me_size m <= 2147483648)%N ->
  (detect m x = UB <-> in_grid m x /\
    (c2 x = c2 (far_corner m)
     \/ (c1 x = c1 (far_corner m) /\ c2 (grid_point m 0 0 (me_nz m - 2)) <= c2 x)
     \/ (c0 x = c0 (far_corner m) /\ c1 (grid_point m 0 (me_ny m - 2) 0) <= c1 x /\ c2 (grid_point m 0 0 (me_nz m - 2)) <= c2 x))).
Proof.
  intros m x W S. assert (G : in_grid m x \/ ~ in_grid m x).
  { unfold in_grid, between. set (o := me_origin m). set (e := far_corner m).
    destruct (Rle_dec (c0 o) (c0 x)), (Rle_dec (c0 x) (c0 e)), (Rle_dec (c1 o) (c1 x)), (Rle_dec (c1 x) (c1 e)), (Rle_dec (c2 o) (c2 x)), (Rle_dec (c2 x) (c2 e)); tauto. }
  destruct G as [G|G]; [|rewrite (detect_outside m x W G); split; [discriminate|tauto]].
  rewrite (reads_inside m x W S G). pose proof G as G'. destruct G as (P & Q & T). wf W. unfold far_corner, grid_point, add3 in *. cbn [c0 c1 c2] in *.
  destruct (index_le _ _ _ _ D0 N0 P) as (I & I1 & I2). destruct (index_le _ _ _ _ D1 N1 Q) as (J & J1 & J2). destruct (index_le _ _ _ _ D2 N2 T) as (K & K1 & K2).
  rewrite <- K1, <- J1, <- I1, K2, J2. unfold reads. set (i := cell_index _ _ (c0 x)) in *. set (j := cell_index _ _ (c1 x)) in *. set (k := cell_index _ _ (c2 x)) in *.
  clearbody i j k. rewrite SZ. clear I1 I2 J1 J2 K1 K2 P Q T S SB SZ D0 D1 D2. set (nx := me_nx m) in *. set (ny := me_ny m) in *. set (nz := me_nz m) in *. clearbody nx ny nz.
  match goal with |- ?A <-> _ /\ ?B => cut (A <-> B); [tauto|] end.
  assert (k = nz - 1 \/ k = nz - 2 \/ k + 3 <= nz)%N as [Ek|[Ek|Ek]] by lia.
  - split; [auto|]. intros _. replace (k + 1)%N with nz by lia. lia.
  - replace (k + 1)%N with (nz - 1)%N by lia. assert (E : (nx * ny * nz = nx * ny + nx * (ny * (nz - 1)))%N).
    { assert (nz = nz - 1 + 1)%N by lia. rewrite H at 1. lia. }
    assert (j = ny - 1 \/ j = ny - 2 \/ j + 3 <= ny)%N as [Ej|[Ej|Ej]] by lia.
    + split; [intros _; right; left; split; [exact Ej|lia]|]. intros _. replace (j + 1)%N with ny by lia. lia.
    + assert (E2 : (nx * (j + 1 + ny * (nz - 1)) + nx = nx * ny + nx * (ny * (nz - 1)))%N). { replace ny with (j + 1 + 1)%N at 2 by lia. lia. }
      assert (i = nx - 1 \/ i + 2 <= nx)%N as [Ei|Ei] by lia.
      * split; [intros _; right; right; split; [exact Ei|lia]|]. intros _. lia.
      * split; [lia|]. intros [C|[(C & _)|(C & _)]]; lia.
    + assert (E2 : (nx * (j + 1 + ny * (nz - 1)) + 2 * nx <= nx * ny + nx * (ny * (nz - 1)))%N).
      { assert (nx * (j + 3) <= nx * ny)%N by (apply N.mul_le_mono_l; exact Ej). lia. }
      split; [lia|]. intros [C|[(C & _)|(_ & C & _)]]; lia.
  - assert (A1 : (nx * (ny * (k + 1)) + 2 * (nx * ny) <= nx * ny * nz)%N).
    { replace (nx * ny * nz)%N with (nx * ny * (nz - 2) + 2 * (nx * ny))%N by (assert (nz = nz - 2 + 2)%N by lia; rewrite H at 2; lia).
      assert (nx * ny * (k + 1) <= nx * ny * (nz - 2))%N by (apply N.mul_le_mono_l; lia). lia. }
    assert (A2 : (nx * (j + 1) <= nx * ny)%N) by (apply N.mul_le_mono_l; lia).
    assert (A3 : (nx * 2 <= nx * ny)%N) by (apply N.mul_le_mono_l; exact N1).
    split; [lia|]. intros [C|[(_ & C)|(_ & _ & C)]]; lia.
Qed.
