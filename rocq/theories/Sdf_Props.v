(* C64: contacts between triangle meshes come from the distance fields their grids describe. *)
From Coq Require Import List Reals NArith ZArith Bool Lia Lra Psatz Permutation.
From Verif Require Import Outcome Ccd_Model Lin_Model ContactRb3_Model Rot_Model Rot_Spec Rot_Alg Geom_Model Wall_Model Narrow_Model Sdf_Model Sdf_Spec Sdf_Proofs Sdf_Thms Sdf_Ex.
Import ListNotations.
Open Scope R_scope.

(* A grid describes one distance field: some function has its values at the grid points and is linear along the axes in
   every cell, and any two such functions agree on the grid. *)
Theorem C64_field : forall m, well_formed m ->
  (exists f, interpolates m f) /\ (forall f h x, interpolates m f -> interpolates m h -> in_grid m x -> f x = h x).
Proof. intros m W. split; [exists (field m); apply field_interpolates, W|]. intros f h x. apply interp_unique, W. Qed.
Print Assumptions C64_field.

(* The test of a point: it always ends, a contact is reported exactly where the field is defined and not positive, and the
   normal is the direction in which the field grows. The far faces of the grid are left out, see below. *)
Theorem C64_detects : forall m f x, well_formed m -> interpolates m f -> (in_grid m x -> below x (far_corner m)) ->
  exists r, detect m x = Ok r
    /\ (r = None <-> ~ (in_grid m x /\ f x <= 0))
    /\ (forall n, r = Some n <-> (in_grid m x /\ f x <= 0 /\ normal_of m f x n)).
Proof.
  intros m f x W F B. destruct (detect_spec m f x W F B) as (r & E & H). exists r. split; [exact E|]. clear E. destruct r as [n|].
  - destruct H as (G & L & N). split; [split; [discriminate|tauto]|]. intros n'. split; [intros EN; injection EN as <-; auto|].
    intros (_ & _ & N'). f_equal. eapply normal_unique; eauto.
  - split; [split; [intros _ (G & L); specialize (H G); lra|reflexivity]|]. intros n'. split; [discriminate|]. intros (G & L & _). specialize (H G). lra.
Qed.
Print Assumptions C64_detects.
(* the normal has unit length unless the field is level at the point *)
Theorem C64_unit_normal : forall m f x n, well_formed m -> interpolates m f -> below x (far_corner m) -> detect m x = Ok (Some n) ->
  dot3 n n = 1 \/ (n = zero3 /\ exists i j k, half_open m i j k x /\ slopes m f i j k x zero3).
Proof.
  intros m f x n W F B E. destruct (detect_spec m f x W F (fun _ => B)) as (r & E' & H). rewrite E in E'. injection E' as <-.
  destruct H as (_ & _ & i & j & k & g & HO & S & [D|(G0 & N0)]); [left; apply D|right; subst]. split; [reflexivity|]. exists i, j, k. auto.
Qed.
Print Assumptions C64_unit_normal.

(* Points of a cell whose corners all lie in material are in contact, points of a cell whose corners are all outside are not. *)
Theorem C64_corners : forall m i j k x, well_formed m -> half_open m i j k x ->
  let corners (P : R -> Prop) := forall i' j' k', (i <= i' <= i + 1)%N -> (j <= j' <= j + 1)%N -> (k <= k' <= k + 1)%N -> P (value_at m i' j' k') in
  (corners (fun v => v <= 0) -> exists n, detect m x = Ok (Some n)) /\ (corners (fun v => 0 < v) -> detect m x = Ok None).
Proof.
  intros m i j k x W H corners. rewrite (detect_cell m i j k x W H). split; intros C.
  - destruct (Rlt_dec 0 (tri_at m i j k x)) as [L|L]; [|eauto]. exfalso.
    set (lo := - (Rabs (value_at m i j k) + Rabs (value_at m (i+1) j k) + Rabs (value_at m i (j+1) k) + Rabs (value_at m (i+1) (j+1) k)
      + Rabs (value_at m i j (k+1)) + Rabs (value_at m (i+1) j (k+1)) + Rabs (value_at m i (j+1) (k+1)) + Rabs (value_at m (i+1) (j+1) (k+1)))).
    assert (R := tri_range m i j k x lo 0 W (proj1 H)). cut (lo <= tri_at m i j k x <= 0); [lra|]. apply R. intros i' j' k' Hi Hj Hk. split; [|apply C; assumption].
    assert (A : forall v, - Rabs v <= v) by (intros v; unfold Rabs; destruct (Rcase_abs v); lra). assert (P := fun v => Rabs_pos v). unfold lo.
    assert (i' = i \/ i' = i + 1)%N as [-> | ->] by lia; assert (j' = j \/ j' = j + 1)%N as [-> | ->] by lia; assert (k' = k \/ k' = k + 1)%N as [-> | ->] by lia;
    pose proof (P (value_at m i j k)); pose proof (P (value_at m (i+1) j k)%N); pose proof (P (value_at m i (j+1) k)%N); pose proof (P (value_at m (i+1) (j+1) k)%N);
    pose proof (P (value_at m i j (k+1))%N); pose proof (P (value_at m (i+1) j (k+1))%N); pose proof (P (value_at m i (j+1) (k+1))%N); pose proof (P (value_at m (i+1) (j+1) (k+1))%N);
    match goal with |- _ <= ?v => pose proof (A v) end; lra.
  - destruct (Rlt_dec 0 (tri_at m i j k x)) as [L|L]; [reflexivity|]. exfalso. apply L. clear L.
    destruct H as (H & _). pose proof W as W'. wf W'. cellu H. unfold tri_at, tri.
    assert (A0 := loc_range _ _ _ _ D0 P). assert (A1 := loc_range _ _ _ _ D1 Q). assert (A2 := loc_range _ _ _ _ D2 T).
    assert (M : forall a b t, 0 <= t <= 1 -> 0 < a -> 0 < b -> 0 < (1 - t) * a + t * b) by (intros; nra).
    repeat (apply M; [assumption| |]); apply C; lia.
Qed.
Print Assumptions C64_corners.

(* Grids that hold samples of a true distance, or of any function that changes no faster than the distance: contacts are
   right up to the diagonal of a cell. *)
Theorem C64_accuracy : forall m g x, well_formed m -> sampled m g -> lipschitz g -> in_grid m x -> below x (far_corner m) ->
  let diagonal := sqrt (dot3 (me_delta m) (me_delta m)) in
  (g x < - diagonal -> exists n, detect m x = Ok (Some n)) /\ (diagonal < g x -> detect m x = Ok None).
Proof.
  intros m g x W S L G B diagonal. pose proof (field_interpolates m W) as F. pose proof (sampled_near m _ g x W F S L G) as A. fold diagonal in A.
  destruct (detect_spec m _ x W F (fun _ => B)) as ([n|] & E & H); rewrite E; unfold Rabs in A; destruct (Rcase_abs _).
  - split; [eauto|]. destruct H as (_ & H & _). lra.
  - split; [eauto|]. destruct H as (_ & H & _). lra.
  - specialize (H G). split; [lra|reflexivity].
  - specialize (H G). split; [lra|reflexivity].
Qed.
Print Assumptions C64_accuracy.
(* Flat surfaces are found exactly. *)
Theorem C64_flat : forall m a b x, well_formed m -> dot3 a a = 1 -> sampled m (fun p => dot3 a p + b) -> in_grid m x -> below x (far_corner m) ->
  detect m x = Ok (if Rle_dec (dot3 a x + b) 0 then Some a else None).
Proof.
  intros m a b x W U S G B. destruct (detect_spec m _ x W (affine_interpolates m a b W S) (fun _ => B)) as ([n|] & E & H); rewrite E.
  - destruct H as (_ & L & H). destruct (Rle_dec _ 0); [|lra]. do 2 f_equal. eapply normal_unique; [exact W|exact H|].
    destruct H as (i & j & k & g & HO & _). exists i, j, k, a. split; [exact HO|]. split.
    + intros y _ _. unfold dot3, sub3. cbn [c0 c1 c2]. ring.
    + left. split; [exact U|]. exists 1. split; [lra|]. destruct a. unfold scale3. cbn. f_equal; ring.
  - specialize (H G). destruct (Rle_dec _ 0); [lra|reflexivity].
Qed.
Print Assumptions C64_flat.
Example ex_flat : detect floor_mesh (V3 (1/2) (1/3) (1/4)) = Ok (Some (V3 0 0 1)) /\ detect floor_mesh (V3 (1/2) (1/3) (3/4)) = Ok None.
Proof.
  split; rewrite (C64_flat floor_mesh (V3 0 0 1) (- (1/2))) by (try exact floor_well; try exact floor_sampled; try (apply floor_range; cbn; lra); unfold dot3; cbn; ring);
    destruct (Rle_dec _ 0) as [L|L]; try reflexivity; exfalso; revert L; unfold dot3; cbn; lra.
Qed.

(* The contacts of two placed meshes: one for each sample of either mesh that lies where the field of the other is not
   positive, at the place of the sample, in the order of the samples. Normals point the way the field of the second mesh
   grows, or against the way the field of the first grows: out of the second body. *)
Theorem C64_contacts : forall x0 R0 m0 f0 x1 R1 m1 f1, rotation R0 -> rotation R1 -> well_formed m0 -> well_formed m1 -> interpolates m0 f0 -> interpolates m1 f1 ->
  clear_of_far_faces x0 R0 m0 x1 R1 m1 -> clear_of_far_faces x1 R1 m1 x0 R0 m0 ->
  exists c01 c10, mesh_mesh x0 R0 m0 x1 R1 m1 = Ok (somes c01 ++ somes c10)
    /\ Forall2 (contact_of x0 R0 x1 R1 m1 f1 (fun n => n)) (me_samples m0) c01
    /\ Forall2 (contact_of x1 R1 x0 R0 m0 f0 neg3) (me_samples m1) c10.
Proof. exact mesh_mesh_spec. Qed.
Print Assumptions C64_contacts.
(* two floors, the second turned over and set on top of the first so that they overlap by a quarter *)
Definition over : m3 := diag3 (V3 1 (-1) (-1)).
Example ex_contacts : exists c01 c10, mesh_mesh zero3 id3 floor_mesh (V3 0 1 (3/4)) over floor_mesh = Ok (somes c01 ++ somes c10)
  /\ Forall2 (contact_of zero3 id3 (V3 0 1 (3/4)) over floor_mesh (fun p => dot3 (V3 0 0 1) p + - (1/2)) (fun n => n)) (me_samples floor_mesh) c01
  /\ Forall2 (contact_of (V3 0 1 (3/4)) over zero3 id3 floor_mesh (fun p => dot3 (V3 0 0 1) p + - (1/2)) neg3) (me_samples floor_mesh) c10.
Proof.
  apply C64_contacts; try exact floor_well; try (apply affine_interpolates; [exact floor_well|exact floor_sampled]).
  - split; [|unfold det3; m3u; ring]. m3u. f_equal; f_equal; ring.
  - unfold over. split; [|unfold det3; m3u; ring]. m3u. f_equal; f_equal; ring.
  - intros s [<-|[]] p _. apply floor_range; unfold p, to_body, to_world, over; m3u; lra.
  - intros s [<-|[]] p _. apply floor_range; unfold p, to_body, to_world, over; m3u; lra.
Qed.
(* Exchanging the two bodies gives the same points with opposite normals. *)
Theorem C64_exchange : forall x0 R0 m0 x1 R1 m1 l, mesh_mesh x0 R0 m0 x1 R1 m1 = Ok l ->
  exists l', mesh_mesh x1 R1 m1 x0 R0 m0 = Ok l' /\ Permutation l' (map turn l).
Proof. exact mesh_mesh_swap. Qed.
Print Assumptions C64_exchange.
(* Moving both bodies together moves the contacts with them. *)
Theorem C64_moved : forall t Q x0 R0 m0 x1 R1 m1 l, rotation Q -> mesh_mesh x0 R0 m0 x1 R1 m1 = Ok l ->
  mesh_mesh (to_world t Q x0) (mm Q R0) m0 (to_world t Q x1) (mm Q R1) m1 = Ok (map (moved t Q) l).
Proof. exact mesh_mesh_moved. Qed.
Print Assumptions C64_moved.
(* The narrow phase of the simulator turns exactly these points into constraints. *)
Theorem C64_narrow_phase : forall o nb fixed shape q0 q1 i j vi vj mi mj l, fixed i = false -> shape i = Mesh3 vi -> shape j = Mesh3 vj ->
  mesh_mesh (pos3 q1 i) (ori3 nb q1 i) mi (pos3 q1 j) (ori3 nb q1 j) mj = Ok l ->
  n3_mesh_mesh o (pos3 q1 i) (ori3 nb q1 i) vi (pos3 q1 j) (ori3 nb q1 j) vj = l ->
  exists set, dispatch3 o nb fixed shape q0 q1 i j = Ok set /\ mesh_narrow nb fixed i j mi mj q0 q1 = Ok set /\ length set = length l
    /\ forall c, In c set <-> exists p n, In (p, n) l /\ c = if fixed j then mk_kin_body i j p n q0 else mk_body_body3 i j p n q0.
Proof.
  intros o nb fixed shape q0 q1 i j vi vj mi mj l Fi Si Sj M O. exists (contacts3 fixed i j q0 l). unfold dispatch3, mesh_narrow. rewrite Fi. cbn [andb]. rewrite Si, Sj, O, M. cbn [obind].
  split; [reflexivity|]. split; [reflexivity|]. unfold contacts3. split; [apply map_length|]. intros c. rewrite in_map_iff. split.
  - intros ((p & n) & <- & H). exists p, n. split; [exact H|]. cbn. destruct (fixed j); reflexivity.
  - intros (p & n & H & ->). exists (p, n). split; [|exact H]. cbn. destruct (fixed j); reflexivity.
Qed.
Print Assumptions C64_narrow_phase.

(* Where the test is undefined: on the far z face, and on parts of the other far faces, values past the end of the grid are
   read. *)
Theorem C64_undefined_exactly : forall m x, well_formed m -> (me_size m <= 2147483648)%N ->
  (detect m x = UB <-> in_grid m x /\
    (c2 x = c2 (far_corner m)
     \/ (c1 x = c1 (far_corner m) /\ c2 (grid_point m 0 0 (me_nz m - 2)) <= c2 x)
     \/ (c0 x = c0 (far_corner m) /\ c1 (grid_point m 0 (me_ny m - 2) 0) <= c1 x /\ c2 (grid_point m 0 0 (me_nz m - 2)) <= c2 x))).
Proof. exact undefined_exactly. Qed.
Print Assumptions C64_undefined_exactly.
Theorem C64_far_corner_refuted : forall m, well_formed m -> (me_size m <= 2147483648)%N -> in_grid m (far_corner m) /\ detect m (far_corner m) = UB.
Proof.
  intros m W S. assert (G : in_grid m (far_corner m)).
  { wf W. unfold in_grid, between, far_corner, grid_point, add3. cbn [c0 c1 c2]. pose proof (count_nonneg (me_nx m - 1)). pose proof (count_nonneg (me_ny m - 1)). pose proof (count_nonneg (me_nz m - 1)). repeat split; nra. }
  split; [exact G|]. apply C64_undefined_exactly; auto.
Qed.
Print Assumptions C64_far_corner_refuted.
Example ex_far_corner : well_formed floor_mesh /\ (me_size floor_mesh <= 2147483648)%N.
Proof. split; [exact floor_well|cbn; lia]. Qed.
(* Elsewhere on the far x face the next row of the grid is read: the field of this bar grows along x, the normal points
   against x. *)
Theorem C64_far_face_normal_refuted : exists m x n, well_formed m /\ interpolates m (fun p => dot3 (V3 1 0 0) p + -2) /\ in_grid m x
  /\ detect m x = Ok (Some n) /\ n = V3 (-1) 0 0.
Proof.
  exists bar_mesh, (V3 1 (1/2) (1/2)), (V3 (-1) 0 0). split; [exact bar_well|]. split; [apply affine_interpolates; [exact bar_well|exact bar_sampled]|].
  split; [|split; [exact bar_detect|reflexivity]]. unfold in_grid, between, far_corner, grid_point, count, add3. cbn. lra.
Qed.
Print Assumptions C64_far_face_normal_refuted.
(* Where the field is level a contact has no direction. *)
Theorem C64_level_refuted : exists m x, well_formed m /\ in_grid m x /\ below x (far_corner m) /\ detect m x = Ok (Some zero3).
Proof.
  exists level_mesh, (V3 (1/2) (1/2) (1/2)).
  assert (G : in_grid level_mesh (V3 (1/2) (1/2) (1/2)) /\ below (V3 (1/2) (1/2) (1/2)) (far_corner level_mesh)) by (unfold in_grid, between, below, far_corner, grid_point, count, add3; cbn; lra).
  split; [exact level_well|]. split; [apply G|]. split; [apply G|].
  destruct (detect_spec _ _ _ level_well level_interpolates (fun _ => proj2 G)) as ([n|] & E & H); [|specialize (H (proj1 G)); lra].
  rewrite E. do 2 f_equal. destruct H as (_ & _ & N). eapply normal_unique; [exact level_well|exact N|].
  destruct N as (i & j & k & g & HO & _). exists i, j, k, zero3. split; [exact HO|]. split; [|auto]. intros y _ _. unfold dot3, zero3. cbn. ring.
Qed.
Print Assumptions C64_level_refuted.
(* In a grid of more than 2^32 values indices wrap around: all corners around the point are deep in material, but no
   contact is found. *)
Theorem C64_huge_grid_refuted : exists m i j k x, me_size m = (me_nx m * me_ny m * me_nz m)%N /\ half_open m i j k x
  /\ (forall i' j' k', (i <= i' <= i + 1)%N -> (j <= j' <= j + 1)%N -> (k <= k' <= k + 1)%N -> value_at m i' j' k' = -1) /\ detect m x = Ok None.
Proof.
  exists tall_mesh, 0%N, 0%N, 1073741823%N, (V3 (1/2) (1/2) (1073741823 + 1/2)). split; [reflexivity|]. split; [|split].
  - unfold half_open, cell, between, below, grid_point, count, add3. cbn. repeat split; try lia; lra.
  - intros i' j' k' Hi Hj Hk. unfold value_at. cbn [tall_mesh me_dist me_nx me_ny]. destruct (N.ltb_spec (i' + 2 * (j' + 2 * k')) 4); [lia|reflexivity].
  - exact tall_detect.
Qed.
Print Assumptions C64_huge_grid_refuted.
