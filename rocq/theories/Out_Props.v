(* C66: a saved state file holds the state of the simulation. *)
From Coq Require Import String Ascii List Bool Arith ZArith Lia.
Import ListNotations.
From Verif Require Import Outcome Hdf_Model Hdf_Spec Hdf_Proofs Hdf_Thms Out_Model Out_Spec Out_Proofs Out_Thms Out_Main.
Local Open Scope string_scope. Local Open Scope list_scope.

(* a later reader of the file *)
Definition reader_of {A} (h h2 : h5 A) : Prop := exists calls, open_file false (h_root h) calls = (h2, Ok tt).
Lemma reader_root {A} (h h2 : h5 A) : reader_of h h2 -> h_root h2 = h_root h /\ h_mode h2 = ReadOnly.
Proof. intros (calls & E). unfold open_file in E. destruct calls as [|[|j] cs]; inversion E; auto. Qed.
Lemma reader_stored {A} (h h2 : h5 A) full : reader_of h h2 -> stored h2 full = stored h full.
Proof. intros R. apply reader_root in R. destruct R as (R & _). unfold stored. rewrite R. reflexivity. Qed.
Lemma column_readable {A} (h : h5 A) full t l : stored_column h full t l -> says (snd (splitFullName full)) = true -> t <> SLong ->
  int_sized (List.length l) -> h_calls h = [] -> h_mode h <> Closed -> reads_list h full t l.
Proof.
  intros S X T L Q M. unfold stored_column, stored in S.
  destruct (find (h_root h) (components full)) as [[k|p]|] eqn:F; try discriminate. injection S as ->.
  exists h. eexists. split; [apply (read_quiet full (mkType t false None (Some 1)) h (List.length l) 1 l); auto; [lia|unfold int_sized; cbn; lia]|].
  split; [reflexivity|]. split; [reflexivity|]. intros k. destruct (lt_dec k (List.length l)) as [Hk|Hk].
  - rewrite from_file_entry; auto; [|lia]. f_equal. lia.
  - unfold entry, from_file. cbn [em_row_major em_rows em_cols em_data]. apply Nat.ltb_nlt in Hk as Hk'. rewrite Hk'. cbn [andb]. symmetry. apply nth_error_None. lia.
Qed.

(* C66, 3D rigid bodies: whenever saving returns (whatever was in the file before, whichever calls of the library failed
   elsewhere), a reader of the file finds time step, iteration, time and version; the positions, velocities, masses and
   scripting flags of the bodies; the static planes and cylinders (data sets that exist exactly when there are any); and for
   each body, following its column of the index table into the table of its type, the shape of that body. *)
Theorem C66_state3 {A} (dt time : A) (iteration : Z) (hash : string) (s : state3 A) (disk : node A) (calls : list (call A)) (h h2 : h5 A) :
  save dt time iteration hash (writeBinaryState3 s) disk calls = (h, Ok tt) -> reader_of h h2 ->
  has_header h2 dt time iteration hash /\
  stored_column h2 "state/q" SDouble (map ENum (s3_q s)) /\ stored_column h2 "state/v" SDouble (map ENum (s3_v s)) /\
  stored_column h2 "state/M0" SDouble (map ENum (s3_M0 s)) /\
  stored_column h2 "state/kinematically_scripted" SUnsigned (map (fun b : bool => EInt (if b then 1 else 0)) (s3_scripted s)) /\
  stored_records h2 "static_geometry/static_planes" ["x"; "n"; "v"; "omega"]
    (map (fun p => [MArray (p3_x p); MArray (p3_n p); MArray (p3_v p); MArray (p3_omega p)]) (s3_planes s)) /\
  stored_records h2 "static_geometry/static_cylinders" ["x"; "R"; "v"; "omega"; "r"]
    (map (fun c => let '(w, x, y, z) := c_R c in [MArray (c_x c); MArray [x; y; z; w]; MArray (c_v c); MArray (c_omega c); MNum (c_r c)]) (s3_cylinders s)) /\
  (forall i, read_shape3 h2 i = option_map named (shape_of (s3_geometry s) (s3_indices s) i)).
Proof.
  intros S R. destruct (state3_saved dt time iteration hash s disk calls h S) as (B1 & B2 & B3 & B4 & B5 & B6 & B7 & B8 & _).
  destruct R as (c2 & E). assert (X : exists c, h2 = mkH5 ReadOnly (h_root h) c) by (unfold open_file in E; destruct c2 as [|[|j] cs]; inversion E; eauto).
  destruct X as (c & ->).
  assert (EQ : forall name, stored (mkH5 ReadOnly (h_root h) c) name = stored h name) by reflexivity.
  split; [exact B1|]. split; [exact B2|]. split; [exact B3|]. split; [exact B4|].
  split; [unfold stored_column; rewrite EQ; exact B5|]. split; [exact B6|]. split; [exact B7|exact B8].
Qed.
Print Assumptions C66_state3.

(* the same through the read functions of the file *)
Theorem C66_read3 {A} (dt time : A) (iteration : Z) (hash : string) (s : state3 A) (disk : node A) (calls : list (call A)) (h h2 : h5 A) :
  save dt time iteration hash (writeBinaryState3 s) disk calls = (h, Ok tt) -> reader_of h h2 -> h_calls h2 = [] ->
  int_sized (List.length (s3_q s)) -> int_sized (List.length (s3_v s)) -> int_sized (List.length (s3_M0 s)) -> int_sized (List.length (s3_scripted s)) ->
  reads_list h2 "state/q" SDouble (map ENum (s3_q s)) /\ reads_list h2 "state/v" SDouble (map ENum (s3_v s)) /\
  reads_list h2 "state/M0" SDouble (map ENum (s3_M0 s)) /\
  reads_list h2 "state/kinematically_scripted" SUnsigned (map (fun b : bool => EInt (if b then 1 else 0)) (s3_scripted s)).
Proof.
  intros S R Q L1 L2 L3 L4. destruct (C66_state3 dt time iteration hash s disk calls h h2 S R) as (_ & B2 & B3 & B4 & B5 & _).
  apply reader_root in R. destruct R as (_ & M).
  split; [|split; [|split]]; (apply column_readable; [assumption|reflexivity|discriminate|rewrite map_length; assumption|exact Q|rewrite M; discriminate]).
Qed.
Print Assumptions C66_read3.

(* C66, 2D rigid bodies *)
Theorem C66_state2 {A} (dt time : A) (iteration : Z) (hash : string) (s : state2 A) (disk : node A) (calls : list (call A)) (h h2 : h5 A) :
  save dt time iteration hash (writeBinaryState2 s) disk calls = (h, Ok tt) -> reader_of h h2 ->
  has_header h2 dt time iteration hash /\
  stored_column h2 "q" SDouble (map ENum (s2_q s)) /\ stored_column h2 "v" SDouble (map ENum (s2_v s)) /\
  stored_column h2 "m" SDouble (map ENum (firstn (List.length (s2_q s)) (s2_M s))) /\
  stored_column h2 "kinematically_scripted" SUnsigned (map (fun b : bool => EInt (if b then 1 else 0)) (s2_scripted s)) /\
  stored_records h2 "static_geometry/static_planes" ["x"; "n"] (map (fun p => [MArray (p2_x p); MArray (p2_n p)]) (s2_planes s)) /\
  stored_records h2 "static_geometry/planar_portals" ["x0"; "n0"; "x1"; "n1"; "v"; "width"; "delta"]
    (map (fun p => [MArray (p2_x (po_a p)); MArray (p2_n (po_a p)); MArray (p2_x (po_b p)); MArray (p2_n (po_b p)); MNum (po_v p); MNum (po_bounds p); MNum (po_delta p)]) (s2_portals s)) /\
  (forall i, read_shape2 h2 i = shape_of (s2_geometry s) (s2_indices s) i).
Proof.
  intros S R. destruct (state2_saved dt time iteration hash s disk calls h S) as (B1 & B2 & B3 & B4 & _ & B5 & B6 & B7 & B8 & _).
  destruct R as (c2 & E). assert (X : exists c, h2 = mkH5 ReadOnly (h_root h) c) by (unfold open_file in E; destruct c2 as [|[|j] cs]; inversion E; eauto).
  destruct X as (c & ->).
  split; [exact B1|]. split; [exact B2|]. split; [exact B3|]. split; [exact B4|]. split; [exact B5|]. split; [exact B6|]. split; [exact B7|exact B8].
Qed.
Print Assumptions C66_state2.

(* C66, balls: the lists of the balls are there exactly when there is a ball, the planes exactly when there is a plane; the
   planes are tables of 2 rows and one column per plane, stored row by row *)
Theorem C66_stateb {A} (dt time : A) (iteration : Z) (hash : string) (s : stateb A) (disk : node A) (calls : list (call A)) (h h2 : h5 A) :
  save dt time iteration hash (writeBinaryStateB s) disk calls = (h, Ok tt) -> reader_of h h2 ->
  has_header h2 dt time iteration hash /\
  (sb_q s <> [] -> stored_column h2 "q" SDouble (map ENum (sb_q s)) /\ stored_column h2 "v" SDouble (map ENum (sb_v s)) /\
     stored_column h2 "r" SDouble (map ENum (sb_r s)) /\ stored_column h2 "m" SDouble (map ENum (firstn (List.length (sb_q s)) (sb_M s)))) /\
  (sb_q s = [] -> stored h2 "q" = None /\ stored h2 "v" = None /\ stored h2 "r" = None /\ stored h2 "m" = None) /\
  (sb_planes s <> [] ->
     stored h2 "static_plane_centers" = Some (PMatrix SDouble 2 (List.length (sb_planes s)) (map ENum (map (fun p => fst (fst p)) (sb_planes s)) ++ map ENum (map (fun p => snd (fst p)) (sb_planes s)))) /\
     stored h2 "static_plane_normals" = Some (PMatrix SDouble 2 (List.length (sb_planes s)) (map ENum (map (fun p => fst (snd p)) (sb_planes s)) ++ map ENum (map (fun p => snd (snd p)) (sb_planes s))))) /\
  (sb_planes s = [] -> stored h2 "static_plane_centers" = None /\ stored h2 "static_plane_normals" = None).
Proof.
  intros S R. destruct (stateb_saved dt time iteration hash s disk calls h S) as (B1 & B2 & B3 & B4 & B5).
  destruct R as (c2 & E). assert (X : exists c, h2 = mkH5 ReadOnly (h_root h) c) by (unfold open_file in E; destruct c2 as [|[|j] cs]; inversion E; eauto).
  destruct X as (c & ->). split; [exact B1|]. split; [|split; [exact B3|split; [exact B4|exact B5]]].
  intros N. destruct (B2 N) as (C1 & C2 & C3 & C4 & _). auto.
Qed.
Print Assumptions C66_stateb.

(* two saves that leave the same file saved the same bodies and the same static planes and cylinders *)
Theorem C66_determines3 {A} (dt time dt' time' : A) (iteration iteration' : Z) (hash hash' : string) (s s' : state3 A) (disk disk' : node A) (calls calls' : list (call A)) (h h' : h5 A) :
  save dt time iteration hash (writeBinaryState3 s) disk calls = (h, Ok tt) -> save dt' time' iteration' hash' (writeBinaryState3 s') disk' calls' = (h', Ok tt) ->
  h_root h = h_root h' ->
  dt = dt' /\ time = time' /\ iteration = iteration' /\ s3_q s = s3_q s' /\ s3_v s = s3_v s' /\ s3_M0 s = s3_M0 s' /\ s3_scripted s = s3_scripted s' /\
  s3_planes s = s3_planes s' /\ s3_cylinders s = s3_cylinders s' /\
  forall i, option_map named (shape_of (s3_geometry s) (s3_indices s) i) = option_map named (shape_of (s3_geometry s') (s3_indices s') i).
Proof.
  intros S S' E.
  destruct (state3_saved _ _ _ _ _ _ _ _ S) as ((T1 & T2 & T3 & _) & B2 & B3 & B4 & B5 & B6 & B7 & B8 & _).
  destruct (state3_saved _ _ _ _ _ _ _ _ S') as ((T1' & T2' & T3' & _) & B2' & B3' & B4' & B5' & B6' & B7' & B8' & _).
  assert (K : forall full, stored h full = stored h' full) by (intros; unfold stored; rewrite E; reflexivity).
  assert (N : forall l l' : list A, nums l = nums l' -> l = l').
  { intros l. induction l as [|x l IH]; intros [|y l'] H; try discriminate; auto. cbn in H. injection H as -> H. f_equal. apply IH. exact H. }
  assert (Fl : forall l l' : list bool, @flags A l = flags l' -> l = l').
  { intros l. induction l as [|x l IH]; intros [|y l'] H; try discriminate; auto. cbn in H. injection H as Hx H. f_equal; [destruct x, y; auto; discriminate|apply IH; exact H]. }
  unfold stored_column, stored_records in *.
  rewrite K in T1, T2, T3, B2, B3, B4, B5, B6, B7. rewrite T1' in T1. rewrite T2' in T2. rewrite T3' in T3. rewrite B2' in B2. rewrite B3' in B3. rewrite B4' in B4. rewrite B5' in B5. rewrite B6' in B6. rewrite B7' in B7.
  split; [congruence|]. split; [congruence|]. split; [congruence|].
  split; [apply N; congruence|]. split; [apply N; congruence|]. split; [apply N; congruence|]. split; [apply Fl; congruence|].
  split.
  { assert (X : map plane3_record (s3_planes s) = map plane3_record (s3_planes s')).
    { destruct (map plane3_record (s3_planes s)), (map plane3_record (s3_planes s')); congruence. }
    clear - X. revert X. generalize (s3_planes s'). induction (s3_planes s) as [|p l IH]; intros [|p' l'] H; try discriminate; auto.
    cbn [map] in H. injection H as H1 H2 H3 H4 H5. f_equal; [|apply IH; exact H5]. destruct p, p'; cbn in *; congruence. }
  split.
  { assert (X : map cylinder_record (s3_cylinders s) = map cylinder_record (s3_cylinders s')).
    { destruct (map cylinder_record (s3_cylinders s)), (map cylinder_record (s3_cylinders s')); congruence. }
    clear - X. revert X. generalize (s3_cylinders s'). induction (s3_cylinders s) as [|p l IH]; intros [|p' l'] H; try discriminate; auto.
    cbn [map] in H. destruct p as [x [[[w a] b] c] v o r], p' as [x' [[[w' a'] b'] c'] v' o' r']. cbn in H. injection H as H1 H2 H3 H4 H5 H6 H7 H8 H9. f_equal; [congruence|apply IH; exact H9]. }
  intros i. rewrite <- B8, <- B8'. unfold read_shape3, shape_reference, record_at. rewrite !K. reflexivity.
Qed.
Print Assumptions C66_determines3.

(* saving returns: onto any old file, with the library working, when every body has one of the shapes and no shape is a
   staple (3D), and the mass matrix has an entry per coordinate (2D) *)
Theorem C66_returns3 {A} (dt time : A) (iteration : Z) (hash : string) (s : state3 A) (disk : node A) :
  indices_ok (s3_geometry s) (s3_indices s) ->
  ((exists h, save dt time iteration hash (writeBinaryState3 s) disk [] = (h, Ok tt)) <-> forall sh, In sh (s3_geometry s) -> sh <> GStaple).
Proof.
  intros I. split; [|apply returns3; exact I]. intros (h & S). destruct (state3_saved _ _ _ _ _ _ _ _ S) as (_ & _ & _ & _ & _ & _ & _ & _ & N & _). exact N.
Qed.
Print Assumptions C66_returns3.
Theorem C66_returns2 {A} (dt time : A) (iteration : Z) (hash : string) (s : state2 A) (disk : node A) :
  indices_ok (s2_geometry s) (s2_indices s) -> List.length (s2_q s) <= List.length (s2_M s) -> exists h, save dt time iteration hash (writeBinaryState2 s) disk [] = (h, Ok tt).
Proof. exact (returns2 dt time iteration hash s disk). Qed.
Print Assumptions C66_returns2.
Theorem C66_returnsb {A} (dt time : A) (iteration : Z) (hash : string) (s : stateb A) (disk : node A) :
  List.length (sb_q s) <= List.length (sb_M s) -> exists h, save dt time iteration hash (writeBinaryStateB s) disk [] = (h, Ok tt).
Proof. exact (returnsb dt time iteration hash s disk). Qed.
Print Assumptions C66_returnsb.

(* whatever the library does, nothing is read outside the lists of the state as long as the indices are in range and the mass
   matrix is large enough: a save returns, or reports failure *)
Theorem C66_defined {A} (dt time : A) (iteration : Z) (hash : string) (s3 : state3 A) (s2 : state2 A) (sb : stateb A) (disk : node A) (calls : list (call A)) :
  (indices_ok (s3_geometry s3) (s3_indices s3) -> snd (save dt time iteration hash (writeBinaryState3 s3) disk calls) <> UB) /\
  (indices_ok (s2_geometry s2) (s2_indices s2) -> List.length (s2_q s2) <= List.length (s2_M s2) -> snd (save dt time iteration hash (writeBinaryState2 s2) disk calls) <> UB) /\
  (List.length (sb_q sb) <= List.length (sb_M sb) -> snd (save dt time iteration hash (writeBinaryStateB sb) disk calls) <> UB).
Proof. split; [apply defined3|]. split; [apply defined2|apply definedb]. Qed.
Print Assumptions C66_defined.

(* -- what is not in the file -- *)
(* 3D: planar portals; the two states differ only there *)
Theorem C66_portals3_refuted :
  exists (s s' : state3 nat) h, s3_portals s <> s3_portals s' /\
    save 1 2 0 "v" (writeBinaryState3 s) (Group []) [] = (h, Ok tt) /\ save 1 2 0 "v" (writeBinaryState3 s') (Group []) [] = (h, Ok tt).
Proof.
  exists (mkState3 [GSphere 5] [0] [] [] 0 [1; 2; 3] [4; 5; 6] [7] [false]), (mkState3 [GSphere 5] [0] [] [] 1 [1; 2; 3] [4; 5; 6] [7] [false]).
  eexists. split; [discriminate|]. split; vm_compute; reflexivity.
Qed.
Print Assumptions C66_portals3_refuted.
(* 2D: the velocity of a moving plane *)
Theorem C66_plane_velocity_refuted :
  exists (p p' : plane2 nat) h, p2_v p <> p2_v p' /\ p2_omega p <> p2_omega p' /\
    let s x := mkState2 [1; 2; 3] [4; 5; 6] [7; 7; 8] [false] [HCircle 5] [0] [x] [] in
    save 1 2 0 "v" (writeBinaryState2 (s p)) (Group []) [] = (h, Ok tt) /\ save 1 2 0 "v" (writeBinaryState2 (s p')) (Group []) [] = (h, Ok tt).
Proof.
  exists (mkPlane2 [0; 0] [0; 1] [0; 0] 0), (mkPlane2 [0; 0] [0; 1] [3; 0] 2). eexists. split; [discriminate|]. split; [discriminate|]. split; vm_compute; reflexivity.
Qed.
Print Assumptions C66_plane_velocity_refuted.
(* balls: drums and portals *)
Theorem C66_ball_scene_refuted :
  exists (s s' : stateb nat) h, sb_drums s <> sb_drums s' /\ sb_portals s <> sb_portals s' /\
    save 1 2 0 "v" (writeBinaryStateB s) (Group []) [] = (h, Ok tt) /\ save 1 2 0 "v" (writeBinaryStateB s') (Group []) [] = (h, Ok tt).
Proof.
  exists (mkStateB [1; 2] [3; 4] [5] [6; 6] [(1, 2, (0, 1))] 0 0), (mkStateB [1; 2] [3; 4] [5] [6; 6] [(1, 2, (0, 1))] 1 2).
  eexists. split; [discriminate|]. split; [discriminate|]. split; vm_compute; reflexivity.
Qed.
Print Assumptions C66_ball_scene_refuted.
(* a scene with a staple ends the program when its state is to be saved *)
Theorem C66_staple_refuted :
  exists (s : state3 nat), indices_ok (s3_geometry s) (s3_indices s) /\ snd (save 1 2 0 "v" (writeBinaryState3 s) (Group []) []) = Exit.
Proof.
  exists (mkState3 [GStaple; GSphere 5] [1] [] [] 0 [1; 2; 3] [4; 5; 6] [7] [false]). split; [intros g [<-|[]]; cbn; lia|vm_compute; reflexivity].
Qed.
Print Assumptions C66_staple_refuted.

(* a scene with shapes of three types in mixed order, shared shapes, a plane and a cylinder meets the hypotheses; body 0 is
   the second sphere *)
Definition scene3 : state3 nat :=
  mkState3 [GBox [1; 2; 3]; GSphere 4; GMesh "bunny"; GSphere 5; GBox [6; 7; 8]] [3; 0; 4; 2; 0; 1]
    [mkPlane3 [0; 0; 0] [0; 1; 0] [0; 0; 0] [0; 0; 0]] [mkCyl [1; 1; 1] (1, 0, 0, 0) [0; 0; 0] [0; 0; 0] 9] 0 [1; 2; 3] [4; 5; 6] [7] [true; false].
Example scene3_saved : exists h, save 1 2 3 "v" (writeBinaryState3 scene3) (Group [("old", Data (PText "x"))]) [] = (h, Ok tt) /\
  map (read_shape3 h) [0; 1; 2; 3; 4; 5; 6] =
  [Some (GSphere 5); Some (GBox [1; 2; 3]); Some (GBox [6; 7; 8]); Some (GMesh "bunny"); Some (GBox [1; 2; 3]); Some (GSphere 4); None] /\
  stored h "old" = None.
Proof. eexists. split; [vm_compute; reflexivity|split; vm_compute; reflexivity]. Qed.
Example scene3_failure : snd (save 1 2 3 "v" (writeBinaryState3 scene3) (Group []) (repeat CWorks 40 ++ [CFails (PText "junk")])) = Exit.
Proof. vm_compute. reflexivity. Qed.
Example index_out_of_range : snd (save 1 2 3 "v" (writeBinaryState3 (mkState3 [GSphere 4] [1] [] [] 0 [1] [1] [1] [false])) (Group []) []) = UB.
Proof. vm_compute. reflexivity. Qed.
