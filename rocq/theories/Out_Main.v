From Coq Require Import String Ascii List Bool Arith ZArith Lia.
Import ListNotations.
From Verif Require Import Outcome Hdf_Model Hdf_Spec Hdf_Proofs Hdf_Thms Out_Model Out_Spec Out_Proofs Out_Thms.
Local Open Scope string_scope. Local Open Scope list_scope.

Section M.
Context {A : Type}.
Implicit Types (h : h5 A).

Definition header_jobs (dt time : A) (it : Z) (hash : string) : list job :=
  [JMatrix 1 "" "timestep" SDouble (vector [ENum dt]); JMatrix 1 "" "iteration" SUnsigned (vector [EInt it]); JMatrix 1 "" "time" SDouble (vector [ENum time]); JText "" "git_hash" hash].
Lemma save_does dt time it hash a js disk calls : does a js ->
  save dt time it hash a disk calls = match open_file true disk calls with (h, Ok _) => exec (header_jobs dt time it hash ++ js) h | r => r end.
Proof.
  intros D. unfold save. destruct (open_file true disk calls) as [h [u| |]]; auto.
  assert (E : does (bind (write_scalar "timestep" SDouble (ENum dt)) (fun _ => bind (write_scalar "iteration" SUnsigned (EInt it)) (fun _ =>
      bind (write_scalar "time" SDouble (ENum time)) (fun _ => bind (write_text "git_hash" hash) (fun _ => a))))) (header_jobs dt time it hash ++ js)).
  { change (header_jobs dt time it hash ++ js) with ([JMatrix 1 "" "timestep" SDouble (vector [ENum dt])] ++ [JMatrix 1 "" "iteration" SUnsigned (vector [EInt it])] ++ [JMatrix 1 "" "time" SDouble (vector [ENum time])] ++ [JText "" "git_hash" hash] ++ js).
    apply does_bind; [apply does_matrix; reflexivity|]. apply does_bind; [apply does_matrix; reflexivity|]. apply does_bind; [apply does_matrix; reflexivity|].
    apply does_bind; [apply does_text; reflexivity|exact D]. }
  exact (E h).
Qed.
Lemma header_ok dt time it hash : Forall job_ok (header_jobs dt time it hash).
Proof. unfold header_jobs. repeat (apply Forall_cons; [apply JMatrix_ok|]). apply Forall_cons; [apply JText_ok|constructor]. Qed.

Definition geometry3_jobs (geometry : list (shape3 A)) : list job :=
  let count := count_type (map type3 geometry) in
  [JRecords (count 0) "geometry" "boxes" ["r"] (count 0) (flat_map box3_record geometry);
   JRecords (count 1) "geometry" "spheres" ["r"] (count 1) (flat_map sphere_record geometry);
   JGuard (negb (Nat.eqb (count 2) 0)) throw;
   JRecords (count 3) "geometry" "meshes" ["file_name"] (count 3) (flat_map mesh_record geometry)].
Definition jobs3 (s : state3 A) : list job :=
  [JIndices "geometry" (map type3 (s3_geometry s)) (s3_indices s)] ++ geometry3_jobs (s3_geometry s) ++
  [JRecords (List.length (s3_planes s)) "static_geometry" "static_planes" ["x"; "n"; "v"; "omega"] (List.length (s3_planes s)) (map plane3_record (s3_planes s))] ++
  [JRecords (List.length (s3_cylinders s)) "static_geometry" "static_cylinders" ["x"; "R"; "v"; "omega"; "r"] (List.length (s3_cylinders s)) (map cylinder_record (s3_cylinders s))] ++
  [JMatrix 1 "state" "q" SDouble (vector (nums (s3_q s)))] ++ [JMatrix 1 "state" "v" SDouble (vector (nums (s3_v s)))] ++
  [JMatrix 1 "state" "M0" SDouble (vector (nums (s3_M0 s)))] ++ [JMatrix 1 "state" "kinematically_scripted" SUnsigned (vector (flags (s3_scripted s)))].
Lemma does_stop n : does (unless_zero n (@throw A unit)) [JGuard (negb (Nat.eqb n 0)) throw].
Proof. intros h. rewrite <- exec_one. cbn [do_job]. unfold unless_zero. destruct (Nat.eqb n 0); reflexivity. Qed.
Lemma does3 s : does (writeBinaryState3 s) (jobs3 s).
Proof.
  unfold writeBinaryState3, jobs3.
  apply does_bind; [apply does_indices|]. apply does_bind.
  { unfold writeGeometry3, geometry3_jobs. cbv zeta.
    match goal with |- does _ [?a; ?b; ?c; ?d] => change [a; b; c; d] with ([a] ++ [b] ++ [c] ++ [d]) end.
    apply does_bind; [apply does_records|]. apply does_bind; [apply does_records|]. apply does_bind; [apply does_stop|]. apply does_records. }
  apply does_bind; [apply does_records|]. apply does_bind; [apply does_records|].
  apply does_bind; [apply does_matrix; reflexivity|]. apply does_bind; [apply does_matrix; reflexivity|]. apply does_bind; [apply does_matrix; reflexivity|].
  apply does_matrix; reflexivity.
Qed.
Lemma JGuard_throw_ok bad : job_ok (JGuard bad (@throw A unit)).
Proof. split; [intros h; reflexivity|intros h; discriminate]. Qed.
Lemma JGuard_undefined_ok bad : job_ok (JGuard bad (@undefined A unit)).
Proof. split; [intros h; reflexivity|intros h; discriminate]. Qed.
Lemma count3 (l : list (shape3 A)) :
  List.length (flat_map box3_record l) = count_type (map type3 l) 0 /\ List.length (flat_map sphere_record l) = count_type (map type3 l) 1 /\
  List.length (flat_map mesh_record l) = count_type (map type3 l) 3.
Proof. repeat split; apply records_length; intros []; reflexivity. Qed.
Lemma jobs3_ok s : Forall job_ok (jobs3 s).
Proof.
  destruct (count3 (s3_geometry s)) as (C0 & C1 & C3).
  unfold jobs3, geometry3_jobs. cbn [app].
  repeat (apply Forall_cons; [first [apply JIndices_ok|apply JMatrix_ok|apply JGuard_throw_ok|apply JRecords_ok; first [assumption|apply map_length]]|]). constructor.
Qed.

(* the contents of a file a save left behind *)
Lemma save_ok dt time it hash a js disk calls h :
  does a js -> Forall job_ok js -> save dt time it hash a disk calls = (h, Ok tt) ->
  let all := header_jobs dt time it hash ++ js in
  (forall when g x p0 f good, In (JWrite when g x p0 f good) all -> when <> 0 -> exists p, find (h_root h) (components g ++ [x]) = Some (Data p) /\ good p) /\
  (forall bad b, In (JGuard bad b) all -> bad = false) /\
  (forall q, q <> [] -> Forall (job_free q) all -> find (h_root h) q = None).
Proof.
  intros D Ok S all. rewrite (save_does _ _ _ _ _ _ _ _ D) in S. fold all in S.
  destruct (open_file true disk calls) as [h0 [u| |]] eqn:E; try discriminate.
  assert (Oa : Forall job_ok all) by (apply Forall_app; split; [apply header_ok|exact Ok]).
  split; [apply (exec_stores all h0 h Oa S)|]. split; [apply (exec_guards all h0 h Oa S)|].
  intros q Nq Fr. pose proof (exec_absent all h0 q Oa) as X. rewrite S in X. cbn [fst] in X. apply X; [|exact Fr].
  unfold open_file in E. destruct calls as [|[|j] cs]; inversion E; subst; cbn [h_root]; destruct q; try congruence; reflexivity.
Qed.
Lemma stored_find h full p : find (h_root h) (components full) = Some (Data p) -> stored h full = Some p.
Proof. unfold stored. intros ->. reflexivity. Qed.
Lemma find_none_stored h full : find (h_root h) (components full) = None -> stored h full = None.
Proof. unfold stored. intros ->. reflexivity. Qed.
Lemma components_join full g x : splitFullName full = (g, x) -> says x = true -> components g ++ [x] = components full.
Proof. intros S X. rewrite (split_components _ _ _ S), X. reflexivity. Qed.

Section Got.
Variables (h : h5 A) (all : list (@job A)).
Hypothesis St : forall when g x p0 f good, In (JWrite when g x p0 f good) all -> when <> 0 -> exists p, find (h_root h) (components g ++ [x]) = Some (Data p) /\ good p.
Hypothesis Ab : forall q, q <> [] -> Forall (job_free q) all -> find (h_root h) q = None.
Lemma got_matrix full g x t m : splitFullName full = (g, x) -> says x = true -> In (JMatrix 1 g x t m) all ->
  stored h full = Some (PMatrix t (em_rows m) (em_cols m) (to_file m)).
Proof.
  intros S X I. destruct (St _ _ _ _ _ _ I ltac:(discriminate)) as (p & F & ->). apply stored_find. rewrite <- (components_join _ _ _ S X). exact F.
Qed.
Lemma got_matrix_if when full g x t m : splitFullName full = (g, x) -> says x = true -> In (JMatrix when g x t m) all -> when <> 0 ->
  stored h full = Some (PMatrix t (em_rows m) (em_cols m) (to_file m)).
Proof.
  intros S X I W. destruct (St _ _ _ _ _ _ I W) as (p & F & ->). apply stored_find. rewrite <- (components_join _ _ _ S X). exact F.
Qed.
Lemma got_column full g x t l : splitFullName full = (g, x) -> says x = true -> In (JMatrix 1 g x t (vector l)) all -> stored_column h full t l.
Proof. intros S X I. unfold stored_column. rewrite (got_matrix full g x t (vector l) S X I), vector_file. reflexivity. Qed.
Lemma got_records full g x fields cnt recs : splitFullName full = (g, x) -> says x = true -> In (JRecords cnt g x fields cnt recs) all -> List.length recs = cnt ->
  (cnt = 0 -> Forall (job_free (components full)) all) -> stored_records h full fields recs.
Proof.
  intros S X I L Fr. unfold stored_records. destruct recs as [|r rs].
  - apply find_none_stored. apply Ab; [|apply Fr; rewrite <- L; reflexivity]. rewrite <- (components_join _ _ _ S X). destruct (components g); discriminate.
  - destruct (St _ _ _ _ _ _ I) as (p & F & ->); [rewrite <- L; discriminate|]. apply stored_find. rewrite <- (components_join _ _ _ S X). exact F.
Qed.
End Got.
Ltac pick := cbn; auto 30.
Ltac away := unfold header_jobs, jobs3, geometry3_jobs, JMatrix, JText, JRecords, JIndices; cbn [app];
  repeat (apply Forall_cons; [cbn [job_free]; first [exact Logic.I | left; assumption | right; split; discriminate | left; reflexivity | cbn; idtac]|]); try constructor.

Lemma header_got h all dt time it hash :
  (forall when g x p0 f good, In (JWrite when g x p0 f good) all -> when <> 0 -> exists p, find (h_root h) (components g ++ [x]) = Some (Data p) /\ good p) ->
  incl (header_jobs dt time it hash) all -> has_header h dt time it hash.
Proof.
  intros St I. unfold has_header.
  split; [eapply got_column; eauto; try reflexivity; apply I; pick|]. split; [eapply got_column; eauto; try reflexivity; apply I; pick|].
  split; [eapply got_column; eauto; try reflexivity; apply I; pick|].
  destruct (St 1 "" "git_hash" _ _ _ (I (JText "" "git_hash" hash) ltac:(pick)) ltac:(discriminate)) as (p & F & ->). apply stored_find. exact F.
Qed.
Lemma reference_got h types indices (p : payload A) i : stored h "geometry/geometry_indices" = Some p -> good_indices types indices p ->
  shape_reference h i = match nth_error indices i with
    | Some g => match nth_error types g with Some t => Some (Z.of_nat t, Z.of_nat (local_count types g t)) | None => None end | None => None end
  /\ forall g, nth_error indices i = Some g -> nth_error types g <> None.
Proof.
  intros S (data & -> & G). unfold shape_reference. rewrite S.
  destruct (nth_error indices i) as [g|] eqn:E.
  - assert (L : i < List.length indices) by (apply nth_error_Some; congruence). apply Nat.ltb_lt in L. rewrite L.
    destruct (G i g E) as (t & E1 & E2 & E3). rewrite E1, E2, E3. split; [reflexivity|]. intros g' [= <-]. congruence.
  - apply nth_error_None in E. assert (L : Nat.ltb i (List.length indices) = false) by (apply Nat.ltb_ge; exact E). rewrite L. split; [reflexivity|]. discriminate.
Qed.
Lemma record_got h full fields (recs : list (list (member A))) k r : stored_records h full fields recs -> nth_error recs k = Some r ->
  record_at h full fields (Z.of_nat k) = Some r.
Proof.
  intros S E. unfold record_at. rewrite S. destruct recs as [|r0 rs]; [destruct k; discriminate|].
  destruct (list_eq_dec string_dec fields fields); [|congruence]. rewrite Nat2Z.id. exact E.
Qed.

Theorem state3_saved (dt time : A) it hash (s : state3 A) disk calls h :
  save dt time it hash (writeBinaryState3 s) disk calls = (h, Ok tt) ->
  has_header h dt time it hash /\
  stored_column h "state/q" SDouble (nums (s3_q s)) /\ stored_column h "state/v" SDouble (nums (s3_v s)) /\
  stored_column h "state/M0" SDouble (nums (s3_M0 s)) /\ stored_column h "state/kinematically_scripted" SUnsigned (flags (s3_scripted s)) /\
  stored_records h "static_geometry/static_planes" ["x"; "n"; "v"; "omega"] (map plane3_record (s3_planes s)) /\
  stored_records h "static_geometry/static_cylinders" ["x"; "R"; "v"; "omega"; "r"] (map cylinder_record (s3_cylinders s)) /\
  (forall i, read_shape3 h i = option_map named (shape_of (s3_geometry s) (s3_indices s) i)) /\
  (forall sh, In sh (s3_geometry s) -> sh <> GStaple) /\ (forall i g, nth_error (s3_indices s) i = Some g -> g < List.length (s3_geometry s)).
Proof.
  intros S. pose proof (save_ok _ _ _ _ _ _ _ _ _ (does3 s) (jobs3_ok s) S) as (St & Gu & Ab). set (all := header_jobs dt time it hash ++ jobs3 s) in *.
  destruct (count3 (s3_geometry s)) as (C0 & C1 & C3).
  split. { eapply header_got; [exact St|]. apply incl_appl, incl_refl. }
  split; [eapply got_column; eauto; try reflexivity; unfold all; pick|].
  split; [eapply got_column; eauto; try reflexivity; unfold all; pick|].
  split; [eapply got_column; eauto; try reflexivity; unfold all; pick|].
  split; [eapply got_column; eauto; try reflexivity; unfold all; pick|].
  split. { apply (got_records h all St Ab _ "static_geometry" "static_planes" _ (List.length (s3_planes s))); try reflexivity; [unfold all; pick|apply map_length|intros Z; unfold all; away]. }
  split. { apply (got_records h all St Ab _ "static_geometry" "static_cylinders" _ (List.length (s3_cylinders s))); try reflexivity; [unfold all; pick|apply map_length|intros Z; unfold all; away]. }
  assert (B : stored_records h "geometry/boxes" ["r"] (flat_map box3_record (s3_geometry s))).
  { apply (got_records h all St Ab _ "geometry" "boxes" _ (count_type (map type3 (s3_geometry s)) 0)); try reflexivity; [unfold all; pick|exact C0|intros Z; unfold all; away]. }
  assert (Sp : stored_records h "geometry/spheres" ["r"] (flat_map sphere_record (s3_geometry s))).
  { apply (got_records h all St Ab _ "geometry" "spheres" _ (count_type (map type3 (s3_geometry s)) 1)); try reflexivity; [unfold all; pick|exact C1|intros Z; unfold all; away]. }
  assert (Me : stored_records h "geometry/meshes" ["file_name"] (flat_map mesh_record (s3_geometry s))).
  { apply (got_records h all St Ab _ "geometry" "meshes" _ (count_type (map type3 (s3_geometry s)) 3)); try reflexivity; [unfold all; pick|exact C3|intros Z; unfold all; away]. }
  assert (Ns : forall sh, In sh (s3_geometry s) -> sh <> GStaple).
  { assert (G2 : negb (Nat.eqb (count_type (map type3 (s3_geometry s)) 2) 0) = false) by (eapply Gu; unfold all; pick).
    apply negb_false_iff, Nat.eqb_eq in G2. unfold count_type in G2. apply length_zero_iff_nil in G2. intros sh I ->.
    assert (X : In 2 (filter (Nat.eqb 2) (map type3 (s3_geometry s)))). { apply filter_In. split; [|reflexivity]. apply in_map_iff. exists GStaple. auto. }
    rewrite G2 in X. contradiction. }
  destruct (St 1 "geometry" "geometry_indices" _ _ (good_indices (map type3 (s3_geometry s)) (s3_indices s)) (or_intror (or_intror (or_intror (or_intror (or_introl eq_refl))))) ltac:(discriminate)) as (p & F & G).
  assert (Sr : stored h "geometry/geometry_indices" = Some p) by (apply stored_find; exact F).
  split; [|split; [exact Ns|]].
  - intros i. destruct (reference_got h _ _ p i Sr G) as (R & Rn). unfold read_shape3, shape_of. rewrite R.
    destruct (nth_error (s3_indices s) i) as [g|]; [|reflexivity]. rewrite nth_error_map in *.
    specialize (Rn g eq_refl). rewrite nth_error_map in Rn. destruct (nth_error (s3_geometry s) g) as [sh|] eqn:E; cbn [option_map] in *; [|congruence].
    destruct sh as [r|r| |f]; cbn [type3 named]; cbn [Z.of_nat Pos.of_succ_nat Pos.succ].
    + erewrite record_got; [|exact B|eapply records_nth with (ty := type3); [intros []; reflexivity|exact E|reflexivity]]. reflexivity.
    + erewrite record_got; [|exact Sp|eapply records_nth with (ty := type3); [intros []; reflexivity|exact E|reflexivity]]. reflexivity.
    + exfalso. eapply Ns; [eapply nth_error_In; exact E|reflexivity].
    + erewrite record_got; [|exact Me|eapply records_nth with (ty := type3); [intros []; reflexivity|exact E|reflexivity]]. reflexivity.
  - intros i g E. destruct (reference_got h _ _ p i Sr G) as (_ & Rn). specialize (Rn g E). rewrite nth_error_map in Rn. apply nth_error_Some. destruct (nth_error (s3_geometry s) g); [discriminate|cbn in Rn; congruence].
Qed.

(* -- when a save returns -- *)
Lemma open_layout (disk : node A) : open_file true disk [] = (mkH5 ReadWrite (Group []) [], Ok tt) /\ layout (mkH5 ReadWrite (@Group A []) []) [].
Proof.
  split; [reflexivity|]. split; [reflexivity|]. split; [reflexivity|]. split; [exists []; reflexivity|].
  intros [|c q] n; cbn; [intros [= <-]; left; reflexivity|discriminate].
Qed.
Lemma matrix_fine g x t m when : In (components g) groups -> says x = true -> ~ In (components g ++ [x]) groups -> job_fine (@JMatrix A when g x t m).
Proof. intros I S N. split; [exact I|]. split; [exact S|]. split; [exact N|]. intros _ d. apply write_data_fills. Qed.
Lemma text_fine g x s : In (components g) groups -> says x = true -> ~ In (components g ++ [x]) groups -> job_fine (@JText A g x s).
Proof. intros I S N. split; [exact I|]. split; [exact S|]. split; [exact N|]. intros _ d. apply write_data_fills. Qed.
Lemma records_fine when g x fields cnt recs : In (components g) groups -> says x = true -> ~ In (components g ++ [x]) groups -> List.length recs = cnt ->
  job_fine (@JRecords A when g x fields cnt recs).
Proof. intros I S N L. split; [exact I|]. split; [exact S|]. split; [exact N|]. intros _ d. apply JRecords_fills. exact L. Qed.
Lemma indices_fine g types indices : In (components g) groups -> ~ In (components g ++ ["geometry_indices"]) groups -> (forall i, In i indices -> i < List.length types) ->
  job_fine (@JIndices A g types indices).
Proof. intros I N L. split; [exact I|]. split; [reflexivity|]. split; [exact N|]. intros _ d. apply JIndices_fills. exact L. Qed.
Lemma save_works dt time it hash a js disk : does a js -> Forall job_ok js -> Forall job_fine js ->
  NoDup (flat_map job_path (header_jobs dt time it hash ++ js)) -> exists h, save dt time it hash a disk [] = (h, Ok tt).
Proof.
  intros D Ok Fi ND. rewrite (save_does _ _ _ _ _ _ _ _ D). destruct (open_layout disk) as (E & L). rewrite E.
  destruct (exec_works (header_jobs dt time it hash ++ js) []) as (D' & W).
  - apply Forall_app; split; [apply header_ok|exact Ok].
  - apply Forall_app; split; [|exact Fi]. unfold header_jobs.
    repeat (apply Forall_cons; [first [apply matrix_fine|apply text_fine]; cbn; first [reflexivity|intuition discriminate]|]). constructor.
  - exact ND.
  - intros q [].
  - destruct (W _ L) as (h & Eh & _). eauto.
Qed.
Ltac fine := first [apply matrix_fine|apply text_fine|apply records_fine|apply indices_fine|reflexivity]; cbn [components]; cbn; try reflexivity; try (intuition discriminate).
Theorem returns3 (dt time : A) it hash (s : state3 A) disk :
  indices_ok (s3_geometry s) (s3_indices s) -> (forall sh, In sh (s3_geometry s) -> sh <> GStaple) ->
  exists h, save dt time it hash (writeBinaryState3 s) disk [] = (h, Ok tt).
Proof.
  intros I Ns. destruct (count3 (s3_geometry s)) as (C0 & C1 & C3).
  apply save_works with (js := jobs3 s); [apply does3|apply jobs3_ok| |].
  - unfold jobs3, geometry3_jobs. cbn [app].
    apply Forall_cons; [fine; intros i Hi; rewrite map_length; apply I; exact Hi|].
    apply Forall_cons; [fine; exact C0|]. apply Forall_cons; [fine; exact C1|].
    apply Forall_cons.
    { cbn. apply negb_false_iff, Nat.eqb_eq. unfold count_type. apply length_zero_iff_nil.
      destruct (filter (Nat.eqb 2) (map type3 (s3_geometry s))) as [|x l] eqn:E; [reflexivity|]. exfalso.
      assert (X : In x (x :: l)) by (left; reflexivity). rewrite <- E in X. apply filter_In in X. destruct X as (X & Y). apply Nat.eqb_eq in Y. subst x.
      apply in_map_iff in X. destruct X as (sh & T & Is). apply (Ns sh Is). destruct sh; try discriminate. reflexivity. }
    apply Forall_cons; [fine; exact C3|]. apply Forall_cons; [fine; apply map_length|]. apply Forall_cons; [fine; apply map_length|].
    repeat (apply Forall_cons; [fine|]). constructor.
  - cbn. repeat (constructor; [cbn; intuition discriminate|]). constructor.
Qed.

(* -- undefined behaviour -- *)
Definition defined {B} (a : act A B) : Prop := forall h, snd (a h) <> UB.
Lemma defined_bind {B C} (m : act A B) (f : B -> act A C) : defined m -> (forall b, defined (f b)) -> defined (bind m f).
Proof. intros Hm Hf h. unfold bind. specialize (Hm h). destruct (m h) as [h1 [b| |]]; cbn [snd] in *; [apply Hf|discriminate|congruence]. Qed.
Lemma defined_call_ok : defined (@call_ok A).
Proof. intros h. destruct (call_ok_cases h) as (cs & _ & [E|E]); rewrite E; discriminate. Qed.
Lemma defined_write d p : defined (@write_data A d p).
Proof. intros h. unfold write_data, bind, next_call, get_root, set_root, throw. destruct (h_calls h) as [|[|j] cs]; cbn; discriminate. Qed.
Lemma defined_open p : defined (@open_group A p).
Proof. intros h E. destruct (open_group p h) as [h' o] eqn:X. cbn in E. subst o. exact (open_group_defined p h h' X). Qed.
Lemma defined_create_group p : defined (@create_group A p).
Proof.
  unfold create_group. apply defined_bind; [apply defined_call_ok|intros _]. intros h. unfold bind, get_mode, get_root, set_root, ret, throw.
  destruct (h_mode h); try discriminate. destruct (add (h_root h) p (Group [])); discriminate.
Qed.
Lemma defined_findOrCreate g : defined (@findOrCreateGroup A g).
Proof.
  unfold findOrCreateGroup. destruct (String.eqb g ""); [apply defined_open|]. intros h. unfold bind, get_mode, get_root.
  destruct (h_mode h), (lexists (h_root h) (components g)) as [[]|]; first [apply defined_open|apply defined_create_group].
Qed.
Lemma defined_create_data g x p : defined (@create_data A g x p).
Proof.
  unfold create_data. apply defined_bind; [apply defined_call_ok|intros _]. intros h. unfold bind, get_mode, get_root, set_root, ret, throw.
  destruct (says x); [|discriminate]. destruct (h_mode h); try discriminate. destruct (add (h_root h) (g ++ [x]) (Data p)); discriminate.
Qed.
Lemma defined_writer g x p0 f : (forall d, defined (f d)) -> defined (@writer A g x p0 f).
Proof.
  intros Hf. unfold writer. apply defined_bind; [apply defined_call_ok|intros _]. apply defined_bind; [apply defined_findOrCreate|intros grp].
  apply defined_bind; [apply defined_create_data|exact Hf].
Qed.
Lemma defined_records d fields cnt k data rs : defined (@record_loop A d fields cnt k data rs).
Proof.
  revert k data; induction rs as [|r rs IH]; intros k data; cbn [record_loop]; [intros h; discriminate|].
  destruct (Nat.ltb k cnt); [|intros h; discriminate]. apply defined_bind; [apply defined_write|intros _; apply IH].
Qed.
Lemma defined_index d types locals m k data gs : List.length locals = List.length types -> (forall g, In g gs -> g < List.length types) ->
  defined (@index_columns A d types locals m k data gs).
Proof.
  intros LL. revert k data; induction gs as [|g gs IH]; intros k data R; cbn [index_columns]; [intros h; discriminate|].
  assert (Rg : g < List.length types) by (apply R; left; reflexivity).
  destruct (nth_error types g) eqn:E1; [|apply nth_error_None in E1; lia]. destruct (nth_error locals g) eqn:E2; [|apply nth_error_None in E2; lia].
  apply defined_bind; [apply defined_write|intros _; apply IH]. intros g' I. apply R. right. exact I.
Qed.
Lemma defined_exec js : Forall (fun j => defined (do_job j)) js -> defined (@exec A js).
Proof. induction 1; cbn [exec]; [intros h; discriminate|]. apply defined_bind; [assumption|intros _; assumption]. Qed.
Lemma defined_job_write when g x p0 f good : (forall d, defined (f d)) -> defined (do_job (@JWrite A when g x p0 f good)).
Proof. intros Hf. cbn [do_job]. unfold unless_zero. destruct (Nat.eqb when 0); [intros h; discriminate|apply defined_writer; exact Hf]. Qed.
Lemma save_defined (dt time : A) it hash a js disk calls : does a js -> Forall (fun j => defined (do_job j)) js -> snd (save dt time it hash a disk calls) <> UB.
Proof.
  intros D Df. rewrite (save_does _ _ _ _ _ _ _ _ D). destruct (open_file true disk calls) as [h [u| |]] eqn:E.
  - apply (defined_exec (header_jobs dt time it hash ++ js)). apply Forall_app. split; [|exact Df].
    unfold header_jobs. repeat (apply Forall_cons; [apply defined_job_write; intros d; apply defined_write|]). constructor.
  - discriminate.
  - unfold open_file in E. destruct calls as [|[|j] cs]; inversion E.
Qed.
Ltac def := first [ apply defined_job_write; intros ?; apply defined_write
                  | apply defined_job_write; intros ?; apply defined_bind; [apply defined_call_ok|intros _; apply defined_records]
                  | apply defined_job_write; intros ?; apply defined_bind; [apply defined_call_ok|intros _; apply defined_index; [apply local_indices_length|]] ].
Theorem defined3 (dt time : A) it hash (s : state3 A) disk calls : indices_ok (s3_geometry s) (s3_indices s) -> snd (save dt time it hash (writeBinaryState3 s) disk calls) <> UB.
Proof.
  intros I. apply save_defined with (js := jobs3 s); [apply does3|]. unfold jobs3, geometry3_jobs. cbn [app].
  apply Forall_cons; [def; intros g Hg; rewrite map_length; apply I; exact Hg|].
  apply Forall_cons; [def|]. apply Forall_cons; [def|]. apply Forall_cons; [intros h; cbn [do_job]; destruct (negb _); discriminate|].
  repeat (apply Forall_cons; [def|]). constructor.
Qed.

(* -- 2D rigid bodies -- *)
Definition mass_jobs (when : nat) (M q : list A) : list job :=
  [JGuard (negb (Nat.eqb when 0) && Nat.ltb (List.length M) (List.length q)) undefined; JMatrix when "" "m" SDouble (vector (nums (firstn (List.length q) M)))].
Lemma does_mass M q : does (write_mass M q) (mass_jobs 1 M q).
Proof.
  intros h. pose proof (does_matrix "m" "" "m" SDouble (vector (nums (firstn (List.length q) M))) eq_refl h) as X.
  unfold write_mass, mass_jobs. change (exec (?a :: ?b)) with (bind (do_job a) (fun _ => exec b)). cbn [do_job negb andb Nat.eqb].
  destruct (Nat.ltb (List.length M) (List.length q)); [reflexivity|]. exact X.
Qed.
Definition geometry2_jobs (geometry : list (shape2 A)) : list job :=
  let count := count_type (map type2 geometry) in
  [JRecords (count 0) "geometry" "circles" ["r"] (count 0) (flat_map circle_record geometry)] ++
  [JRecords (count 1) "geometry" "boxes" ["r"] (count 1) (flat_map box2_record geometry)].
Definition jobs2 (s : state2 A) : list job :=
  [JMatrix 1 "" "q" SDouble (vector (nums (s2_q s)))] ++ [JMatrix 1 "" "v" SDouble (vector (nums (s2_v s)))] ++ mass_jobs 1 (s2_M s) (s2_q s) ++
  [JMatrix 1 "" "kinematically_scripted" SUnsigned (vector (flags (s2_scripted s)))] ++
  [JIndices "geometry" (map type2 (s2_geometry s)) (s2_indices s)] ++ geometry2_jobs (s2_geometry s) ++
  [JRecords (List.length (s2_planes s)) "static_geometry" "static_planes" ["x"; "n"] (List.length (s2_planes s)) (map plane2_record (s2_planes s))] ++
  [JRecords (List.length (s2_portals s)) "static_geometry" "planar_portals" ["x0"; "n0"; "x1"; "n1"; "v"; "width"; "delta"] (List.length (s2_portals s)) (map portal_record (s2_portals s))].
Lemma does2 s : does (writeBinaryState2 s) (jobs2 s).
Proof.
  unfold writeBinaryState2, jobs2.
  apply does_bind; [apply does_matrix; reflexivity|]. apply does_bind; [apply does_matrix; reflexivity|]. apply does_bind; [apply does_mass|].
  apply does_bind; [apply does_matrix; reflexivity|]. apply does_bind; [apply does_indices|].
  apply does_bind; [apply does_bind; apply does_records|]. apply does_bind; apply does_records.
Qed.
Lemma count2 (l : list (shape2 A)) :
  List.length (flat_map circle_record l) = count_type (map type2 l) 0 /\ List.length (flat_map box2_record l) = count_type (map type2 l) 1.
Proof. split; apply records_length; intros []; reflexivity. Qed.
Lemma jobs2_ok s : Forall job_ok (jobs2 s).
Proof.
  destruct (count2 (s2_geometry s)) as (C0 & C1).
  unfold jobs2, geometry2_jobs, mass_jobs. cbn [app].
  repeat (apply Forall_cons; [first [apply JIndices_ok|apply JMatrix_ok|apply JGuard_undefined_ok|apply JRecords_ok; first [assumption|apply map_length]]|]). constructor.
Qed.
Ltac away2 := unfold header_jobs, jobs2, geometry2_jobs, mass_jobs, JMatrix, JText, JRecords, JIndices; cbn [app];
  repeat (apply Forall_cons; [cbn [job_free]; first [exact Logic.I | left; assumption | right; split; discriminate | left; reflexivity]|]); try constructor.
Theorem state2_saved (dt time : A) it hash (s : state2 A) disk calls h :
  save dt time it hash (writeBinaryState2 s) disk calls = (h, Ok tt) ->
  has_header h dt time it hash /\
  stored_column h "q" SDouble (nums (s2_q s)) /\ stored_column h "v" SDouble (nums (s2_v s)) /\
  stored_column h "m" SDouble (nums (firstn (List.length (s2_q s)) (s2_M s))) /\ List.length (s2_q s) <= List.length (s2_M s) /\
  stored_column h "kinematically_scripted" SUnsigned (flags (s2_scripted s)) /\
  stored_records h "static_geometry/static_planes" ["x"; "n"] (map plane2_record (s2_planes s)) /\
  stored_records h "static_geometry/planar_portals" ["x0"; "n0"; "x1"; "n1"; "v"; "width"; "delta"] (map portal_record (s2_portals s)) /\
  (forall i, read_shape2 h i = shape_of (s2_geometry s) (s2_indices s) i) /\ (forall i g, nth_error (s2_indices s) i = Some g -> g < List.length (s2_geometry s)).
Proof.
  intros S. pose proof (save_ok _ _ _ _ _ _ _ _ _ (does2 s) (jobs2_ok s) S) as (St & Gu & Ab). set (all := header_jobs dt time it hash ++ jobs2 s) in *.
  destruct (count2 (s2_geometry s)) as (C0 & C1).
  split. { eapply header_got; [exact St|]. apply incl_appl, incl_refl. }
  split; [eapply got_column; eauto; try reflexivity; unfold all; pick|].
  split; [eapply got_column; eauto; try reflexivity; unfold all; pick|].
  split; [eapply got_column; eauto; try reflexivity; unfold all; pick|].
  split. { assert (G2 : Nat.ltb (List.length (s2_M s)) (List.length (s2_q s)) = false) by (eapply Gu; unfold all; pick). apply Nat.ltb_ge in G2. exact G2. }
  split; [eapply got_column; eauto; try reflexivity; unfold all; pick|].
  split. { apply (got_records h all St Ab _ "static_geometry" "static_planes" _ (List.length (s2_planes s))); try reflexivity; [unfold all; pick|apply map_length|intros Z; unfold all; away2]. }
  split. { apply (got_records h all St Ab _ "static_geometry" "planar_portals" _ (List.length (s2_portals s))); try reflexivity; [unfold all; pick|apply map_length|intros Z; unfold all; away2]. }
  assert (B : stored_records h "geometry/circles" ["r"] (flat_map circle_record (s2_geometry s))).
  { apply (got_records h all St Ab _ "geometry" "circles" _ (count_type (map type2 (s2_geometry s)) 0)); try reflexivity; [unfold all; pick|exact C0|intros Z; unfold all; away2]. }
  assert (Sp : stored_records h "geometry/boxes" ["r"] (flat_map box2_record (s2_geometry s))).
  { apply (got_records h all St Ab _ "geometry" "boxes" _ (count_type (map type2 (s2_geometry s)) 1)); try reflexivity; [unfold all; pick|exact C1|intros Z; unfold all; away2]. }
  assert (Ii : In (@JIndices A "geometry" (map type2 (s2_geometry s)) (s2_indices s)) all) by (unfold all; pick).
  destruct (St 1 "geometry" "geometry_indices" _ _ (good_indices (map type2 (s2_geometry s)) (s2_indices s)) Ii ltac:(discriminate)) as (p & F & G).
  assert (Sr : stored h "geometry/geometry_indices" = Some p) by (apply stored_find; exact F).
  split.
  - intros i. destruct (reference_got h _ _ p i Sr G) as (R & Rn). unfold read_shape2, shape_of. rewrite R.
    destruct (nth_error (s2_indices s) i) as [g|]; [|reflexivity]. rewrite nth_error_map in *.
    specialize (Rn g eq_refl). rewrite nth_error_map in Rn. destruct (nth_error (s2_geometry s) g) as [sh|] eqn:E; cbn [option_map] in *; [|congruence].
    destruct sh as [r|r]; cbn [type2]; cbn [Z.of_nat Pos.of_succ_nat Pos.succ].
    + erewrite record_got; [|exact B|eapply records_nth with (ty := type2); [intros []; reflexivity|exact E|reflexivity]]. reflexivity.
    + erewrite record_got; [|exact Sp|eapply records_nth with (ty := type2); [intros []; reflexivity|exact E|reflexivity]]. reflexivity.
  - intros i g E. destruct (reference_got h _ _ p i Sr G) as (_ & Rn). specialize (Rn g E). rewrite nth_error_map in Rn. apply nth_error_Some. destruct (nth_error (s2_geometry s) g); [discriminate|cbn in Rn; congruence].
Qed.
Theorem returns2 (dt time : A) it hash (s : state2 A) disk : indices_ok (s2_geometry s) (s2_indices s) -> List.length (s2_q s) <= List.length (s2_M s) ->
  exists h, save dt time it hash (writeBinaryState2 s) disk [] = (h, Ok tt).
Proof.
  intros I LM. destruct (count2 (s2_geometry s)) as (C0 & C1).
  apply save_works with (js := jobs2 s); [apply does2|apply jobs2_ok| |].
  - unfold jobs2, geometry2_jobs, mass_jobs. cbn [app].
    apply Forall_cons; [fine|]. apply Forall_cons; [fine|]. apply Forall_cons; [cbn [job_fine negb andb Nat.eqb]; apply Nat.ltb_ge; exact LM|]. apply Forall_cons; [fine|]. apply Forall_cons; [fine|].
    apply Forall_cons; [fine; intros i Hi; rewrite map_length; apply I; exact Hi|].
    apply Forall_cons; [fine; exact C0|]. apply Forall_cons; [fine; exact C1|]. apply Forall_cons; [fine; apply map_length|]. apply Forall_cons; [fine; apply map_length|]. constructor.
  - cbn. repeat (constructor; [cbn; intuition discriminate|]). constructor.
Qed.
Theorem defined2 (dt time : A) it hash (s : state2 A) disk calls : indices_ok (s2_geometry s) (s2_indices s) -> List.length (s2_q s) <= List.length (s2_M s) ->
  snd (save dt time it hash (writeBinaryState2 s) disk calls) <> UB.
Proof.
  intros I LM. apply save_defined with (js := jobs2 s); [apply does2|]. unfold jobs2, geometry2_jobs, mass_jobs. cbn [app].
  apply Forall_cons; [def|]. apply Forall_cons; [def|].
  apply Forall_cons. { intros h. cbn [do_job negb andb Nat.eqb]. apply Nat.ltb_ge in LM. rewrite LM. discriminate. }
  apply Forall_cons; [def|]. apply Forall_cons; [def|].
  apply Forall_cons; [def; intros g Hg; rewrite map_length; apply I; exact Hg|].
  repeat (apply Forall_cons; [def|]). constructor.
Qed.

(* -- balls -- *)
Definition jobsb (s : stateb A) : list job :=
  let n := List.length (sb_q s) in let m := List.length (sb_planes s) in
  ([JMatrix n "" "q" SDouble (vector (nums (sb_q s)))] ++ [JMatrix n "" "v" SDouble (vector (nums (sb_v s)))] ++ [JMatrix n "" "r" SDouble (vector (nums (sb_r s)))] ++ mass_jobs n (sb_M s) (sb_q s)) ++
  [JMatrix m "" "static_plane_centers" SDouble (columns2 (map fst (sb_planes s)))] ++ [JMatrix m "" "static_plane_normals" SDouble (columns2 (map snd (sb_planes s)))].
Lemma doesb s : does (writeBinaryStateB s) (jobsb s).
Proof.
  unfold writeBinaryStateB, jobsb. cbv zeta.
  apply does_bind; [|apply does_bind; apply does_matrix_if; reflexivity].
  destruct (List.length (sb_q s)) as [|n] eqn:E.
  - intros h. reflexivity.
  - change (unless_zero (S n) ?a) with a.
    assert (X : does (bind (write_matrix "q" SDouble (vector (nums (sb_q s)))) (fun _ => bind (write_matrix "v" SDouble (vector (nums (sb_v s)))) (fun _ => bind (write_matrix "r" SDouble (vector (nums (sb_r s)))) (fun _ => write_mass (sb_M s) (sb_q s)))))
      ([JMatrix 1 "" "q" SDouble (vector (nums (sb_q s)))] ++ [JMatrix 1 "" "v" SDouble (vector (nums (sb_v s)))] ++ [JMatrix 1 "" "r" SDouble (vector (nums (sb_r s)))] ++ mass_jobs 1 (sb_M s) (sb_q s))).
    { apply does_bind; [apply does_matrix; reflexivity|]. apply does_bind; [apply does_matrix; reflexivity|]. apply does_bind; [apply does_matrix; reflexivity|]. apply does_mass. }
    exact X.
Qed.
Lemma jobsb_ok s : Forall job_ok (jobsb s).
Proof. unfold jobsb, mass_jobs. cbn [app]. repeat (apply Forall_cons; [first [apply JMatrix_ok|apply JGuard_undefined_ok]|]). constructor. Qed.
Ltac away3 := unfold header_jobs, jobsb, mass_jobs, JMatrix, JText; cbv zeta; cbn [app];
  repeat (apply Forall_cons; [cbn [job_free]; first [exact Logic.I | left; assumption | right; split; discriminate | left; reflexivity]|]); try constructor.
Theorem stateb_saved (dt time : A) it hash (s : stateb A) disk calls h :
  save dt time it hash (writeBinaryStateB s) disk calls = (h, Ok tt) ->
  has_header h dt time it hash /\
  (sb_q s <> [] -> stored_column h "q" SDouble (nums (sb_q s)) /\ stored_column h "v" SDouble (nums (sb_v s)) /\ stored_column h "r" SDouble (nums (sb_r s)) /\
     stored_column h "m" SDouble (nums (firstn (List.length (sb_q s)) (sb_M s))) /\ List.length (sb_q s) <= List.length (sb_M s)) /\
  (sb_q s = [] -> stored h "q" = None /\ stored h "v" = None /\ stored h "r" = None /\ stored h "m" = None) /\
  (sb_planes s <> [] ->
     stored h "static_plane_centers" = Some (PMatrix SDouble 2 (List.length (sb_planes s)) (nums (map (fun p => fst (fst p)) (sb_planes s)) ++ nums (map (fun p => snd (fst p)) (sb_planes s)))) /\
     stored h "static_plane_normals" = Some (PMatrix SDouble 2 (List.length (sb_planes s)) (nums (map (fun p => fst (snd p)) (sb_planes s)) ++ nums (map (fun p => snd (snd p)) (sb_planes s))))) /\
  (sb_planes s = [] -> stored h "static_plane_centers" = None /\ stored h "static_plane_normals" = None).
Proof.
  intros S. pose proof (save_ok _ _ _ _ _ _ _ _ _ (doesb s) (jobsb_ok s) S) as (St & Gu & Ab). set (all := header_jobs dt time it hash ++ jobsb s) in *.
  split. { eapply header_got; [exact St|]. apply incl_appl, incl_refl. }
  assert (Ln : forall B (l : list B), l <> [] -> List.length l <> 0) by (intros B [|x l] N; cbn; congruence).
  split.
  { intros N. apply Ln in N.
    assert (C : forall x l, says x = true -> split_last x = None -> In (JMatrix (List.length (sb_q s)) "" x SDouble (vector l)) all -> stored_column h x SDouble l).
    { intros x l Sx Sp I. unfold stored_column. erewrite (got_matrix_if h all St (List.length (sb_q s)) x "" x SDouble (vector l)); eauto; [rewrite vector_file; reflexivity|]. unfold splitFullName. rewrite Sp. reflexivity. }
    split; [apply C; try reflexivity; unfold all; pick|]. split; [apply C; try reflexivity; unfold all; pick|]. split; [apply C; try reflexivity; unfold all; pick|].
    split; [apply C; try reflexivity; unfold all; pick|].
    assert (G2 : negb (Nat.eqb (List.length (sb_q s)) 0) && Nat.ltb (List.length (sb_M s)) (List.length (sb_q s)) = false) by (eapply Gu; unfold all; pick).
    apply Nat.eqb_neq in N. rewrite N in G2. apply Nat.ltb_ge in G2. exact G2. }
  split.
  { intros Z. assert (Z0 : List.length (sb_q s) = 0) by (rewrite Z; reflexivity).
    repeat split; apply find_none_stored; apply Ab; try discriminate; unfold all; away3. }
  split.
  { intros N. apply Ln in N. split.
    - erewrite (got_matrix_if h all St (List.length (sb_planes s)) _ "" "static_plane_centers"); [|reflexivity|reflexivity|unfold all; pick|exact N]. rewrite columns2_file, !map_map. cbn [em_rows em_cols columns2]. rewrite map_length. reflexivity.
    - erewrite (got_matrix_if h all St (List.length (sb_planes s)) _ "" "static_plane_normals"); [|reflexivity|reflexivity|unfold all; pick|exact N]. rewrite columns2_file, !map_map. cbn [em_rows em_cols columns2]. rewrite map_length. reflexivity. }
  { intros Z. assert (Z0 : List.length (sb_planes s) = 0) by (rewrite Z; reflexivity).
    split; apply find_none_stored; apply Ab; try discriminate; unfold all; away3. }
Qed.
Theorem returnsb (dt time : A) it hash (s : stateb A) disk : List.length (sb_q s) <= List.length (sb_M s) ->
  exists h, save dt time it hash (writeBinaryStateB s) disk [] = (h, Ok tt).
Proof.
  intros LM. apply save_works with (js := jobsb s); [apply doesb|apply jobsb_ok| |].
  - unfold jobsb, mass_jobs. cbv zeta. cbn [app].
    apply Forall_cons; [fine|]. apply Forall_cons; [fine|]. apply Forall_cons; [fine|].
    apply Forall_cons. { cbn [job_fine]. apply Nat.ltb_ge in LM. rewrite LM. apply andb_false_r. }
    repeat (apply Forall_cons; [fine|]). constructor.
  - cbn. repeat (constructor; [cbn; intuition discriminate|]). constructor.
Qed.
Theorem definedb (dt time : A) it hash (s : stateb A) disk calls : List.length (sb_q s) <= List.length (sb_M s) -> snd (save dt time it hash (writeBinaryStateB s) disk calls) <> UB.
Proof.
  intros LM. apply save_defined with (js := jobsb s); [apply doesb|]. unfold jobsb, mass_jobs. cbv zeta. cbn [app].
  apply Forall_cons; [def|]. apply Forall_cons; [def|]. apply Forall_cons; [def|].
  apply Forall_cons. { intros h. cbn [do_job]. apply Nat.ltb_ge in LM. rewrite LM, andb_false_r. discriminate. }
  repeat (apply Forall_cons; [def|]). constructor.
Qed.
End M.
