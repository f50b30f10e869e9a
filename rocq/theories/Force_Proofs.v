From Coq Require Import String Ascii List Reals Arith Bool ZArith Lia Lra ZifyBool.
Import ListNotations.
From Verif Require Import Outcome Ccd_Model Lin_Model Lin_Proofs ContactBall_Model ContactRb2_Model ContactRb3_Model Contact_Spec Sob_Model Sob_Spec Sob_Proofs Sob_Thms.
From Verif Require Import Hdf_Model Hdf_Spec Hdf_Proofs Hdf_Thms Out_Model Out_Spec Out_Proofs Out_Thms Out_Main Force_Model Force_Spec.
Local Open Scope string_scope. Local Open Scope list_scope. Local Open Scope nat_scope.

(* -- tables -- *)
Lemma all_some_map {X Y} (f : X -> option Y) (g : X -> Y) l : (forall x, In x l -> f x = Some (g x)) -> all_some (map f l) = Some (map g l).
Proof.
  induction l as [|x l IH]; intros H; cbn; [reflexivity|]. rewrite (H x (or_introl eq_refl)). rewrite IH; [reflexivity|]. intros y I. apply H. right. exact I.
Qed.
Lemma concat_nth {X} (cols : list (list X)) rows j k x : Forall (fun c => List.length c = rows) cols -> j < List.length cols -> k < rows ->
  nth (j * rows + k) (concat cols) x = nth k (nth j cols []) x.
Proof.
  intros F. revert j; induction F as [|c cols Hc F IH]; intros j Hj Hk; [cbn in Hj; lia|]. cbn [concat].
  destruct j as [|j]; cbn [nth].
  - rewrite app_nth1 by lia. f_equal.
  - rewrite app_nth2 by (cbn; lia). replace (S j * rows + k - List.length c) with (j * rows + k) by (cbn; lia). apply IH; cbn in *; lia.
Qed.
Lemma list_of_nth {X} (l : list X) n x : List.length l = n -> map (fun k => nth k l x) (seq 0 n) = l.
Proof. intros <-. apply (map_nth_seq l x 0 []). reflexivity. Qed.
Lemma column_got (h : h5 R) name t rows cols i :
  stored h name = Some (PMatrix t rows (List.length cols) (to_file (by_column rows cols))) ->
  Forall (fun c => List.length c = rows) cols -> i < List.length cols ->
  column h name t rows (List.length cols) i = Some (nth i cols []).
Proof.
  intros S F L. unfold column. rewrite S. rewrite !Nat.eqb_refl. apply Nat.ltb_lt in L as L'. rewrite L'.
  assert (E : scalar_eqb t t = true) by (destruct t; reflexivity). rewrite E. cbn [andb].
  assert (Li : List.length (nth i cols []) = rows). { rewrite Forall_forall in F. apply F. apply nth_In. exact L. }
  rewrite (all_some_map _ (fun k => nth k (nth i cols []) zero_elem)).
  - f_equal. apply list_of_nth. exact Li.
  - intros k Ik. apply in_seq in Ik. unfold to_file, by_column. cbn [em_row_major em_rows em_cols em_data].
    unfold row_major_copy. rewrite grid_nth by lia. cbn [Nat.add]. f_equal. apply concat_nth; auto. lia.
Qed.
Lemma reals_of (l : list R) : all_some (map real_of (map ENum l)) = Some l.
Proof. rewrite map_map. rewrite (all_some_map _ (fun x => x)); [rewrite map_id; reflexivity|reflexivity]. Qed.
Lemma real_column_got (h : h5 R) name rows (cols : list (list R)) i :
  let ecols := map (map ENum) cols in
  stored h name = Some (PMatrix SDouble rows (List.length ecols) (to_file (by_column rows ecols))) ->
  Forall (fun c => List.length c = rows) cols -> i < List.length cols ->
  real_column h name rows (List.length cols) i = Some (nth i cols []).
Proof.
  intros ecols S F L. unfold real_column. rewrite <- (map_length (map (@ENum R)) cols). fold ecols. rewrite (column_got h name SDouble rows ecols i S).
  - unfold ecols. change (@nil (elem R)) with (map (@ENum R) []). rewrite map_nth. apply reals_of.
  - apply Forall_forall. intros c I. apply in_map_iff in I. destruct I as (c' & <- & I). rewrite map_length. rewrite Forall_forall in F. apply F. exact I.
  - unfold ecols. rewrite map_length. exact L.
Qed.

(* -- numbers -- *)
Lemma int_of_small n : (Z.of_nat n < 2147483648)%Z -> int_of (N.of_nat n) = Z.of_nat n.
Proof.
  intros H. unfold int_of. rewrite nat_N_Z. cbv zeta. rewrite Z.mod_small by lia. destruct (2147483648 <=? Z.of_nat n)%Z eqn:E; [lia|reflexivity].
Qed.
Lemma decode_body n : decode (Z.of_nat n) = Some (Body n).
Proof. unfold decode. destruct (0 <=? Z.of_nat n)%Z eqn:E; [|lia]. rewrite Nat2Z.id. reflexivity. Qed.
Lemma decode_obstacle n : decode (- Z.of_nat n - 2) = Some (Obstacle n).
Proof.
  unfold decode. destruct (0 <=? - Z.of_nat n - 2)%Z eqn:E; [lia|]. destruct (- Z.of_nat n - 2 <=? -2)%Z eqn:E2; [|lia].
  do 2 f_equal. lia.
Qed.

Section General.
Context {C : Type} (W : asked C).
Let d := a_dims W.

Lemma indices_body c i j : a_bodies W c = Ok (Z.of_nat i, Z.of_nat j) -> collision_indices W c = Ok (Z.of_nat i, Z.of_nat j).
Proof. intros E. unfold collision_indices. rewrite E. cbn. destruct (Z.of_nat j =? -1)%Z eqn:X; [lia|reflexivity]. Qed.
Lemma indices_obstacle c i k : a_bodies W c = Ok (Z.of_nat i, (-1)%Z) -> a_static W c = Ok (N.of_nat k) -> (Z.of_nat k < 2147483647)%Z ->
  collision_indices W c = Ok (Z.of_nat i, (- Z.of_nat k - 2)%Z).
Proof.
  intros E S L. unfold collision_indices. rewrite E. cbn [obind snd fst Z.eqb Pos.eqb]. rewrite S. cbn [obind]. rewrite int_of_small by lia.
  unfold int_ok. destruct ((-2147483648 <=? - Z.of_nat k) && (- Z.of_nat k <=? 2147483647))%Z eqn:X; [|lia]. cbn [obind].
  destruct ((-2147483648 <=? - Z.of_nat k - 2) && (- Z.of_nat k - 2 <=? 2147483647))%Z eqn:Y; [reflexivity|lia].
Qed.

(* the contact of an export, as the code answers *)
Definition answers (parties : C -> nat * partner) (q : dvec) (c : C) : Prop :=
  (forall ij, collision_indices W c = Ok ij -> decode (fst ij) = Some (Body (fst (parties c))) /\ decode (snd ij) = Some (snd (parties c))) /\
  (forall p, a_point W q c = Ok p -> List.length p = d).

(* the four tables *)
Definition is_table (h : h5 R) name t rows (cols : list (list (elem R))) : Prop :=
  stored h name = Some (PMatrix t rows (List.length cols) (to_file (by_column rows cols))).
Definition force_jobs (is ps ns fs : list (list (elem R))) : list (@job R) :=
  let n := List.length is in
  [JMatrix 1 "" "collision_count" SUnsigned (mkMat false 1 1 [EInt (Z.of_nat n)])] ++
  [JMatrix n "" "collision_indices" SInt (by_column 2 is)] ++ [JMatrix n "" "collision_points" SDouble (by_column d ps)] ++
  [JMatrix n "" "collision_normals" SDouble (by_column d ns)] ++ [JMatrix n "" "collision_forces" SDouble (by_column d fs)].
Lemma force_jobs_ok is ps ns fs : Forall job_ok (force_jobs is ps ns fs).
Proof. unfold force_jobs. cbn [app]. repeat (apply Forall_cons; [apply JMatrix_ok|]). constructor. Qed.
Lemma unless_chain n (a b : act R unit) h : unless_zero n (bind a (fun _ => b)) h = bind (unless_zero n a) (fun _ => unless_zero n b) h.
Proof. unfold unless_zero, bind, ret. destruct (Nat.eqb n 0); reflexivity. Qed.
Lemma does_solution s : does (writeSolution W s) (force_jobs (sn_indices s) (sn_points s) (sn_normals s) (sn_forces s)).
Proof.
  unfold writeSolution, force_jobs. cbv zeta. set (n := List.length (sn_indices s)).
  apply does_bind; [apply does_matrix; reflexivity|].
  intros h. transitivity (unless_zero n (bind (write_matrix "collision_indices" SInt (by_column 2 (sn_indices s))) (fun _ =>
    bind (write_matrix "collision_points" SDouble (by_column d (sn_points s))) (fun _ =>
    bind (write_matrix "collision_normals" SDouble (by_column d (sn_normals s))) (fun _ => write_matrix "collision_forces" SDouble (by_column d (sn_forces s)))))) h); [reflexivity|].
  rewrite unless_chain. rewrite exec_app. apply bind_cong; [apply does_matrix_if; reflexivity|intros _ h1].
  rewrite unless_chain. rewrite exec_app. apply bind_cong; [apply does_matrix_if; reflexivity|intros _ h2].
  rewrite unless_chain. rewrite exec_app. apply bind_cong; [apply does_matrix_if; reflexivity|intros _ h3].
  apply does_matrix_if; reflexivity.
Qed.

Lemma omapM_nth {X Y} (f : X -> outcome Y) l m : omapM f l = Ok m -> List.length m = List.length l /\
  forall i x, nth_error l i = Some x -> exists y, nth_error m i = Some y /\ f x = Ok y.
Proof.
  revert m; induction l as [|x l IH]; intros m H; cbn in H.
  - injection H as <-. split; [reflexivity|]. intros [|i]; discriminate.
  - destruct (f x) as [y| |] eqn:E; cbn in H; try discriminate. destruct (omapM f l) as [m'| |] eqn:E'; cbn in H; try discriminate. injection H as <-.
    destruct (IH m' eq_refl) as (L & N). split; [cbn; congruence|]. intros [|i] z Hz; cbn in *; [injection Hz as <-; eauto|eauto].
Qed.
(* the columns of indices and points *)
Lemma index_columns_ok cs is : index_columns W cs = Ok is -> List.length is = List.length cs /\ Forall (fun c => List.length c = 2) is /\
  forall i c, nth_error cs i = Some c -> exists ij, collision_indices W c = Ok ij /\ nth i is [] = [EInt (fst ij); EInt (snd ij)].
Proof.
  intros H. destruct (omapM_nth _ _ _ H) as (L & N). split; [exact L|].
  assert (K : forall i c, nth_error cs i = Some c -> exists ij, collision_indices W c = Ok ij /\ nth_error is i = Some [EInt (fst ij); EInt (snd ij)]).
  { intros i c E. destruct (N i c E) as (y & Ey & Fy). destruct (collision_indices W c) as [ij| |] eqn:X; cbn in Fy; try discriminate. injection Fy as <-. exists ij. split; [reflexivity|exact Ey]. }
  split.
  - apply Forall_forall. intros y I. apply In_nth_error in I. destruct I as (i & E). destruct (nth_error cs i) as [c|] eqn:Ec.
    + destruct (K i c Ec) as (ij & _ & E'). rewrite E' in E. injection E as <-. reflexivity.
    + apply nth_error_None in Ec. assert (i < List.length is) by (apply nth_error_Some; congruence). lia.
  - intros i c E. destruct (K i c E) as (ij & X & E'). exists ij. split; [exact X|]. apply nth_error_nth. exact E'.
Qed.
Lemma point_columns_ok q cs ps : point_columns W q cs = Ok ps -> exists pts, ps = map (map (@ENum R)) pts /\ List.length pts = List.length cs /\
  forall i c, nth_error cs i = Some c -> a_point W q c = Ok (nth i pts []).
Proof.
  unfold point_columns. revert ps; induction cs as [|c cs IH]; intros ps H; cbn in H.
  - injection H as <-. exists []. split; [reflexivity|]. split; [reflexivity|]. intros [|i]; discriminate.
  - destruct (a_point W q c) as [p| |] eqn:E; cbn in H; try discriminate.
    destruct (omapM _ cs) as [m| |] eqn:E'; cbn in H; try discriminate. injection H as <-.
    destruct (IH m eq_refl) as (pts & -> & L & N). exists (p :: pts). split; [reflexivity|]. split; [cbn; congruence|].
    intros [|i] c' Ec; cbn in *; [injection Ec as <-; exact E|exact (N i c' Ec)].
Qed.

(* reading what the jobs stored *)
Lemma read_back (h : h5 R) is pts nss fss all (parties : C -> nat * partner) q cs :
  (forall when g x p0 f good, In (JWrite when g x p0 f good) all -> when <> 0 -> exists p, find (h_root h) (components g ++ [x]) = Some (Data p) /\ good p) ->
  incl (force_jobs is (map (map (@ENum R)) pts) (map (map (@ENum R)) nss) (map (map (@ENum R)) fss)) all ->
  index_columns W cs = Ok is -> point_columns W q cs = Ok (map (map (@ENum R)) pts) ->
  List.length nss = List.length cs -> List.length fss = List.length cs -> List.length pts = List.length cs ->
  Forall (fun c => List.length c = d) pts -> Forall (fun c => List.length c = d) nss -> Forall (fun c => List.length c = d) fss ->
  (forall c, In c cs -> answers parties q c) ->
  read_forces h d = Some (map (fun ic => Report (fst (parties (snd ic))) (snd (parties (snd ic))) (nth (fst ic) pts []) (nth (fst ic) nss []) (nth (fst ic) fss []))
                             (combine (seq 0 (List.length cs)) cs)).
Proof.
  intros St Inc Ei Ep Ln Lf Lp Fp Fn Ff An.
  destruct (index_columns_ok cs is Ei) as (Li & F2 & Ni).
  unfold read_forces.
  assert (Sc : stored h "collision_count" = Some (PMatrix SUnsigned 1 1 [EInt (Z.of_nat (List.length is))])).
  { rewrite (got_matrix h all St "collision_count" "" "collision_count" SUnsigned (mkMat false 1 1 [EInt (Z.of_nat (List.length is))])); [reflexivity|reflexivity|reflexivity|].
    apply Inc. unfold force_jobs. left. reflexivity. }
  rewrite Sc. rewrite Nat2Z.id. rewrite Li.
  destruct (Nat.eq_dec (List.length cs) 0) as [Z0|NZ].
  { destruct cs; [|discriminate]. reflexivity. }
  assert (NZi : List.length is <> 0) by lia.
  assert (Ti : is_table h "collision_indices" SInt 2 is).
  { apply (got_matrix_if h all St (List.length is) "collision_indices" "" "collision_indices" SInt (by_column 2 is)); try reflexivity; auto.
    apply Inc. unfold force_jobs. cbn [app]. right; left. reflexivity. }
  assert (Tp : is_table h "collision_points" SDouble d (map (map (@ENum R)) pts)).
  { apply (got_matrix_if h all St (List.length is) "collision_points" "" "collision_points" SDouble (by_column d (map (map (@ENum R)) pts))); try reflexivity; auto.
    apply Inc. unfold force_jobs. cbn [app]. do 2 right; left. reflexivity. }
  assert (Tn : is_table h "collision_normals" SDouble d (map (map (@ENum R)) nss)).
  { apply (got_matrix_if h all St (List.length is) "collision_normals" "" "collision_normals" SDouble (by_column d (map (map (@ENum R)) nss))); try reflexivity; auto.
    apply Inc. unfold force_jobs. cbn [app]. do 3 right; left. reflexivity. }
  assert (Tf : is_table h "collision_forces" SDouble d (map (map (@ENum R)) fss)).
  { apply (got_matrix_if h all St (List.length is) "collision_forces" "" "collision_forces" SDouble (by_column d (map (map (@ENum R)) fss))); try reflexivity; auto.
    apply Inc. unfold force_jobs. cbn [app]. do 4 right; left. reflexivity. }
  assert (Q : forall i c, nth_error cs i = Some c -> read_report h d (List.length cs) i =
     Some (Report (fst (parties c)) (snd (parties c)) (nth i pts []) (nth i nss []) (nth i fss []))).
  { intros i c E. assert (Hi : i < List.length cs) by (apply nth_error_Some; congruence).
    unfold read_report. destruct (Ni i c E) as (ij & X & Xi).
    pose proof (column_got h "collision_indices" SInt 2 is i Ti F2 ltac:(lia)) as R1. rewrite Li in R1. rewrite R1, Xi.
    pose proof (real_column_got h "collision_points" d pts i Tp Fp ltac:(lia)) as R2. rewrite Lp in R2. rewrite R2.
    pose proof (real_column_got h "collision_normals" d nss i Tn Fn ltac:(lia)) as R3. rewrite Ln in R3. rewrite R3.
    pose proof (real_column_got h "collision_forces" d fss i Tf Ff ltac:(lia)) as R4. rewrite Lf in R4. rewrite R4.
    destruct (An c (nth_error_In _ _ E)) as (A1 & _). destruct (A1 ij X) as (D1 & D2). rewrite D1, D2. reflexivity. }
  clear - Q.
  assert (G : forall l s n, (forall i c, nth_error l i = Some c -> read_report h d n (s + i) =
     Some (Report (fst (parties c)) (snd (parties c)) (nth (s + i) pts []) (nth (s + i) nss []) (nth (s + i) fss []))) ->
     all_some (map (read_report h d n) (seq s (List.length l))) =
     Some (map (fun ic => Report (fst (parties (snd ic))) (snd (parties (snd ic))) (nth (fst ic) pts []) (nth (fst ic) nss []) (nth (fst ic) fss [])) (combine (seq s (List.length l)) l))).
  { induction l as [|c l IH]; intros s n H; cbn [List.length seq map combine all_some]; [reflexivity|].
    pose proof (H 0 c eq_refl) as H0. rewrite Nat.add_0_r in H0. rewrite H0. rewrite (IH (S s) n); [reflexivity|].
    intros i c' E. replace (S s + i) with (s + S i) by lia. apply H. exact E. }
  apply (G cs 0). exact Q.
Qed.
End General.
