From Coq Require Import String Ascii List Bool Arith ZArith Lia.
Import ListNotations.
From Verif Require Import Outcome Hdf_Model Hdf_Spec Hdf_Proofs Hdf_Thms Out_Model Out_Spec Out_Proofs.
Local Open Scope string_scope. Local Open Scope list_scope.

(* -- lists -- *)
Lemma set_nth_length {B} k (x : B) l : List.length (set_nth k x l) = List.length l.
Proof. revert k; induction l as [|y l IH]; intros [|k]; cbn; auto. Qed.
Lemma set_nth_same {B} k (x : B) l : k < List.length l -> nth_error (set_nth k x l) k = Some x.
Proof. revert k; induction l as [|y l IH]; intros [|k] H; cbn in *; try lia; auto. apply IH; lia. Qed.
Lemma set_nth_other {B} k (x : B) l i : i <> k -> nth_error (set_nth k x l) i = nth_error l i.
Proof. revert k i; induction l as [|y l IH]; intros [|k] [|i] H; cbn; auto; try congruence. Qed.
Lemma set_nth_middle {B} (pre : list B) x y post : set_nth (List.length pre) x (pre ++ y :: post) = (pre ++ [x]) ++ post.
Proof. induction pre as [|z pre IH]; cbn; [reflexivity|]. rewrite IH. reflexivity. Qed.

Definition local_count (types : list nat) (g t : nat) : nat := count_type (firstn g types) t.
Lemma local_indices_nth types c g t : nth_error types g = Some t -> nth_error (local_indices types c) g = Some (c t + local_count types g t).
Proof.
  revert c g; induction types as [|u ts IH]; intros c [|g] H; cbn in H; try discriminate.
  - injection H as ->. cbn. unfold local_count, count_type. cbn. f_equal. lia.
  - cbn [local_indices nth_error]. rewrite (IH _ _ H). f_equal. unfold local_count, count_type. cbn [firstn filter].
    destruct (Nat.eqb t u) eqn:E; [apply Nat.eqb_eq in E; subst u|]; cbn [List.length]; [lia|reflexivity].
Qed.
(* the shapes of one type, and the position of a shape among them *)
Lemma records_length {S R} (ty : S -> nat) t (rec : S -> list R) (l : list S) :
  (forall s, List.length (rec s) = if Nat.eqb t (ty s) then 1 else 0) -> List.length (flat_map rec l) = count_type (map ty l) t.
Proof.
  intros H. induction l as [|s l IH]; cbn; auto. rewrite app_length, H, IH. unfold count_type. cbn [map filter]. destruct (Nat.eqb t (ty s)); reflexivity.
Qed.
Lemma records_nth {S R} (ty : S -> nat) t (rec : S -> list R) (l : list S) g s r :
  (forall s, List.length (rec s) = if Nat.eqb t (ty s) then 1 else 0) -> nth_error l g = Some s -> rec s = [r] ->
  nth_error (flat_map rec l) (local_count (map ty l) g t) = Some r.
Proof.
  intros H. revert g; induction l as [|u l IH]; intros [|g] E Er; cbn in E; try discriminate.
  - injection E as ->. cbn. rewrite Er. reflexivity.
  - cbn [flat_map map]. unfold local_count, count_type. cbn [firstn filter].
    pose proof (H u) as Hu. destruct (Nat.eqb t (ty u)) eqn:Et.
    + destruct (rec u) as [|a [|b x]]; cbn in Hu; try discriminate. cbn [List.length app nth_error]. exact (IH g E Er).
    + destruct (rec u) as [|a x]; cbn in Hu; try discriminate. exact (IH g E Er).
Qed.

Section T.
Context {A : Type}.
Implicit Types (h : h5 A).

(* -- the loops -- *)
Lemma write_data_find d p v h h' : find (h_root h) d = Some (Data v) -> write_data d p h = (h', Ok tt) -> find (h_root h') d = Some (Data p).
Proof. intros F W. apply write_data_root in W. destruct W as (w & R & _ & Wp & _). rewrite R, (Wp eq_refl). eapply find_fill_same; exact F. Qed.

Lemma record_loop_stores d fields pre (rs : list (list (member A))) h h' :
  find (h_root h) d = Some (Data (PRecords fields (pre ++ repeat [] (List.length rs)))) ->
  record_loop d fields (List.length pre + List.length rs) (List.length pre) (pre ++ repeat [] (List.length rs)) rs h = (h', Ok tt) ->
  find (h_root h') d = Some (Data (PRecords fields (pre ++ rs))).
Proof.
  revert pre h; induction rs as [|r rs IH]; intros pre h F H; cbn [record_loop List.length repeat] in *.
  - inversion H; subst. exact F.
  - assert (E : Nat.ltb (List.length pre) (List.length pre + S (List.length rs)) = true) by (apply Nat.ltb_lt; lia). rewrite E in H.
    cbv zeta in H. rewrite set_nth_middle in H. apply bind_inv in H. destruct H as (h1 & u & W & H). destruct u.
    assert (F1 := write_data_find _ _ _ _ _ F W).
    replace (pre ++ r :: rs) with ((pre ++ [r]) ++ rs) by (rewrite <- app_assoc; reflexivity).
    apply (IH (pre ++ [r]) h1); [exact F1|]. rewrite app_length. cbn [List.length].
    replace (List.length pre + 1 + List.length rs) with (List.length pre + S (List.length rs)) by lia.
    replace (List.length pre + 1) with (S (List.length pre)) by lia. exact H.
Qed.
Lemma record_loop_quiet d fields cnt k data rs h :
  k + List.length rs <= cnt -> quiet h -> exists h', @record_loop A d fields cnt k data rs h = (h', Ok tt) /\ quiet h'.
Proof.
  revert k data h; induction rs as [|r rs IH]; intros k data h L Q; cbn [record_loop List.length] in *; [exists h; auto|].
  assert (E : Nat.ltb k cnt = true) by (apply Nat.ltb_lt; lia). rewrite E. cbv zeta. unfold bind. rewrite write_data_quiet by exact Q.
  apply IH; [lia|reflexivity].
Qed.
Lemma index_columns_stores d types locals m k data gs h h' :
  find (h_root h) d = Some (Data (PMatrix SUnsigned 2 m data)) -> List.length data = 2 * m -> k + List.length gs <= m ->
  @index_columns A d types locals m k data gs h = (h', Ok tt) ->
  exists data', find (h_root h') d = Some (Data (PMatrix SUnsigned 2 m data')) /\ List.length data' = 2 * m /\
    (forall i, i < k -> nth_error data' i = nth_error data i /\ nth_error data' (m + i) = nth_error data (m + i)) /\
    forall j g, nth_error gs j = Some g ->
      exists t l, nth_error types g = Some t /\ nth_error locals g = Some l /\
        nth_error data' (k + j) = Some (EInt (Z.of_nat t)) /\ nth_error data' (m + (k + j)) = Some (EInt (Z.of_nat l)).
Proof.
  revert k data h; induction gs as [|g gs IH]; intros k data h F Ld Lk H; cbn [index_columns List.length] in *.
  - inversion H; subst. exists data. split; [exact F|]. split; [exact Ld|]. split; [auto|]. intros [|j] g; discriminate.
  - destruct (nth_error types g) as [t|] eqn:Et; [|inversion H]. destruct (nth_error locals g) as [l|] eqn:El; [|inversion H].
    cbv zeta in H. apply bind_inv in H. destruct H as (h1 & u & W & H). destruct u.
    set (data1 := set_nth k (EInt (Z.of_nat t)) (set_nth (m + k) (EInt (Z.of_nat l)) data)) in *.
    assert (F1 := write_data_find _ _ _ _ _ F W).
    assert (L1 : List.length data1 = 2 * m) by (unfold data1; rewrite !set_nth_length; exact Ld).
    assert (A1 : nth_error data1 k = Some (EInt (Z.of_nat t))). { unfold data1. apply set_nth_same. rewrite set_nth_length. lia. }
    assert (A2 : nth_error data1 (m + k) = Some (EInt (Z.of_nat l))). { unfold data1. rewrite set_nth_other by lia. apply set_nth_same. lia. }
    assert (A3 : forall i, i <> k -> i <> m + k -> nth_error data1 i = nth_error data i). { intros i N1 N2. unfold data1. rewrite !set_nth_other by lia. reflexivity. }
    clearbody data1.
    destruct (IH (S k) data1 h1 F1 L1) as (data' & Fd & Ldd & Lo & Hi); [lia|exact H|].
    exists data'. split; [exact Fd|]. split; [exact Ldd|]. split.
    + intros i Hi'. destruct (Lo i) as (B1 & B2); [lia|]. rewrite B1, B2. split; apply A3; lia.
    + intros [|j] g' E; cbn in E.
      * injection E as <-. exists t, l. split; [exact Et|]. split; [exact El|]. rewrite Nat.add_0_r. destruct (Lo k) as (B1 & B2); [lia|]. rewrite B1, B2. auto.
      * destruct (Hi j g' E) as (t' & l' & E1 & E2 & E3 & E4). exists t', l'. replace (k + S j) with (S k + j) by lia. auto.
Qed.
Lemma index_columns_quiet d types locals m k data gs h :
  List.length locals = List.length types -> (forall g, In g gs -> g < List.length types) -> quiet h ->
  exists h', @index_columns A d types locals m k data gs h = (h', Ok tt) /\ quiet h'.
Proof.
  intros LL. revert k data h; induction gs as [|g gs IH]; intros k data h R Q; cbn [index_columns]; [exists h; auto|].
  assert (Rg : g < List.length types) by (apply R; left; reflexivity).
  destruct (nth_error types g) eqn:E1; [|apply nth_error_None in E1; lia]. destruct (nth_error locals g) eqn:E2; [|apply nth_error_None in E2; lia].
  cbv zeta. unfold bind. rewrite write_data_quiet by exact Q. apply IH; [|reflexivity]. intros g' I. apply R. right. exact I.
Qed.
Lemma local_indices_length types c : List.length (local_indices types c) = List.length types.
Proof. revert c; induction types; intros c; cbn; auto. Qed.

(* -- a save as a list of jobs -- *)
Inductive job :=
| JWrite (when : nat) (g x : string) (p0 : payload A) (f : list string -> act A unit) (good : payload A -> Prop)
| JGuard (bad : bool) (a : act A unit).
Definition do_job (j : job) : act A unit :=
  match j with
  | JWrite when g x p0 f _ => unless_zero when (writer g x p0 f)
  | JGuard bad a => if bad then a else ret tt
  end.
Fixpoint exec (js : list job) : act A unit := match js with [] => ret tt | j :: js => bind (do_job j) (fun _ => exec js) end.
Definition job_ok (j : job) : Prop :=
  match j with
  | JWrite when g x p0 f good =>
      (forall d, only_touches d (f d)) /\
      (forall d h1 h2, find (h_root h1) d = Some (Data p0) -> f d h1 = (h2, Ok tt) -> exists p, find (h_root h2) d = Some (Data p) /\ good p)
  | JGuard bad a => (forall h, h_root (fst (a h)) = h_root h) /\ forall h, snd (a h) <> Ok tt
  end.
Lemma writer_good g x p0 f (good : payload A -> Prop) h h' :
  (forall d h1 h2, find (h_root h1) d = Some (Data p0) -> f d h1 = (h2, Ok tt) -> exists p, find (h_root h2) d = Some (Data p) /\ good p) ->
  writer g x p0 f h = (h', Ok tt) -> exists p, find (h_root h') (components g ++ [x]) = Some (Data p) /\ good p.
Proof.
  intros Hf H. unfold writer in H. apply bind_inv in H. destruct H as (h1 & u & _ & H).
  apply bind_inv in H. destruct H as (h2 & grp & H2 & H). apply findOrCreate_inv in H2. destruct H2 as (-> & _).
  apply bind_inv in H. destruct H as (h3 & d & H3 & H). apply create_data_inv in H3. destruct H3 as (_ & -> & _ & _ & _ & Ad).
  eapply Hf; [|exact H]. eapply find_add_same; exact Ad.
Qed.
Lemma do_job_keeps j : job_ok j -> keeps (do_job j).
Proof.
  destruct j as [when g x p0 f good|bad a]; cbn [job_ok do_job].
  - intros (O & _). unfold unless_zero. destruct (Nat.eqb when 0); [apply keeps_ret|apply writer_keeps; exact O].
  - intros (R & _). destruct bad; [|apply keeps_ret]. intros h p v F. rewrite R. exact F.
Qed.
Lemma exec_keeps js : Forall job_ok js -> keeps (exec js).
Proof. induction 1; cbn [exec]; [apply keeps_ret|]. apply keeps_bind; [apply do_job_keeps; assumption|intros _; assumption]. Qed.
Lemma keeps_ok {B} (a : act A B) h h' o p v : keeps a -> a h = (h', o) -> find (h_root h) p = Some (Data v) -> find (h_root h') p = Some (Data v).
Proof. intros K E F. specialize (K h p v F). rewrite E in K. exact K. Qed.

Theorem exec_stores js h h' : Forall job_ok js -> exec js h = (h', Ok tt) ->
  forall when g x p0 f good, In (JWrite when g x p0 f good) js -> when <> 0 ->
  exists p, find (h_root h') (components g ++ [x]) = Some (Data p) /\ good p.
Proof.
  intros Ok. revert h; induction Ok as [|j js Hj Hjs IH]; intros h H when g x p0 f good I W; [contradiction|]. cbn [exec] in H.
  apply bind_inv in H. destruct H as (h1 & u & H1 & H). destruct u. destruct I as [->|I]; [|eapply IH; eauto].
  cbn [do_job] in H1. unfold unless_zero in H1. apply Nat.eqb_neq in W. rewrite W in H1.
  destruct Hj as (_ & St). destruct (writer_good _ _ _ _ _ _ _ St H1) as (p & F & G). exists p. split; [|exact G].
  eapply keeps_ok; [apply exec_keeps; exact Hjs|exact H|exact F].
Qed.
Theorem exec_guards js h h' : Forall job_ok js -> exec js h = (h', Ok tt) -> forall bad a, In (JGuard bad a) js -> bad = false.
Proof.
  intros Ok. revert h; induction Ok as [|j js Hj Hjs IH]; intros h H bad a I; [contradiction|]. cbn [exec] in H.
  apply bind_inv in H. destruct H as (h1 & u & H1 & H). destruct u. destruct I as [->|I]; [|eapply IH; eauto].
  destruct bad; auto. exfalso. destruct Hj as (_ & N). apply (N h). cbn [do_job] in H1. rewrite H1. reflexivity.
Qed.
Definition job_free (q : list string) (j : job) : Prop :=
  match j with JWrite when g x _ _ _ => when = 0 \/ (q <> components g /\ q <> components g ++ [x]) | JGuard _ _ => True end.
Theorem exec_absent js h q : Forall job_ok js -> find (h_root h) q = None -> Forall (job_free q) js -> find (h_root (fst (exec js h))) q = None.
Proof.
  intros Ok. revert h; induction Ok as [|j js Hj Hjs IH]; intros h F Fr; [exact F|]. inversion Fr as [|? ? Fj Fjs]; subst.
  cbn [exec]. unfold bind.
  assert (X : find (h_root (fst (do_job j h))) q = None).
  { destruct j as [when g x p0 f good|bad a]; cbn [do_job job_ok job_free] in *.
    - unfold unless_zero. destruct (Nat.eqb when 0) eqn:E; [exact F|]. apply Nat.eqb_neq in E. destruct Fj as [?|(N1 & N2)]; [contradiction|].
      apply writer_adds; auto; [apply Hj|]. cbn. intuition congruence.
    - destruct bad; [|exact F]. destruct Hj as (R & _). rewrite R. exact F. }
  destruct (do_job j h) as [h1 [b| |]]; cbn in X |- *; auto.
Qed.
(* when a save returns *)
Definition job_fine (j : job) : Prop :=
  match j with
  | JWrite when g x p0 f _ => In (components g) groups /\ says x = true /\ ~ In (components g ++ [x]) groups /\ (when <> 0 -> forall d, fills_quietly d p0 (f d))
  | JGuard bad _ => bad = false
  end.
Definition job_path (j : job) : list (list string) := match j with JWrite _ g x _ _ _ => [components g ++ [x]] | JGuard _ _ => [] end.
Theorem exec_works js D : Forall job_ok js -> Forall job_fine js -> NoDup (flat_map job_path js) ->
  (forall q, In q D -> ~ In q groups /\ ~ In q (flat_map job_path js)) -> exists D', works D (exec js) D'.
Proof.
  intros Ok Fi. revert D; induction Ok as [|j js Hj Hjs IH]; intros D ND HD.
  - exists D. intros h L. exists h. auto.
  - inversion Fi as [|? ? Fj Fjs]; subst. cbn [exec].
    destruct j as [when g x p0 f good|bad a]; cbn [do_job job_ok job_fine job_path flat_map app] in *.
    + inversion ND as [|? ? Nin ND']; subst. destruct Fj as (I & S & Ng & FQ). destruct Hj as (OT & _).
      destruct (IH Fjs ((components g ++ [x]) :: D) ND') as (D' & W).
      { intros q [<-|Iq]; [auto|]. destruct (HD q Iq) as (B1 & B2). split; auto. intros B. apply B2. right. exact B. }
      exists D'. eapply works_bind; [|exact W]. apply works_unless; [intros q Iq; right; exact Iq|]. intros Wn.
      apply writer_works; auto.
      * intros B. destruct (HD _ B) as (B1 & _). auto.
      * intros B. destruct (HD _ B) as (_ & B2). apply B2. left. reflexivity.
    + subst bad. destruct (IH Fjs D ND HD) as (D' & W). exists D'. eapply works_bind; [|exact W]. intros h L. exists h. auto.
Qed.

(* -- the jobs -- *)
Definition JMatrix (when : nat) (g x : string) (t : scalar_type) (m : emat A) : job :=
  JWrite when g x (blank t (em_rows m) (em_cols m)) (fun d => write_data d (PMatrix t (em_rows m) (em_cols m) (to_file m)))
    (fun p => p = PMatrix t (em_rows m) (em_cols m) (to_file m)).
Lemma JMatrix_ok when g x t m : job_ok (JMatrix when g x t m).
Proof. split; [intros d; apply only_touches_write|]. intros d h1 h2 F W. eexists. split; [eapply write_data_find; eauto|reflexivity]. Qed.
Lemma write_data_fills d p0 p : fills_quietly d p0 (@write_data A d p).
Proof. intros h Q F. eexists. split; [apply write_data_quiet; exact Q|reflexivity]. Qed.
Lemma JMatrix_is when full g x t m h : splitFullName full = (g, x) -> unless_zero when (write_matrix full t m) h = do_job (JMatrix when g x t m) h.
Proof. intros S. cbn [do_job JMatrix]. unfold unless_zero, write_matrix. rewrite S. destruct (Nat.eqb when 0); reflexivity. Qed.
Definition JText (g x s : string) : job :=
  JWrite 1 g x (PText "") (fun d => write_data d (PText (c_string s))) (fun p => p = PText (c_string s)).
Lemma JText_ok g x s : job_ok (JText g x s).
Proof. split; [intros d; apply only_touches_write|]. intros d h1 h2 F W. eexists. split; [eapply write_data_find; eauto|reflexivity]. Qed.
Definition JRecords (when : nat) (g x : string) (fields : list string) (cnt : nat) (recs : list (list (member A))) : job :=
  JWrite when g x (PRecords fields (repeat [] cnt)) (fun d => bind call_ok (fun _ => record_loop d fields cnt 0 (repeat [] cnt) recs))
    (fun p => p = PRecords fields recs).
Lemma JRecords_ok when g x fields cnt recs : List.length recs = cnt -> job_ok (JRecords when g x fields cnt recs).
Proof.
  intros <-. split.
  - intros d. apply only_touches_bind; [apply only_touches_call_ok|intros _; apply only_touches_records].
  - intros d h1 h2 F W. exists (PRecords fields recs). split; [|reflexivity]. apply bind_inv in W. destruct W as (h3 & u & C & W).
    apply call_ok_inv in C. destruct C as (_ & R & _). rewrite <- R in F. exact (record_loop_stores d fields [] recs h3 h2 F W).
Qed.
Lemma JRecords_fills d fields cnt recs : List.length recs = cnt ->
  fills_quietly d (PRecords fields (repeat [] cnt)) (bind call_ok (fun _ => @record_loop A d fields cnt 0 (repeat [] cnt) recs)).
Proof. intros L h Q F. unfold bind. rewrite call_ok_quiet by exact Q. apply record_loop_quiet; [cbn; lia|exact Q]. Qed.
Definition good_indices (types indices : list nat) (p : payload A) : Prop :=
  exists data, p = PMatrix SUnsigned 2 (List.length indices) data /\
    forall j g, nth_error indices j = Some g -> exists t, nth_error types g = Some t /\
      nth_error data j = Some (EInt (Z.of_nat t)) /\ nth_error data (List.length indices + j) = Some (EInt (Z.of_nat (local_count types g t))).
Definition JIndices (g : string) (types indices : list nat) : job :=
  JWrite 1 g "geometry_indices" (blank SUnsigned 2 (List.length indices))
    (fun d => bind call_ok (fun _ => index_columns d types (local_indices types (fun _ => 0)) (List.length indices) 0 (repeat zero_elem (2 * List.length indices)) indices))
    (good_indices types indices).
Lemma JIndices_ok g types indices : job_ok (JIndices g types indices).
Proof.
  split.
  - intros d. apply only_touches_bind; [apply only_touches_call_ok|intros _; apply only_touches_index].
  - intros d h1 h2 F W. apply bind_inv in W. destruct W as (h3 & u & C & W). apply call_ok_inv in C. destruct C as (_ & R & _). rewrite <- R in F.
    destruct (index_columns_stores d types (local_indices types (fun _ => 0)) (List.length indices) 0 _ indices h3 h2 F (repeat_length _ _) (le_n _) W) as (data & Fd & _ & _ & Hi).
    eexists. split; [exact Fd|]. exists data. split; [reflexivity|]. intros j g' E. destruct (Hi j g' E) as (t & l & E1 & E2 & E3 & E4).
    exists t. split; [exact E1|]. rewrite (local_indices_nth _ _ _ _ E1) in E2. injection E2 as <-. cbn [plus] in *. auto.
Qed.
Lemma JIndices_fills d types indices p0 : (forall g, In g indices -> g < List.length types) ->
  fills_quietly d p0 (bind call_ok (fun _ => @index_columns A d types (local_indices types (fun _ => 0)) (List.length indices) 0 (repeat zero_elem (2 * List.length indices)) indices)).
Proof. intros R h Q F. unfold bind. rewrite call_ok_quiet by exact Q. apply index_columns_quiet; auto. apply local_indices_length. Qed.

(* -- sequences -- *)
Lemma bind_assoc {B C D} (a : act A B) (f : B -> act A C) (g : C -> act A D) h : bind (bind a f) g h = bind a (fun x => bind (f x) g) h.
Proof. unfold bind. destruct (a h) as [h1 [b| |]]; reflexivity. Qed.
Lemma bind_ext {B C} (a : act A B) (f g : B -> act A C) h : (forall b h1, f b h1 = g b h1) -> bind a f h = bind a g h.
Proof. intros E. unfold bind. destruct (a h) as [h1 [b| |]]; auto. Qed.
Lemma bind_cong {B C} (a a' : act A B) (f g : B -> act A C) h : a h = a' h -> (forall b h1, f b h1 = g b h1) -> bind a f h = bind a' g h.
Proof. intros Ea E. unfold bind. rewrite Ea. destruct (a' h) as [h1 [b| |]]; auto. Qed.
Lemma exec_one j h : do_job j h = exec [j] h.
Proof. cbn [exec]. unfold bind. destruct (do_job j h) as [h1 [[]| |]]; reflexivity. Qed.
Lemma exec_app js js' h : exec (js ++ js') h = bind (exec js) (fun _ => exec js') h.
Proof.
  revert h; induction js as [|j js IH]; intros h; cbn [app exec]; [reflexivity|]. rewrite bind_assoc. apply bind_ext. intros b h1. apply IH.
Qed.
(* an action that is a list of jobs *)
Definition does (a : act A unit) (js : list job) : Prop := forall h, a h = exec js h.
Lemma does_bind a b js js' : does a js -> does b js' -> does (bind a (fun _ => b)) (js ++ js').
Proof. intros Ha Hb h. rewrite exec_app. apply bind_cong; auto. Qed.
Lemma does_job j : does (do_job j) [j].
Proof. intros h. apply exec_one. Qed.
Lemma does_matrix full g x t m : splitFullName full = (g, x) -> does (write_matrix full t m) [JMatrix 1 g x t m].
Proof. intros S h. rewrite <- exec_one. rewrite <- (JMatrix_is 1 full g x t m h S). reflexivity. Qed.
Lemma does_matrix_if when full g x t m : splitFullName full = (g, x) -> does (unless_zero when (write_matrix full t m)) [JMatrix when g x t m].
Proof. intros S h. rewrite <- exec_one. apply JMatrix_is. exact S. Qed.
Lemma does_text full g x s : splitFullName full = (g, x) -> does (write_text full s) [JText g x s].
Proof. intros S h. rewrite <- exec_one. unfold write_text. rewrite S. reflexivity. Qed.
Lemma does_records when g x fields cnt recs : does (unless_zero when (write_records g x fields cnt recs)) [JRecords when g x fields cnt recs].
Proof. intros h. rewrite <- exec_one. reflexivity. Qed.
Lemma does_indices g types indices : does (writeGeometryIndices g types indices) [JIndices g types indices].
Proof. intros h. rewrite <- exec_one. reflexivity. Qed.
Lemma does_guard bad a : does (if bad : bool then a else ret tt) [JGuard bad a].
Proof. intros h. rewrite <- exec_one. reflexivity. Qed.

(* columns are stored as they are *)
Lemma map_nth_seq {B} (l : list B) d s pre : List.length pre = s -> map (fun i => nth i (pre ++ l) d) (seq s (List.length l)) = l.
Proof.
  revert s pre; induction l as [|x l IH]; intros s pre <-; cbn [List.length seq map]; [reflexivity|]. f_equal.
  - rewrite app_nth2 by lia. rewrite Nat.sub_diag. reflexivity.
  - specialize (IH (S (List.length pre)) (pre ++ [x])). rewrite <- app_assoc in IH. apply IH. rewrite app_length. cbn. lia.
Qed.
Lemma flat_map_single {B C} (f : B -> C) l : flat_map (fun i => [f i]) l = map f l.
Proof. induction l; cbn; congruence. Qed.
Lemma vector_file (l : list (elem A)) : to_file (vector l) = l.
Proof. unfold to_file, vector, row_major_copy. cbn [em_row_major em_rows em_cols em_data seq map plus mult]. rewrite flat_map_single. apply (map_nth_seq l zero_elem 0 []). reflexivity. Qed.
Lemma columns2_file (l : list (A * A)) : to_file (columns2 l) = nums (map fst l) ++ nums (map snd l).
Proof.
  unfold to_file, columns2, row_major_copy. cbn [em_row_major em_rows em_cols em_data seq flat_map]. rewrite app_nil_r. unfold nums. rewrite !map_map.
  assert (G : forall i (pre : list (A * A)) l, i < 2 -> map (fun j => nth (j * 2 + i) (flat_map (fun c => [ENum (fst c); ENum (snd c)]) (pre ++ l)) (@zero_elem A)) (seq (List.length pre) (List.length l))
      = map (fun c => ENum (if Nat.eqb i 0 then fst c else snd c)) l).
  { intros i pre l0 Hi. revert pre; induction l0 as [|c l0 IH]; intros pre; cbn [List.length seq map]; [reflexivity|]. f_equal.
    - rewrite flat_map_app. assert (Lp : List.length (flat_map (fun c => [ENum (fst c); ENum (snd c)]) pre) = List.length pre * 2).
      { clear. induction pre; cbn; auto. }
      rewrite app_nth2 by lia. rewrite Lp. replace (_ * 2 + i - _ * 2) with i by lia. destruct i as [|[|i]]; [reflexivity|reflexivity|lia].
    - specialize (IH (pre ++ [c])). rewrite <- app_assoc in IH. cbn [app] in IH. rewrite app_length in IH. cbn [List.length] in IH.
      rewrite Nat.add_1_r in IH. exact IH. }
  f_equal; [exact (G 0 [] l ltac:(lia))|exact (G 1 [] l ltac:(lia))].
Qed.
End T.
