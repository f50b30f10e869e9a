From Coq Require Import String Ascii List Reals Arith Bool ZArith Lia Lra ZifyBool.
Import ListNotations.
From Verif Require Import Outcome Ccd_Model Lin_Model Lin_Proofs ContactBall_Model ContactRb2_Model ContactRb3_Model Contact_Spec Sob_Model Sob_Spec Sob_Proofs Sob_Thms.
From Verif Require Import Hdf_Model Hdf_Spec Hdf_Proofs Hdf_Thms Out_Model Out_Spec Out_Proofs Out_Thms Out_Main Force_Model Force_Spec Force_Proofs.
Local Open Scope string_scope. Local Open Scope list_scope. Local Open Scope nat_scope.

Lemma save_ext (dt time : R) it hash a b disk calls : (forall h, a h = b h) -> save dt time it hash a disk calls = save dt time it hash b disk calls.
Proof.
  intros E. unfold save. destruct (open_file true disk calls) as [h [u| |]]; auto.
  do 4 (apply bind_ext; intros ? ?). apply E.
Qed.
Lemma save_inner (dt time : R) it hash a disk calls h : save dt time it hash a disk calls = (h, Ok tt) -> exists h1, a h1 = (h, Ok tt).
Proof.
  unfold save. destruct (open_file true disk calls) as [h0 [u| |]]; try discriminate. intros H.
  do 4 (apply bind_inv in H; destruct H as (? & ? & _ & H)). eauto.
Qed.
Lemma fold_left_sum (f : nat -> R) l x : fold_left (fun y s => (y + f s)%R) l x = (x + fold_right Rplus 0%R (map f l))%R.
Proof. revert x; induction l as [|s l IH]; intros x; cbn; [lra|]. rewrite IH. lra. Qed.
Lemma fold_right_rsum (f : nat -> R) n : fold_right Rplus 0%R (map f (seq 0 n)) = rsum n f.
Proof.
  induction n as [|n IH]; [reflexivity|]. rewrite seq_S, map_app, fold_right_app. cbn [map fold_right rsum Nat.add]. rewrite <- IH.
  generalize (map f (seq 0 n)) as l. intros l. induction l as [|x l IHl]; cbn; [lra|]. rewrite IHl. lra.
Qed.
Lemma rsum_first n f : rsum (S n) f = (f 0%nat + rsum n (fun s => f (s + 1)%nat))%R.
Proof. induction n as [|n IH]; [cbn; lra|]. cbn [rsum] in *. rewrite IH. replace (S n) with (n + 1) by lia. lra. Qed.

Section General.
Context {C : Type} (W : asked C).
Let d := a_dims W.

Lemma export_is q cs bases alpha beta is ps : index_columns W cs = Ok is -> point_columns W q cs = Ok ps -> forall h,
  export_forces W q cs bases alpha beta h = writeSolution W (Solution is ps (normal_columns W (List.length cs) bases) (force_columns W (List.length cs) bases alpha beta)) h.
Proof.
  intros Ei Ep h. unfold export_forces, writeSolution. cbv zeta. cbn [sn_indices sn_points sn_normals sn_forces].
  destruct (index_columns_ok W cs is Ei) as (Li & _). rewrite Li. apply bind_ext. intros _ h1. destruct (Nat.eqb (List.length cs) 0); [reflexivity|].
  rewrite Ei, Ep. reflexivity.
Qed.
Lemma export_inv q cs bases alpha beta h h' : export_forces W q cs bases alpha beta h = (h', Ok tt) ->
  exists is ps, index_columns W cs = Ok is /\ point_columns W q cs = Ok ps.
Proof.
  unfold export_forces. cbv zeta. intros H. apply bind_inv in H. destruct H as (h1 & u & _ & H).
  destruct (Nat.eqb (List.length cs) 0) eqn:E.
  { apply Nat.eqb_eq in E. destruct cs; [|discriminate]. exists [], []. split; reflexivity. }
  apply bind_inv in H. destruct H as (h2 & is & E1 & H). unfold compute in E1. injection E1 as <- E1.
  apply bind_inv in H. destruct H as (h3 & ? & _ & H).
  apply bind_inv in H. destruct H as (h4 & ps & E2 & H). unfold compute in E2. injection E2 as <- E2. eauto.
Qed.

(* a written solution, read back *)
Definition reals (n : nat) (f : nat -> nat -> R) : list (list R) := map (fun con => map (fun e => f e con) (seq 0 d)) (seq 0 n).
Lemma reals_elems n f : map (map (@ENum R)) (reals n f) = map (fun con => map (fun e => ENum (f e con)) (seq 0 d)) (seq 0 n).
Proof. unfold reals. rewrite map_map. apply map_ext. intros con. apply map_map. Qed.
Lemma reals_length n f : List.length (reals n f) = n.
Proof. unfold reals. rewrite map_length, seq_length. reflexivity. Qed.
Lemma reals_rows n f : Forall (fun c => List.length c = d) (reals n f).
Proof. apply Forall_forall. intros c I. apply in_map_iff in I. destruct I as (? & <- & _). rewrite map_length, seq_length. reflexivity. Qed.
Lemma reals_nth n f i : i < n -> nth i (reals n f) [] = map (fun e => f e i) (seq 0 d).
Proof.
  intros H. unfold reals. erewrite nth_indep by (rewrite map_length, seq_length; exact H).
  rewrite (map_nth (fun con => map (fun e => f e con) (seq 0 d)) (seq 0 n) 0 i). rewrite seq_nth by exact H. reflexivity.
Qed.
Lemma solution_reports (dt time : R) it hash parties q (acts : list (acting C)) is ps nf ff disk calls h :
  index_columns W (map ac_c acts) = Ok is -> point_columns W q (map ac_c acts) = Ok ps ->
  (forall a, In a acts -> List.length (nth 0 (ac_E a) []) = d) ->
  (forall a, In a acts -> answers W parties q (ac_c a)) ->
  (forall i a, nth_error acts i = Some a -> forall e, e < d -> nf e i = at_ (nth 0 (ac_E a) []) e) ->
  (forall i a, nth_error acts i = Some a -> forall e, e < d -> ff e i = rsum d (fun k => at_ (ac_imp a) k * at_ (nth k (ac_E a) []) e)%R) ->
  save dt time it hash (writeSolution W (Solution is ps (map (map (@ENum R)) (reals (List.length acts) nf)) (map (map (@ENum R)) (reals (List.length acts) ff)))) disk calls = (h, Ok tt) ->
  has_header h dt time it hash /\ exists rs, read_forces h d = Some rs /\ Forall2 (reports d parties (a_point W q)) acts rs.
Proof.
  intros Ei Ep Ln An Hn Hf Sv.
  pose proof (save_ok _ _ _ _ _ _ _ _ _ (does_solution W _) (force_jobs_ok W _ _ _ _) Sv) as (St & _ & _). cbn [sn_indices sn_points sn_normals sn_forces] in St.
  destruct (point_columns_ok W q _ ps Ep) as (pts & -> & Lp & Np). rewrite map_length in Lp.
  split. { eapply header_got; [exact St|]. apply incl_appl, incl_refl. }
  assert (Fp : Forall (fun c => List.length c = d) pts).
  { apply Forall_forall. intros p I. apply In_nth_error in I. destruct I as (i & E). assert (Hi : i < List.length pts) by (apply nth_error_Some; congruence).
    destruct (nth_error acts i) as [a|] eqn:Ea; [|apply nth_error_None in Ea; lia].
    destruct (An a (nth_error_In _ _ Ea)) as (_ & Pl). apply Pl. rewrite (Np i (ac_c a)) by (rewrite nth_error_map, Ea; reflexivity).
    f_equal. apply nth_error_nth. exact E. }
  eexists. split.
  { eapply (read_back W h is pts (reals (List.length acts) nf) (reals (List.length acts) ff) _ parties q (map ac_c acts) St); auto.
    - apply incl_appr, incl_refl.
    - rewrite reals_length, map_length. reflexivity.
    - rewrite reals_length, map_length. reflexivity.
    - rewrite map_length. exact Lp.
    - apply reals_rows.
    - apply reals_rows.
    - intros c I. apply in_map_iff in I. destruct I as (a & <- & I). apply An. exact I. }
  rewrite map_length.
  assert (G : forall l s, (forall i a, nth_error l i = Some a -> nth_error acts (s + i) = Some a) ->
    Forall2 (reports d parties (a_point W q)) l (map (fun ic => Report (fst (parties (snd ic))) (snd (parties (snd ic))) (nth (fst ic) pts [])
       (nth (fst ic) (reals (List.length acts) nf) []) (nth (fst ic) (reals (List.length acts) ff) [])) (combine (seq s (List.length l)) (map ac_c l)))).
  { induction l as [|a l IH]; intros s H; cbn [List.length seq map combine]; [constructor|]. constructor.
    - pose proof (H 0 a eq_refl) as E. rewrite Nat.add_0_r in E. assert (Hs : s < List.length acts) by (apply nth_error_Some; congruence).
      unfold reports. cbn [rp_first rp_second rp_point rp_normal rp_force fst snd].
      split; [destruct (parties (ac_c a)); reflexivity|].
      split; [apply Np; rewrite nth_error_map, E; reflexivity|].
      split.
      { rewrite reals_nth by exact Hs. rewrite <- (list_of_nth (nth 0 (ac_E a) []) d 0%R) by (apply Ln; eapply nth_error_In; exact E).
        apply map_ext_in. intros e Ie. apply in_seq in Ie. rewrite (Hn s a E e) by lia. reflexivity. }
      rewrite reals_nth by exact Hs. split; [rewrite map_length, seq_length; reflexivity|].
      intros e He. rewrite at_map_seq by exact He. apply (Hf s a E e He).
    - apply IH. intros i a' E. replace (S s + i) with (s + S i) by lia. apply H. exact E. }
  apply (G acts 0). intros i a E. exact E.
Qed.

Theorem export_reports (dt time : R) it hash parties q (acts : list (acting C)) bases alpha beta disk calls h :
  1 <= d -> holds d acts bases alpha beta -> (forall a, In a acts -> List.length (nth 0 (ac_E a) []) = d) ->
  (forall a, In a acts -> answers W parties q (ac_c a)) ->
  save dt time it hash (export_forces W q (map ac_c acts) bases alpha beta) disk calls = (h, Ok tt) ->
  has_header h dt time it hash /\ exists rs, read_forces h d = Some rs /\ Forall2 (reports d parties (a_point W q)) acts rs.
Proof.
  intros D1 Ho Ln An Sv. destruct (save_inner _ _ _ _ _ _ _ _ Sv) as (h1 & E1). destruct (export_inv _ _ _ _ _ _ _ E1) as (is & ps & Ei & Ep).
  rewrite (save_ext _ _ _ _ _ _ _ _ (export_is q (map ac_c acts) bases alpha beta is ps Ei Ep)) in Sv. rewrite map_length in Sv.
  assert (En : normal_columns W (List.length acts) bases = map (map (@ENum R)) (reals (List.length acts) (fun e con => bases e (d * con)))) by (rewrite reals_elems; reflexivity).
  assert (Ef : force_columns W (List.length acts) bases alpha beta = map (map (@ENum R)) (reals (List.length acts) (fun e con => contact_force W bases alpha beta con e))) by (rewrite reals_elems; reflexivity).
  rewrite En, Ef in Sv. eapply solution_reports; [exact Ei|exact Ep|exact Ln|exact An| | |exact Sv].
  - intros i a E e He. destruct (Ho i a E) as (Hb & _). rewrite <- (Hb 0 e) by lia. f_equal. lia.
  - intros i a E e He. destruct (Ho i a E) as (Hb & Ha & Hs). unfold contact_force. fold d. rewrite fold_left_sum, fold_right_rsum.
    assert (Ed : d = S (d - 1)) by lia. pose proof (rsum_first (d - 1) (fun k => at_ (ac_imp a) k * at_ (nth k (ac_E a) []) e)%R) as X. rewrite <- Ed in X. rewrite X. clear X. rewrite Ha. rewrite <- (Hb 0 e) by lia. rewrite Nat.add_0_r. f_equal.
    apply rsum_ext. intros s Hs'. rewrite Hs by lia. rewrite <- (Hb (s + 1) e) by lia. do 2 f_equal. lia.
Qed.
Theorem impact_reports (dt time : R) it hash parties q (acts : list (acting C)) bases alpha sol disk calls h :
  1 <= d -> holds_normals d acts bases alpha -> (forall a, In a acts -> List.length (nth 0 (ac_E a) []) = d) ->
  (forall a, In a acts -> answers W parties q (ac_c a)) ->
  setSolution W q (map ac_c acts) bases alpha = Ok sol -> save dt time it hash (writeSolution W sol) disk calls = (h, Ok tt) ->
  has_header h dt time it hash /\ exists rs, read_forces h d = Some rs /\ Forall2 (reports d parties (a_point W q)) acts rs.
Proof.
  intros D1 Ho Ln An Es Sv. unfold setSolution in Es. cbv zeta in Es.
  destruct (index_columns W (map ac_c acts)) as [is| |] eqn:Ei; cbn in Es; try discriminate.
  destruct (point_columns W q (map ac_c acts)) as [ps| |] eqn:Ep; cbn in Es; try discriminate. injection Es as <-. rewrite map_length in Sv.
  pose proof (reals_elems (List.length acts) bases) as X1. pose proof (reals_elems (List.length acts) (fun e con => (alpha con * bases e con)%R)) as X2. unfold d in X1, X2.
  rewrite <- X1, <- X2 in Sv.
  eapply solution_reports; [exact Ei|exact Ep|exact Ln|exact An| | |exact Sv].
  - intros i a E e He. destruct (Ho i a E) as (Hb & _). apply Hb. exact He.
  - intros i a E e He. destruct (Ho i a E) as (Hb & Ha). rewrite Ha. assert (Ed : d = S (d - 1)) by lia. rewrite Ed. rewrite rsum_first. rewrite <- (Hb e He).
    change (at_ [alpha i] 0) with (alpha i). rewrite rsum_zero; [lra|]. intros s _. unfold at_. rewrite (nth_overflow [alpha i]) by (cbn; lia). lra.
Qed.

(* when the export returns *)
Theorem export_works (dt time : R) it hash q cs bases alpha beta disk is ps :
  index_columns W cs = Ok is -> point_columns W q cs = Ok ps ->
  exists h, save dt time it hash (export_forces W q cs bases alpha beta) disk [] = (h, Ok tt).
Proof.
  intros Ei Ep. rewrite (save_ext _ _ _ _ _ _ _ _ (export_is q cs bases alpha beta is ps Ei Ep)).
  eapply save_works; [apply does_solution|apply force_jobs_ok| |].
  - unfold force_jobs. cbn [app]. repeat (apply Forall_cons; [apply matrix_fine; cbn; first [reflexivity|intuition discriminate]|]). constructor.
  - cbn. repeat (constructor; [cbn; intuition discriminate|]). constructor.
Qed.
Theorem impact_works (dt time : R) it hash sol disk : exists h, save dt time it hash (writeSolution W sol) disk [] = (h, Ok tt).
Proof.
  eapply save_works; [apply does_solution|apply force_jobs_ok| |].
  - unfold force_jobs. cbn [app]. repeat (apply Forall_cons; [apply matrix_fine; cbn; first [reflexivity|intuition discriminate]|]). constructor.
  - cbn. repeat (constructor; [cbn; intuition discriminate|]). constructor.
Qed.
End General.
