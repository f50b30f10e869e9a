From Coq Require Import String Ascii List Bool Arith ZArith Lia.
Import ListNotations.
From Verif Require Import Outcome Hdf_Model Hdf_Spec Hdf_Proofs Hdf_Thms Out_Model Out_Spec.
Local Open Scope string_scope. Local Open Scope list_scope.

Section P.
Context {A : Type}.
Implicit Types (h : h5 A) (n : node A).

(* nothing below a new node *)
Lemma find_add_other n p leaf n' q :
  (forall c, find leaf [c] = None) -> add n p leaf = Some n' -> find n q = None -> q <> p -> find n' q = None.
Proof.
  intros HL. revert n n' q; induction p as [|c r IH]; intros n n' q; cbn [add]; [destruct n; discriminate|].
  destruct n as [kids|d]; [|discriminate].
  destruct (assoc c kids) as [k|] eqn:E; destruct r as [|c2 r]; try discriminate.
  - destruct (add k (c2 :: r) leaf) as [k'|] eqn:F; [|discriminate]. injection 1 as <-.
    destruct q as [|d q]; cbn [find]; [discriminate|]. rewrite assoc_put. destruct (String.eqb d c) eqn:G.
    + apply String.eqb_eq in G; subst d. rewrite E. intros Hq Hne. eapply IH; eauto. congruence.
    + auto.
  - injection 1 as <-. destruct q as [|d q]; cbn [find]; [discriminate|]. rewrite assoc_app.
    destruct (assoc d kids) eqn:G; auto. cbn [assoc]. destruct (String.eqb d c) eqn:F; auto.
    apply String.eqb_eq in F; subst d. intros _ Hne. destruct q as [|e q]; [congruence|].
    specialize (HL e). cbn [find] in *. destruct leaf; auto. destruct (assoc e kids0); [discriminate|reflexivity].
Qed.
Lemma fresh_group c : find (@Group A []) [c] = None. Proof. reflexivity. Qed.
Lemma fresh_data p c : find (@Data A p) [c] = None. Proof. reflexivity. Qed.

(* an action that creates nothing outside a list of places *)
Definition adds_only {B} (L : list (list string)) (a : act A B) : Prop :=
  forall h q, find (h_root h) q = None -> ~ In q L -> find (h_root (fst (a h))) q = None.
Lemma adds_bind {B C} L (m : act A B) (f : B -> act A C) : adds_only L m -> (forall b, adds_only L (f b)) -> adds_only L (bind m f).
Proof.
  intros Hm Hf h q H N. unfold bind. specialize (Hm h q H N). destruct (m h) as [h1 [b| |]]; cbn in *; auto.
  apply Hf; auto.
Qed.
Lemma adds_call_ok L : adds_only L (@call_ok A).
Proof. intros h q H _. destruct (call_ok_cases h) as (cs & E & _). rewrite E. exact H. Qed.
Lemma adds_ret {B} L (b : B) : adds_only L (ret b). Proof. intros h q H _; exact H. Qed.
Lemma adds_throw {B} L : adds_only L (@throw A B). Proof. intros h q H _; exact H. Qed.
Lemma adds_undefined {B} L : adds_only L (@undefined A B). Proof. intros h q H _; exact H. Qed.
Lemma adds_open L p : adds_only L (@open_group A p).
Proof.
  unfold open_group. apply adds_bind; [apply adds_call_ok|intros _]. intros h q H _.
  unfold bind, get_mode, get_root, ret, throw. destruct (h_mode h), (find (h_root h) p) as [[]|]; exact H.
Qed.
Lemma adds_create_group L p : In p L -> adds_only L (@create_group A p).
Proof.
  intros I. unfold create_group. apply adds_bind; [apply adds_call_ok|intros _]. intros h q H N.
  unfold bind, get_mode, get_root, set_root, ret, throw. destruct (h_mode h); auto.
  destruct (add (h_root h) p (Group [])) as [r|] eqn:E; auto. cbn.
  eapply find_add_other; eauto; [apply fresh_group|]. intros ->. auto.
Qed.
Lemma adds_findOrCreate L g : In (components g) L -> adds_only L (@findOrCreateGroup A g).
Proof.
  intros I. unfold findOrCreateGroup. destruct (String.eqb g ""); [apply adds_open|].
  intros h q H N. unfold bind, get_mode, get_root.
  destruct (h_mode h), (lexists (h_root h) (components g)) as [[]|]; try (apply adds_open with (L := L); auto; fail);
  apply adds_create_group with (L := L); auto.
Qed.
Lemma adds_create_then {B} L grp name p0 (f : list string -> act A B) :
  In (grp ++ [name]) L -> (forall d, only_touches d (f d)) -> adds_only L (bind (create_data grp name p0) f).
Proof.
  intros I Hf h q H N. unfold bind.
  destruct (create_data grp name p0 h) as [h1 [d| |]] eqn:E; cbn.
  - apply create_data_inv in E. destruct E as (_ & -> & _ & _ & _ & Ad).
    assert (H1 : find (h_root h1) q = None).
    { eapply find_add_other; eauto; [apply fresh_data|]. intros ->. auto. }
    assert (F := find_add_same _ _ _ _ Ad).
    destruct (Hf (grp ++ [name]) h1 (ex_intro _ p0 F)) as (_ & w & [R|R]); rewrite R; [|exact H1].
    eapply find_fill_none; eauto.
  - destruct (create_data_not_ok _ _ _ _ _ _ E) as (R & _); [discriminate|]. rewrite R; exact H.
  - destruct (create_data_not_ok _ _ _ _ _ _ E) as (R & _); [discriminate|]. rewrite R; exact H.
Qed.

(* actions on one data set, put together *)
Lemma only_touches_bind {B C} d (m : act A B) (f : B -> act A C) : only_touches d m -> (forall b, only_touches d (f b)) -> only_touches d (bind m f).
Proof.
  intros Hm Hf h (v & F). unfold bind. destruct (Hm h (ex_intro _ v F)) as (M & w & R). destruct (m h) as [h1 [b| |]]; cbn in *; eauto.
  assert (F1 : exists u, find (h_root h1) d = Some (Data u)).
  { destruct R as [R|R]; rewrite R; [exists w; eapply find_fill_same; exact F|eauto]. }
  destruct (Hf b h1 F1) as (M2 & w2 & R2). split; [congruence|].
  destruct R as [R|R], R2 as [R2|R2]; rewrite R2, R.
  - exists w2. left. apply fill_fill.
  - exists w. auto.
  - exists w2. auto.
  - exists w. auto.
Qed.
Lemma only_touches_same {B} d (a : act A B) : (forall h, h_root (fst (a h)) = h_root h /\ h_mode (fst (a h)) = h_mode h) -> only_touches d a.
Proof. intros H h _. destruct (H h) as (R & M). split; [exact M|]. exists (PText ""). auto. Qed.
Lemma only_touches_call_ok d : only_touches d (@call_ok A).
Proof. apply only_touches_same. intros h. destruct (call_ok_cases h) as (cs & E & _). rewrite E. auto. Qed.
Lemma only_touches_index d types locals m k data gs : only_touches d (@index_columns A d types locals m k data gs).
Proof.
  revert k data; induction gs as [|g gs IH]; intros k data; cbn [index_columns]; [apply only_touches_same; auto|].
  destruct (nth_error types g), (nth_error locals g); try (apply only_touches_same; auto; fail).
  apply only_touches_bind; [apply only_touches_write|intros _; apply IH].
Qed.
Lemma only_touches_records d fields cnt k data rs : only_touches d (@record_loop A d fields cnt k data rs).
Proof.
  revert k data; induction rs as [|r rs IH]; intros k data; cbn [record_loop]; [apply only_touches_same; auto|].
  destruct (Nat.ltb k cnt); [|apply only_touches_same; auto].
  apply only_touches_bind; [apply only_touches_write|intros _; apply IH].
Qed.

(* every writer has this form *)
Definition writer (g x : string) (p0 : payload A) (f : list string -> act A unit) : act A unit :=
  bind call_ok (fun _ => bind (findOrCreateGroup g) (fun grp => bind (create_data grp x p0) f)).
Lemma writer_keeps g x p0 f : (forall d, only_touches d (f d)) -> keeps (writer g x p0 f).
Proof.
  intros H. apply keeps_bind; [apply keeps_call_ok|intros _]. apply keeps_bind; [apply keeps_findOrCreate|intros grp].
  apply keeps_create_then. exact H.
Qed.
Lemma writer_adds g x p0 f : (forall d, only_touches d (f d)) -> adds_only [components g; components g ++ [x]] (writer g x p0 f).
Proof.
  intros H h q F N. unfold writer. unfold bind at 1. destruct (call_ok_cases h) as (cs & E & [C|C]); destruct (call_ok h) as [h0 o0]; cbn in E, C; subst o0 h0; [|exact F].
  set (h0 := mkH5 _ _ _). assert (F0 : find (h_root h0) q = None) by exact F. clearbody h0. clear F h. unfold bind at 1.
  assert (X := adds_findOrCreate [components g; components g ++ [x]] g (or_introl eq_refl) h0 q F0 N).
  destruct (findOrCreateGroup g h0) as [h1 [grp| |]] eqn:E1; cbn in X |- *; auto.
  apply findOrCreate_inv in E1. destruct E1 as (-> & _).
  apply (adds_create_then [components g; components g ++ [x]] (components g) x p0 f); auto. right; left; reflexivity.
Qed.
Lemma writer_stores g x p0 p f h h' :
  (forall d h1 h2, find (h_root h1) d = Some (Data p0) -> f d h1 = (h2, Ok tt) -> find (h_root h2) d = Some (Data p)) ->
  writer g x p0 f h = (h', Ok tt) -> find (h_root h') (components g ++ [x]) = Some (Data p).
Proof.
  intros Hf H. unfold writer in H. apply bind_inv in H. destruct H as (h1 & u & _ & H).
  apply bind_inv in H. destruct H as (h2 & grp & H2 & H). apply findOrCreate_inv in H2. destruct H2 as (-> & _).
  apply bind_inv in H. destruct H as (h3 & d & H3 & H). apply create_data_inv in H3. destruct H3 as (_ & -> & _ & _ & _ & Ad).
  eapply Hf; [|exact H]. eapply find_add_same; exact Ad.
Qed.

(* -- a file being written without failures -- *)
Definition groups : list (list string) := [[]; ["geometry"]; ["static_geometry"]; ["state"]].
Definition layout h (D : list (list string)) : Prop :=
  quiet h /\ h_mode h = ReadWrite /\ group_there (h_root h) [] /\
  forall q n, find (h_root h) q = Some n -> match n with Group _ => In q groups | Data _ => In q D end.
Definition works (D : list (list string)) (a : act A unit) (D' : list (list string)) : Prop :=
  forall h, layout h D -> exists h', a h = (h', Ok tt) /\ layout h' D'.
Lemma layout_weaken h D D' : (forall q, In q D -> In q D') -> layout h D -> layout h D'.
Proof. intros S (Q & M & G & L). split; [auto|split; [auto|split; [auto|]]]. intros q n F. specialize (L q n F). destruct n; auto. Qed.
Lemma works_bind D D1 D2 (a b : act A unit) : works D a D1 -> works D1 b D2 -> works D (bind a (fun _ => b)) D2.
Proof. intros Ha Hb h L. destruct (Ha h L) as (h1 & E1 & L1). destruct (Hb h1 L1) as (h2 & E2 & L2). exists h2. unfold bind. rewrite E1. auto. Qed.
Lemma works_unless D D' m (a : act A unit) : (forall q, In q D -> In q D') -> (m <> 0 -> works D a D') -> works D (unless_zero m a) D'.
Proof.
  intros S Ha h L. unfold unless_zero. destruct (Nat.eqb m 0) eqn:E.
  - exists h. split; [reflexivity|]. eapply layout_weaken; eauto.
  - apply Nat.eqb_neq in E. apply Ha; auto.
Qed.
Definition fills_quietly (d : list string) (p0 : payload A) (a : act A unit) : Prop :=
  forall h, quiet h -> find (h_root h) d = Some (Data p0) -> exists h', a h = (h', Ok tt) /\ quiet h'.
Lemma find_prefix n p q x : find n (p ++ q) = Some x -> exists y, find n p = Some y.
Proof. rewrite find_app. destruct (find n p); [eauto|discriminate]. Qed.
Lemma writer_works D g x p0 f :
  In (components g) groups -> says x = true -> ~ In (components g) D -> ~ In (components g ++ [x]) D -> ~ In (components g ++ [x]) groups ->
  (forall d, only_touches d (f d)) -> (forall d, fills_quietly d p0 (f d)) ->
  works D (writer g x p0 f) ((components g ++ [x]) :: D).
Proof.
  intros I X N1 N2 N3 OT FQ h (Q & M & G0 & L).
  assert (Gr : group_ready (h_root h) (components g)).
  { destruct (find (h_root h) (components g)) as [[kids|p]|] eqn:F.
    - left. exists kids. exact F.
    - exfalso. apply N1. exact (L _ _ F).
    - right. cbn in I. destruct I as [I|I]; [exfalso; destruct G0 as (k & G0); rewrite <- I in F; congruence|].
      assert (Z : exists c, components g = [c]) by (destruct I as [I|[I|[I|I]]]; try contradiction; eauto).
      destruct Z as (c & Z). rewrite Z in *. split; [discriminate|]. split; [exact G0|exact F]. }
  destruct (findOrCreate_quiet g h Q M Gr) as (r' & E & G' & K).
  assert (Nn : find (h_root h) (components g ++ [x]) = None).
  { destruct (find (h_root h) (components g ++ [x])) as [[kids|p]|] eqn:F; auto; exfalso; [apply N3|apply N2]; exact (L _ _ F). }
  assert (N' : find r' (components g ++ [x]) = None).
  { destruct (K _ Nn) as [Eq|?]; auto. exfalso. apply (f_equal (@List.length string)) in Eq. rewrite app_length in Eq. cbn in Eq. lia. }
  destruct (proj2 (add_exactly r' (components g) x (Data p0)) (conj G' N')) as (r2 & Ad).
  assert (F2 : find r2 (components g ++ [x]) = Some (Data p0)) by (eapply find_add_same; exact Ad).
  assert (Run : writer g x p0 f h = f (components g ++ [x]) (mkH5 ReadWrite r2 [])).
  { unfold writer. unfold bind at 1. rewrite call_ok_quiet by exact Q. unfold bind at 1. rewrite E.
    unfold bind at 1, create_data. unfold bind at 1. rewrite call_ok_quiet by reflexivity.
    unfold bind at 1, get_mode at 1, bind at 1, get_root at 1. cbn [h_mode h_root]. rewrite X, Ad. reflexivity. }
  destruct (FQ (components g ++ [x]) (mkH5 ReadWrite r2 []) eq_refl F2) as (h' & Ef & Qf).
  exists h'. rewrite Run, Ef. split; [reflexivity|].
  destruct (OT (components g ++ [x]) (mkH5 ReadWrite r2 []) (ex_intro _ _ F2)) as (M' & w & R). rewrite Ef in M', R. cbn [fst h_mode h_root] in M', R.
  split; [exact Qf|]. split; [exact M'|].
  (* what is in the file was there before, or is the group, or the new data set *)
  assert (Old : forall q y, find (h_root h') q = Some y -> (exists z, find (h_root h) q = Some z) \/ q = components g \/ q = components g ++ [x]).
  { intros q y Fy. destruct (find (h_root h) q) as [z|] eqn:Fq; [left; eauto|]. right.
    destruct (K q Fq) as [|Fr]; [left; assumption|]. destruct (list_eq_dec string_dec q (components g ++ [x])) as [|Ne]; [right; assumption|]. exfalso.
    assert (Fr2 : find r2 q = None) by (eapply find_add_other; eauto; apply fresh_data).
    destruct R as [R|R]; rewrite R in Fy; [|congruence]. rewrite (find_fill_none r2 _ p0 w q F2 Fr2) in Fy. discriminate. }
  (* and of the same kind *)
  assert (Kr : forall q z, find (h_root h) q = Some z -> exists y, find (h_root h') q = Some y /\ kind_le z y).
  { intros q z Fz.
    assert (S1 : exists y, find r' q = Some y /\ kind_le z y).
    { pose proof (findOrCreate_inv g h _ _ E) as (_ & _ & _ & _ & [(_ & Rr)|(_ & Ag)]); cbn [h_root] in *.
      - rewrite Rr. exists z. split; [exact Fz|apply kind_le_refl].
      - eapply find_add_keep; eauto. }
    destruct S1 as (y1 & F1 & K1). destruct (find_add_keep _ _ _ _ _ _ Ad F1) as (y2 & F2' & K2).
    assert (K12 : kind_le z y2). { destruct z, y1, y2; cbn in *; try contradiction; auto; congruence. }
    destruct R as [R|R]; rewrite R; [|eauto].
    assert (Ne : q <> components g ++ [x]) by (intros ->; congruence).
    destruct (find_fill_other r2 _ p0 w q y2 F2 Ne F2') as (y3 & F3 & K3). exists y3. split; [exact F3|].
    destruct z, y2, y3; cbn in *; try contradiction; auto; congruence. }
  split.
  - destruct G0 as (k & G0). destruct (Kr [] _ G0) as ([k'|p] & Fk & Kk); cbn in Kk; [|contradiction]. exists k'. exact Fk.
  - intros q y Fy. destruct (Old q y Fy) as [(z & Fz)|[Eq|Eq]].
    + destruct (Kr q z Fz) as (y' & Fy' & Kz). rewrite Fy in Fy'. injection Fy' as <-. specialize (L q z Fz).
      destruct z, y; cbn in Kz; try contradiction; auto. right. exact L.
    + subst q. destruct y as [kids|p]; [exact I|]. exfalso.
      (* the group is a group *)
      assert (Gg : group_there (h_root h') (components g)).
      { destruct R as [R|R]; rewrite R; eapply find_data_group; [eapply find_fill_same; exact F2|exact F2]. }
      destruct Gg as (kk & Gg). congruence.
    + subst q. assert (Dd : exists v, find (h_root h') (components g ++ [x]) = Some (Data v)).
      { destruct R as [R|R]; rewrite R; [exists w; eapply find_fill_same; exact F2|exists p0; exact F2]. }
      destruct Dd as (v & Dd). rewrite Fy in Dd. injection Dd as ->. left. reflexivity.
Qed.
End P.
