From Coq Require Import String Ascii List Bool Arith ZArith Lia.
From Verif Require Import Outcome Hdf_Model Hdf_Spec.
Import ListNotations.
Local Open Scope string_scope. Local Open Scope list_scope.

Section P.
Context {A : Type}.
Implicit Types (h : h5 A) (n k : node A).

Lemma bind_inv {B C} (m : act A B) (f : B -> act A C) h h' c :
  bind m f h = (h', Ok c) -> exists h1 b, m h = (h1, Ok b) /\ f b h1 = (h', Ok c).
Proof. unfold bind. destruct (m h) as [h1 [b| |]]; intros H; try discriminate. eauto. Qed.

(* -- the tree -- *)
Lemma assoc_put c k d (kids : list (string * node A)) :
  assoc d (put c k kids) = if String.eqb d c then match assoc c kids with Some _ => Some k | None => None end else assoc d kids.
Proof.
  induction kids as [|[e m] t IH]; cbn.
  - destruct (String.eqb d c); reflexivity.
  - destruct (String.eqb c e) eqn:E.
    + apply String.eqb_eq in E; subst e. cbn. destruct (String.eqb d c) eqn:F; reflexivity.
    + cbn. destruct (String.eqb d e) eqn:F.
      * apply String.eqb_eq in F; subst e. destruct (String.eqb d c) eqn:G; auto.
        apply String.eqb_eq in G; subst. rewrite String.eqb_refl in E; discriminate.
      * exact IH.
Qed.
Lemma assoc_app c (l l' : list (string * node A)) :
  assoc c (l ++ l') = match assoc c l with Some x => Some x | None => assoc c l' end.
Proof. induction l as [|[d m] t IH]; cbn; auto. destruct (String.eqb c d); auto. Qed.

Lemma find_app n p q : find n (p ++ q) = match find n p with Some k => find k q | None => None end.
Proof.
  revert n; induction p as [|c r IH]; intros n; cbn; auto.
  destruct n as [kids|d]; auto. destruct (assoc c kids); auto.
Qed.

Lemma add_group n p leaf n' : add n p leaf = Some n' -> exists kids kids', n = Group kids /\ n' = Group kids'.
Proof.
  destruct p as [|c r]; cbn; [destruct n; discriminate|]. destruct n as [kids|d]; [|discriminate].
  destruct (assoc c kids) as [k|]; destruct r; try discriminate.
  - destruct (add k (s :: r) leaf); [|discriminate]. injection 1 as <-. eauto.
  - injection 1 as <-. eauto.
Qed.
Lemma find_add_same n p leaf n' : add n p leaf = Some n' -> find n' p = Some leaf.
Proof.
  revert n n'; induction p as [|c r IH]; intros n n'; cbn; [destruct n; discriminate|].
  destruct n as [kids|d]; [|discriminate].
  destruct (assoc c kids) as [k|] eqn:E; destruct r as [|c2 r]; try discriminate.
  - destruct (add k (c2 :: r) leaf) as [k'|] eqn:F; [|discriminate]. injection 1 as <-.
    rewrite assoc_put, String.eqb_refl, E. exact (IH _ _ F).
  - injection 1 as <-. rewrite assoc_app, E. cbn [assoc]. rewrite String.eqb_refl. reflexivity.
Qed.
(* what was there stays there, groups as groups *)
Definition kind_le (a b : node A) : Prop :=
  match a, b with Group _, Group _ => True | Data p, Data q => p = q | _, _ => False end.
Lemma kind_le_refl n : kind_le n n.
Proof. destruct n; cbn; auto. Qed.
Lemma find_add_keep n p leaf n' q x :
  add n p leaf = Some n' -> find n q = Some x -> exists y, find n' q = Some y /\ kind_le x y.
Proof.
  revert n n' q; induction p as [|c r IH]; intros n n' q; cbn; [destruct n; discriminate|].
  destruct n as [kids|d]; [|discriminate].
  destruct (assoc c kids) as [k|] eqn:E; destruct r as [|c2 r]; try discriminate.
  - destruct (add k (c2 :: r) leaf) as [k'|] eqn:F; [|discriminate]. injection 1 as <-.
    destruct q as [|d q]; cbn.
    + injection 1 as <-. exists (Group (put c k' kids)). cbn. auto.
    + rewrite assoc_put. destruct (String.eqb d c) eqn:G.
      * apply String.eqb_eq in G; subst d. rewrite E. apply IH; exact F.
      * destruct (assoc d kids); [|discriminate]. intros H. exists x. split; [exact H|apply kind_le_refl].
  - injection 1 as <-. destruct q as [|d q]; cbn.
    + injection 1 as <-. eexists. split; [reflexivity|cbn; auto].
    + rewrite assoc_app. destruct (assoc d kids); [|discriminate]. intros H. exists x. split; [exact H|apply kind_le_refl].
Qed.
Lemma find_add_none n p leaf n' : add n p leaf = Some n' -> find n p = None.
Proof.
  revert n n'; induction p as [|c r IH]; intros n n'; cbn; [destruct n; discriminate|].
  destruct n as [kids|d]; [|discriminate].
  destruct (assoc c kids) as [k|] eqn:E; destruct r as [|c2 r]; try discriminate; auto.
  destruct (add k (c2 :: r) leaf) as [k'|] eqn:F; [|discriminate]. intros _. exact (IH _ _ F).
Qed.
Lemma add_exactly n p c leaf :
  (exists n', add n (p ++ [c]) leaf = Some n') <-> (group_there n p /\ find n (p ++ [c]) = None).
Proof.
  revert n; induction p as [|d r IH]; intros n; cbn.
  - unfold group_there. cbn. destruct n as [kids|d].
    + destruct (assoc c kids) as [k|]; split.
      * intros [? ?]; discriminate.
      * intros [_ ?]; discriminate.
      * intros _. split; [eauto|reflexivity].
      * intros _. eauto.
    + split; [intros [? ?]; discriminate|intros [[? ?] _]; discriminate].
  - unfold group_there. cbn. destruct n as [kids|e].
    + destruct (assoc d kids) as [k|] eqn:E.
      * specialize (IH k). unfold group_there in IH. rewrite <- IH.
        destruct (r ++ [c]) as [|x xs] eqn:F; [destruct r; discriminate|].
        destruct (add k (x :: xs) leaf) as [k'|]; split; intros [? ?]; try discriminate; eauto.
      * split; [|intros [[? ?] _]; discriminate].
        destruct (r ++ [c]) eqn:F; [destruct r; discriminate|]. intros [? ?]; discriminate.
    + split; [intros [? ?]; discriminate|intros [[? ?] _]; discriminate].
Qed.

Lemma find_fill_same n p v w : find n p = Some (Data v) -> find (fill n p w) p = Some (Data w).
Proof.
  revert n; induction p as [|c r IH]; intros n; cbn; [intros [= ->]; reflexivity|].
  destruct n as [kids|d]; [|discriminate]. destruct (assoc c kids) as [k|] eqn:E; [|discriminate].
  intros H. rewrite assoc_put, String.eqb_refl, E. auto.
Qed.
Lemma find_fill_other n p v w q x :
  find n p = Some (Data v) -> q <> p -> find n q = Some x -> exists y, find (fill n p w) q = Some y /\ kind_le x y.
Proof.
  revert n q; induction p as [|c r IH]; intros n q; cbn.
  - intros [= ->] Hne. destruct q; [congruence|cbn; discriminate].
  - destruct n as [kids|d]; [|discriminate]. destruct (assoc c kids) as [k|] eqn:E; [|discriminate].
    intros H Hne. destruct q as [|d q]; cbn.
    + injection 1 as <-. eexists; split; [reflexivity|cbn; auto].
    + rewrite assoc_put. destruct (String.eqb d c) eqn:G.
      * apply String.eqb_eq in G; subst d. rewrite E. apply IH; auto. congruence.
      * destruct (assoc d kids); [|discriminate]. intros Hx. exists x. split; [exact Hx|apply kind_le_refl].
Qed.
Lemma find_fill_none n p v w q : find n p = Some (Data v) -> find n q = None -> find (fill n p w) q = None.
Proof.
  revert n q; induction p as [|c r IH]; intros n q; cbn.
  - intros [= ->]. destruct q; cbn; [discriminate|auto].
  - destruct n as [kids|d]; [|discriminate]. destruct (assoc c kids) as [k|] eqn:E; [|discriminate].
    intros H. destruct q as [|d q]; cbn; [discriminate|].
    rewrite assoc_put. destruct (String.eqb d c) eqn:G; auto.
    apply String.eqb_eq in G; subst d. rewrite E. apply IH; auto.
Qed.
Lemma fill_fill n p v w : fill (fill n p v) p w = fill n p w.
Proof.
  revert n; induction p as [|c r IH]; intros n; cbn; [destruct n; reflexivity|].
  destruct n as [kids|d]; auto. destruct (assoc c kids) as [k|] eqn:E; cbn; [|rewrite E; reflexivity].
  rewrite assoc_put, String.eqb_refl, E, IH. f_equal.
  clear E. induction kids as [|[e m] t IHk]; cbn; auto.
  destruct (String.eqb c e) eqn:F; cbn; rewrite F; auto. rewrite IHk; reflexivity.
Qed.

(* -- names -- *)
Lemma pieces_ne s : pieces s <> [].
Proof.
  induction s as [|c r IH]; cbn; [discriminate|].
  destruct (Ascii.eqb c "/"); [discriminate|]. destruct (pieces r); [congruence|discriminate].
Qed.
Lemma split_last_pieces s :
  match split_last s with
  | Some (g, x) => pieces s = pieces g ++ [x]
  | None => pieces s = [s]
  end.
Proof.
  induction s as [|c r IH]; cbn; [reflexivity|].
  destruct (split_last r) as [[g x]|].
  - rewrite IH. cbn. destruct (Ascii.eqb c "/"); [reflexivity|].
    pose proof (pieces_ne g). destruct (pieces g) as [|p ps]; [congruence|]. reflexivity.
  - destruct (Ascii.eqb c "/") eqn:E; rewrite IH; cbn; [reflexivity|reflexivity].
Qed.
Lemma split_components full g x :
  splitFullName full = (g, x) -> components full = components g ++ (if says x then [x] else []).
Proof.
  unfold splitFullName. pose proof (split_last_pieces full) as H. destruct (split_last full) as [[g' x']|].
  - intros [= -> ->]. unfold components. rewrite H, filter_app. cbn. destruct (says x); reflexivity.
  - intros [= <- <-]. unfold components. rewrite H. cbn. destruct (says full); reflexivity.
Qed.

(* -- no library failures -- *)
Definition quiet h : Prop := h_calls h = [].

(* keeping data sets *)
Definition keeps {B} (a : act A B) : Prop :=
  forall h p v, find (h_root h) p = Some (Data v) -> find (h_root (fst (a h))) p = Some (Data v).
Lemma keeps_ret {B} (b : B) : keeps (ret b).
Proof. intros h p v H; exact H. Qed.
Lemma keeps_throw {B} : keeps (@throw A B).
Proof. intros h p v H; exact H. Qed.
Lemma keeps_undefined {B} : keeps (@undefined A B).
Proof. intros h p v H; exact H. Qed.
Lemma keeps_bind {B C} (m : act A B) (f : B -> act A C) : keeps m -> (forall b, keeps (f b)) -> keeps (bind m f).
Proof.
  intros Hm Hf h p v H. unfold bind. specialize (Hm h p v H). destruct (m h) as [h1 [b| |]]; cbn in Hm |- *; auto.
  apply Hf; exact Hm.
Qed.
Lemma keeps_next : keeps (@next_call A).
Proof. intros h p v H. unfold next_call. destruct (h_calls h); exact H. Qed.
Lemma keeps_call_ok : keeps (@call_ok A).
Proof. unfold call_ok. apply keeps_bind; [apply keeps_next|]. intros [|j]; [apply keeps_ret|apply keeps_throw]. Qed.
Lemma keeps_root : keeps (@get_root A).
Proof. intros h p v H; exact H. Qed.
Lemma keeps_mode : keeps (@get_mode A).
Proof. intros h p v H; exact H. Qed.
Lemma keeps_open_group path : keeps (@open_group A path).
Proof.
  unfold open_group. apply keeps_bind; [apply keeps_call_ok|intros _]. apply keeps_bind; [apply keeps_mode|intros m].
  apply keeps_bind; [apply keeps_root|intros root]. destruct m, (find root path) as [[]|]; try apply keeps_throw; apply keeps_ret.
Qed.
Lemma call_ok_cases h : exists cs, fst (call_ok h) = mkH5 (h_mode h) (h_root h) cs /\ (snd (call_ok h) = Ok tt \/ snd (call_ok h) = Exit).
Proof.
  unfold call_ok, next_call, bind. destruct (h_calls h) as [|[|j] cs] eqn:E; cbn.
  - exists []. destruct h; cbn in *; subst; auto.
  - eauto.
  - eauto.
Qed.
Lemma call_ok_inv h h' u : call_ok h = (h', Ok u) -> h_mode h' = h_mode h /\ h_root h' = h_root h /\ (quiet h -> h' = h).
Proof.
  unfold call_ok, next_call, bind, quiet. destruct (h_calls h) as [|[|j] cs] eqn:E; cbn; intros H; inversion H; subst; cbn; repeat split; auto; congruence.
Qed.
Lemma call_ok_quiet h : quiet h -> call_ok h = (h, Ok tt).
Proof. unfold quiet, call_ok, next_call, bind. intros ->. reflexivity. Qed.

Lemma keeps_create_group path : keeps (@create_group A path).
Proof.
  unfold create_group. apply keeps_bind; [apply keeps_call_ok|intros _].
  intros h p v H. unfold bind, get_mode, get_root, set_root, ret, throw.
  destruct (h_mode h); auto. destruct (add (h_root h) path (Group [])) as [r'|] eqn:E; auto.
  cbn. destruct (find_add_keep _ _ _ _ _ _ E H) as (y & Hy & K). destruct y; cbn in K; [contradiction|subst; exact Hy].
Qed.
Lemma keeps_findOrCreate g : keeps (@findOrCreateGroup A g).
Proof.
  unfold findOrCreateGroup. destruct (String.eqb g ""); [apply keeps_open_group|].
  apply keeps_bind; [apply keeps_mode|intros m]. apply keeps_bind; [apply keeps_root|intros root].
  destruct m, (lexists root (components g)) as [[|]|]; try apply keeps_open_group; apply keeps_create_group.
Qed.
Lemma keeps_findGroup g : keeps (@findGroup A g).
Proof. unfold findGroup. destruct (String.eqb g ""); apply keeps_open_group. Qed.

Lemma create_data_inv grp name p0 h h' d :
  create_data grp name p0 h = (h', Ok d) ->
  says name = true /\ d = grp ++ [name] /\ h_mode h = ReadWrite /\ h_mode h' = ReadWrite /\ (quiet h -> quiet h') /\
  add (h_root h) (grp ++ [name]) (Data p0) = Some (h_root h').
Proof.
  unfold create_data. intros H. apply bind_inv in H. destruct H as (h1 & u & H1 & H).
  apply call_ok_inv in H1. destruct H1 as (M & R & Q).
  unfold bind, get_mode, get_root, set_root, ret, throw in H.
  destruct (says name); [|inversion H]. destruct (h_mode h1) eqn:E; try (inversion H; fail).
  destruct (add (h_root h1) (grp ++ [name]) (Data p0)) as [r'|] eqn:F; inversion H; subst. cbn.
  rewrite R in F. repeat split; auto; try congruence. intros Hq. specialize (Q Hq). subst h1. exact Hq.
Qed.
Lemma create_data_not_ok grp name p0 h h' o :
  create_data grp name p0 h = (h', o) -> (forall d, o <> Ok d) -> h_root h' = h_root h /\ o = Exit.
Proof.
  unfold create_data, bind. destruct (call_ok_cases h) as (cs & E & C). destruct (call_ok h) as [h1 o1]; cbn in E, C; subst h1.
  destruct C as [->| ->].
  - unfold get_mode, get_root, set_root, ret, throw; cbn.
    destruct (says name); [|intros H; inversion H; auto].
    destruct (h_mode h); try (intros H; inversion H; auto; fail).
    destruct (add (h_root h) (grp ++ [name]) (Data p0)); intros H; inversion H; subst; auto.
    intros K. exfalso. eapply K; reflexivity.
  - intros H; inversion H; auto.
Qed.

(* creating a data set and then writing it, any number of times *)
Lemma write_data_root d p h h' o :
  write_data d p h = (h', o) -> exists w, h_root h' = fill (h_root h) d w /\ h_mode h' = h_mode h /\ (o = Ok tt -> w = p) /\ (quiet h -> quiet h').
Proof.
  unfold write_data, bind, next_call, get_root, set_root, throw, quiet. destruct (h_calls h) as [|[|j] cs] eqn:E; cbn; intros H; inversion H; subst; cbn; [exists p|exists p|exists j];
    repeat split; auto; discriminate.
Qed.
Lemma write_data_quiet d p h : quiet h -> write_data d p h = (mkH5 (h_mode h) (fill (h_root h) d p) [], Ok tt).
Proof. unfold quiet, write_data, bind, next_call, get_root, set_root. intros E. rewrite E. cbn. rewrite E. reflexivity. Qed.

(* an action that only touches the data set at d *)
Definition only_touches {B} (d : list string) (a : act A B) : Prop :=
  forall h, (exists v, find (h_root h) d = Some (Data v)) ->
    h_mode (fst (a h)) = h_mode h /\ exists w, h_root (fst (a h)) = fill (h_root h) d w \/ h_root (fst (a h)) = h_root h.
Lemma only_touches_write d p : only_touches d (write_data d p).
Proof. intros h _. destruct (write_data d p h) as [h' o] eqn:E. apply write_data_root in E. destruct E as (w & R & M & _). cbn. eauto. Qed.

Lemma keeps_create_then {B} grp name p0 (f : list string -> act A B) :
  (forall d, only_touches d (f d)) -> keeps (bind (create_data grp name p0) f).
Proof.
  intros Hf h p v H. unfold bind.
  destruct (create_data grp name p0 h) as [h1 [d| |]] eqn:E; cbn.
  - apply create_data_inv in E. destruct E as (_ & -> & _ & _ & _ & Ad).
    destruct (find_add_keep _ _ _ _ _ _ Ad H) as (y & Hy & K). destruct y; cbn in K; [contradiction|]; subst v.
    assert (F := find_add_same _ _ _ _ Ad).
    destruct (Hf (grp ++ [name]) h1 (ex_intro _ p0 F)) as (_ & w & [R|R]); rewrite R; [|exact Hy].
    assert (N : p <> grp ++ [name]). { intros ->. pose proof (find_add_none _ _ _ _ Ad). congruence. }
    destruct (find_fill_other _ _ _ w _ _ F N Hy) as (z & Hz & K). destruct z; cbn in K; [contradiction|congruence].
  - destruct (create_data_not_ok _ _ _ _ _ _ E) as (R & _); [discriminate|]. rewrite R; exact H.
  - destruct (create_data_not_ok _ _ _ _ _ _ E) as (R & _); [discriminate|]. rewrite R; exact H.
Qed.
Lemma keeps_write_matrix full t m : keeps (@write_matrix A full t m).
Proof.
  unfold write_matrix. destruct (splitFullName full) as [g x]. apply keeps_bind; [apply keeps_call_ok|intros _].
  apply keeps_bind; [apply keeps_findOrCreate|intros grp]. apply keeps_create_then. intros d. apply only_touches_write.
Qed.
Lemma keeps_write_text full s : keeps (@write_text A full s).
Proof.
  unfold write_text. destruct (splitFullName full) as [g x]. apply keeps_bind; [apply keeps_call_ok|intros _].
  apply keeps_bind; [apply keeps_findOrCreate|intros grp]. apply keeps_create_then. intros d. apply only_touches_write.
Qed.
Lemma keeps_write_sparse full t s : keeps (@write_sparse A full t s).
Proof.
  unfold write_sparse, write_scalar.
  repeat (apply keeps_bind; [apply keeps_write_matrix|intros _]). apply keeps_write_matrix.
Qed.
Lemma keeps_read_matrix full ty : keeps (@read_matrix A full ty).
Proof.
  unfold read_matrix. destruct (splitFullName full) as [g x]. apply keeps_bind; [apply keeps_findGroup|intros grp].
  apply keeps_bind; [apply keeps_call_ok|intros _]. apply keeps_bind; [apply keeps_root|intros root].
  destruct (if says x then find root (grp ++ [x]) else None) as [[kids|[t rows cols data|fs rs|s]]|]; try apply keeps_throw.
  destruct (match getNativeType t with Some t' => scalar_eqb t' (et_scalar ty) | None => false end); [|apply keeps_throw].
  cbv zeta. destruct (_ || _); [apply keeps_throw|]. destruct (negb _); [apply keeps_throw|]. destruct (negb _); [apply keeps_throw|].
  destruct (negb _); [apply keeps_undefined|]. apply keeps_bind; [apply keeps_call_ok|intros _]. apply keeps_ret.
Qed.
Lemma open_root disk (calls : list (call A)) : h_root (fst (open_file false disk calls)) = disk.
Proof. unfold open_file. destruct calls as [|[|j] cs]; reflexivity. Qed.
Lemma step_keeps o h p v : find (h_root h) p = Some (Data v) -> find (h_root (step o h)) p = Some (Data v).
Proof.
  intros H. destruct o; cbn; try rewrite open_root; try exact H;
    first [apply keeps_write_matrix|apply keeps_write_text|apply keeps_write_sparse|apply keeps_read_matrix|apply keeps_findOrCreate|apply keeps_findGroup]; exact H.
Qed.
Lemma run_keeps ops h p v : find (h_root h) p = Some (Data v) -> find (h_root (run ops h)) p = Some (Data v).
Proof. revert h; induction ops as [|o ops IH]; intros h H; cbn; auto. apply IH, step_keeps, H. Qed.
End P.
