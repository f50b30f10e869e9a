From Coq Require Import List NArith Reals Bool Lia Lra.
From Verif Require Import Outcome Codec_Model Codec_Spec Codec_Proofs Lin_Model Lin_Proofs Cache_Model Cache_Spec.
Import ListNotations.
Open Scope N_scope.

(* ---------- std::map ---------- *)
Section KMap.
Context {V : Type}.
Implicit Type m : kmap V.

Lemma key_eq_dec (a b : key) : {a = b} + {a <> b}.
Proof. decide equality; apply N.eq_dec. Qed.

Lemma not_lt_eq (a b : key) : ~ key_lt a b -> ~ key_lt b a -> a = b.
Proof. intros H1 H2. destruct (key_lt_total a b) as [H|[H|H]]; tauto. Qed.

Lemma kinsert_Forall k v m (P : key * V -> Prop) : P (k, v) -> Forall P m -> Forall P (kinsert k v m).
Proof.
  intros Hk. induction m as [|[k' v'] m IH]; intros F; cbn [kinsert].
  - now constructor.
  - inversion F; subst. destruct (key_ltb k k'); [now repeat constructor|].
    destruct (key_ltb k' k); [constructor; auto|assumption].
Qed.

Lemma kinsert_sorted k v m : sorted_keys m -> sorted_keys (kinsert k v m).
Proof.
  induction m as [|[k' v'] m IH]; intros S; cbn [kinsert].
  - cbn. auto.
  - destruct S as [F S]. destruct (key_ltb_spec k k') as [L|L].
    + cbn. split; [|auto]. constructor; [exact L|].
      eapply Forall_impl; [|exact F]. cbn. intros e He. eapply key_lt_trans; eauto.
    + destruct (key_ltb_spec k' k) as [L'|L']; [|cbn; auto].
      cbn [sorted_keys]. split; [|auto]. apply kinsert_Forall; auto.
Qed.

Lemma kfind_lt k m : Forall (fun e => key_lt k (fst e)) m -> kfind k m = None.
Proof.
  destruct m as [|[k' v'] m]; intros F; [reflexivity|]. inversion F; subst. cbn in *.
  destruct (key_ltb_spec k k'); [reflexivity|contradiction].
Qed.

Lemma key_ltb_irrefl (k : key) : key_ltb k k = false.
Proof. destruct (key_ltb_spec k k) as [H|]; [exfalso; eapply key_lt_irrefl; eauto|reflexivity]. Qed.

(* std::map::insert keeps the value of a key that is present *)
Lemma kinsert_present k v v0 m : kfind k m = Some v0 -> kinsert k v m = m.
Proof.
  induction m as [|[k' v'] m IH]; cbn [kfind kinsert]; [discriminate|].
  destruct (key_ltb k k'); [discriminate|]. destruct (key_ltb k' k); [|reflexivity].
  intros H. now rewrite (IH H).
Qed.

Lemma kfind_kinsert_same k v m : sorted_keys m ->
  kfind k (kinsert k v m) = match kfind k m with Some v0 => Some v0 | None => Some v end.
Proof.
  induction m as [|[k' v'] m IH]; intros S; cbn [kinsert].
  - cbn. now rewrite key_ltb_irrefl.
  - destruct S as [F S]. cbn [kfind]. destruct (key_ltb k k') eqn:L.
    + cbn [kfind]. now rewrite key_ltb_irrefl.
    + destruct (key_ltb k' k) eqn:L'; cbn [kfind]; rewrite L, L'; auto.
Qed.

Lemma kfind_kinsert_other k k2 v m : sorted_keys m -> k2 <> k -> kfind k2 (kinsert k v m) = kfind k2 m.
Proof.
  intros S N. induction m as [|[k' v'] m IH]; cbn [kinsert].
  - cbn. destruct (key_ltb_spec k2 k); [reflexivity|]. destruct (key_ltb_spec k k2); [reflexivity|].
    exfalso. apply N, not_lt_eq; assumption.
  - destruct S as [F S]. specialize (IH S). destruct (key_ltb_spec k k') as [L|L].
    + cbn [kfind]. destruct (key_ltb_spec k2 k) as [L2|L2].
      * destruct (key_ltb_spec k2 k') as [|L3]; [reflexivity|exfalso; eauto using key_lt_trans].
      * destruct (key_ltb_spec k k2); [reflexivity|]. exfalso. apply N, not_lt_eq; assumption.
    + destruct (key_ltb_spec k' k) as [L'|L']; [|reflexivity]. cbn [kfind]. now rewrite IH.
Qed.
End KMap.

(* ---------- lookups in the specification ---------- *)
Section Generic.
Context {A C T : Type}.
Variable zero : A.
Variable ops : cache_ops A C T.
Variable good : C -> Prop.
Variable same : C -> C -> bool.
Variable slot : C -> nat * key.
Variable table : nat -> T -> kmap (list A).

Hypothesis Hput : forall c r t, good c -> exists t', op_put ops c r t = Ok t' /\
  table (fst (slot c)) t' = kinsert (snd (slot c)) r (table (fst (slot c)) t) /\
  forall s, s <> fst (slot c) -> table s t' = table s t.
Hypothesis Hget : forall c n t, good c ->
  op_get ops c n t = Ok (answer zero n (kfind (snd (slot c)) (table (fst (slot c)) t))).
Hypothesis Hclear : forall s t, table s (op_clear ops t) = [].
Hypothesis Hempty : forall t, op_empty ops t = true <-> forall s, table s t = [].
Hypothesis Hsame : forall c d, good c -> good d -> same c d = true <-> slot c = slot d.

Definition inv (l : list (C * list A)) (t : T) : Prop :=
  Forall (fun e => good (fst e)) l /\
  (forall s, sorted_keys (table s t)) /\
  (forall c, good c -> kfind (snd (slot c)) (table (fst (slot c)) t) = stored same l c) /\
  (l = [] -> forall s, table s t = []).

Lemma inv_clear t : inv [] (op_clear ops t).
Proof.
  split; [constructor|]. split; [intros s; rewrite Hclear; exact I|].
  split; [intros c _; rewrite Hclear; reflexivity|intros _ s; apply Hclear].
Qed.

Lemma stored_app (l : list (C * list A)) (e : C * list A) c : stored same (l ++ [e]) c =
  match stored same l c with
  | Some r => Some r
  | None => if same (fst e) c then Some (snd e) else None
  end.
Proof.
  unfold stored. induction l as [|x l IH]; cbn [find app option_map].
  - destruct (same (fst e) c); reflexivity.
  - destruct (same (fst x) c); [reflexivity|exact IH].
Qed.

Lemma inv_put l t c r : good c -> inv l t -> exists t', op_put ops c r t = Ok t' /\ inv (l ++ [(c, r)]) t'.
Proof.
  intros G (Fg & Hs & Hf & He). destruct (Hput c r t G) as (t' & Ht & Hin & Hout).
  exists t'. split; [exact Ht|]. split; [apply Forall_app; split; [exact Fg|constructor; auto]|].
  split; [|split].
  - intros s. destruct (Nat.eq_dec s (fst (slot c))) as [->|N].
    + rewrite Hin. apply kinsert_sorted, Hs.
    + rewrite Hout by exact N. apply Hs.
  - intros d Gd. rewrite stored_app. cbn [fst snd]. rewrite <- (Hf d Gd).
    destruct (same c d) eqn:E.
    + apply (Hsame c d G Gd) in E. rewrite <- E, Hin. apply kfind_kinsert_same, Hs.
    + replace (kfind (snd (slot d)) (table (fst (slot d)) t'))
        with (kfind (snd (slot d)) (table (fst (slot d)) t)).
      { destruct (kfind _ _); reflexivity. }
      destruct (Nat.eq_dec (fst (slot d)) (fst (slot c))) as [En|N].
      * rewrite En, Hin. symmetry. apply kfind_kinsert_other; [apply Hs|].
        intros Ek. enough (same c d = true) by congruence. apply Hsame; auto.
        destruct (slot c), (slot d); cbn in *; congruence.
      * now rewrite Hout by exact N.
  - intros E. destruct l; discriminate.
Qed.

Lemma inv_replay h : forall l t, inv l t ->
  Forall (fun o => match o with Put c _ => good c | Clear => True end) h ->
  exists t', replay ops h t = Ok t' /\
    inv (fold_left (fun acc o => match o with Put c r => acc ++ [(c, r)] | Clear => [] end) h l) t'.
Proof.
  induction h as [|o h IH]; intros l t I F.
  - exists t. split; [reflexivity|exact I].
  - inversion F; subst. destruct o as [c r|]; cbn [fold_left].
    + destruct (inv_put l t c r) as (t' & Ht & I'); auto.
      destruct (IH _ _ I' H2) as (t'' & Hr & I''). exists t''. split; [|exact I''].
      unfold replay in *. cbn [ofold]. now rewrite Ht.
    + destruct (IH _ _ (inv_clear t) H2) as (t'' & Hr & I''). exists t''. split; [|exact I''].
      unfold replay in *. cbn [ofold obind]. exact Hr.
Qed.

Lemma inv_empty l t : inv l t -> op_empty ops t = true <-> l = [].
Proof.
  intros (Fg & Hs & Hf & He). rewrite Hempty. split.
  - intros E. destruct l as [|[c r] l]; [reflexivity|]. exfalso. inversion Fg; subst. cbn in H1.
    specialize (Hf c H1). rewrite E in Hf. unfold stored in Hf. cbn [find fst] in Hf.
    replace (same c c) with true in Hf by (symmetry; apply Hsame; auto). discriminate.
  - exact He.
Qed.

Theorem generic_map : behaves_as_map zero good same ops.
Proof.
  intros h t0 F. destruct (inv_replay h [] _ (inv_clear t0) F) as (t & Ht & I).
  exists t. split; [exact Ht|]. fold (live h) in I. split.
  - intros c n G. rewrite Hget by exact G. destruct I as (_ & _ & Hf & _). now rewrite Hf.
  - apply inv_empty, I.
Qed.

(* ---------- warm starting ---------- *)
Definition agrees (l : list (C * list A)) (t : T) : Prop :=
  forall c n, good c -> op_get ops c n t = Ok (answer zero n (stored same l c)).

Lemma write_all_replay l t : write_all A ops l t = replay ops (map (fun e => Put (fst e) (snd e)) l) t.
Proof.
  unfold write_all, replay. revert t. induction l as [|e l IH]; intros t; [reflexivity|].
  cbn [ofold map]. destruct (op_put ops (fst e) (snd e) t); cbn [obind]; auto.
Qed.

Lemma live_puts (l : list (C * list A)) : live (map (fun e => Put (fst e) (snd e)) l) = l.
Proof.
  unfold live. enough (H : forall acc, fold_left (fun acc o => match o with Put c r => acc ++ [(c, r)] | Clear => [] end)
    (map (fun e => Put (fst e) (snd e)) l) acc = acc ++ l) by apply H.
  induction l as [|[c r] l IH]; intros acc; cbn [map fold_left fst snd]; [now rewrite app_nil_r|].
  rewrite IH, <- app_assoc. reflexivity.
Qed.

Lemma write_all_ok l t : Forall (fun e => good (fst e)) l ->
  exists t', write_all A ops l (op_clear ops t) = Ok t' /\ agrees l t'.
Proof.
  intros F. rewrite write_all_replay.
  destruct (generic_map (map (fun e => Put (fst e) (snd e)) l) t) as (t' & Ht & Hg & _).
  { apply Forall_map. exact F. }
  exists t'. split; [exact Ht|]. intros c n G. rewrite Hg by exact G. now rewrite live_puts.
Qed.

Lemma agrees_clear t : agrees [] (op_clear ops t).
Proof. intros c n G. rewrite Hget by exact G. now rewrite Hclear. Qed.

Lemma same_refl c : good c -> same c c = true.
Proof. intros G. apply Hsame; auto. Qed.

(* the entry stored for a contact, when contacts are distinct *)
Lemma distinct_unique {X} (prev : list (C * X)) c e : Forall (fun e => good (fst e)) prev -> good c ->
  distinct same (map fst prev) -> In e prev -> same (fst e) c = true ->
  find (fun e => same (fst e) c) prev = Some e.
Proof.
  intros F G D I S. induction prev as [|e0 prev IH]; [contradiction|].
  inversion F; subst. inversion D; subst. cbn [find].
  destruct I as [->|I].
  - now rewrite S.
  - destruct (same (fst e0) c) eqn:S0; [|auto].
    exfalso. assert (In (fst e) (map fst prev)) by now apply in_map.
    rewrite Forall_forall in H3. specialize (H3 _ H).
    assert (Ge : good (fst e)) by (rewrite Forall_forall in H2; auto).
    apply Hsame in S, S0; auto. enough (same (fst e0) (fst e) = true) by congruence.
    apply Hsame; auto. congruence.
Qed.

Lemma omapM_ok {X Y} (f : X -> outcome Y) (P : X -> Y -> Prop) l :
  (forall x, In x l -> exists y, f x = Ok y /\ P x y) -> exists ys, omapM f l = Ok ys /\ Forall2 P l ys.
Proof.
  induction l as [|x l IH]; intros H.
  - exists []. split; [reflexivity|constructor].
  - destruct (H x (or_introl eq_refl)) as (y & Hy & Py).
    destruct IH as (ys & Hys & Pys); [intros; apply H; now right|].
    exists (y :: ys). cbn [omapM]. rewrite Hy. cbn [obind]. rewrite Hys. split; [reflexivity|now constructor].
Qed.

Lemma Forall2_length_ {X Y} (P : X -> Y -> Prop) l l' : Forall2 P l l' -> length l = length l'.
Proof. induction 1; cbn [length]; congruence. Qed.

Lemma combine_map_r {X Y Z} (f : Y -> Z) (l : list X) (ys : list Y) :
  combine l (map f ys) = map (fun e => (fst e, f (snd e))) (combine l ys).
Proof. revert ys. induction l as [|x l IH]; intros [|y ys]; cbn; try reflexivity. now rewrite IH. Qed.

Lemma combine_fst {X Y} (l : list X) (ys : list Y) : length ys = length l -> map fst (combine l ys) = l.
Proof.
  revert ys. induction l as [|x l IH]; intros [|y ys] H; cbn in *; try reflexivity; try discriminate.
  injection H as H. now rewrite IH.
Qed.

Lemma combine_good {Y} (l : list C) (ys : list Y) : Forall good l -> Forall (fun e => good (fst e)) (combine l ys).
Proof.
  intros F. revert ys. induction F as [|c l G F IH]; intros ys; [constructor|].
  destruct ys; constructor; [exact G|apply IH].
Qed.

(* the invariant between steps: the cache holds pack x for every contact of the previous step *)
Section Packed.
Context {X : Type}.
Variable none : X.
Variable keep : X -> X.
Variable pack : X -> list A.
Variable unpack : list A -> outcome X.
Variable width : nat.
Hypothesis unpack_pack : forall x, unpack (pack x) = Ok (keep x).
Hypothesis unpack_none : unpack (repeat zero width) = Ok none.

Definition packed (prev : list (C * X)) := map (fun e => (fst e, pack (snd e))) prev.

Lemma stored_packed (prev : list (C * X)) c :
  stored same (packed prev) c = option_map pack (option_map snd (find (fun e => same (fst e) c) prev)).
Proof.
  unfold stored, packed. induction prev as [|e prev IH]; [reflexivity|]. cbn [map find fst].
  destruct (same (fst e) c); [reflexivity|exact IH].
Qed.

Definition reader (active : list C) (t : T) : outcome (list X) :=
  omapM (fun c => let! r := op_get ops c width t in unpack r) active.

Lemma reader_ok prev active t : agrees (packed prev) t -> Forall good active ->
  Forall (fun e => good (fst e)) prev -> distinct same (map fst prev) ->
  exists xs, reader active t = Ok xs /\ Forall2 (carried same none keep prev) active xs.
Proof.
  intros Ha Fa Fp D. apply omapM_ok. intros c Hc.
  assert (G : good c) by (rewrite Forall_forall in Fa; auto).
  rewrite Ha by exact G. cbn [obind]. rewrite stored_packed.
  destruct (find (fun e => same (fst e) c) prev) as [e|] eqn:E; cbn [option_map answer].
  - exists (keep (snd e)). split; [apply unpack_pack|]. split.
    + intros e' I' S'. rewrite (distinct_unique prev c e') in E by assumption. congruence.
    + intros Hn. apply find_some in E. destruct E as [Ei Es]. rewrite Hn in Es by exact Ei. discriminate.
  - exists none. split; [apply unpack_none|]. split.
    + intros e' I' S'. rewrite (distinct_unique prev c e') in E by assumption. discriminate.
    + reflexivity.
Qed.

Variable step : (list C -> list X -> list X) -> list C -> T -> outcome (list X * list X * T).
Hypothesis step_nil : forall solve t, step solve [] t = Ok ([], [], op_clear ops t).
Hypothesis step_cons : forall solve active t, active <> [] ->
  step solve active t =
    let! x := reader active t in
    let! t2 := write_all A ops (combine active (map pack (solve active x))) (op_clear ops t) in
    Ok (x, solve active x, t2).

Lemma run_ok steps : forall prev t, agrees (packed prev) t ->
  Forall (fun e => good (fst e)) prev -> distinct same (map fst prev) -> good_steps good same steps ->
  exists logs t', run_steps step steps t = Ok (logs, t') /\ logged steps logs /\ well_started same none keep prev logs.
Proof.
  induction steps as [|[active solve] rest IH]; intros prev t Ha Fp D G.
  - exists [], t. repeat split. constructor.
  - inversion G as [|? ? [Ga [Da Ls]] Gr]; subst. cbn [fst snd] in *.
    destruct active as [|c active].
    + cbn [run_steps]. rewrite step_nil. cbn [obind snd fst].
      destruct (IH [] (op_clear ops t) (agrees_clear t) (Forall_nil _) (FOP_nil _) Gr) as (logs & t' & Hr & Hl & Hw).
      * rewrite Hr. cbn [obind fst snd]. eexists _, _. split; [reflexivity|]. split.
        -- constructor; [|exact Hl]. cbn. split; [reflexivity|congruence].
        -- cbn [well_started lg_active lg_guess]. split; [constructor|exact Hw].
    + set (act := c :: active) in *.
      destruct (reader_ok prev act t Ha Ga Fp D) as (xs & Hx & Hc).
      pose proof (Forall2_length_ _ _ _ Hc) as Hlen. specialize (Ls xs (eq_sym Hlen)).
      destruct (write_all_ok (combine act (map pack (solve act xs))) t) as (t2 & Hw2 & Ha2).
      { apply combine_good, Ga. }
      destruct (IH (combine act (solve act xs)) t2) as (logs & t' & Hr & Hl & Hw); auto.
      * unfold packed. rewrite <- combine_map_r. exact Ha2.
      * apply combine_good, Ga.
      * rewrite combine_fst by exact Ls. exact Da.
      * cbn [run_steps]. rewrite step_cons by discriminate. rewrite Hx. cbn [obind]. rewrite Hw2. cbn [obind snd fst].
        rewrite Hr. cbn [obind snd fst]. eexists _, _. split; [reflexivity|]. split.
        -- constructor; [|exact Hl]. cbn [lg_active lg_result lg_guess fst snd]. auto.
        -- cbn [well_started lg_active lg_guess lg_result]. split; [exact Hc|exact Hw].
Qed.

Theorem generic_warm : warm_starts good same none keep (op_clear ops) step.
Proof.
  intros steps t0 G. exact (run_ok steps [] _ (agrees_clear t0) (Forall_nil _) (FOP_nil _) G).
Qed.
End Packed.

(* ImpactMap *)
Theorem impact_warm : warm_starts good same zero (fun a => a) (op_clear ops) (impact_map_step A zero ops true).
Proof.
  apply generic_warm with (pack := fun a => [a]) (unpack := coeff A 0) (width := 1%nat); try reflexivity.
  intros solve [|c active] t N; [congruence|]. reflexivity.
Qed.

Lemma omapM_map {X Y Z} (f : X -> outcome Y) (g : Y -> Z) l :
  obind (omapM f l) (fun ys => Ok (map g ys)) = omapM (fun x => obind (f x) (fun y => Ok (g y))) l.
Proof.
  induction l as [|x l IH]; [reflexivity|]. cbn [omapM]. rewrite <- IH.
  destruct (f x); cbn [obind]; try reflexivity. destruct (omapM f l); reflexivity.
Qed.

Lemma omapM_ext {X Y} (f g : X -> outcome Y) l : (forall x, f x = g x) -> omapM f l = omapM g l.
Proof. intros E. induction l as [|x l IH]; [reflexivity|]. cbn [omapM]. now rewrite E, IH. Qed.

(* mode NORMAL keeps the normal impulse only *)
Theorem normal_warm three_d : warm_starts good same (zero, zero) (fun ab => (fst ab, zero)) (op_clear ops)
  (friction_map_step A zero ops CacheNormal three_d).
Proof.
  apply generic_warm with (pack := fun ab => [fst ab])
    (unpack := fun r => let! a := coeff A 0 r in Ok (a, zero)) (width := 1%nat); try reflexivity.
  intros solve [|c active] t N; [congruence|]. unfold friction_map_step, reader.
  replace (omapM (fun c0 => let! r := op_get ops c0 1 t in let! a := coeff A 0 r in Ok (a, zero)) (c :: active))
    with (obind (read_normal A ops (c :: active) t) (fun al => Ok (map (fun a => (a, zero)) al))).
  - rewrite obind_assoc. reflexivity.
  - unfold read_normal. rewrite omapM_map. apply omapM_ext. intros x. rewrite obind_assoc. reflexivity.
Qed.

(* mode NORMAL_AND_FRICTION in two dimensions *)
Theorem planar_warm : warm_starts good same (zero, zero) (fun ab => ab) (op_clear ops)
  (friction_map_step A zero ops CacheNormalAndFriction false).
Proof.
  apply generic_warm with (pack := fun ab => [fst ab; snd ab])
    (unpack := fun r => let! a := coeff A 0 r in let! b := coeff A 1 r in Ok (a, b)) (width := 2%nat); try reflexivity.
  - intros []. reflexivity.
  - intros solve [|c active] t N; [congruence|]. reflexivity.
Qed.
End Generic.
