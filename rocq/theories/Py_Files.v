From Coq Require Import List String Ascii ZArith Arith Lia Bool.
From Verif Require Import Outcome Py_Model Py_Spec Py_Proofs.
Import ListNotations.
Open Scope string_scope.

(* ---------- the text of the command ---------- *)
Lemma nat_char : forall c n, (n < 256)%nat -> (nat_of_ascii c =? n)%nat = true -> c = ascii_of_nat n.
Proof. intros c n _ E. apply Nat.eqb_eq in E. rewrite <- E. symmetry. apply ascii_nat_embedding. Qed.
Lemma read_plain : forall s rest, plain s -> read_literal (s ++ String "'" rest) = Some (s, rest).
Proof.
  induction s as [|c s IH]; intros rest H; [reflexivity|].
  destruct H as (H1 & H2 & H3 & H). cbn [append read_literal].
  destruct (nat_of_ascii c =? 39)%nat eqn:E1; [apply nat_char in E1; [contradiction|lia]|].
  destruct (nat_of_ascii c =? 10)%nat eqn:E2; [apply nat_char in E2; [contradiction|lia]|].
  destruct (nat_of_ascii c =? 92)%nat eqn:E3; [apply nat_char in E3; [contradiction|lia]|].
  rewrite IH by exact H. reflexivity.
Qed.
Lemma after_prefix_app : forall p s, after_prefix p (p ++ s) = Some s.
Proof. induction p as [|a p IH]; intros s; cbn [append after_prefix]; [reflexivity|]. rewrite Ascii.eqb_refl. apply IH. Qed.
Lemma append_assoc : forall a b c : string, (a ++ b) ++ c = a ++ (b ++ c).
Proof. induction a as [|x a IH]; intros b c; cbn [append]; [reflexivity|]. rewrite IH. reflexivity. Qed.
Lemma read_insert : forall path, plain path ->
  read_command (("sys.path.insert( 0, '" ++ path ++ "' )") ++ newline) = Insert path.
Proof.
  intros path H. rewrite append_assoc. rewrite append_assoc. unfold read_command.
  assert (E : String.eqb ("sys.path.insert( 0, '" ++ path ++ "' )" ++ newline) ("sys.path.pop( 0 )" ++ newline) = false) by reflexivity.
  rewrite E, after_prefix_app. change ("' )" ++ newline) with (String "'" (" )" ++ newline)).
  rewrite read_plain by exact H. rewrite String.eqb_refl. reflexivity.
Qed.

(* ---------- running a file ---------- *)
Lemma exec_all : forall o l p,
  p_path (exec o l p) = p_path p /\ p_mods (exec o l p) = p_mods p /\ (p_next p <= p_next (exec o l p))%nat /\
  (forall x, (x < p_next p)%nat -> p_call (exec o l p) x = p_call p x) /\
  (forall n, match binding l n with
             | Some c => exists f, assoc n (p_dict (exec o l p) o) = Some f /\ (p_next p <= f)%nat /\ p_call (exec o l p) f = c
             | None => assoc n (p_dict (exec o l p) o) = assoc n (p_dict p o)
             end).
Proof.
  intros o. induction l as [|[k c] l IH]; intros p.
  - cbn [exec fold_left binding]. repeat split; trivial.
  - change (exec o ((k, c) :: l) p) with (exec o l (bind1 o p (k, c))).
    destruct (IH (bind1 o p (k, c))) as (H1 & H2 & H3 & H4 & H5).
    cbn [bind1 p_path p_mods p_next p_call p_dict fst snd] in H1, H2, H3, H4, H5.
    split; [exact H1|]. split; [exact H2|]. split; [lia|]. split.
    + intros x X. rewrite H4 by lia. destruct (Nat.eqb_spec x (p_next p)); [lia|reflexivity].
    + intros n. cbn [binding]. specialize (H5 n). destruct (binding l n) as [b|].
      * destruct H5 as (f & F1 & F2 & F3). exists f. repeat split; trivial. lia.
      * rewrite Nat.eqb_refl in H5. cbn [assoc] in H5. destruct (String.eqb k n) eqn:K.
        { exists (p_next p). split; [exact H5|]. split; [lia|]. rewrite H4 by lia. rewrite Nat.eqb_refl. reflexivity. }
        { exact H5. }
Qed.

Definition kept (p : py) (name n : string) : handle :=
  match assoc name (p_mods p) with Some o => assoc n (p_dict p o) | None => None end.

(* loading a module from a plain directory that has it *)
Lemma load_module_python : forall fs path name l p log,
  sound_py p -> plain path -> fs path name = Some (Some l) ->
  exists o p' log', load_module (python fs) path name None (Mach p log) = Ok (Some o, Mach p' log') /\
    p_path p' = p_path p /\
    (forall n, match binding l n with
               | Some c => exists f, assoc n (p_dict p' o) = Some f /\ (p_next p <= f)%nat /\ p_call p' f = c
               | None => assoc n (p_dict p' o) = kept p name n
               end) /\
    (forall x, (x < p_next p)%nat -> p_call p' x = p_call p x).
Proof.
  intros fs path name l p log [S1 S2] Q F. unfold load_module, python_command.
  cbn [m_py m_log python run_simple]. unfold py_run at 1. rewrite read_insert by exact Q.
  cbn [obind m_py m_log import_module python]. unfold py_import. cbn [p_mods p_path p_dict p_call p_next find_module].
  rewrite F.
  destruct (assoc name (p_mods p)) as [o|] eqn:M.
  - cbn [move_assign destroy m_py m_log reload_module python].
    unfold py_reload. cbn [p_mods p_path find_module]. rewrite (proj2 (S1 _ _ M)), F.
    set (p1 := Py (path :: p_path p) (p_mods p) (p_dict p) (p_call p) (p_next p)).
    destruct (exec_all o l p1) as (H1 & H2 & H3 & H4 & H5).
    unfold py_run. change (read_command ("sys.path.pop( 0 )" ++ newline)) with Pop. cbv iota.
    rewrite H1. cbn [p1 p_path obind].
    do 3 eexists. split; [reflexivity|]. cbn [p_path p_dict p_call]. split; [reflexivity|]. split; [|exact H4].
    intros n. specialize (H5 n). unfold kept. rewrite M. exact H5.
  - cbn [move_assign destroy m_py m_log reload_module python]. set (o := p_next p).
    set (p1 := Py (path :: p_path p) ((name, o) :: p_mods p) (fun x => if (x =? o)%nat then [] else p_dict p x) (p_call p) (S o)).
    destruct (exec_all o l p1) as (H1 & H2 & H3 & H4 & H5).
    unfold py_reload. rewrite H1, H2. cbn [p1 p_mods p_path find_module name_of]. rewrite Nat.eqb_refl, F.
    fold p1. destruct (exec_all o l (exec o l p1)) as (G1 & G2 & G3 & G4 & G5).
    unfold py_run. change (read_command ("sys.path.pop( 0 )" ++ newline)) with Pop. cbv iota.
    rewrite G1, H1. cbn [p1 p_path obind]. fold p1.
    do 3 eexists. split; [reflexivity|]. cbn [p_path p_dict p_call]. split; [reflexivity|]. split.
    + intros n. specialize (G5 n). specialize (H5 n). unfold kept. rewrite M. destruct (binding l n) as [c|].
      * destruct G5 as (f & F1 & F2 & F3). exists f. split; [exact F1|]. split; [|exact F3].
        cbn [p1 p_next] in H3. fold p1 in H3. subst o. lia.
      * rewrite G5, H5. cbn [p1 p_dict]. rewrite Nat.eqb_refl. reflexivity.
    + intros x X. rewrite G4 by (cbn [p1 p_next] in H3; fold p1 in H3; subst o; lia).
      rewrite H4 by (cbn [p1 p_next]; subst o; lia). reflexivity.
Qed.

Lemma load_functions_python : forall fs names o p log,
  match (if forallb (fun n => match assoc n (p_dict p o) with Some f => p_call p f | None => true end) names then 1%nat else 0%nat) with
  | 1%nat => exists log', load_functions (python fs) names o (map (fun _ => None) names) (Mach p log)
                      = Ok (map (fun n => assoc n (p_dict p o)) names, Mach p log')
  | _ => load_functions (python fs) names o (map (fun _ => None) names) (Mach p log) = Exit
  end.
Proof.
  intros fs names o p. induction names as [|n names IH]; intros log.
  - cbn. exists log. reflexivity.
  - cbn [forallb map load_functions]. unfold load_function. cbn [python get_attr m_py m_log is_callable].
    destruct (assoc n (p_dict p o)) as [f|].
    + destruct (p_call p f).
      * cbn [andb obind]. rewrite swap_handles_is. cbn [destroy obind fst snd].
        unfold say. cbn [m_py m_log]. specialize (IH (ECallable f :: EAttr o n (Some f) :: log)).
        destruct (forallb _ names).
        { destruct IH as [log' E]. rewrite E. cbn [obind fst snd]. exists log'. reflexivity. }
        { rewrite IH. reflexivity. }
      * cbn [andb obind]. reflexivity.
    + cbn [andb obind]. rewrite swap_handles_is. cbn [destroy obind fst snd].
      specialize (IH (EAttr o n None :: log)).
      destruct (forallb _ names).
      { destruct IH as [log' E]. rewrite E. cbn [obind fst snd]. exists log'. reflexivity. }
      { rewrite IH. reflexivity. }
Qed.

Lemma destroy_py : forall P h (m : @mach P), m_py (destroy h m) = m_py m.
Proof. intros P [o|] m; reflexivity. Qed.
Lemma destroy_scripting_py : forall P s (m : @mach P), m_py (destroy_scripting s m) = m_py m.
Proof.
  intros P s m. unfold destroy_scripting. rewrite destroy_py. induction (s_hooks s) as [|h hs IH]; cbn [fold_right]; [reflexivity|].
  rewrite destroy_py. exact IH.
Qed.

(* loading a script from the directory of the scene *)
Lemma load_python : forall fs path name l p log s,
  sound_py p -> plain path -> name <> "" -> fs path name = Some (Some l) -> List.length (s_hooks s) = List.length callbacks ->
  (forall n, In n callbacks -> binding l n <> Some false) ->
  (forall n f, In n callbacks -> binding l n = None -> kept p name n = Some f -> p_call p f = true) ->
  exists s' m', load (python fs) path name s (Mach p log) = Ok (s', m') /\
    p_path (m_py m') = p_path p /\ s_name s' = name /\ s_path s' = path /\
    forall k n, nth_error callbacks k = Some n ->
      match binding l n with
      | Some _ => exists f, nth k (s_hooks s') None = Some f /\ (p_next p <= f)%nat
      | None => nth k (s_hooks s') None = kept p name n
      end.
Proof.
  intros fs path name l p log s S Q N F L B K. unfold load, construct.
  destruct (String.eqb_spec name "") as [|_]; [contradiction|].
  destruct (load_module_python fs path name l p (ELoad path name :: log) S Q F) as (o & p' & log' & E & H1 & H2 & H3).
  unfold say. cbn [m_py m_log]. rewrite E. cbn [obind fst snd].
  pose proof (load_functions_python fs callbacks o p' log') as G.
  assert (T : forallb (fun n => match assoc n (p_dict p' o) with Some f => p_call p' f | None => true end) callbacks = true).
  { apply forallb_forall. intros n I. specialize (H2 n). specialize (B n I).
    destruct (binding l n) as [c|] eqn:X.
    - destruct H2 as (f & F1 & F2 & F3). rewrite F1, F3. destruct c; [reflexivity|congruence].
    - rewrite H2. destruct (kept p name n) as [f|] eqn:Y; [|reflexivity].
      rewrite H3; [apply (K n f I X Y)|]. unfold kept in Y. destruct (assoc name (p_mods p)) as [x|]; [|discriminate].
      apply (proj2 S) in Y. exact Y. }
  rewrite T in G. destruct G as [log'' G]. rewrite G. cbn [obind fst snd].
  rewrite swap_scripting_is by (cbn [s_hooks]; rewrite L, map_length; reflexivity).
  do 2 eexists. split; [reflexivity|]. rewrite destroy_scripting_py. cbn [m_py s_name s_path s_hooks].
  repeat split; trivial.
  intros k n Z. assert (V : nth k (map (fun n => assoc n (p_dict p' o)) callbacks) None = assoc n (p_dict p' o)).
  { apply nth_error_nth. apply (map_nth_error (fun n => assoc n (p_dict p' o)) k callbacks Z). }
  rewrite V. specialize (H2 n). destruct (binding l n) as [c|].
  - destruct H2 as (f & F1 & F2 & _). exists f. split; trivial.
  - exact H2.
Qed.

(* a callback name bound to something that cannot be called ends the program *)
Lemma load_not_callable : forall fs path name l p log s n,
  sound_py p -> plain path -> name <> "" -> fs path name = Some (Some l) -> In n callbacks -> binding l n = Some false ->
  load (python fs) path name s (Mach p log) = Exit.
Proof.
  intros fs path name l p log s n S Q N F I B. unfold load, construct.
  destruct (String.eqb_spec name "") as [|_]; [contradiction|].
  destruct (load_module_python fs path name l p (ELoad path name :: log) S Q F) as (o & p' & log' & E & H1 & H2 & H3).
  unfold say. cbn [m_py m_log]. rewrite E. cbn [obind fst snd].
  pose proof (load_functions_python fs callbacks o p' log') as G.
  assert (T : forallb (fun n => match assoc n (p_dict p' o) with Some f => p_call p' f | None => true end) callbacks = false).
  { apply not_true_is_false. intros T. rewrite forallb_forall in T. specialize (T n I). cbv beta in T.
    specialize (H2 n). rewrite B in H2. destruct H2 as (f & F1 & _ & F3). rewrite F1, F3 in T. discriminate. }
  rewrite T in G. rewrite G. reflexivity.
Qed.
