(* C73: scripts are found where the scene is and the interpreter's objects are handled properly. *)
From Coq Require Import List String Ascii ZArith Arith Lia Bool.
From Verif Require Import Outcome Py_Model Py_Spec Py_Proofs Py_Files.
Import ListNotations.
Open Scope Z_scope.

(* Whatever the interpreter answers, and whatever scripts are opened and callbacks run, the program never uses or gives
   back an object it does not hold; it holds exactly what its members say, beside one reference for each reload. *)
Theorem C73_references : forall P (A : pyapi P) p l s m,
  acts A l no_script (Mach p []) = Ok (s, m) ->
  owned (m_log m) /\ in_time (m_log m) /\ forall o, held (m_log m) o = members s o + reloads (m_log m) o.
Proof.
  intros P A p l s m E. apply acts_good in E; [|exact start_good].
  destruct E as [(H1 & H2 & H3 & H4) _]. split; [exact H1|]. split; [exact H3|]. exact H4.
Qed.
Print Assumptions C73_references.

(* When a graphical program ends, its members are given back, before the interpreter is shut down. *)
Theorem C73_gui_exit : forall P (A : pyapi P) p l s m,
  acts A l no_script (Mach p []) = Ok (s, m) ->
  owned (m_log (gui_exit s m)) /\ in_time (m_log (gui_exit s m)) /\
  forall o, held (m_log (gui_exit s m)) o = reloads (m_log (gui_exit s m)) o.
Proof. intros P A p l s m E. apply acts_good in E; [|exact start_good]. exact (gui_exit_good s m E). Qed.
Print Assumptions C73_gui_exit.

(* A command line program gives its members back too late, if it has any. *)
Theorem C73_cli_exit : forall P (A : pyapi P) p l s m,
  acts A l no_script (Mach p []) = Ok (s, m) ->
  (in_time (m_log (cli_exit s m)) <-> s_module s = None /\ forall h, In h (s_hooks s) -> h = None).
Proof.
  intros P A p l s m E. apply acts_good in E; [|exact start_good].
  destruct E as [(_ & N & T & _) _]. unfold cli_exit, destroy_scripting.
  assert (B : in_time (m_log (say EFinalize m))).
  { cbn [say m_log in_time]. split; [exact T|]. intros K. contradiction. }
  assert (F : forall hs, (In EFinalize (m_log (fold_right destroy (say EFinalize m) hs)))
              /\ (in_time (m_log (fold_right destroy (say EFinalize m) hs)) <-> forall h, In h hs -> h = None)).
  { induction hs as [|h hs [I1 I2]]; cbn [fold_right].
    - split; [apply in_eq|]. split; [intros _ h []|intros _; exact B].
    - destruct h as [o|]; cbn [destroy].
      + split; [right; exact I1|]. split.
        * cbn [say m_log in_time]. intros [_ K]. destruct (K I1) as (a & b & C). discriminate.
        * intros K. specialize (K (Some o) (in_eq _ _)). discriminate.
      + split; [exact I1|]. rewrite I2. split.
        * intros K h [<-|J]; [reflexivity|apply K, J].
        * intros K h J. apply K. right. exact J. }
  destruct (F (s_hooks s)) as [I1 I2]. destruct (s_module s) as [o|]; cbn [destroy].
  - split.
    + cbn [say m_log in_time]. intros [_ K]. destruct (K I1) as (a & b & C). discriminate.
    + intros [K _]. discriminate.
  - rewrite I2. split; [intros K; split; [reflexivity|exact K]|intros [_ K]; exact K].
Qed.
Print Assumptions C73_cli_exit.

(* A callback runs the function the current script has under its name, once, and gives back what it returned; it does
   nothing if the script has no such function. *)
Theorem C73_callback : forall P (A : pyapi P) p l s m k n m',
  acts A l no_script (Mach p []) = Ok (s, m) -> nth_error callbacks k = Some n -> callback A k s m = Ok m' ->
  match hook (m_log m) n with
  | Some f => s_name s = ""%string /\ m' = m \/ exists v, m_log m' = EDrop v :: ECall f (Some v) :: m_log m
  | None => m' = m
  end.
Proof.
  intros P A p l s m k n m' E K C. apply acts_good in E; [|exact start_good]. destruct E as [_ F].
  assert (V : nth k (s_hooks s) None = hook (m_log m) n).
  { rewrite F. apply nth_error_nth. apply (map_nth_error (hook (m_log m)) k callbacks K). }
  apply callback_log in C as [[-> [Z|Z]]|(f & v & Z & L)].
  - destruct (hook (m_log m) n); [left; split; trivial|reflexivity].
  - rewrite Z in V. rewrite <- V. reflexivity.
  - rewrite Z in V. rewrite <- V. right. exists v. exact L.
Qed.
Print Assumptions C73_callback.

(* A scene without a script never reaches the interpreter. *)
Theorem C73_no_script : forall P (A : pyapi P) p l s m,
  (forall a, In a l -> match a with Load _ name => name = ""%string | Callback _ => True end) ->
  acts A l no_script (Mach p []) = Ok (s, m) ->
  m_py m = p /\ forall e, In e (m_log m) -> exists path, e = ELoad path "".
Proof.
  intros P A p l s m H.
  assert (G : forall l s0 m0, (forall a, In a l -> match a with Load _ name => name = ""%string | Callback _ => True end) ->
    s_name s0 = ""%string -> s_module s0 = None -> s_hooks s0 = map (fun _ => None) callbacks ->
    m_py m0 = p -> (forall e, In e (m_log m0) -> exists path, e = ELoad path ""%string) ->
    acts A l s0 m0 = Ok (s, m) -> m_py m = p /\ forall e, In e (m_log m) -> exists path, e = ELoad path ""%string).
  { clear l H. induction l as [|a l IH]; intros s0 m0 H N M K Y L E; cbn [acts] in E.
    - injection E as <- <-. split; trivial.
    - apply obind_Ok_inv in E as ([s1 m1] & E1 & E). cbn [fst snd] in E.
      assert (H' := H a (in_eq _ _)).
      destruct a as [path name|k]; cbn [act] in E1.
      + subst name. unfold load, construct in E1. cbn [String.eqb obind fst snd] in E1.
        rewrite swap_scripting_is in E1 by (rewrite K; reflexivity).
        injection E1 as <- <-. apply IH in E; trivial.
        * intros b J. apply H. right. exact J.
        * rewrite destroy_scripting_py. exact Y.
        * unfold destroy_scripting. rewrite M, K. cbn [callbacks map fold_right destroy say m_log].
          intros e [<-|J]; [exists path; reflexivity|apply L, J].
      + apply obind_Ok_inv in E1 as (m2 & E2 & E1). injection E1 as <- <-.
        unfold callback in E2. rewrite N in E2. injection E2 as <-. apply IH in E; trivial.
        intros b J. apply H. right. exact J. }
  intros E. eapply G; [exact H| | | | | |exact E]; try reflexivity. intros e [].
Qed.
Print Assumptions C73_no_script.

(* A script in the directory of its scene, whose path has no quote, backslash or line break, is the one that runs: its
   callbacks are fresh objects made by running the file as it is now. The search path is as before. *)
Theorem C73_script_of_the_scene : forall fs path name l p log s,
  sound_py p -> plain path -> name <> ""%string -> fs path name = Some (Some l) ->
  List.length (s_hooks s) = List.length callbacks ->
  (forall n, In n callbacks -> binding l n <> Some false) ->
  assoc name (p_mods p) = None ->
  exists s' m', load (python fs) path name s (Mach p log) = Ok (s', m') /\
    p_path (m_py m') = p_path p /\ s_name s' = name /\ s_path s' = path /\
    forall k n, nth_error callbacks k = Some n ->
      match binding l n with
      | Some _ => exists f, nth k (s_hooks s') None = Some f /\ (p_next p <= f)%nat
      | None => nth k (s_hooks s') None = None
      end.
Proof.
  intros fs path name l p log s S Q N F L B M.
  assert (Z : forall n, kept p name n = None) by (intros n; unfold kept; rewrite M; reflexivity).
  destruct (load_python fs path name l p log s S Q N F L B) as (s' & m' & E & H1 & H2 & H3 & H4).
  { intros n f _ _ K. rewrite Z in K. discriminate. }
  exists s', m'. repeat split; trivial. intros k n K. specialize (H4 k n K). rewrite Z in H4. exact H4.
Qed.
Print Assumptions C73_script_of_the_scene.

(* The same for a module loaded before, except that what the file no longer defines is still there. *)
Theorem C73_script_again : forall fs path name l p log s o,
  sound_py p -> plain path -> name <> ""%string -> fs path name = Some (Some l) ->
  List.length (s_hooks s) = List.length callbacks ->
  assoc name (p_mods p) = Some o ->
  (forall n, In n callbacks -> binding l n <> Some false) ->
  (forall n f, In n callbacks -> binding l n = None -> assoc n (p_dict p o) = Some f -> p_call p f = true) ->
  exists s' m', load (python fs) path name s (Mach p log) = Ok (s', m') /\
    p_path (m_py m') = p_path p /\
    forall k n, nth_error callbacks k = Some n ->
      match binding l n with
      | Some _ => exists f, nth k (s_hooks s') None = Some f /\ (p_next p <= f)%nat
      | None => nth k (s_hooks s') None = assoc n (p_dict p o)
      end.
Proof.
  intros fs path name l p log s o S Q N F L M B K.
  assert (Z : forall n, kept p name n = assoc n (p_dict p o)) by (intros n; unfold kept; rewrite M; reflexivity).
  destruct (load_python fs path name l p log s S Q N F L B) as (s' & m' & E & H1 & H2 & H3 & H4).
  { intros n f. rewrite Z. apply K. }
  exists s', m'. repeat split; trivial. intros k n J. specialize (H4 k n J). rewrite Z in H4. exact H4.
Qed.
Print Assumptions C73_script_again.

(* A callback name that is bound to something else than a function is refused. *)
Theorem C73_not_callable : forall fs path name l p log s n,
  sound_py p -> plain path -> name <> ""%string -> fs path name = Some (Some l) -> In n callbacks -> binding l n = Some false ->
  load (python fs) path name s (Mach p log) = Exit.
Proof. exact load_not_callable. Qed.
Print Assumptions C73_not_callable.

(* ---------- findings ---------- *)
Definition fresh_py : py := Py ["/usr/lib"%string] [] (fun _ => []) (fun _ => false) 0.
(* two directories with a script each, called "script" *)
Definition two_scenes : files := fun d n =>
  if String.eqb n "script" then
    if String.eqb d "/a" then Some (Some [("startOfStep", true); ("endOfStep", true)]%string)
    else if String.eqb d "/b" then Some (Some [("startOfStep", true)]%string)
    else if String.eqb d "/it's" then Some (Some [("startOfStep", true)]%string)
    else None
  else None.
Lemma fresh_sound : sound_py fresh_py.
Proof. split; intros; discriminate. Qed.
(* non-vacuity: opening the scene in /a, two callbacks, and the scene in /b *)
Example C73_session : exists s m, acts (python two_scenes) [Load "/a" "script"; Callback 2; Callback 3; Load "/b" "script"; Callback 2] no_script (Mach fresh_py []) = Ok (s, m)
  /\ s_module s = Some 0%nat /\ nth 2 (s_hooks s) None = Some 7%nat /\ p_path (m_py m) = ["/usr/lib"%string].
Proof. do 2 eexists. split; [vm_compute; reflexivity|]. repeat split. Qed.
Example C73_plain : plain "/a" /\ binding [("startOfStep", true); ("endOfStep", true)]%string "endOfStep" = Some true.
Proof. split; [cbn [plain]; repeat split; discriminate|reflexivity]. Qed.

(* the module is never released: one reference more for every scene opened *)
Theorem C73_leak_refuted : exists s m, acts (python two_scenes) [Load "/a" "script"; Load "/b" "script"] no_script (Mach fresh_py []) = Ok (s, m)
  /\ held (m_log (gui_exit s m)) 0 = 2.
Proof. do 2 eexists. split; [vm_compute; reflexivity|]. vm_compute. reflexivity. Qed.
Print Assumptions C73_leak_refuted.
(* every command line run with a script releases objects of an interpreter that is already shut down *)
Theorem C73_cli_exit_refuted : exists s m, acts (python two_scenes) [Load "/a" "script"; Callback 0] no_script (Mach fresh_py []) = Ok (s, m)
  /\ ~ in_time (m_log (cli_exit s m)).
Proof.
  do 2 eexists. split; [vm_compute; reflexivity|]. cbn. intros H. decompose [and] H.
  match goal with K : _ -> exists p n, EDrop _ = ELoad p n |- _ => destruct K as (a & b & C); [repeat (first [left; reflexivity | right])|discriminate] end.
Qed.
Print Assumptions C73_cli_exit_refuted.
(* a callback of a script opened before runs although the present script does not have it *)
Theorem C73_old_callback_refuted : exists s m, acts (python two_scenes) [Load "/a" "script"; Load "/b" "script"] no_script (Mach fresh_py []) = Ok (s, m)
  /\ s_path s = "/b"%string /\ two_scenes "/b" "script" = Some (Some [("startOfStep", true)]%string)
  /\ nth_error callbacks 3 = Some "endOfStep"%string /\ nth 3 (s_hooks s) None <> None.
Proof. do 2 eexists. split; [vm_compute; reflexivity|]. repeat split. discriminate. Qed.
Print Assumptions C73_old_callback_refuted.
(* a directory with an apostrophe in its name cannot hold a script *)
Theorem C73_apostrophe_refuted : two_scenes "/it's" "script" <> None /\
  load (python two_scenes) "/it's" "script" no_script (Mach fresh_py []) = Exit.
Proof. split; [discriminate|]. vm_compute. reflexivity. Qed.
Print Assumptions C73_apostrophe_refuted.

(* Moving and swapping Python objects, whatever they and all other objects of the program hold: each reference the
   program has is still held by exactly one object, and a reference that is overwritten is given back. *)
Theorem C73_moves : forall P this other rest (m : @mach P),
  owned (m_log m) -> (forall o, held (m_log m) o = count (this :: other :: rest) o) ->
  (let '(this', other', m') := move_assign this other m in
   this' = other /\ owned (m_log m') /\ forall o, held (m_log m') o = count (this' :: other' :: rest) o) /\
  (let '(this', other', m') := swap_handles this other m in
   this' = other /\ other' = this /\ owned (m_log m') /\ forall o, held (m_log m') o = count (this' :: other' :: rest) o) /\
  (let '(new, this') := move_construct this in
   new = this /\ forall o, held (m_log m) o = count (new :: this' :: other :: rest) o).
Proof.
  intros P this other rest m OW H.
  split; [|split].
  - cbn [move_assign]. split; [reflexivity|]. destruct this as [x|]; cbn [destroy say m_log].
    + split.
      * cbn [owned works_on]. split; [exact OW|]. intros o E. injection E as <-. rewrite H. apply (Z.lt_le_trans 0 1); [reflexivity|]. apply count_in, in_eq.
      * intros o. cbn [held change_of]. rewrite H. cbn [count one]. lia.
    + split; [exact OW|]. intros o. rewrite H. cbn [count one]. lia.
  - unfold swap_handles. cbn [move_construct move_assign destroy]. split; [reflexivity|]. split; [reflexivity|].
    split; [exact OW|]. intros o. rewrite H. cbn [count]. lia.
  - cbn [move_construct]. split; [reflexivity|]. intros o. rewrite H. cbn [count one]. lia.
Qed.
Print Assumptions C73_moves.
Example C73_moves_nonvacuous :
  let log := [EImport "a" (Some 1%nat); EImport "b" (Some 2%nat)] in
  owned log /\ forall o, held log o = count [Some 2%nat; Some 1%nat] o.
Proof. split; [cbn; repeat split; intros; discriminate|]. intros o. cbn [held change_of count]. lia. Qed.

(* Looking up a function again gives back the one that was held before. *)
Theorem C73_function_again : forall P (A : pyapi P) fname o old rest m h m',
  owned (m_log m) -> (forall x, held (m_log m) x = count (old :: rest) x) -> In (Some o) rest ->
  load_function A fname o old m = Ok (h, m') ->
  owned (m_log m') /\ forall x, held (m_log m') x = count (h :: rest) x.
Proof.
  intros P A fname o old rest m h m' OW H K E. unfold load_function in E.
  destruct (get_attr A o fname (m_py m)) as [r p]. cbn [m_py m_log] in E.
  assert (O1 : owned (EAttr o fname r :: m_log m)).
  { cbn [owned works_on]. split; [exact OW|]. intros x X. injection X as <-. rewrite H.
    apply (Z.lt_le_trans 0 1); [reflexivity|]. apply count_in, in_cons, K. }
  assert (H1 : forall x, held (EAttr o fname r :: m_log m) x = count (r :: old :: rest) x).
  { intros x. cbn [held change_of]. rewrite H. cbn [count]. lia. }
  apply obind_Ok_inv in E as (m1 & E1 & E). rewrite swap_handles_is in E. injection E as <- <-.
  assert (I : owned (m_log m1) /\ forall x, held (m_log m1) x = count (r :: old :: rest) x).
  { destruct r as [f|]; [|injection E1 as <-; split; assumption].
    destruct (is_callable A f p); [|discriminate]. injection E1 as <-. cbn [say m_log]. split.
    - split; [exact O1|]. intros x X. cbn [works_on] in X. injection X as <-. rewrite H1.
      apply (Z.lt_le_trans 0 1); [reflexivity|]. apply count_in, in_eq.
    - intros x. change (held (EAttr o fname (Some f) :: m_log m) x + 0 = count (Some f :: old :: rest) x). rewrite Z.add_0_r. apply H1. }
  destruct I as [O2 H2]. destruct old as [y|]; cbn [destroy say m_log].
  - split.
    + split; [exact O2|]. intros x X. cbn [works_on] in X. injection X as <-. rewrite H2.
      apply (Z.lt_le_trans 0 1); [reflexivity|]. apply count_in, in_cons, in_eq.
    + intros x. cbn [held change_of]. rewrite H2. cbn [count]. lia.
  - split; [exact O2|]. intros x. rewrite H2. cbn [count one]. lia.
Qed.
Print Assumptions C73_function_again.
Example C73_function_again_nonvacuous : exists h m',
  load_function (python two_scenes) "startOfStep" 1 (Some 2%nat) (Mach fresh_py [EImport "script" (Some 1%nat); EImport "f" (Some 2%nat)]) = Ok (h, m') /\
  held (m_log m') 2%nat = 0 /\ held (m_log m') 1%nat = 1.
Proof. do 2 eexists. split; [vm_compute; reflexivity|]. split; vm_compute; reflexivity. Qed.
