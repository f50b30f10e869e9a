From Coq Require Import List String Ascii ZArith Arith Lia Bool.
From Verif Require Import Outcome Py_Model Py_Spec.
Import ListNotations.
Open Scope Z_scope.

Lemma one_nonneg : forall h o, 0 <= one h o.
Proof. intros [x|] o; cbn [one]; [destruct (Nat.eqb x o)|]; lia. Qed.
Lemma one_self : forall o, one (Some o) o = 1.
Proof. intros o. cbn [one]. rewrite Nat.eqb_refl. reflexivity. Qed.
Lemma count_nonneg : forall l o, 0 <= count l o.
Proof. induction l as [|h l IH]; intros o; cbn [count]; [lia|]. pose proof (one_nonneg h o). specialize (IH o). lia. Qed.
Lemma count_app : forall a b o, count (a ++ b) o = count a o + count b o.
Proof. induction a as [|h a IH]; intros b o; cbn [app count]; [lia|]. rewrite IH. lia. Qed.
Lemma count_none : forall (l : list string) o, count (map (fun _ => None) l) o = 0.
Proof. induction l as [|h l IH]; intros o; cbn [map count one]; [lia|]. rewrite IH. lia. Qed.
Lemma count_in : forall l o, In (Some o) l -> 1 <= count l o.
Proof.
  induction l as [|h l IH]; intros o [].
  - subst h. cbn [count]. rewrite one_self. pose proof (count_nonneg l o). lia.
  - cbn [count]. specialize (IH o H). pose proof (one_nonneg h o). lia.
Qed.
Lemma reloads_nonneg : forall l o, 0 <= reloads l o.
Proof.
  induction l as [|e l IH]; intros o; cbn [reloads]; [lia|].
  specialize (IH o). destruct e; try lia. pose proof (one_nonneg r o). lia.
Qed.

Section Any.
Context {P : Type}.
Variable A : pyapi P.

(* the program holds exactly the references in hs, beside the ones it forgot, and the interpreter is up *)
Definition Inv (hs : list handle) (log : list ev) : Prop :=
  owned log /\ ~ In EFinalize log /\ in_time log /\ forall o, held log o = count hs o + reloads log o.

Lemma inv_held : forall hs log o, Inv hs log -> In (Some o) hs -> 0 < held log o.
Proof.
  intros hs log o (_ & _ & _ & H) K. rewrite H. apply count_in in K. pose proof (reloads_nonneg log o). lia.
Qed.
Lemma inv_same : forall hs hs' log, (forall o, count hs o = count hs' o) -> Inv hs log -> Inv hs' log.
Proof. intros hs hs' log E (H1 & H2 & H3 & H4). repeat split; trivial. intros o. rewrite <- E. apply H4. Qed.

Lemma inv_step : forall hs hs' log e,
  Inv hs log -> e <> EFinalize -> (forall o, works_on e = Some o -> 0 < held log o) ->
  (forall o, count hs o + change_of e o + reloads log o = count hs' o + reloads (e :: log) o) ->
  Inv hs' (e :: log).
Proof.
  intros hs hs' log e (H1 & H2 & H3 & H4) N W C. unfold Inv. cbn [owned in_time held].
  repeat split; trivial.
  - intros [K|K]; [congruence|contradiction].
  - intros K. contradiction.
  - intros o. rewrite H4, <- C. lia.
Qed.

Lemma destroy_inv : forall h hs (m : @mach P), Inv (h :: hs) (m_log m) -> Inv hs (m_log (destroy h m)).
Proof.
  intros [o|] hs m H; cbn [destroy say m_log].
  - eapply inv_step; [exact H|discriminate| |].
    + intros x E. cbn [works_on] in E. injection E as <-. eapply inv_held; [exact H|]. apply in_eq.
    + intros x. cbn [count change_of reloads]. lia.
  - eapply inv_same; [|exact H]. intros o. cbn [count one]. lia.
Qed.
Lemma destroy_hook : forall h (m : @mach P) n, hook (m_log (destroy h m)) n = hook (m_log m) n.
Proof. intros [o|] m n; reflexivity. Qed.

Lemma swap_handles_is : forall a b (m : @mach P), swap_handles a b m = (b, a, m).
Proof. reflexivity. Qed.
Lemma swap_all_is : forall a b (m : @mach P), List.length a = List.length b -> swap_all a b m = (b, a, m).
Proof.
  induction a as [|x a IH]; intros [|y b] m E; try discriminate; cbn [swap_all]; [reflexivity|].
  rewrite swap_handles_is. rewrite IH by (injection E; trivial). reflexivity.
Qed.
Lemma swap_scripting_is : forall a b (m : @mach P), List.length (s_hooks a) = List.length (s_hooks b) -> swap_scripting a b m = (b, a, m).
Proof.
  intros [pa na ma ha] [pb nb mb hb] m E. unfold swap_scripting. cbn [s_module s_hooks s_path s_name] in *.
  rewrite swap_handles_is, swap_all_is by exact E. reflexivity.
Qed.

Lemma python_command_inv : forall c (m m' : @mach P), python_command A c m = Ok m' -> m_log m' = ECmd (c ++ newline) :: m_log m.
Proof.
  intros c m m'. unfold python_command. destruct (run_simple A _ _) as [g p]. destruct g; intros E; [|discriminate].
  injection E as <-. reflexivity.
Qed.
Lemma cmd_inv : forall hs log c, Inv hs log -> Inv hs (ECmd c :: log).
Proof.
  intros hs log c H. eapply inv_step; [exact H|discriminate|discriminate|].
  intros o. cbn [change_of reloads]. lia.
Qed.

Lemma load_module_log : forall path name m h m',
  load_module A path name None m = Ok (h, m') ->
  exists o r, h = Some o /\
    m_log m' = ECmd ("sys.path.pop( 0 )" ++ newline) :: EReload o (Some r) :: EImport name (Some o)
               :: ECmd (("sys.path.insert( 0, '" ++ path ++ "' )") ++ newline) :: m_log m.
Proof.
  intros path name m h m' E. unfold load_module in E.
  apply obind_Ok_inv in E as (m1 & E1 & E). apply python_command_inv in E1.
  destruct (import_module A name (m_py m1)) as [r p]. cbn [move_assign destroy] in E.
  destruct r as [o|]; [|discriminate].
  cbn [m_py m_log] in E. destruct (reload_module A o p) as [r p'].
  destruct r as [r|]; [|discriminate].
  apply obind_Ok_inv in E as (m2 & E2 & E). apply python_command_inv in E2.
  injection E as <- <-. exists o, r. split; [reflexivity|]. rewrite E2. cbn [m_log]. rewrite E1. reflexivity.
Qed.
Lemma load_module_inv : forall path name m h m' hs,
  load_module A path name None m = Ok (h, m') -> Inv hs (m_log m) ->
  exists o, h = Some o /\ Inv (Some o :: hs) (m_log m') /\ forall n, hook (m_log m') n = hook (m_log m) n.
Proof.
  intros path name m h m' hs E H. apply load_module_log in E as (o & r & -> & L).
  exists o. split; [reflexivity|]. rewrite L. split; [|reflexivity].
  apply cmd_inv.
  assert (I : Inv (Some o :: hs) (EImport name (Some o) :: ECmd (("sys.path.insert( 0, '" ++ path ++ "' )") ++ newline) :: m_log m)).
  { apply inv_step with (hs := hs); [apply cmd_inv, H|discriminate|discriminate|].
    intros x. cbn [change_of reloads count]. lia. }
  eapply inv_step; [exact I|discriminate| |].
  - intros x E. cbn [works_on] in E. injection E as <-. eapply inv_held; [exact I|apply in_eq].
  - intros x. cbn [change_of reloads count]. lia.
Qed.

Lemma load_function_inv : forall fname o m h m' hs,
  load_function A fname o None m = Ok (h, m') -> Inv hs (m_log m) -> In (Some o) hs ->
  Inv (h :: hs) (m_log m') /\
  (forall n, hook (m_log m') n = if String.eqb fname n then h else hook (m_log m) n).
Proof.
  intros fname o m h m' hs E H K. unfold load_function in E.
  destruct (get_attr A o fname (m_py m)) as [r p]. cbn [m_py m_log] in E.
  assert (I : Inv (r :: hs) (EAttr o fname r :: m_log m)).
  { eapply inv_step; [exact H|discriminate| |].
    - intros x E'. cbn [works_on] in E'. injection E' as <-. eapply inv_held; eassumption.
    - intros x. cbn [change_of reloads count]. lia. }
  apply obind_Ok_inv in E as (m1 & E1 & E). rewrite swap_handles_is in E. cbn [destroy] in E. injection E as <- <-.
  destruct r as [f|].
  - destruct (is_callable A f p); [|discriminate]. injection E1 as <-. cbn [say m_log hook]. split.
    + eapply inv_step; [exact I|discriminate| |].
      * intros x E'. cbn [works_on] in E'. injection E' as <-. eapply inv_held; [exact I|apply in_eq].
      * intros x. cbn [change_of reloads count]. lia.
    + intros n. reflexivity.
  - injection E1 as <-. cbn [m_log hook]. split; [exact I|reflexivity].
Qed.

Lemma load_functions_inv : forall names o m rs m' hs,
  load_functions A names o (map (fun _ => None) names) m = Ok (rs, m') -> Inv hs (m_log m) -> In (Some o) hs ->
  NoDup names ->
  List.length rs = List.length names /\ Inv (rs ++ hs) (m_log m') /\
  rs = map (hook (m_log m')) names /\ (forall n, ~ In n names -> hook (m_log m') n = hook (m_log m) n).
Proof.
  induction names as [|n names IH]; intros o m rs m' hs E H K D.
  - cbn in E. injection E as <- <-. split; [reflexivity|]. split; [exact H|]. split; reflexivity.
  - cbn [map load_functions] in E. apply obind_Ok_inv in E as ([h m1] & E1 & E).
    apply obind_Ok_inv in E as ([rs1 m2] & E2 & E). cbn [fst snd] in *. injection E as <- <-.
    apply load_function_inv with (hs := hs) in E1 as [I1 K1]; trivial.
    inversion_clear D as [|? ? D1 D2].
    apply IH with (hs := h :: hs) in E2 as (L & I2 & M & N); [|exact I1|right; exact K|exact D2].
    split; [|split; [|split]].
    + cbn [List.length]. rewrite L. reflexivity.
    + eapply inv_same; [|exact I2]. intros x. cbn [app count]. rewrite !count_app. cbn [count]. lia.
    + cbn [map]. f_equal; [|exact M]. rewrite N by exact D1. rewrite K1, String.eqb_refl. reflexivity.
    + intros x X. rewrite N by (intros Y; apply X; right; exact Y). rewrite K1.
      destruct (String.eqb_spec n x) as [->|]; [|reflexivity]. exfalso. apply X. left. reflexivity.
Qed.

Lemma callbacks_nodup : NoDup callbacks.
Proof. unfold callbacks. repeat (constructor; [cbn; intuition discriminate|]). constructor. Qed.

Definition fits (s : scripting) (log : list ev) : Prop :=
  s_hooks s = map (hook log) callbacks.

Lemma construct_inv : forall path name m s m' hs,
  construct A path name m = Ok (s, m') -> Inv hs (m_log m) ->
  Inv (s_module s :: s_hooks s ++ hs) (m_log m') /\ fits s (m_log m') /\ s_path s = path /\ s_name s = name.
Proof.
  intros path name m s m' hs E H. unfold construct in E.
  assert (I : Inv hs (m_log (say (ELoad path name) m))).
  { cbn [say m_log]. eapply inv_step; [exact H|discriminate|discriminate|]. intros x. cbn [change_of reloads]. lia. }
  destruct (String.eqb name "") eqn:N.
  - injection E as <- <-. cbn [s_module s_hooks s_path s_name]. split; [|split; [reflexivity|split; reflexivity]].
    apply inv_same with (hs := hs); [|exact I]. intros x. reflexivity.
  - apply obind_Ok_inv in E as ([h m1] & E1 & E). cbn [fst snd] in E.
    apply load_module_inv with (hs := hs) in E1 as (o & -> & I1 & K1); [|exact I].
    apply obind_Ok_inv in E as ([rs m2] & E2 & E). cbn [fst snd] in E. injection E as <- <-.
    apply load_functions_inv with (hs := Some o :: hs) in E2 as (_ & I2 & M & _);
      [|exact I1|apply in_eq|exact callbacks_nodup].
    cbn [s_module s_hooks s_path s_name]. split; [|split; [exact M|split; reflexivity]].
    eapply inv_same; [|exact I2]. intros x. cbn [count]. rewrite !count_app. cbn [count]. lia.
Qed.

Lemma destroy_all_inv : forall hs' hs (m : @mach P),
  Inv (hs' ++ hs) (m_log m) -> Inv hs (m_log (fold_right destroy m hs')) /\ (forall n, hook (m_log (fold_right destroy m hs')) n = hook (m_log m) n).
Proof.
  induction hs' as [|h hs' IH]; intros hs m H; cbn [fold_right app]; [split; trivial|].
  destruct (IH (h :: hs) m) as [I K].
  { eapply inv_same; [|exact H]. intros x. cbn [app count]. rewrite !count_app. cbn [count]. lia. }
  split; [apply destroy_inv, I|]. intros n. rewrite destroy_hook. apply K.
Qed.
Lemma destroy_scripting_inv : forall s hs (m : @mach P),
  Inv (s_module s :: s_hooks s ++ hs) (m_log m) ->
  Inv hs (m_log (destroy_scripting s m)) /\ forall n, hook (m_log (destroy_scripting s m)) n = hook (m_log m) n.
Proof.
  intros s hs m H. unfold destroy_scripting.
  destruct (destroy_all_inv (s_hooks s) (s_module s :: hs) m) as [I K].
  { eapply inv_same; [|exact H]. intros x. cbn [count]. rewrite !count_app. cbn [count]. lia. }
  split; [apply destroy_inv, I|]. intros n. rewrite destroy_hook. apply K.
Qed.

Definition good (s : scripting) (log : list ev) : Prop :=
  Inv (s_module s :: s_hooks s) log /\ fits s log.

Lemma load_good : forall path name s m s' m',
  load A path name s m = Ok (s', m') -> good s (m_log m) ->
  good s' (m_log m') /\ s_path s' = path /\ s_name s' = name.
Proof.
  intros path name s m s' m' E [H F]. unfold load in E.
  apply obind_Ok_inv in E as ([n m1] & E1 & E). cbn [fst snd] in E.
  apply construct_inv with (hs := s_module s :: s_hooks s) in E1 as (I & F' & Np & Nn); [|exact H].
  rewrite swap_scripting_is in E by (rewrite F, F', !map_length; reflexivity).
  injection E as <- <-.
  destruct (destroy_scripting_inv s (s_module n :: s_hooks n) m1) as [I' K].
  { eapply inv_same; [|exact I]. intros x. cbn [count]. rewrite !count_app. cbn [count]. lia. }
  split; [|split; trivial]. split; [exact I'|]. unfold fits. rewrite F'. apply map_ext. intros x. symmetry. apply K.
Qed.

Lemma callback_log : forall k s m m',
  callback A k s m = Ok m' ->
  (m' = m /\ (s_name s = ""%string \/ nth k (s_hooks s) None = None)) \/
  exists f v, nth k (s_hooks s) None = Some f /\ m_log m' = EDrop v :: ECall f (Some v) :: m_log m.
Proof.
  intros k s m m' E. unfold callback in E. destruct (String.eqb_spec (s_name s) "") as [N|N].
  - injection E as <-. left. split; [reflexivity|]. left. exact N.
  - destruct (nth k (s_hooks s) None) as [f|]; [|injection E as <-; left; split; [reflexivity|right; reflexivity]].
    destruct (call_object A f (m_py m)) as [r p]. destruct r as [v|]; [|discriminate].
    injection E as <-. right. exists f, v. split; reflexivity.
Qed.
Lemma callback_good : forall k s m m',
  callback A k s m = Ok m' -> good s (m_log m) -> good s (m_log m').
Proof.
  intros k s m m' E [H F]. apply callback_log in E as [[-> _]|(f & v & K & L)]; [split; trivial|].
  split; [|unfold fits; rewrite L; exact F]. rewrite L.
  assert (M : In (Some f) (s_module s :: s_hooks s)).
  { right. rewrite <- K. apply nth_In. destruct (Nat.lt_ge_cases k (List.length (s_hooks s))); [trivial|].
    rewrite nth_overflow in K by trivial. discriminate. }
  assert (I : Inv (Some v :: s_module s :: s_hooks s) (ECall f (Some v) :: m_log m)).
  { eapply inv_step; [exact H|discriminate| |].
    - intros x E'. cbn [works_on] in E'. injection E' as <-. eapply inv_held; eassumption.
    - intros x. cbn [change_of reloads count]. lia. }
  exact (destroy_inv (Some v) _ (Mach (m_py m) _) I).
Qed.
Lemma acts_good : forall l s m s' m',
  acts A l s m = Ok (s', m') -> good s (m_log m) -> good s' (m_log m').
Proof.
  induction l as [|a l IH]; intros s m s' m' E H; cbn [acts] in E.
  - injection E as <- <-. exact H.
  - apply obind_Ok_inv in E as ([s1 m1] & E1 & E). cbn [fst snd] in E. apply IH in E; [exact E|].
    destruct a as [path name|k]; cbn [act] in E1.
    + apply load_good in E1; [apply E1|exact H].
    + apply obind_Ok_inv in E1 as (m2 & E2 & E1). injection E1 as <- <-. eapply callback_good; eassumption.
Qed.
Lemma start_good : good no_script [].
Proof.
  split; [|reflexivity]. split; [exact I|]. split; [intros []|]. split; [exact I|].
  intros o. cbn [held reloads no_script s_module s_hooks count one]. rewrite count_none. lia.
Qed.

(* the end of the graphical programs *)
Lemma gui_exit_good : forall s (m : @mach P), good s (m_log m) ->
  let m' := gui_exit s m in
  owned (m_log m') /\ in_time (m_log m') /\ forall o, held (m_log m') o = reloads (m_log m') o.
Proof.
  intros s m [H F]. cbn zeta. unfold gui_exit.
  destruct (destroy_scripting_inv s [] m) as [(H1 & H2 & H3 & H4) _].
  { eapply inv_same; [|exact H]. intros x. rewrite app_nil_r. reflexivity. }
  cbn [say m_log owned in_time held change_of works_on]. repeat split; trivial.
  - discriminate.
  - intros K. contradiction.
  - intros o. rewrite H4. cbn [count reloads]. lia.
Qed.
End Any.
