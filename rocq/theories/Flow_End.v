(* The end-of-simulation hook runs exactly once, at the end of a run that completes. *)
From Coq Require Import List NArith Bool Lia.
From Verif Require Import Outcome Codec_Model SnapBall_Model Config_Model Cli_Model.
Import ListNotations.
Open Scope N_scope.

Section End.
  Context {S : Type}.
  Variable with_imap hdf5 : bool.
  Variable enc : sys S -> outcome bytes.
  Variable flow_free flow_impact : sys S -> outcome S.
  Variable flow_friction : sys S -> outcome (S * ifmap).
  Variable time_reached : N -> N -> N -> scalar -> bool.
  Notation export := (Cli_Model.export hdf5 enc).
  Notation step := (Cli_Model.step with_imap hdf5 enc flow_free flow_impact flow_friction).
  Notation loop := (Cli_Model.loop with_imap hdf5 enc flow_free flow_impact flow_friction time_reached).
  Notation exec := (Cli_Model.exec with_imap hdf5 enc flow_free flow_impact flow_friction time_reached).
  Definition is_end (e : event S) : Prop := match e with EEndOfSim _ => True | _ => False end.
  Definition no_end (l : list (event S)) : Prop := forall x, In x l -> ~ is_end x.
  Lemma no_end_app : forall a b, no_end a -> no_end b -> no_end (a ++ b).
  Proof. intros a b Ha Hb x Hx. apply in_app_or in Hx. destruct Hx; [apply Ha|apply Hb]; assumption. Qed.
  Lemma no_end_nil : no_end [].
  Proof. intros x []. Qed.
  Lemma no_end_one : forall x, ~ is_end x -> no_end [x].
  Proof. intros x Hx y [<-|[]]. exact Hx. Qed.
  Lemma export_no_end : forall y ev r, export y = (ev, r) -> no_end ev.
  Proof.
    intros y ev r H. unfold Cli_Model.export in H. destruct (y_steps y =? 0); [inversion H; apply no_end_nil|]. destruct (y_iter y mod y_steps y =? 0); [|inversion H; apply no_end_nil].
    set (e1 := if (hdf5 && _)%bool then _ else _) in H. assert (E1 : no_end e1) by (unfold e1; destruct (hdf5 && _)%bool; [apply no_end_one; exact (fun x => x)|apply no_end_nil]).
    destruct (y_ser y); [destruct (enc y)|]; inversion H; subst; try exact E1. apply no_end_app; [exact E1|apply no_end_one; exact (fun x => x)].
  Qed.
  Lemma step_no_end : forall y ev r, step y = (ev, r) -> no_end ev.
  Proof.
    intros y ev r H. unfold Cli_Model.step in H. destruct (hdf5 && y_forces y && (y_steps y =? 0))%bool; [inversion H; apply no_end_nil|].
    set (e1 := if (_ && _ && _)%bool then _ else _) in H. assert (E1 : no_end e1) by (unfold e1; destruct (_ && _ && _)%bool; [apply no_end_one; exact (fun x => x)|apply no_end_nil]).
    destruct (dispatch _ _ _ _ _) as [[s m]| |]; [|inversion H; subst; exact E1..]. destruct (export _) as [e2 r2] eqn:Ex. inversion H; subst. apply no_end_app; [exact E1|eapply export_no_end; exact Ex].
  Qed.
  Lemma loop_end : forall fuel y ev st, loop fuel y = (ev, st) ->
    (st = SDone -> exists pre s, ev = pre ++ [EEndOfSim s] /\ no_end pre) /\ (st <> SDone -> no_end ev).
  Proof.
    induction fuel as [|k IH]; intros y ev st H; cbn [Cli_Model.loop] in H; [inversion H; split; [discriminate|intros _; apply no_end_nil]|]. destruct (finished time_reached y).
    - destruct (hdf5 && y_forces y)%bool.
      + destruct (step y) as [e1 [y1| |]] eqn:Es; inversion H; subst; apply step_no_end in Es; (split; [|intro Z; first [exact Es|congruence]]); try discriminate.
        intros _. eexists; eexists; split; [reflexivity|exact Es].
      + inversion H; subst. split; [intros _; exists []; eexists; split; [reflexivity|apply no_end_nil]|congruence].
    - destruct (step y) as [e1 [y1| |]] eqn:Es; [|inversion H; subst; apply step_no_end in Es; split; [discriminate|intros _; exact Es]..].
      destruct (loop k y1) as [e2 s2] eqn:L. inversion H; subst. destruct (IH _ _ _ L) as [I1 I2]. apply step_no_end in Es. split.
      + intro Z. destruct (I1 Z) as (pre & s & -> & N). exists (e1 ++ pre), s. split; [rewrite app_assoc; reflexivity|apply no_end_app; assumption].
      + intro Z. apply no_end_app; [exact Es|exact (I2 Z)].
  Qed.
  Theorem exec_end : forall fuel y ev st, exec fuel y = (ev, st) ->
    (st = SDone -> exists pre s, ev = pre ++ [EEndOfSim s] /\ no_end pre) /\ (st <> SDone -> no_end ev).
  Proof.
    intros fuel y ev st H. unfold Cli_Model.exec in H. destruct (export y) as [e1 [y1| |]] eqn:Es; [|inversion H; subst; apply export_no_end in Es; split; [discriminate|intros _; exact Es]..].
    destruct (loop fuel y1) as [e2 s2] eqn:L. inversion H; subst. apply export_no_end in Es. destruct (loop_end _ _ _ _ L) as [I1 I2]. split.
    + intro Z. destruct (I1 Z) as (pre & s & -> & N). exists (e1 ++ pre), s. split; [rewrite app_assoc; reflexivity|apply no_end_app; assumption].
    + intro Z. apply no_end_app; [exact Es|exact (I2 Z)].
  Qed.
End End.
