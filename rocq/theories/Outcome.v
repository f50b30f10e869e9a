(* Common outcome type: how a C++ call can end.

   [Ok a]   the call returned [a];
   [Exit]   the program terminated itself (std::exit, error return reported by main);
   [UB]     the call performed an operation whose behaviour C++ leaves undefined
            (signed overflow, out-of-range index, reading past the end of a stream and using
             the uninitialised value, non-finite float to int cast, ...). *)
From Coq Require Import List ZArith Lia Bool.
Import ListNotations.

Inductive outcome (A : Type) : Type :=
| Ok (a : A)
| Exit
| UB.
Arguments Ok {A} a.
Arguments Exit {A}.
Arguments UB {A}.

Definition obind {A B} (x : outcome A) (f : A -> outcome B) : outcome B :=
  match x with
  | Ok a => f a
  | Exit => Exit
  | UB => UB
  end.

Definition omap {A B} (f : A -> B) (x : outcome A) : outcome B :=
  obind x (fun a => Ok (f a)).

Declare Scope outcome_scope.
Delimit Scope outcome_scope with outcome.
Notation "'let!' x ':=' e 'in' f" := (obind e (fun x => f))
  (at level 200, x pattern, e at level 100, f at level 200, right associativity) : outcome_scope.
Open Scope outcome_scope.

Lemma obind_Ok_inv {A B} (x : outcome A) (f : A -> outcome B) b :
  obind x f = Ok b -> exists a, x = Ok a /\ f a = Ok b.
Proof. destruct x; simpl; intros H; try discriminate; eauto. Qed.

Lemma obind_assoc {A B C} (x : outcome A) (f : A -> outcome B) (g : B -> outcome C) :
  obind (obind x f) g = obind x (fun a => obind (f a) g).
Proof. destruct x; reflexivity. Qed.

Ltac oinv H :=
  match type of H with
  | obind _ _ = Ok _ =>
      let a := fresh "a" in let H1 := fresh "H" in let H2 := fresh "H" in
      apply obind_Ok_inv in H; destruct H as [a [H1 H2]]
  end.

(* Fold a fallible step over a list, left to right. *)
Fixpoint ofold {A B} (f : B -> A -> outcome B) (l : list A) (b : B) : outcome B :=
  match l with
  | [] => Ok b
  | x :: xs => let! b' := f b x in ofold f xs b'
  end.

Fixpoint omapM {A B} (f : A -> outcome B) (l : list A) : outcome (list B) :=
  match l with
  | [] => Ok []
  | x :: xs => let! y := f x in let! ys := omapM f xs in Ok (y :: ys)
  end.

Lemma ofold_app {A B} (f : B -> A -> outcome B) l1 l2 b :
  ofold f (l1 ++ l2) b = obind (ofold f l1 b) (ofold f l2).
Proof.
  revert b; induction l1 as [|x xs IH]; intros b; simpl; [reflexivity|].
  destruct (f b x); simpl; auto.
Qed.
