(* What it means for a program to treat the interpreter properly, read off the log of the calls it made (newest
   first). *)
From Coq Require Import List String Ascii ZArith.
From Verif Require Import Py_Model.
Import ListNotations.
Open Scope Z_scope.

Definition one (h : handle) (o : nat) : Z := match h with Some x => if Nat.eqb x o then 1 else 0 | None => 0 end.
(* how an event changes the number of references to o that the program must give back *)
Definition change_of (e : ev) (o : nat) : Z :=
  match e with
  | EImport _ r | EReload _ r | EAttr _ _ r | ECall _ r => one r o
  | EDrop x => - one (Some x) o
  | _ => 0
  end.
Fixpoint held (log : list ev) (o : nat) : Z :=
  match log with [] => 0 | e :: log => held log o + change_of e o end.
(* the object an event works on *)
Definition works_on (e : ev) : handle :=
  match e with EReload o _ | EAttr o _ _ | ECallable o | ECall o _ | EDrop o => Some o | _ => None end.
(* nothing is used or given back that the program does not hold at that moment *)
Fixpoint owned (log : list ev) : Prop :=
  match log with
  | [] => True
  | e :: log => owned log /\ (forall o, works_on e = Some o -> 0 < held log o)
  end.
(* nothing is asked of the interpreter once it is shut down *)
Fixpoint in_time (log : list ev) : Prop :=
  match log with
  | [] => True
  | e :: log => in_time log /\ (In EFinalize log -> exists p n, e = ELoad p n)
  end.
(* the number of references a scripting object holds *)
Fixpoint count (l : list handle) (o : nat) : Z := match l with [] => 0 | h :: l => one h o + count l o end.
Definition members (s : scripting) (o : nat) : Z := count (s_module s :: s_hooks s) o.
(* the number of times o was returned by a reload *)
Fixpoint reloads (log : list ev) (o : nat) : Z :=
  match log with
  | [] => 0
  | EReload _ r :: log => one r o + reloads log o
  | _ :: log => reloads log o
  end.

(* the function the script loaded last has under a name, if any: the answer to the last look-up since it was loaded *)
Fixpoint hook (log : list ev) (fname : string) : handle :=
  match log with
  | [] => None
  | ELoad _ _ :: _ => None
  | EAttr _ n r :: log => if String.eqb n fname then r else hook log fname
  | _ :: log => hook log fname
  end.

(* a path that means the same between single quotes *)
Fixpoint plain (s : string) : Prop :=
  match s with
  | EmptyString => True
  | String c s => c <> "'"%char /\ c <> "\"%char /\ c <> "010"%char /\ plain s
  end.
(* the last thing a list of bindings says about a name: None if it does not bind it *)
Fixpoint binding (l : list (string * bool)) (n : string) : option bool :=
  match l with
  | [] => None
  | (k, c) :: l => match binding l n with Some b => Some b | None => if String.eqb k n then Some c else None end
  end.
(* interpreters whose parts fit together *)
Definition sound_py (p : py) : Prop :=
  (forall n o, assoc n (p_mods p) = Some o -> (o < p_next p)%nat /\ name_of o (p_mods p) = Some n) /\
  (forall o n f, assoc n (p_dict p o) = Some f -> (f < p_next p)%nat).
