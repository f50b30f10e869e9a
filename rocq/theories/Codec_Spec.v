(* What a serialiser / deserialiser pair has to satisfy, and which values are representable. *)
From Coq Require Import ZArith NArith List.
From Verif Require Import Outcome Codec_Model.
Import ListNotations.
Open Scope N_scope.

(* Reading back what was written returns it and consumes exactly those bytes, whatever follows. *)
Definition round_trip {A} (p : parser A) (bs : bytes) (a : A) : Prop :=
  forall rest, p (bs ++ rest) = Ok (a, rest).

(* Cut anywhere before its end, the data cannot be read: the reader runs off the end. *)
Definition cut_detected {A} (p : parser A) (bs : bytes) : Prop :=
  forall front back, bs = front ++ back -> back <> [] -> p front = UB.

Definition reads {A} (p : parser A) (bs : bytes) (a : A) : Prop :=
  round_trip p bs a /\ cut_detected p bs.

(* Ranges of the C++ types *)
Definition u8 (n : N) : Prop := n < 2 ^ 8.
Definition u32 (n : N) : Prop := n < 2 ^ 32.
Definition u64 (n : N) : Prop := n < 2 ^ 64.
(* a container whose size fits its size type *)
Definition sized {A} (l : list A) : Prop := N.of_nat (List.length l) < 2 ^ 64.

Definition ok_string (s : bstring) : Prop := sized s /\ Forall u8 s.
Definition ok_fix (k : nat) (l : list scalar) : Prop := List.length l = k /\ Forall u64 l.
Definition ok_fix32 (k : nat) (l : list N) : Prop := List.length l = k /\ Forall u32 l.
Definition ok_vecx (l : list scalar) : Prop := sized l /\ Forall u64 l.
Definition ok_vecxu (l : list N) : Prop := sized l /\ Forall u32 l.
Definition ok_vec {A} (P : A -> Prop) (l : list A) : Prop := sized l /\ Forall P l.
(* a compressed column matrix: as many inner indices as values, one outer index per column plus one *)
Definition ok_sparse (a : sparse) : Prop :=
  u64 (sp_rows a) /\ u64 (sp_cols a) /\ sized (sp_vals a) /\
  List.length (sp_inner a) = List.length (sp_vals a) /\
  N.of_nat (List.length (sp_outer a)) = sp_cols a + 1 /\
  Forall u32 (sp_inner a) /\ Forall u32 (sp_outer a) /\ Forall u64 (sp_vals a).

Definition key_lt (a b : key) : Prop := fst a < fst b \/ (fst a = fst b /\ snd a < snd b).
(* a std::map: keys strictly increasing *)
Fixpoint sorted_keys {V} (m : kmap V) : Prop :=
  match m with
  | [] => True
  | (k, _) :: m' => Forall (fun e => key_lt k (fst e)) m' /\ sorted_keys m'
  end.
Definition ok_entry (e : key * list scalar) : Prop :=
  u32 (fst (fst e)) /\ u32 (snd (fst e)) /\ ok_vecx (snd e).
Definition ok_cache (m : kmap (list scalar)) : Prop :=
  N.of_nat (List.length m) < 2 ^ 32 /\ Forall ok_entry m /\ sorted_keys m.
