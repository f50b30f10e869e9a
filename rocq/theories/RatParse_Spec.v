(* The number a piece of text denotes. *)
From Coq Require Import ZArith QArith Ascii String List.
From Verif Require Import Str_Model Str_Spec.
Import ListNotations.

(* sign, integer digits D, fraction digits F:  +-( D + F / 10^|F| ) *)
Definition dec_value (sg : sign) (D F : str) : Q :=
  let m := (inject_Z (digits_val D) + inject_Z (digits_val F) / inject_Z (10 ^ Z.of_nat (List.length F)))%Q in
  match sg with SMinus => (- m)%Q | _ => m end.

(* The text, white space anywhere, is a decimal  [+-]D[.F]  *)
Definition decimal_text (s : str) (sg : sign) (D F : str) : Prop :=
  all_digits D /\ all_digits F /\
  (removeWhiteSpace s = sign_str sg ++ D ++ "."%char :: F \/
   (removeWhiteSpace s = sign_str sg ++ D /\ F = [])).

(* The text, white space anywhere, is a fraction  [+-]P/[+-]Q *)
Definition fraction_text (s : str) (sp : sign) (P : str) (sq : sign) (Q : str) : Prop :=
  all_digits P /\ P <> [] /\ all_digits Q /\ Q <> [] /\
  removeWhiteSpace s = sign_str sp ++ P ++ "/"%char :: sign_str sq ++ Q.
