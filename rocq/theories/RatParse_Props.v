(* C03, C04: reading and writing rationals as text. *)
From Coq Require Import ZArith QArith Ascii String List.
From Verif Require Import Outcome Rational_Model Rational_Spec Str_Model Str_Spec Str_Proofs
  RatParse_Model RatParse_Spec RatParse_Proofs.
Import ListNotations.
Open Scope Z_scope.

(* C03. Decimal text (white space anywhere, optional sign, any number of digits) that is accepted
   gives exactly the number it denotes, in lowest terms, unless it is negative with integer part zero. *)
Theorem C03_decimal_exact : forall s sg D F r,
  decimal_text s sg D F -> parse_rational s = Ok (Some r) ->
  (sg <> SMinus \/ 0 < digits_val D \/ digits_val F = 0) ->
  lowest_terms r /\ (rval r == dec_value sg D F)%Q.
Proof. exact decimal_exact. Qed.
Print Assumptions C03_decimal_exact.

(* C03. Decimal text of at most 18 digits is always accepted (no rejection, no overflow). *)
Theorem C03_decimal_accepted : forall s sg D F,
  decimal_text s sg D F -> (List.length D + List.length F <= 18)%nat ->
  exists r, parse_rational s = Ok (Some r).
Proof. exact decimal_defined. Qed.
Print Assumptions C03_decimal_accepted.

(* C03 violated: for every negative decimal with integer part zero, the sign is dropped. *)
Theorem C03_negative_below_one_refuted : forall s D F r,
  decimal_text s SMinus D F -> parse_rational s = Ok (Some r) -> digits_val D = 0 ->
  (rval r == - dec_value SMinus D F)%Q.
Proof. exact decimal_sign_lost. Qed.
Print Assumptions C03_negative_below_one_refuted.

(* C03. Fractions. *)
Theorem C03_fraction_exact : forall s sp P sq Q r,
  fraction_text s sp P sq Q -> parse_rational s = Ok (Some r) -> digits_val Q <> 0 ->
  lowest_terms r /\
  (rval r == inject_Z (sign_app sp (digits_val P)) / inject_Z (sign_app sq (digits_val Q)))%Q.
Proof. exact fraction_exact. Qed.
Print Assumptions C03_fraction_exact.

Theorem C03_fraction_accepted : forall s sp P sq Q,
  fraction_text s sp P sq Q -> small64 (digits_val P) -> small64 (digits_val Q) ->
  exists r, parse_rational s = Ok (Some r).
Proof. exact fraction_defined. Qed.
Print Assumptions C03_fraction_accepted.

Theorem C03_fraction_out_of_range_rejected : forall s sp P sq Q,
  fraction_text s sp P sq Q ->
  ~ in64 (sign_app sp (digits_val P)) \/ ~ in64 (sign_app sq (digits_val Q)) -> parse_rational s = Ok None.
Proof. exact out_of_range_rejected. Qed.
Print Assumptions C03_fraction_out_of_range_rejected.

(* C03 violated: whatever non-digit text follows an integer is silently ignored, so for instance
   a time step written 1e-4 is read as 1. *)
Theorem C03_trailing_text_ignored_refuted : forall s sg D t,
  removeWhiteSpace s = sign_str sg ++ D ++ t -> D <> [] -> all_digits D -> nondigit_head t ->
  count_char s "/"%char = 0%nat -> count_char s "."%char = 0%nat ->
  parse_rational s = parse_rational (sign_str sg ++ D).
Proof. exact trailing_ignored. Qed.
Print Assumptions C03_trailing_text_ignored_refuted.

(* C03 violated: texts that denote no rational, or another one, are accepted with these values. *)
Theorem C03_malformed_accepted_refuted :
  parse_rational (lit "1.2.3") = Ok (Some (mkRat 13 10)) /\
  parse_rational (lit "1/2/3") = Ok (Some (mkRat 1 1)) /\
  parse_rational (lit "1e-4") = Ok (Some (mkRat 1 1)) /\
  parse_rational (lit "1.0e-4") = Ok (Some (mkRat 1 1)) /\
  parse_rational (lit "") = Ok (Some (mkRat 0 1)) /\
  parse_rational (lit "1/0") = Ok (Some (mkRat 1 0)).
Proof. vm_compute. repeat split. Qed.
Print Assumptions C03_malformed_accepted_refuted.

(* C03 violated: a fraction part longer than 18 significant digits overflows (undefined behaviour). *)
Theorem C03_long_fraction_undefined_refuted :
  exists s D F, decimal_text s SNone D F /\ parse_rational s = UB.
Proof.
  exists (lit "1.0000000000000000001"), (lit "1"), (lit "0000000000000000001").
  split; [|vm_compute; reflexivity].
  repeat split; try (repeat constructor).
Qed.
Print Assumptions C03_long_fraction_undefined_refuted.

(* C04. Round trip. *)
Theorem C04_print_parse : forall r, lowest_terms r -> small64 (num r) -> small64 (den r) ->
  parse_rational (print_rational r) = Ok (Some r).
Proof. exact print_parse. Qed.
Print Assumptions C04_print_parse.

(* Non-vacuity *)
Example decimal_example :
  decimal_text (lit " - 12 .500 ") SMinus (lit "12") (lit "500") /\
  parse_rational (lit " - 12 .500 ") = Ok (Some (mkRat (-25) 2)) /\ 0 < digits_val (lit "12").
Proof. vm_compute. repeat split; repeat constructor. Qed.
Example fraction_example :
  fraction_text (lit "-6 / 8") SMinus (lit "6") SNone (lit "8") /\
  parse_rational (lit "-6 / 8") = Ok (Some (mkRat (-3) 4)).
Proof. split; [|reflexivity]. repeat split; try discriminate; repeat constructor. Qed.
Example sign_lost_example :
  decimal_text (lit "-0.5") SMinus (lit "0") (lit "5") /\
  parse_rational (lit "-0.5") = Ok (Some (mkRat 1 2)) /\ digits_val (lit "0") = 0.
Proof. split; [|split; reflexivity]. repeat split; try (repeat constructor). Qed.
Example out_of_range_example :
  fraction_text (lit "9223372036854775808/3") SNone (lit "9223372036854775808") SNone (lit "3") /\
  ~ in64 (sign_app SNone (digits_val (lit "9223372036854775808"))) /\
  parse_rational (lit "9223372036854775808/3") = Ok None.
Proof.
  split; [repeat split; try discriminate; repeat constructor|].
  split; [|vm_compute; reflexivity]. intros [_ H]. revert H. vm_compute. intros H; apply H; reflexivity.
Qed.
Example print_parse_example :
  lowest_terms (mkRat (-22) 7) /\ small64 (-22) /\ small64 7 /\ print_rational (mkRat (-22) 7) = lit "-22 / 7".
Proof. vm_compute. repeat split; discriminate. Qed.
