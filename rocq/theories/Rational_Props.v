(* C01, C02: the Rational class. *)
From Coq Require Import List ZArith QArith.
From Verif Require Import Outcome Rational_Model Rational_Spec Rational_Proofs.
Import ListNotations.
Open Scope Z_scope.

(* C01. Construction with a non-zero denominator gives lowest terms. *)
Theorem C01_make_lowest_terms : forall n d r, d <> 0 -> make n d = Ok r -> lowest_terms r.
Proof. exact make_lowest. Qed.
Print Assumptions C01_make_lowest_terms.

(* C01. Any history of compound assignments and set() keeps lowest terms. *)
Theorem C01_history_lowest_terms : forall os a r,
  lowest_terms a -> Forall op_ok os -> rrun a os = Ok r -> lowest_terms r.
Proof. exact (fun os a r Ha Ho H => proj1 (rrun_ok os a r Ha Ho H)). Qed.
Print Assumptions C01_history_lowest_terms.

(* C01. operator== is equality of numbers. *)
Theorem C01_equality_decides_value : forall a b, lowest_terms a -> lowest_terms b ->
  (req a b = true <-> (rval a == rval b)%Q).
Proof. exact (fun a b Ha Hb => iff_trans (req_iff a b) (iff_sym (rval_eq_iff a b Ha Hb))). Qed.
Print Assumptions C01_equality_decides_value.

(* C01. Construction never overflows (and the GCD loop terminates) unless an argument is INT64_MIN. *)
Theorem C01_make_defined : forall n d, small64 n -> small64 d -> exists r, make n d = Ok r.
Proof. exact make_safe. Qed.
Print Assumptions C01_make_defined.

(* C01/C02. Arithmetic never overflows on rationals whose parts are below 2^31 in magnitude. *)
Theorem C01_arithmetic_defined : forall a b,
  Z.abs (num a) < 2 ^ 31 -> Z.abs (den a) < 2 ^ 31 -> Z.abs (num b) < 2 ^ 31 -> Z.abs (den b) < 2 ^ 31 ->
  (exists r, radd a b = Ok r) /\ (exists r, rsub a b = Ok r) /\
  (exists r, rmul a b = Ok r) /\ (exists r, rdiv a b = Ok r).
Proof. exact arith_safe. Qed.
Print Assumptions C01_arithmetic_defined.

(* The bound matters: INT64_MIN makes construction undefined. *)
Theorem C01_int_min_undefined_refuted :
  exists n d, d <> 0 /\ in_int64 n = true /\ in_int64 d = true /\ make n d = UB.
Proof. exists (-1), int64_min. vm_compute. repeat split; discriminate. Qed.
Print Assumptions C01_int_min_undefined_refuted.

(* A zero denominator is silently accepted and normalised to 1 / 0, for every numerator. *)
Theorem C01_zero_denominator_refuted : forall n, n <> 0 -> small64 n ->
  make n 0 = Ok (mkRat 1 0) /\ ~ lowest_terms (mkRat 1 0).
Proof.
  exact (fun n Hn Hs => conj (make_zero_den n Hn Hs) (fun H => Z.lt_irrefl 0 (proj1 H))).
Qed.
Print Assumptions C01_zero_denominator_refuted.

(* C02. Every history computes the exact rational value. *)
Theorem C02_history_exact : forall os a r,
  lowest_terms a -> Forall op_ok os -> rrun a os = Ok r ->
  (rval r == fold_left spec_step os (rval a))%Q.
Proof. exact (fun os a r Ha Ho H => proj2 (rrun_ok os a r Ha Ho H)). Qed.
Print Assumptions C02_history_exact.

Theorem C02_make_exact : forall n d r, d <> 0 -> make n d = Ok r ->
  (rval r == inject_Z n / inject_Z d)%Q.
Proof. exact make_value. Qed.
Print Assumptions C02_make_exact.

(* C02. Mixed operators with integers: Rational * T, T * Rational, Rational / T, T / Rational. *)
Theorem C02_mixed_exact : forall a t r, lowest_terms a ->
  (rmul_int a t = Ok r -> lowest_terms r /\ (rval r == rval a * inject_Z t)%Q) /\
  (int_rmul t a = Ok r -> lowest_terms r /\ (rval r == rval a * inject_Z t)%Q) /\
  (t <> 0 -> rdiv_int a t = Ok r -> lowest_terms r /\ (rval r == rval a / inject_Z t)%Q) /\
  (num a <> 0 -> int_rdiv t a = Ok r -> lowest_terms r /\ (rval r == inject_Z t / rval a)%Q).
Proof.
  exact (fun a t r Ha => conj (rmul_int_ok a t r Ha) (conj (rmul_int_ok a t r Ha)
         (conj (rdiv_int_ok a t r Ha) (int_rdiv_ok a t r Ha)))).
Qed.
Print Assumptions C02_mixed_exact.

(* C02. Queries. *)
Theorem C02_queries : forall a, lowest_terms a ->
  (positive a = true <-> (0 < rval a)%Q) /\
  (nonNegative a = true <-> (0 <= rval a)%Q) /\
  (isInteger a = true <-> exists z, (rval a == inject_Z z)%Q).
Proof.
  exact (fun a Ha => conj (iff_trans (Z.ltb_lt _ _) (iff_sym (proj1 (rval_sign a Ha))))
    (conj (iff_trans (Z.leb_le _ _) (iff_sym (proj2 (rval_sign a Ha)))) (isInteger_iff a Ha))).
Qed.
Print Assumptions C02_queries.

(* Non-vacuity: a concrete history that meets all hypotheses and runs to completion. *)
Example rational_history :
  let os := [OpAdd (mkRat 1 3); OpMul (mkRat (-6) 5); OpDiv (mkRat (-2) 7); OpSub (mkRat 1 2); OpSet 8 (-6)] in
  Forall op_ok os /\ lowest_terms (mkRat 1 2) /\ rrun (mkRat 1 2) os = Ok (mkRat (-4) 3) /\
  rrun (mkRat 1 2) (removelast os) = Ok (mkRat 3 1).
Proof.
  cbv zeta. repeat split; repeat constructor; vm_compute; try reflexivity; discriminate.
Qed.
