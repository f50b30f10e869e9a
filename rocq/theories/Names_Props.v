(* C13: output file names. *)
From Coq Require Import List ZArith NArith QArith Qround Bool Ascii String.
From Verif Require Import Outcome Str_Model Str_Spec Names_Model Names_Spec Names_Proofs.
Import ListNotations.
Open Scope list_scope.

(* With a width no smaller than the frame numbers, names sort lexicographically exactly in frame order. *)
Theorem C13_names_sort : forall dir prefix ext w f g, (computeNumDigits f <= w)%nat -> (computeNumDigits g <= w)%nat ->
  (lex_lt (config_file_name dir prefix ext w f) (config_file_name dir prefix ext w g) <-> (f < g)%N).
Proof. exact config_name_order. Qed.
Print Assumptions C13_names_sort.

(* Whatever the widths, two frames never share a file. *)
Theorem C13_names_distinct : forall dir prefix ext w w' f g,
  config_file_name dir prefix ext w f = config_file_name dir prefix ext w' g -> f = g.
Proof. exact config_name_inj. Qed.
Print Assumptions C13_names_distinct.
Theorem C13_force_names_distinct : forall dir w w' f g, forces_file_name dir w f = forces_file_name dir w' g -> f = g.
Proof. exact forces_name_inj. Qed.
Print Assumptions C13_force_names_distinct.

(* The frame number in a name is decimal digits whose value is the frame, at least as wide as asked. *)
Theorem C13_frame_number : forall w f, all_digits (frame_digits w f) /\ digits_val (frame_digits w f) = Z.of_N f
  /\ List.length (frame_digits w f) = Nat.max w (List.length (print_N f)).
Proof. exact frame_digits_all. Qed.
Print Assumptions C13_frame_number.

(* computeNumDigits is the number of decimal digits std::ostream prints. *)
Theorem C13_digits : forall n, computeNumDigits n = List.length (print_N n).
Proof. exact computeNumDigits_print. Qed.
Print Assumptions C13_digits.

(* The width computed from the end time suffices for every frame of the run: [i] is the first step whose time reaches
   the end time, and at most one further step is taken. *)
Theorem C13_width_suffices : forall e dt spp w i f, (0 < dt)%Q -> (0 < e)%Q -> (0 < spp)%N ->
  save_number_width (Some e) dt spp = Ok w ->
  (e <= inject_Z (Z.of_N i) * dt)%Q -> (forall j, (j < i)%N -> (inject_Z (Z.of_N j) * dt < e)%Q) ->
  (i / spp + 1 < 2 ^ 32)%N ->
  (f <= (i + 1) / spp)%N -> (computeNumDigits f <= w)%nat.
Proof. exact width_suffices. Qed.
Print Assumptions C13_width_suffices.

(* Without an end time the width is undefined: infinity is converted to an unsigned int. *)
Theorem C13_no_end_time_refuted : forall dt spp, save_number_width None dt spp = UB.
Proof. exact (fun dt spp => eq_refl). Qed.
Print Assumptions C13_no_end_time_refuted.

(* The number of steps between frames: exact when it exists, refused otherwise. *)
Theorem C13_steps_per_save_sound : forall dt f n, (0 < dt)%Q -> (0 < f)%N ->
  (1 < inject_Z (2 ^ 32) * (dt * inject_Z (Z.of_N f)))%Q ->
  steps_per_save dt f = Ok n -> (inject_Z (Z.of_N n) * (dt * inject_Z (Z.of_N f)) == 1)%Q.
Proof. exact steps_per_save_sound. Qed.
Print Assumptions C13_steps_per_save_sound.
Theorem C13_steps_per_save_complete : forall dt f n, (0 < dt)%Q -> (0 < f)%N -> (n < 2 ^ 32)%N ->
  (inject_Z (Z.of_N n) * (dt * inject_Z (Z.of_N f)) == 1)%Q -> steps_per_save dt f = Ok n.
Proof. exact steps_per_save_complete. Qed.
Print Assumptions C13_steps_per_save_complete.

(* ---- concrete cases ---- *)
Example ex_width : save_number_width (Some 10) (1 # 100) 4 = Ok 3%nat /\ steps_per_save (1 # 100) 25 = Ok 4%N.
Proof. split; vm_compute; reflexivity. Qed.
Example ex_sort : lex_lt (config_file_name (lit "out") (lit "config") (lit "h5") 3 9) (config_file_name (lit "out") (lit "config") (lit "h5") 3 10)
  /\ (computeNumDigits 10 <= 3)%nat.
Proof. split; [apply C13_names_sort; vm_compute; repeat constructor|vm_compute; repeat constructor]. Qed.
Example ex_first_step : (10 <= inject_Z (Z.of_N 1000) * (1 # 100))%Q /\ (inject_Z (Z.of_N 999) * (1 # 100) < 10)%Q.
Proof. split; vm_compute; congruence. Qed.
(* without enough padding the order is lost *)
Example ex_unpadded : ~ lex_lt (config_file_name [] (lit "config") (lit "h5") 1 9) (config_file_name [] (lit "config") (lit "h5") 1 10).
Proof.
  apply lex_asym. vm_compute. do 7 apply lex_tail. apply lex_head. reflexivity.
Qed.
