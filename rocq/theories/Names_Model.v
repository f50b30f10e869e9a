(* Output file names and the width of the frame number in them. *)
From Coq Require Import List ZArith NArith QArith Qround Bool Ascii String.
From Verif Require Import Outcome Str_Model.
Import ListNotations.
Open Scope list_scope.

(* scisim/Math/MathUtilities.cpp:88-98 computeNumDigits. The loop divides by ten until zero: N.size_nat n rounds suffice
   (Names_Proofs). *)
Fixpoint num_digits_loop (fuel : nat) (n : N) (num_digits : nat) : nat :=
  match fuel with
  | O => num_digits
  | S k => if (n =? 0)%N then num_digits else num_digits_loop k (n / 10)%N (S num_digits)
  end.
Definition computeNumDigits (n : N) : nat := if (n =? 0)%N then 1%nat else num_digits_loop (N.size_nat n) n 0.

(* ball2dcli/ball2d_cli.cpp:82, rigidbody2d_cli.cpp, rigidbody3d_cli.cpp: setfill('0') << setw( width ) << frame *)
Definition frame_digits (width : nat) (frame : N) : str := padWithZeros (print_N frame) width.

(* ball2d_cli.cpp:73-84 generateOutputConfigurationDataFileName; [dir] is empty without HDF5 *)
Definition config_file_name (dir prefix ext : str) (width : nat) (frame : N) : str :=
  (match dir with [] => [] | _ => dir ++ lit "/" end) ++ prefix ++ lit "_" ++ frame_digits width frame ++ lit "." ++ ext.

(* ball2d_cli.cpp:345-351 generateOutputConstraintForceDataFileName; [frame] is g_output_frame - 1 *)
Definition forces_file_name (dir : str) (width : nat) (frame : N) : str :=
  dir ++ lit "/forces_" ++ frame_digits width frame ++ lit ".h5".

(* ball2d_cli.cpp:698 (main): the width computed from the end time, the time step and the number of steps between saves.
   [None] is the default end time, infinity. Doubles are exact rationals here. The cast of a value that does not fit
   an unsigned (infinity in particular) is undefined. *)
Definition save_number_width (end_time : option Q) (dt : Q) (steps_per_save : N) : outcome nat :=
  match end_time with
  | None => UB
  | Some e =>
      let c := Qceiling (e / dt) in
      if ((0 <=? c) && (c <? 2 ^ 32))%Z
      then Ok (computeNumDigits ((1 + Z.to_N c / steps_per_save) mod 2 ^ 32)%N)
      else UB
  end.

(* ball2d_cli.cpp:676-697: 1 / (dt * frequency) must be an integer; 0 means no frequency was given.
   In exact arithmetic (Rational_Model proves the class exact); the cast to unsigned wraps. *)
Definition steps_per_save (dt : Q) (frequency : N) : outcome N :=
  if (frequency =? 0)%N then Ok 1%N
  else
    let r := Qred (1 / (dt * inject_Z (Z.of_N frequency))) in
    if (Qden r =? 1)%positive then Ok (Z.to_N (Qnum r) mod 2 ^ 32)%N else Exit.
