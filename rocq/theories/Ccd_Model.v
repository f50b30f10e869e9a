(* Continuous collision detection of two balls.
   Models /repo/scisim/CollisionDetection/CollisionDetectionUtilities.cpp:3-126 over the reals
   (no rounding) and the narrow phase loop /repo/ball2d/Ball2DSim.cpp:553-608.
   Division is only used where the code divides; that no denominator is ever zero is proved. *)
From Coq Require Import List NArith Reals Bool.
From Verif Require Import Outcome Grid_Model.
Import ListNotations.
Open Scope R_scope.

Definition vec := (R * R)%type.
Definition vsub (a b : vec) : vec := (fst a - fst b, snd a - snd b).
Definition vdot (a b : vec) : R := fst a * fst b + snd a * snd b.

Definition Rltb (x y : R) : bool := if Rlt_dec x y then true else false.
Definition Rleb (x y : R) : bool := if Rle_dec x y then true else false.
Definition Reqb (x y : R) : bool := if Req_EM_T x y then true else false.

(* computeCCDQuadraticCoeffs, lines 3-22: coeffs(0), coeffs(1), coeffs(2) *)
Definition ccd_coeffs (q0a q1a : vec) (ra : R) (q0b q1b : vec) (rb : R) : R * R * R :=
  let q0delta := vsub q0a q0b in
  let q1q0delta := vsub (vsub q1a q1b) q0delta in
  (vdot q0delta q0delta - (ra + rb) ^ 2, 2 * vdot q0delta q1q0delta, vdot q1q0delta q1q0delta).

(* The functions are parameterised by what the division of the code computes, so that "no
   denominator is ever zero" can be stated as "the result does not depend on x / 0". *)
Section Division.
  Variable div : R -> R -> R.

  (* firstRootOfQuadratic, lines 24-40 *)
  Definition first_root (a b c d : R) : R :=
    if Rleb 0 b then div (- b - d) (2 * a) else div (2 * c) (- b + d).

  (* secondRootOfQuadratic, lines 42-58 *)
  Definition second_root (a b c d : R) : R :=
    if Rltb 0 b then div (2 * c) (- b - d) else div (- b + d) (2 * a).

  (* ballBallCCDCollisionHappens( c ), lines 60-121: Some t = (true, t), None = (false, -) *)
  Definition ccd_from_coeffs (cs : R * R * R) : option R :=
    let '(k0, k1, k2) := cs in
    if negb (Reqb k2 0) then
      let c1c1 := k1 * k1 in
      let fc2c0 := 4 * k2 * k0 in
      if Rltb c1c1 fc2c0 then None
      else
        let d := sqrt (c1c1 - fc2c0) in
        let root1 := second_root k2 k1 k0 d in
        if Rltb root1 0 then None
        else
          let root0 := first_root k2 k1 k0 d in
          if Rltb 1 root0 then None else Some (Rmax 0 root0)
    else if Rleb k0 0 then Some 0 else None.

  (* lines 123-126 *)
  Definition ccd_with (q0a q1a : vec) (ra : R) (q0b q1b : vec) (rb : R) : option R :=
    ccd_from_coeffs (ccd_coeffs q0a q1a ra q0b q1b rb).
End Division.
Definition ccd := ccd_with Rdiv.

(* ---------- real arithmetic for the grid ---------- *)
(* the grid of Grid_Model with exact real numbers *)
Definition Rtrunc (x : R) : Z := if Rle_dec 0 x then Int_part x else (- Int_part (- x))%Z.
Definition real : arith :=
  {| sc := R;
     alt := Rltb;
     aadd := Rplus;
     asub := Rminus;
     adiv := fun a b => if Req_EM_T b 0 then None else Some (a / b);
     azero := 0;
     a1em6 := / 1000000;
     a2em6 := 2 * / 1000000;
     aofsize := INR;
     aceil := fun x => IZR (- Int_part (- x))%Z;
     to_u32 := fun x => Z_u32 (Rtrunc x) |}.

(* one ball of the configuration: start and end position, radius *)
Record swept := Swept { s_q0 : vec; s_q1 : vec; s_r : R }.

(* box of a swept ball, Ball2DSim.cpp:570-573 *)
Definition swept_box (b : swept) : box2 real :=
  Box2 (ar := real)
    (Rmin (fst (s_q1 b)) (fst (s_q0 b)) - s_r b, Rmin (snd (s_q1 b)) (snd (s_q0 b)) - s_r b)
    (Rmax (fst (s_q1 b)) (fst (s_q0 b)) + s_r b, Rmax (snd (s_q1 b)) (snd (s_q0 b)) + s_r b).

(* computeBallBallActiveSetSpatialGrid, Ball2DSim.cpp:553-608: index pairs of the contacts created *)
Definition narrow (bs : list swept) (p : N * N) : bool :=
  match nth_error bs (N.to_nat (fst p)), nth_error bs (N.to_nat (snd p)) with
  | Some a, Some b =>
      match ccd (s_q0 a) (s_q1 a) (s_r a) (s_q0 b) (s_q1 b) (s_r b) with Some _ => true | None => false end
  | _, _ => false
  end.
Definition ball_ball_active_set (bs : list swept) : outcome (list (N * N)) :=
  let! possible := getPotentialOverlaps2 real (map swept_box bs) [] in
  Ok (filter (narrow bs) possible).
