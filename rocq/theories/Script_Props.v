(* C30: script calls that name a plane, cylinder, contact or force by its index. *)
From Coq Require Import ZArith List Reals Arith Bool Lia Lra.
From Verif Require Import Outcome Ccd_Model Lin_Model State_Model State_Spec State_Proofs Script_Model Script_Spec Script_Proofs.
Import ListNotations.
Open Scope R_scope.

(* an existing index: the call succeeds, changes only what it names and answers about what it names *)
Theorem C30_valid_index : forall w c, small w -> exists_in w c -> axis_ok c -> exists w' r, script w c = Ok (w', r) /\ does c w w' r.
Proof. exact script_valid. Qed.

(* an index that does not exist, negative or past the end, ends the program - unless it equals the number of items
   (or is so large that it wraps around the unsigned range; see the two refutations) *)
Theorem C30_invalid_index_exits : forall w c, small w -> (- (2 ^ 32 - 1 - Z.of_nat (count w c)) <= index c < 2 ^ 32)%Z ->
  ~ exists_in w c -> index c <> Z.of_nat (count w c) -> script w c = Exit.
Proof. exact script_invalid. Qed.

(* index == number of items passes every one of the checks and touches memory outside the list *)
Theorem C30_index_equal_to_count_refuted : forall w c, small w -> index c = Z.of_nat (count w c) -> axis_ok c -> script w c = UB.
Proof. exact script_end_z. Qed.

(* an index beyond the unsigned range is silently reduced: naming item i + 2^32 acts on item i *)
Theorem C30_wrap_refuted : forall w c, script w (with_index c (index c + 2 ^ 32)) = script w c.
Proof. exact script_wrap. Qed.

Theorem C30_axis_checked : forall w c, ~ axis_ok c -> script w c = Exit.
Proof. exact script_bad_axis. Qed.

(* whole scripts: memory is only ever misused through an index equal to the number of items *)
Theorem C30_scripts_safe : forall cs w, never_at_end w cs -> scripts w cs <> UB.
Proof. exact scripts_no_ub. Qed.
Print Assumptions C30_valid_index.
Print Assumptions C30_scripts_safe.

Definition two_planes : world :=
  World [BPlane (0, 0) (0, 0) (0, 1) (-1, 0); BPlane (3, 0) (0, 0) (1, 0) (0, 1)] [] [] [] [] [].
Example C30_case : small two_planes /\ exists_in two_planes (BPosition 1 (5, 6))
  /\ script two_planes (BPosition 1 (5, 6)) =
     Ok (World [BPlane (0, 0) (0, 0) (0, 1) (-1, 0); BPlane (5, 6) (0, 0) (1, 0) (0, 1)] [] [] [] [] [], Nothing)
  /\ script two_planes (BPosition 2 (5, 6)) = UB /\ script two_planes (BPosition 3 (5, 6)) = Exit
  /\ script two_planes (BPosition (-1) (5, 6)) = Exit
  /\ script two_planes (BDelete 0) = Ok (World [BPlane (3, 0) (0, 0) (1, 0) (0, 1)] [] [] [] [] [], Nothing)
  /\ never_at_end two_planes [BDelete 0; BVelocity 0 (1, 1); BDelete 5].
Proof.
  assert (small two_planes) as S by (unfold small, two_planes; cbn [w_bp w_rp w_p3 w_cy w_con w_grav length]; repeat split; lia).
  split; [exact S|]. split; [unfold exists_in; cbn; lia|]. split; [reflexivity|]. split; [reflexivity|]. split; [reflexivity|].
  split; [apply C30_invalid_index_exits; [exact S| |unfold exists_in|]; cbn; lia|]. split; [reflexivity|].
  cbn [never_at_end]. split; [cbn; lia|]. intros w' a E. injection E as <- _. split; [cbn; lia|].
  intros w' b E. injection E as <- _. split; [cbn; lia|]. intros; exact I.
Qed.
