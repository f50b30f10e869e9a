(* Small grids the examples and refutations use. *)
From Coq Require Import List Reals NArith ZArith Bool Lia Lra Psatz.
From Verif Require Import Outcome Ccd_Model Lin_Model ContactRb3_Model Rot_Model Rot_Spec Rot_Alg Sdf_Model Sdf_Spec Sdf_Proofs Sdf_Thms.
Import ListNotations.
Open Scope R_scope.

(* the unit cube with the distance to the plane z = 1/2, below which there is material; one sample *)
Definition floor_mesh : mesh := Mesh [V3 (1/2) (1/2) (1/4)] (V3 1 1 1) 2 2 2 zero3 8 (fun i => if (i <? 4)%N then - (1/2) else 1/2).
Lemma floor_well : well_formed floor_mesh.
Proof. unfold well_formed. cbn. repeat split; try lra; try lia. Qed.
Lemma two : forall i, (i < 2)%N -> i = 0%N \/ i = 1%N.
Proof. intros i H. lia. Qed.
Lemma floor_sampled : sampled floor_mesh (fun p => dot3 (V3 0 0 1) p + - (1/2)).
Proof.
  intros i j k Hi Hj Hk. cbn [me_nx me_ny me_nz floor_mesh] in *.
  destruct (two i Hi) as [->| ->], (two j Hj) as [->| ->], (two k Hk) as [->| ->]; unfold value_at, grid_point, count, dot3, add3; cbn; lra.
Qed.
Lemma floor_range : forall x, 0 <= c0 x < 1 -> 0 <= c1 x < 1 -> 0 <= c2 x < 1 -> in_grid floor_mesh x /\ below x (far_corner floor_mesh).
Proof. intros x H0 H1 H2. unfold in_grid, between, below, far_corner, grid_point, count, add3. cbn. lra. Qed.

(* a bar of material that fills its whole grid: the distance to its face x = 2 *)
Definition bar_mesh : mesh := Mesh [] (V3 1 1 1) 2 3 3 zero3 18 (fun i => if N.even i then -2 else -1).
Lemma bar_well : well_formed bar_mesh.
Proof. unfold well_formed. cbn. repeat split; try lra; try lia. Qed.
Lemma three : forall i, (i < 3)%N -> i = 0%N \/ i = 1%N \/ i = 2%N.
Proof. intros i H. lia. Qed.
Lemma bar_sampled : sampled bar_mesh (fun p => dot3 (V3 1 0 0) p + -2).
Proof.
  intros i j k Hi Hj Hk. cbn [me_nx me_ny me_nz bar_mesh] in *.
  destruct (two i Hi) as [->| ->], (three j Hj) as [->|[->| ->]], (three k Hk) as [->|[->| ->]]; unfold value_at, grid_point, count, dot3, add3; cbn; lra.
Qed.
Lemma idx : forall i x, count i <= x < count i + 1 -> cell_index 0 1 x = i.
Proof. intros i x H. apply cell_index_unique; [lra|]. rewrite count_add. lra. Qed.
Lemma norm_x : forall s, s < 0 -> normalized3 (V3 s 0 0) = V3 (-1) 0 0.
Proof.
  intros s H. unfold normalized3. destruct (Rlt_dec 0 (dot3 (V3 s 0 0) (V3 s 0 0))) as [L|L]; [|exfalso; apply L; unfold dot3; cbn; nra].
  replace (dot3 (V3 s 0 0) (V3 s 0 0)) with ((- s) * (- s)) by (unfold dot3; cbn; ring). rewrite sqrt_square by lra. unfold scale3. cbn [c0 c1 c2]. f_equal; field; lra.
Qed.
Ltac decide_lt := repeat match goal with |- context[Rlt_dec ?a ?b] => destruct (Rlt_dec a b) as [?L|?L]; [exfalso; revert L; unfold count; cbn; lra|] end.
Lemma bar_detect : detect bar_mesh (V3 1 (1/2) (1/2)) = Ok (Some (V3 (-1) 0 0)).
Proof.
  unfold detect. cbv zeta. cbn [bar_mesh me_origin me_delta me_nx me_ny me_nz zero3 c0 c1 c2].
  rewrite (idx 1 1) by (unfold count; cbn; lra). rewrite (idx 0 (1/2)) by (unfold count; cbn; lra).
  unfold grid_end. cbv zeta. cbn [bar_mesh me_origin me_delta me_nx me_ny me_nz zero3 c0 c1 c2].
  change (u32 (2 + 4294967295)) with 1%N. change (u32 (3 + 4294967295)) with 2%N.
  assert (C1 : count 1 = 1) by reflexivity. assert (C2 : count 2 = 2) by reflexivity. assert (C0 : count 0 = 0) by reflexivity. rewrite C1, C2, C0.
  repeat match goal with |- context[Rlt_dec ?a ?b] => destruct (Rlt_dec a b) as [?|?]; [exfalso; lra|] end.
  change (u32 (1 + 1)) with 2%N. change (u32 (0 + 1)) with 1%N. unfold dist_at. cbn -[Rlt_dec Rplus Rminus Rmult Rdiv normalized3].
  destruct (Rlt_dec 0 _) as [L|L]; [exfalso; lra|]. do 2 f_equal. rewrite <- (norm_x (-1)) by lra. f_equal. f_equal; field.
Qed.

(* material everywhere, all at the same depth *)
Definition level_mesh : mesh := Mesh [] (V3 1 1 1) 2 2 2 zero3 8 (fun _ => -1).
Lemma level_well : well_formed level_mesh.
Proof. unfold well_formed. cbn. repeat split; try lra; try lia. Qed.
Lemma level_interpolates : interpolates level_mesh (fun _ => -1).
Proof. split; [reflexivity|]. intros. ring. Qed.

(* a grid with more than 2^32 values *)
Definition tall_mesh : mesh := Mesh [] (V3 1 1 1) 2 2 1073741825 zero3 4294967300 (fun i => if (i <? 4)%N then 10 else -1).
Lemma tall_detect : detect tall_mesh (V3 (1/2) (1/2) (1073741823 + 1/2)) = Ok None.
Proof.
  unfold detect. cbv zeta. cbn [tall_mesh me_origin me_delta me_nx me_ny me_nz zero3 c0 c1 c2].
  rewrite (idx 0 (1/2)) by (unfold count; cbn; lra). rewrite (idx 1073741823 (1073741823 + 1/2)) by (unfold count; cbn; lra).
  unfold grid_end. cbv zeta. cbn [bar_mesh tall_mesh me_origin me_delta me_nx me_ny me_nz zero3 c0 c1 c2].
  change (u32 (2 + 4294967295)) with 1%N. change (u32 (1073741825 + 4294967295)) with 1073741824%N.
  assert (C1 : count 1 = 1) by reflexivity. assert (C0 : count 0 = 0) by reflexivity.
  assert (C2 : count 1073741824 = 1073741824) by reflexivity. assert (C3 : count 1073741823 = 1073741823) by reflexivity. rewrite C1, C2, C0, C3.
  repeat match goal with |- context[Rlt_dec ?a ?b] => destruct (Rlt_dec a b) as [?|?]; [exfalso; lra|] end.
  change (u32 (1073741823 + 1)) with 1073741824%N. change (u32 (0 + 1)) with 1%N. unfold dist_at. cbn -[Rlt_dec Rplus Rminus Rmult Rdiv normalized3].
  destruct (Rlt_dec 0 _) as [L|L]; [reflexivity|exfalso; lra].
Qed.
