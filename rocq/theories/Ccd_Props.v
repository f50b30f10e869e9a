(* C16: continuous collision detection of moving balls *)
From Coq Require Import List NArith ZArith Reals Lra Lia Bool.
From Verif Require Import Outcome Grid_Model Grid_Spec Ccd_Model Ccd_Spec Ccd_Proofs.
Import ListNotations.
Open Scope R_scope.

(* A collision is reported exactly when the balls touch at some time of the step, and the time
   reported is the first one *)
Theorem C16_ccd_first_touch : forall q0a q1a ra q0b q1b rb, 0 <= ra + rb ->
  match ccd q0a q1a ra q0b q1b rb with
  | Some t => first_touch q0a q1a ra q0b q1b rb t
  | None => forall t, 0 <= t <= 1 -> ~ touch q0a q1a ra q0b q1b rb t
  end.
Proof. exact ccd_exact. Qed.
Print Assumptions C16_ccd_first_touch.

(* no division by zero: whatever x / 0 means, the answer is the same *)
Theorem C16_no_division_by_zero : forall div, (forall x y, y <> 0 -> div x y = x / y) ->
  forall q0a q1a ra q0b q1b rb, ccd_with div q0a q1a ra q0b q1b rb = ccd q0a q1a ra q0b q1b rb.
Proof. exact ccd_div. Qed.
Print Assumptions C16_no_division_by_zero.

(* Grid + CCD: the ball-ball contacts of a step are exactly the pairs that touch during it *)
Theorem C16_active_set_exact : forall (bs : list swept) out i j, indexable bs -> Forall (fun b => 0 <= s_r b) bs ->
  ball_ball_active_set bs = Ok out -> (i < j)%N ->
  (In (i, j) out <-> exists a b, ball_at bs i a /\ ball_at bs j b /\ swept_touch a b).
Proof. exact active_set_exact. Qed.
Print Assumptions C16_active_set_exact.

(* two balls swapping places, 4 apart, radius 1: first touch at t = 1/4 *)
Example ccd_swap_places : ccd (0, 0) (4, 0) 1 (4, 0) (0, 0) 1 = Some (1 / 4).
Proof.
  unfold ccd, ccd_with, ccd_coeffs, ccd_from_coeffs, first_root, second_root, vdot, vsub; cbn [fst snd].
  match goal with |- context [Reqb ?x 0] => destruct (Reqb_spec x 0) as [E|_]; [exfalso; lra|] end. cbn [negb].
  match goal with |- context [sqrt ?x] => replace (sqrt x) with 32 by (replace x with (32 * 32) by ring; rewrite sqrt_square; lra) end.
  repeat match goal with |- context [Rltb 0 ?x] => destruct (Rltb_spec 0 x) as [L|_]; [exfalso; lra|] end.
  repeat match goal with |- context [Rleb 0 ?x] => destruct (Rleb_spec 0 x) as [L|_]; [exfalso; lra|] end.
  match goal with |- context [Rltb ?x ?y] => destruct (Rltb_spec x y) as [L|_]; [exfalso; lra|] end.
  match goal with |- (if Rltb ?x 0 then _ else _) = _ => replace x with (3 / 4) by field; destruct (Rltb_spec (3 / 4) 0); [exfalso; lra|] end.
  match goal with |- (if Rltb 1 ?x then _ else _) = _ => replace x with (1 / 4) by field; destruct (Rltb_spec 1 (1 / 4)); [exfalso; lra|] end.
  f_equal. unfold Rmax. destruct (Rle_dec 0 _); [field|exfalso; lra].
Qed.
(* passing each other 3 apart: no collision *)
Example ccd_pass : ccd (0, 0) (4, 0) 1 (4, 3) (0, 3) 1 = None.
Proof.
  pose proof (C16_ccd_first_touch (0, 0) (4, 0) 1 (4, 3) (0, 3) 1 ltac:(lra)) as H.
  destruct (ccd _ _ _ _ _ _) as [t|]; auto. exfalso. destruct H as (Ht & T & _).
  apply coord_dist in T as [_ T]. unfold at_time in T; cbn [fst snd] in T.
  replace ((1 - t) * 0 + t * 0 - ((1 - t) * 3 + t * 3)) with (- (3)) in T by ring.
  rewrite Rabs_Ropp, Rabs_right in T; lra.
Qed.

(* The hypotheses of the active set theorem are met by the two balls that swap places *)
Definition swapping : list swept := [Swept (0, 0) (4, 0) 1; Swept (4, 0) (0, 0) 1].
Lemma swapping_boxes : map swept_box swapping = [Box2 (ar := real) (-1, -1) (5, 1); Box2 (ar := real) (-1, -1) (5, 1)].
Proof.
  unfold swapping, swept_box; cbn [map s_q0 s_q1 s_r fst snd].
  repeat match goal with |- context [Rmin ?a ?b] => unfold Rmin at 1; destruct (Rle_dec a b); try (exfalso; lra) end;
  repeat match goal with |- context [Rmax ?a ?b] => unfold Rmax at 1; destruct (Rle_dec a b); try (exfalso; lra) end;
  repeat match goal with |- context [?a - 1] => replace (a - 1) with (-1) by lra end;
  repeat match goal with |- context [4 + 1] => replace (4 + 1) with 5 by lra end;
  repeat match goal with |- context [0 + 1] => replace (0 + 1) with 1 by lra end; reflexivity.
Qed.
Lemma Int_part_is x z : IZR z <= x < IZR z + 1 -> Int_part x = z.
Proof.
  intros H. pose proof (Int_part_spec x).
  assert (IZR z < IZR (Int_part x + 1)) by (rewrite plus_IZR; lra).
  assert (IZR (Int_part x) < IZR (z + 1)) by (rewrite plus_IZR; lra).
  apply lt_IZR in H1, H2. lia.
Qed.
Lemma trunc_is x z : 0 <= x -> IZR z <= x < IZR z + 1 -> Rtrunc x = z.
Proof. intros P H. unfold Rtrunc. destruct (Rle_dec 0 x); [|lra]. now apply Int_part_is. Qed.
Lemma real_cell_is c mn h z : h > 0 -> 0 <= (c - mn) / h -> IZR z <= (c - mn) / h < IZR z + 1 ->
  (0 <= z < 4294967296)%Z -> cell real c mn h = Ok (Z.to_N z).
Proof.
  intros Hh P H Z. unfold cell. cbn [real adiv asub to_u32]. destruct (Req_EM_T h 0); [lra|].
  rewrite (trunc_is _ z P H). rewrite (proj2 (Grid_Arith.Z_u32_Some z (Z.to_N z)) (conj Z eq_refl)). reflexivity.
Qed.
Lemma real_ncells_is mn mx h z : h > 0 -> (0 <= z < 4294967296)%Z -> IZR z - 1 < (mx - mn) / h <= IZR z ->
  ncells real mn mx h = Ok (Z.to_N z).
Proof.
  intros Hh Z H. unfold ncells. cbn [real adiv asub aceil to_u32]. destruct (Req_EM_T h 0); [lra|].
  assert (E : Int_part (- ((mx - mn) / h)) = (- z)%Z) by (apply Int_part_is; rewrite opp_IZR; lra).
  rewrite E, Z.opp_involutive. rewrite (trunc_is (IZR z) z); try lra.
  - rewrite (proj2 (Grid_Arith.Z_u32_Some z (Z.to_N z)) (conj Z eq_refl)). reflexivity.
  - apply (IZR_le 0). lia.
Qed.
Lemma swapping_init : exists mx my, init2 real (map swept_box swapping) = Ok ((mx, my), (2%N, 1%N), 6) /\ mx = -1 - 2 * / 1000000 /\ my = -1 - 2 * / 1000000.
Proof.
  rewrite swapping_boxes. unfold init2. cbn [fold_left lo2 up2 fst snd length].
  unfold amin, amax. cbn [real alt sc aadd asub azero a2em6 aofsize].
  repeat match goal with |- context [Rltb ?a ?b] => destruct (Rltb_spec a b); [exfalso; lra|] end.
  cbn [adiv real]. replace (INR 2) with 2 by (simpl; lra).
  destruct (Req_EM_T 2 0); [exfalso; lra|].
  replace ((0 + (5 - -1) + (5 - -1)) / 2) with 6 by field.
  rewrite (real_ncells_is _ _ 6 2) by (try lra; lia).
  rewrite (real_ncells_is _ _ 6 1) by (try lra; lia).
  eexists; eexists; split; [reflexivity|split; lra].
Qed.
Lemma two_in_two_cells (T : Type) (o : T -> T -> bool) (cells : T -> outcome (list N)) (B : T) :
  cells B = Ok [0%N; 1%N] -> o B B = true ->
  obind (rasterize cells 0 [B; B] []) (fun m => Ok (scan_voxels o [B; B] m [])) = Ok [(0%N, 1%N)].
Proof. intros C O. cbn [rasterize]. rewrite C. cbv. rewrite O. reflexivity. Qed.
Example swapping_active_set : ball_ball_active_set swapping = Ok [(0%N, 1%N)].
Proof.
  unfold ball_ball_active_set, getPotentialOverlaps2.
  destruct swapping_init as (mx & my & -> & Ex & Ey). rewrite swapping_boxes.
  assert (C : cells2 real (mx, my) 6 (2%N, 1%N) (Box2 (ar := real) (-1, -1) (5, 1)) = Ok [0%N; 1%N]).
  { unfold cells2, cell_lo, cell_up. cbn [lo2 up2 fst snd].
    rewrite (real_cell_is _ mx 6 0), (real_cell_is _ my 6 0), (real_cell_is _ mx 6 1), (real_cell_is _ my 6 0);
      try (cbn [real asub aadd a1em6]; lra); try lia; try reflexivity. }
  assert (O : overlaps2 (ar := real) (Box2 (ar := real) (-1, -1) (5, 1)) (Box2 (ar := real) (-1, -1) (5, 1)) = true).
  { unfold overlaps2. cbn [real alt lo2 up2 fst snd].
    repeat match goal with |- context [Rltb ?a ?b] => destruct (Rltb_spec a b); [exfalso; lra|] end. reflexivity. }
  assert (Nw : narrow swapping (0%N, 1%N) = true).
  { apply narrow_true. eexists; eexists. split; [reflexivity|split; [reflexivity|]]. exists (1 / 4). exact ccd_swap_places. }
  unfold obind at 2. cbn [fst snd].
  rewrite (two_in_two_cells _ _ _ _ C O).
  cbn [obind filter]. rewrite Nw. reflexivity.
Qed.
