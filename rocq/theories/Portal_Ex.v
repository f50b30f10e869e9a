(* Concrete portals. *)
From Coq Require Import List NArith ZArith Reals Lia Lra Bool.
From Verif Require Import Outcome Grid_Model Ccd_Model Ccd_Proofs Cache_Model Cache_Thms Lin_Model
  Portal_Model Portal_Spec Portal_Proofs Portal_Thms Portal_Active Portal_Runs.
Import ListNotations.
Open Scope R_scope.

Ltac vcalc := unfold along, height, independent, vdot, vsub, vadd, vscale, vneg, vperp in *;
  cbn [p_x p_n p_t po_a po_b po_v po_bounds po_dx fixed_portal2 sliding_portal2 fst snd] in *.

(* the ground and a ceiling at height w *)
Definition floor2 : plane2 := mkPlane2 (0, 0) (0, 1) (vperp (0, 1)).
Definition ceiling (w : R) : plane2 := mkPlane2 (0, w) (0, -1) (vperp (0, -1)).
(* two walls *)
Definition left_wall : plane2 := mkPlane2 (0, 0) (1, 0) (vperp (1, 0)).
Definition right_wall (w : R) : plane2 := mkPlane2 (w, 0) (-1, 0) (vperp (-1, 0)).

Lemma floor_ceiling w : 0 < w -> facing floor2 (ceiling w) w.
Proof.
  intros H. unfold facing, unit_plane, floor2, ceiling. vcalc. repeat split; try lra; try (apply veq; cbn [fst snd]; lra).
Qed.
Lemma left_right w : 0 < w -> facing left_wall (right_wall w) w.
Proof.
  intros H. unfold facing, unit_plane, left_wall, right_wall. vcalc. repeat split; try lra; try (apply veq; cbn [fst snd]; lra).
Qed.
Lemma fixed_facing_tb w : 0 < w -> fixed_facing (fixed_portal2 floor2 (ceiling w)).
Proof. intros H. repeat split. exists w. now apply floor_ceiling. Qed.
Lemma fixed_facing_lr w : 0 < w -> fixed_facing (fixed_portal2 left_wall (right_wall w)).
Proof. intros H. repeat split. exists w. now apply left_right. Qed.

(* the torus of side 10 and a ball that left it at a corner *)
Lemma torus_example :
  let ps := [fixed_portal2 floor2 (ceiling 10); fixed_portal2 left_wall (right_wall 10)] in
  Forall fixed_facing ps /\ ForallOrdPairs (fun p q => independent p q /\ independent q p) ps /\
  Forall (fun xv => Forall (fun p => within_one p (fst xv)) ps) [((-1, 12), (3, 4)) : vec * vec].
Proof.
  assert (W : forall p w w', facing p (ceiling w) w' -> p = floor2 -> w' = w).
  { intros p w w' (_ & _ & _ & H & _) ->. unfold floor2, ceiling in H. vcalc. lra. }
  assert (W' : forall p w w', facing p (right_wall w) w' -> p = left_wall -> w' = w).
  { intros p w w' (_ & _ & _ & H & _) ->. unfold left_wall, right_wall in H. vcalc. lra. }
  cbv zeta. split; [|split].
  - constructor; [apply fixed_facing_tb; lra|]. constructor; [apply fixed_facing_lr; lra|constructor].
  - constructor; [|constructor; [constructor|constructor]]. constructor; [|constructor].
    unfold floor2, ceiling, left_wall, right_wall. vcalc. split; lra.
  - constructor; [|constructor]. constructor; [|constructor; [|constructor]]; intros w F; cbn [po_a po_b fixed_portal2] in F |- *.
    + rewrite (W _ _ _ F eq_refl). unfold floor2. vcalc. lra.
    + rewrite (W' _ _ _ F eq_refl). unfold left_wall. vcalc. lra.
Qed.

(* ---------- two balls touching across the portal ---------- *)
Definition hole (w : R) : list portal2 := [fixed_portal2 floor2 (ceiling w)].

Lemma through_floor w x y : through2_a hardware (fixed_portal2 floor2 (ceiling w)) (x, y) = Ok (x, w + y).
Proof.
  unfold through2_a, through2, fixed_portal2, floor2, ceiling, ddiv. cbn [po_a po_b po_bounds po_dx p_x p_n p_t].
  destruct (Req_EM_T (2 * 0) 0); [|lra]. cbn [hardware obind]. f_equal. apply veq; vcalc; lra.
Qed.
Lemma through_ceiling w x y : through2_b hardware (fixed_portal2 floor2 (ceiling w)) (x, y) = Ok (x, y - w).
Proof.
  unfold through2_b, through2, fixed_portal2, floor2, ceiling, ddiv. cbn [po_a po_b po_bounds po_dx p_x p_n p_t].
  destruct (Req_EM_T (2 * 0) 0); [|lra]. cbn [hardware obind]. f_equal. apply veq; vcalc; lra.
Qed.
Lemma hole_seen w bs i p s y : seen_at hardware (hole w) bs i p s y ->
  exists x r, nth_error bs (N.to_nat i) = Some (x, r) /\
   ((p = None /\ y = x) \/ (p <> None /\ s = false /\ snd x <= r /\ y = (fst x, w + snd x)) \/
    (p <> None /\ s = true /\ w - snd x <= r /\ y = (fst x, snd x - w))).
Proof.
  intros H. inversion H as [x r E|x r k q z E Ek T E2|x r k q z E Ek T E2]; subst.
  - exists y, r. split; [exact E|]. now left.
  - exists x, r. split; [exact E|]. right. left. unfold hole in Ek. destruct (N.to_nat k) as [|n]; [|destruct n; discriminate]. injection Ek as <-.
    destruct x as [a b]. rewrite through_floor in E2. injection E2 as <-. cbn [fst snd].
    unfold touches_plane, fixed_portal2, floor2 in T. vcalc. repeat split; try discriminate; lra.
  - exists x, r. split; [exact E|]. right. right. unfold hole in Ek. destruct (N.to_nat k) as [|n]; [|destruct n; discriminate]. injection Ek as <-.
    destruct x as [a b]. rewrite through_ceiling in E2. injection E2 as <-. cbn [fst snd].
    unfold touches_plane, fixed_portal2, ceiling in T. vcalc. repeat split; try discriminate; lra.
Qed.

Lemma hole_runs w (bs : list (vec * R)) : 0 < w <= 100 -> (length bs <= 1000)%nat -> bs <> [] ->
  Forall (fun b => Rabs (fst (fst b)) <= 100 /\ 0 <= snd (fst b) <= w /\ 0.1 <= snd b <= 10 /\
                   ~ (snd (fst b) <= snd b /\ w - snd (fst b) <= snd b)) bs ->
  exists direct tele, active_with_portals hardware (hole w) bs = Ok (direct, tele).
Proof.
  intros Hw Len Ne F. rewrite Forall_forall in F. destruct hardware_conv as [_ A].
  apply (active_runs hardware A (hole w) bs 1000 0.1).
  - change (1 + N.of_nat (length (hole w)))%N with 2%N. lia.
  - exact Ne.
  - intros x r H. apply F in H. cbn [fst snd] in H. lra.
  - lra.
  - lra.
  - intros p x r [<-|[]] H [T1 T2]. apply F in H as (_ & _ & _ & H). cbn [fst snd] in H. apply H.
    unfold touches_plane, fixed_portal2, floor2, ceiling in *. vcalc. lra.
  - intros i p s y r S (x & E). apply hole_seen in S as (x' & r' & E' & S). rewrite E in E'. injection E' as <- <-.
    apply nth_error_In, F in E as (B & C & D & _). cbn [fst snd] in *.
    assert (Rabs (fst x) + r <= 1000) by lra.
    destruct S as [(_ & ->)|[(_ & _ & _ & ->)|(_ & _ & _ & ->)]]; cbn [fst snd]; (split; [assumption|]).
    + rewrite (Rabs_pos_eq (snd x)) by lra. lra.
    + rewrite Rabs_pos_eq by lra. lra.
    + rewrite Rabs_left1 by lra. lra.
Qed.

Lemma sqrt_le_of x r : 0 <= r -> x <= r * r -> sqrt x <= r.
Proof. intros H L. rewrite <- (sqrt_square r H). now apply sqrt_le_1_alt. Qed.
Lemma not_touching x y r s : 0 <= r + s -> (r + s) * (r + s) < sqdist x y -> ~ touching x y r s.
Proof.
  intros H L T. unfold touching in T. assert (K : sqrt (sqdist x y) <= sqrt ((r + s) * (r + s))) by now rewrite sqrt_square.
  apply sqrt_le_0 in K; try lra. apply Rle_trans with ((r + s) * (r + s)); [|lra]. apply Rle_0_sqr. apply Rle_0_sqr.
Qed.

Definition two_balls : list (vec * R) := [((0, 0.2), 1); ((1.2, 1.9), 0.5)].
Lemma two_balls_example : exists direct tele c, active_with_portals hardware (hole 2.5) two_balls = Ok (direct, tele) /\
  ~ In (0, 1)%N direct /\ In c tele /\ t_b0 c = 0%N /\ t_b1 c = 1%N.
Proof.
  destruct (hole_runs 2.5 two_balls) as (direct & tele & E); unfold two_balls.
  - lra.
  - cbn [length]. lia.
  - discriminate.
  - repeat constructor; cbn [fst snd]; try lra; try (intros [? ?]; lra).
    + rewrite Rabs_R0. lra.
    + rewrite Rabs_pos_eq by lra. lra.
  - fold two_balls. exists direct, tele.
    destruct (active_portals hardware (hole 2.5) two_balls direct tele) as (D & _ & Co & _).
    + cbn [length hole two_balls]. lia.
    + repeat constructor; cbn [snd]; lra.
    + exact E.
    + destruct (Co 0%N (Some 0%N) false (0, 2.5 + 0.2) 1 1%N None false (1.2, 1.9) 0.5 (0, 0.2) (1.2, 1.9)) as (c & Ic & B0 & B1).
      * eapply Seen_a with (x := (0, 0.2)) (r := 1) (p := fixed_portal2 floor2 (ceiling 2.5)); try reflexivity.
        -- unfold touches_plane, fixed_portal2, floor2. vcalc. lra.
        -- apply through_floor.
      * eapply Seen_direct. reflexivity.
      * reflexivity.
      * reflexivity.
      * discriminate.
      * left. discriminate.
      * unfold touching. apply sqrt_le_of; [lra|]. unfold sqdist. vcalc. lra.
      * intros _ K. now destruct K.
      * exists c. split; [exact E|]. split; [|split; [exact Ic|]]; [|split; [rewrite B0|rewrite B1]; reflexivity].
        intros K. apply D in K as (x0 & r0 & x1 & r1 & H0 & H1 & T); [|lia]. cbn in H0, H1.
        injection H0 as <- <-. injection H1 as <- <-. revert T. apply not_touching; [lra|]. unfold sqdist. vcalc. lra.
Qed.

(* a ball that touches its own image *)
Lemma self_contact : exists direct tele c, active_with_portals hardware (hole 1.2) [((0, 0.1), 1)] = Ok (direct, tele) /\
  In c tele /\ t_b0 c = 0%N /\ t_b1 c = 0%N.
Proof.
  destruct (hole_runs 1.2 [((0, 0.1), 1)]) as (direct & tele & E).
  - lra.
  - cbn [length]. lia.
  - discriminate.
  - repeat constructor; cbn [fst snd]; try lra; try (intros [? ?]; lra). rewrite Rabs_R0. lra.
  - exists direct, tele. destruct (active_portals hardware (hole 1.2) [((0, 0.1), 1)] direct tele) as (D & _ & Co & _).
    + cbn [length hole]. lia.
    + repeat constructor; cbn [snd]; lra.
    + exact E.
    + destruct (Co 0%N (Some 0%N) false (0, 1.2 + 0.1) 1 0%N None false (0, 0.1) 1 (0, 0.1) (0, 0.1)) as (c & Ic & B0 & B1).
      * eapply Seen_a with (x := (0, 0.1)) (r := 1) (p := fixed_portal2 floor2 (ceiling 1.2)); try reflexivity.
        -- unfold touches_plane, fixed_portal2, floor2. vcalc. lra.
        -- apply through_floor.
      * eapply Seen_direct. reflexivity.
      * reflexivity.
      * reflexivity.
      * discriminate.
      * left. discriminate.
      * unfold touching. apply sqrt_le_of; [lra|]. unfold sqdist. vcalc. lra.
      * intros _ K. now destruct K.
      * exists c. split; [exact E|]. split; [exact Ic|]. split; [rewrite B0|rewrite B1]; reflexivity.
Qed.

(* a fast ball: with portals only the end of the step counts *)
Lemma tunnelling : exists direct tele,
  active_with_portals hardware (hole 10) [((8, 5), 1); ((5, 5), 1)] = Ok (direct, tele) /\ ~ In (0, 1)%N direct /\ tele = [].
Proof.
  destruct (hole_runs 10 [((8, 5), 1); ((5, 5), 1)]) as (direct & tele & E).
  - lra.
  - cbn [length]. lia.
  - discriminate.
  - repeat constructor; cbn [fst snd]; try lra; try (intros [? ?]; lra); rewrite Rabs_pos_eq; lra.
  - exists direct, tele. destruct (active_portals hardware (hole 10) [((8, 5), 1); ((5, 5), 1)] direct tele) as (D & So & _ & _).
    + cbn [length hole]. lia.
    + repeat constructor; cbn [snd]; lra.
    + exact E.
    + split; [exact E|]. split.
      * intros K. apply D in K as (x0 & r0 & x1 & r1 & H0 & H1 & T); [|lia]. cbn in H0, H1.
        injection H0 as <- <-. injection H1 as <- <-. revert T. apply not_touching; [lra|]. unfold sqdist. vcalc. lra.
      * destruct tele as [|c tele]; [reflexivity|]. exfalso. destruct (So c (or_introl eq_refl)) as (_ & NP & y0 & y1 & r0 & r1 & S0 & S1 & _).
        assert (K : forall i p s y, seen_at hardware (hole 10) [((8, 5), 1); ((5, 5), 1)] i p s y -> p = None).
        { intros i p s y S. apply hole_seen in S as (x & r & H & S). destruct (N.to_nat i) as [|[|n]]; cbn in H.
          - injection H as <- <-. cbn [fst snd] in S. destruct S as [(-> & _)|[(_ & _ & S & _)|(_ & _ & S & _)]]; [reflexivity|lra|lra].
          - injection H as <- <-. cbn [fst snd] in S. destruct S as [(-> & _)|[(_ & _ & S & _)|(_ & _ & S & _)]]; [reflexivity|lra|lra].
          - destruct n; discriminate. }
        apply K in S0, S1. tauto.
Qed.

(* ---------- in space ---------- *)
Definition floor3 : plane3 := mkPlane3 (V3 0 0 0) (V3 0 1 0).
Definition ceiling3 (w : R) : plane3 := mkPlane3 (V3 0 w 0) (V3 0 (-1) 0).
Lemma floor_ceiling3 w : 0 < w -> unit_plane3 floor3 /\ unit_plane3 (ceiling3 w) /\ q_n (ceiling3 w) = neg3 (q_n floor3) /\
  height3 floor3 (q_x (ceiling3 w)) = w.
Proof.
  intros H. unfold unit_plane3, height3, floor3, ceiling3, dot3, sub3, neg3, scale3. cbn [q_n q_x c0 c1 c2].
  repeat split; try lra. f_equal; lra.
Qed.
