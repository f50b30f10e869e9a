(* The search for contacts across portals always finishes on an arena of moderate size. *)
From Coq Require Import List NArith ZArith Reals Lia Lra Bool.
From Verif Require Import Outcome Grid_Model Grid_Spec Grid_Proofs Grid_Arith Grid_Dim Grid_Real Ccd_Model Ccd_Proofs Lin_Model
  Portal_Model Portal_Spec Portal_Proofs Portal_Thms Portal_Active.
Import ListNotations.
Open Scope R_scope.

Lemma through2_always conv from to b dx x : always_answers conv -> exists y, through2 conv from to b dx x = Ok y.
Proof.
  intros A. unfold through2. match goal with |- context [conv ?d] => destruct (A d) as [k ->] end.
  cbn [obind]. eexists. reflexivity.
Qed.

Section Runs.
Variable conv : int_floor.
Hypothesis A : always_answers conv.

Lemma images_of_runs pi p : forall bs bi,
  (forall x r, In (x, r) bs -> ~ (touches_plane (po_a p) x r /\ touches_plane (po_b p) x r)) ->
  exists l, images_of conv pi p bi bs = Ok l.
Proof.
  induction bs as [|[x r] bs IH]; intros bi H; cbn [images_of].
  - eexists. reflexivity.
  - assert (T : exists o, ball_touches p x r = Ok o).
    { unfold ball_touches. pose proof (H x r (or_introl eq_refl)) as N. unfold touches_plane in N.
      destruct (within2_spec (po_a p) x r); destruct (within2_spec (po_b p) x r); cbn [andb]; try (eexists; reflexivity). tauto. }
    destruct T as [o ->]. cbn [obind].
    destruct (IH (bi + 1)%N) as [l ->]. { intros y s Hy. apply H. now right. }
    destruct o as [s|].
    + assert (Y : exists y, teleport_ball conv p x r = Ok y).
      { unfold teleport_ball, through2_a, through2_b. destruct (within2 (po_a p) x r); apply through2_always; exact A. }
      destruct Y as [y ->]. cbn [obind]. eexists. reflexivity.
    + cbn [obind]. eexists. reflexivity.
Qed.

Lemma all_images_runs bs : forall ps pi,
  (forall p x r, In p ps -> In (x, r) bs -> ~ (touches_plane (po_a p) x r /\ touches_plane (po_b p) x r)) ->
  exists l, all_images conv pi ps bs = Ok l.
Proof.
  induction ps as [|p ps IH]; intros pi H; cbn [all_images].
  - eexists. reflexivity.
  - destruct (images_of_runs pi p bs 0%N) as [l ->]. { intros x r Hx. apply H; [now left|exact Hx]. }
    destruct (IH (pi + 1)%N) as [m ->]. { intros q x r Hq. apply H. now right. }
    cbn [obind]. eexists. reflexivity.
Qed.

Lemma active_runs ps bs M m :
  (N.of_nat (length bs) * (1 + N.of_nat (length ps)) <= 4294967296)%N -> bs <> [] ->
  (forall x r, In (x, r) bs -> m <= r) -> 0 < m -> 2 * M + 1 < 4294967000 * m ->
  (forall p x r, In p ps -> In (x, r) bs -> ~ (touches_plane (po_a p) x r /\ touches_plane (po_b p) x r)) ->
  (forall i p s y r, seen_at conv ps bs i p s y -> radius_of bs i r -> Rabs (fst y) + r <= M /\ Rabs (snd y) + r <= M) ->
  exists direct tele, active_with_portals conv ps bs = Ok (direct, tele).
Proof.
  intros Len Ne Hm Pm HM NB Bd.
  destruct (all_images_runs bs ps 0%N NB) as [ims Eims].
  unfold active_with_portals. rewrite Eims. cbn [obind].
  change (map (fun b => ball_box (fst b) (snd b)) bs ++ map (fun im => ball_box (im_x im) (im_r im)) ims) with (boxes bs ims).
  assert (Ar : Forall (in_arena M m) (boxes bs ims)).
  { apply Forall_forall. intros B HB. apply In_nth_error in HB as (n & Hn).
    assert (HB : box_at (boxes bs ims) (N.of_nat n) B) by (unfold box_at; now rewrite Nnat.Nat2N.id).
    destruct (every_box conv ps bs ims Eims _ _ HB) as (b & p & s & y & r & (_ & _ & Se & Ra & _) & ->).
    destruct (Bd _ _ _ _ _ Se Ra) as [B0 B1]. destruct Ra as (x & Hx). apply nth_error_In in Hx. apply Hm in Hx.
    unfold in_arena, ball_box. cbn [lo2 up2 fst snd].
    pose proof (Rle_abs (fst y)). pose proof (Rle_abs (- fst y)) as Q. rewrite Rabs_Ropp in Q.
    pose proof (Rle_abs (snd y)). pose proof (Rle_abs (- snd y)) as Q'. rewrite Rabs_Ropp in Q'. repeat split; lra. }
  destruct (real_total2 (boxes bs ims) [] M m) as [possible Ep].
  { unfold boxes. destruct bs; [congruence|]. cbn [map app]. discriminate. }
  { exact Ar. } { exact Pm. } { exact HM. }
  rewrite Ep. cbn [obind].
  assert (Hi : indexable (boxes bs ims)).
  { unfold indexable, boxes. rewrite app_length, !map_length. pose proof (all_images_length conv bs _ _ _ _ Eims).
    assert (N.of_nat (length ims) <= N.of_nat (length ps) * N.of_nat (length bs))%N by lia. lia. }
  assert (Pp : Forall (proper_pair bs ims) possible).
  { apply Forall_forall. intros [i j] H. destruct (any_sound2 real _ _ _ _ _ Hi Ep H) as [[]|(_ & a & b & Ha & Hb & _)].
    split; eauto. }
  destruct (narrow_all conv ps bs ims Eims possible [] [] Pp) as (d & cs & E' & _). rewrite E'. eexists. eexists. reflexivity.
Qed.

Lemma active_ordered ps bs direct tele i j :
  (N.of_nat (length bs) * (1 + N.of_nat (length ps)) <= 4294967296)%N ->
  active_with_portals conv ps bs = Ok (direct, tele) -> In (i, j) direct -> (i <= j)%N.
Proof.
  intros Len E. unfold active_with_portals in E.
  apply obind_Ok_inv in E as (ims & Eims & E). apply obind_Ok_inv in E as (possible & Ep & E).
  change (map (fun b => ball_box (fst b) (snd b)) bs ++ map (fun im => ball_box (im_x im) (im_r im)) ims) with (boxes bs ims) in Ep.
  assert (Hi : indexable (boxes bs ims)).
  { unfold indexable, boxes. rewrite app_length, !map_length. pose proof (all_images_length conv bs _ _ _ _ Eims).
    assert (N.of_nat (length ims) <= N.of_nat (length ps) * N.of_nat (length bs))%N by lia. lia. }
  assert (Pp : Forall (proper_pair bs ims) possible).
  { apply Forall_forall. intros [u v] H. destruct (any_sound2 real _ _ _ _ _ Hi Ep H) as [[]|(_ & a & b & Ha & Hb & _)].
    split; eauto. }
  destruct (narrow_all conv ps bs ims Eims possible [] [] Pp) as (d & cs & E' & Hd & _). rewrite E' in E. cbn [app] in E.
  injection E as <- <-. intros H. apply Hd in H as [H _].
  destruct (any_sound2 real _ _ _ _ _ Hi Ep H) as [[]|(L & _)]. exact L.
Qed.
End Runs.
