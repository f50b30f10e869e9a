(* The ball-ball contacts found when the scene has portals. *)
From Coq Require Import List NArith ZArith Reals Lia Lra Bool Sorted.
From Verif Require Import Outcome Grid_Model Grid_Spec Grid_Dim Ccd_Model Ccd_Proofs Lin_Model Lin_Proofs Contact_Proofs
  ContactBall_Model Portal_Model Portal_Spec Portal_Proofs Portal_Thms.
From Verif Require Import Lin_Model.
Import ListNotations.
Open Scope R_scope.

Lemma touching_iff x y r s : 0 <= r + s -> (balls_overlap x y r s = true <-> touching x y r s).
Proof.
  intros H. unfold balls_overlap, touching, sqdist.
  assert (P : 0 <= vdot (vsub x y) (vsub x y)).
  { unfold vdot. pose proof (Rle_0_sqr (fst (vsub x y))). pose proof (Rle_0_sqr (snd (vsub x y))). unfold Rsqr in *. lra. }
  destruct (Rleb_spec (vdot (vsub x y) (vsub x y)) ((r + s) * (r + s))) as [L|L].
  - split; [|reflexivity]. intros _. rewrite <- (sqrt_Rsqr (r + s) H). apply sqrt_le_1_alt. exact L.
  - split; [discriminate|]. intros K. exfalso. apply L.
    rewrite <- (sqrt_sqrt _ P). apply Rmult_le_compat; auto using sqrt_pos.
Qed.

Lemma near_boxes x y r s : 0 <= r + s -> balls_overlap x y r s = true -> overlaps2 (ball_box x r) (ball_box y s) = true.
Proof.
  intros H O. unfold balls_overlap in O. destruct (Rleb_spec (vdot (vsub x y) (vsub x y)) ((r + s) * (r + s))) as [L|L]; [|discriminate].
  unfold vdot, vsub in L. cbn [fst snd] in L.
  assert (C : forall a b : R, a * a + b * b <= (r + s) * (r + s) -> - (r + s) <= a <= r + s).
  { intros a b K. pose proof (Rle_0_sqr b) as Q. unfold Rsqr in Q.
    assert (Rabs a <= r + s).
    { rewrite <- (Rabs_pos_eq (r + s)) by exact H. apply Rsqr_le_abs_0. unfold Rsqr. lra. }
    now apply Rabs_le_inv. }
  pose proof (C _ _ L) as C0. rewrite Rplus_comm in L. pose proof (C _ _ L) as C1.
  unfold overlaps2, ball_box. cbn [real alt lo2 up2 fst snd].
  repeat match goal with |- context [Rltb ?a ?b] => destruct (Rltb_spec a b); [exfalso; lra|] end. reflexivity.
Qed.
Lemma ball_box_wf x r : 0 <= r -> wf2 real (ball_box x r).
Proof. intros H. unfold wf2. cbn [lo2 up2 ball_box fst snd]. split; apply alt_real_false; lra. Qed.

Section Active.
Variable conv : int_floor.

(* ---------- the images ---------- *)
Lemma touches_false p x r : ball_touches p x r = Ok (Some false) <-> touches_plane (po_a p) x r /\ ~ touches_plane (po_b p) x r.
Proof.
  unfold ball_touches, touches_plane. destruct (within2_spec (po_a p) x r); destruct (within2_spec (po_b p) x r); cbn [andb];
    split; try discriminate; try tauto; auto.
Qed.
Lemma touches_true p x r : ball_touches p x r = Ok (Some true) <-> ~ touches_plane (po_a p) x r /\ touches_plane (po_b p) x r.
Proof.
  unfold ball_touches, touches_plane. destruct (within2_spec (po_a p) x r); destruct (within2_spec (po_b p) x r); cbn [andb];
    split; try discriminate; try tauto; auto.
Qed.
Definition image_of (pi : N) (p : portal2) (bi : N) (x : vec) (r : R) (im : image) : Prop :=
  im_body im = bi /\ im_portal im = pi /\ im_r im = r /\ ball_touches p x r = Ok (Some (im_plane im)) /\
  teleport_ball conv p x r = Ok (im_x im).
Lemma image_eta im : im = mkImage (im_body im) (im_portal im) (im_plane im) (im_x im) (im_r im).
Proof. destruct im. reflexivity. Qed.
Lemma images_of_In pi p : forall bs bi l, images_of conv pi p bi bs = Ok l ->
  (forall im, In im l <-> exists k x r, nth_error bs k = Some (x, r) /\ image_of pi p (bi + N.of_nat k) x r im) /\
  (forall k x r, nth_error bs k = Some (x, r) -> exists o, ball_touches p x r = Ok o /\
     (o <> None -> exists y, teleport_ball conv p x r = Ok y)).
Proof.
  induction bs as [|[x r] bs IH]; intros bi l E; cbn [images_of] in E.
  - injection E as <-. split.
    + intros im. split; [intros []|]. intros (k & x & r & H & _). now destruct k.
    + intros k x r H. now destruct k.
  - apply obind_Ok_inv in E as (o & Et & E). apply obind_Ok_inv in E as (here & Eh & E).
    apply obind_Ok_inv in E as (more & Em & E). injection E as <-. destruct (IH _ _ Em) as [IH1 IH2]. split.
    + intros im. rewrite in_app_iff, IH1. split.
      * intros [H|(k & x' & r' & H & D)].
        -- exists 0%nat, x, r. split; [reflexivity|]. destruct o as [plane|].
           ++ apply obind_Ok_inv in Eh as (y & Ey & Eh). injection Eh as <-. destruct H as [<-|[]].
              unfold image_of. cbn [im_body im_portal im_r im_plane im_x]. rewrite N.add_0_r. auto.
           ++ injection Eh as <-. destruct H.
        -- exists (S k), x', r'. split; [exact H|]. replace (bi + N.of_nat (S k))%N with (bi + 1 + N.of_nat k)%N by lia. exact D.
      * intros (k & x' & r' & H & D). destruct k as [|k].
        -- left. injection H as <- <-. destruct D as (D1 & D2 & D3 & D4 & D5). rewrite Et in D4. injection D4 as ->.
           rewrite D5 in Eh. cbn [obind] in Eh. injection Eh as <-. left. rewrite N.add_0_r in D1.
           rewrite (image_eta im), <- D1, <- D2, <- D3. reflexivity.
        -- right. exists k, x', r'. split; [exact H|].
           replace (bi + 1 + N.of_nat k)%N with (bi + N.of_nat (S k))%N by lia. exact D.
    + intros k x' r' H. destruct k as [|k]; [|now apply IH2 with k].
      injection H as <- <-. exists o. split; [exact Et|]. intros No. destruct o as [plane|]; [|congruence].
      apply obind_Ok_inv in Eh as (y & Ey & _). eauto.
Qed.
Lemma all_images_In bs : forall ps pi l, all_images conv pi ps bs = Ok l ->
  (forall im, In im l <-> exists h p k x r, nth_error ps h = Some p /\ nth_error bs k = Some (x, r) /\
     image_of (pi + N.of_nat h) p (N.of_nat k) x r im) /\
  (forall h p k x r, nth_error ps h = Some p -> nth_error bs k = Some (x, r) -> exists o, ball_touches p x r = Ok o /\
     (o <> None -> exists y, teleport_ball conv p x r = Ok y)).
Proof.
  induction ps as [|p ps IH]; intros pi l E; cbn [all_images] in E.
  - injection E as <-. split.
    + intros im. split; [intros []|]. intros (h & q & k & x & r & H & _). now destruct h.
    + intros h q k x r H. now destruct h.
  - apply obind_Ok_inv in E as (here & Eh & E). apply obind_Ok_inv in E as (more & Em & E). injection E as <-.
    destruct (IH _ _ Em) as [IH1 IH2]. destruct (images_of_In _ _ _ _ _ Eh) as [H1 H2]. split.
    + intros im. rewrite in_app_iff, IH1, H1. split.
      * intros [(k & x & r & H & D)|(h & q & k & x & r & Hq & H & D)].
        -- exists 0%nat, p, k, x, r. cbn [nth_error]. rewrite N.add_0_r. rewrite N.add_0_l in D. auto.
        -- exists (S h), q, k, x, r. split; [exact Hq|]. split; [exact H|].
           replace (pi + N.of_nat (S h))%N with (pi + 1 + N.of_nat h)%N by lia. exact D.
      * intros (h & q & k & x & r & Hq & H & D). destruct h as [|h].
        -- left. injection Hq as <-. exists k, x, r. rewrite N.add_0_r in D. rewrite N.add_0_l. auto.
        -- right. exists h, q, k, x, r. split; [exact Hq|]. split; [exact H|].
           replace (pi + 1 + N.of_nat h)%N with (pi + N.of_nat (S h))%N by lia. exact D.
    + intros h q k x r Hq H. destruct h as [|h]; [injection Hq as <-; eauto|eauto].
Qed.

Variable ps : list portal2.
Variable bs : list (vec * R).
Let nb := N.of_nat (length bs).

(* the centre used for an image is the image *)
Lemma teleport_false p x r : touches_plane (po_a p) x r -> teleport_ball conv p x r = through2_a conv p x.
Proof. intros T. unfold teleport_ball. destruct (within2_spec (po_a p) x r); [reflexivity|contradiction]. Qed.
Lemma teleport_true p x r : ~ touches_plane (po_a p) x r -> teleport_ball conv p x r = through2_b conv p x.
Proof. intros T. unfold teleport_ball. destruct (within2_spec (po_a p) x r); [contradiction|reflexivity]. Qed.

Section Images.
Variable ims : list image.
Hypothesis Eims : all_images conv 0 ps bs = Ok ims.

Lemma images_seen im : In im ims -> seen_at conv ps bs (im_body im) (Some (im_portal im)) (im_plane im) (im_x im) /\
  radius_of bs (im_body im) (im_r im) /\ (im_body im < nb)%N.
Proof.
  intros H. destruct (all_images_In bs ps 0 ims Eims) as [A _]. apply A in H as (h & p & k & x & r & Hp & Hk & D).
  destruct D as (D1 & D2 & D3 & D4 & D5). rewrite N.add_0_l in D2. rewrite D1, D2, D3. 
  assert (K : nth_error bs (N.to_nat (N.of_nat k)) = Some (x, r)) by (now rewrite Nnat.Nat2N.id).
  assert (P : nth_error ps (N.to_nat (N.of_nat h)) = Some p) by (now rewrite Nnat.Nat2N.id).
  assert (L : (k < length bs)%nat) by (apply nth_error_Some; congruence).
  repeat split; [|now exists x|unfold nb; lia].
  destruct (im_plane im).
  - apply touches_true in D4 as [T1 T2]. rewrite (teleport_true _ _ _ T1) in D5. eapply Seen_b; eauto.
  - apply touches_false in D4 as [T1 T2]. rewrite (teleport_false _ _ _ T1) in D5. eapply Seen_a; eauto.
Qed.
Lemma seen_images i k s y : seen_at conv ps bs i (Some k) s y -> exists im, In im ims /\
  im_body im = i /\ im_portal im = k /\ im_plane im = s /\ im_x im = y /\ radius_of bs i (im_r im).
Proof.
  intros H. destruct (all_images_In bs ps 0 ims Eims) as [A B].
  assert (G : exists x r p, nth_error bs (N.to_nat i) = Some (x, r) /\ nth_error ps (N.to_nat k) = Some p /\
    ball_touches p x r = Ok (Some s) /\ teleport_ball conv p x r = Ok y).
  { inversion H as [|x r k' p y' Hx Hp T E|x r k' p y' Hx Hp T E]; subst; exists x, r, p; (split; [exact Hx|split; [exact Hp|]]);
    destruct (B _ _ _ _ _ Hp Hx) as (o & Eo & _).
    - assert (N : ~ touches_plane (po_b p) x r).
      { intros T'. unfold ball_touches, touches_plane in *. destruct (within2_spec (po_a p) x r); [|contradiction].
        destruct (within2_spec (po_b p) x r); [discriminate|contradiction]. }
      split; [now apply touches_false|]. now rewrite teleport_false.
    - assert (N : ~ touches_plane (po_a p) x r).
      { intros T'. unfold ball_touches, touches_plane in *. destruct (within2_spec (po_a p) x r); [|contradiction].
        destruct (within2_spec (po_b p) x r); [discriminate|contradiction]. }
      split; [now apply touches_true|]. now rewrite teleport_true. }
  destruct G as (x & r & p & Hx & Hp & T & E).
  exists (mkImage i k s y r). cbn [im_body im_portal im_plane im_x im_r]. repeat split; [|now exists x].
  apply A. exists (N.to_nat k), p, (N.to_nat i), x, r. split; [exact Hp|]. split; [exact Hx|].
  unfold image_of. cbn [im_body im_portal im_plane im_x im_r]. rewrite !Nnat.N2Nat.id. auto.
Qed.

(* ---------- boxes, their owners and where they are ---------- *)
Definition boxes := map (fun b => ball_box (fst b) (snd b)) bs ++ map (fun im => ball_box (im_x im) (im_r im)) ims.

Lemma boxes_low i : (i < nb)%N -> exists x r, nth_error bs (N.to_nat i) = Some (x, r) /\
  box_at boxes i (ball_box x r) /\ owner nb ims i = Some (i, None, false).
Proof.
  intros H. destruct (nth_error bs (N.to_nat i)) as [[x r]|] eqn:E.
  2:{ apply nth_error_None in E. unfold nb in H. lia. }
  exists x, r. split; [reflexivity|]. split.
  - unfold box_at, boxes. rewrite nth_error_app1 by (rewrite map_length; unfold nb in H; lia).
    rewrite (map_nth_error _ _ _ E). reflexivity.
  - unfold owner. rewrite (proj2 (N.ltb_lt i nb) H). reflexivity.
Qed.
Lemma boxes_high k im : nth_error ims k = Some im ->
  box_at boxes (nb + N.of_nat k) (ball_box (im_x im) (im_r im)) /\
  owner nb ims (nb + N.of_nat k) = Some (im_body im, Some (im_portal im), im_plane im).
Proof.
  intros E. split.
  - unfold box_at, boxes. rewrite nth_error_app2 by (rewrite map_length; unfold nb; lia).
    rewrite map_length. replace (N.to_nat (nb + N.of_nat k) - length bs)%nat with k by (unfold nb; lia).
    exact (map_nth_error (fun im => ball_box (im_x im) (im_r im)) k ims E).
  - unfold owner. rewrite (proj2 (N.ltb_ge (nb + N.of_nat k) nb)) by lia.
    replace (N.to_nat (nb + N.of_nat k - nb)) with k by lia. now rewrite E.
Qed.

(* box i shows ball b, seen as (p, s) at y, with radius r *)
Definition shows (i b : N) (p : option N) (s : bool) (y : vec) (r : R) : Prop :=
  owner nb ims i = Some (b, p, s) /\ box_at boxes i (ball_box y r) /\ seen_at conv ps bs b p s y /\ radius_of bs b r /\
  (b < nb)%N /\ ((i < nb)%N <-> p = None).
Lemma every_box i B : box_at boxes i B -> exists b p s y r, shows i b p s y r /\ B = ball_box y r.
Proof.
  intros H. destruct (N.ltb_spec i nb) as [L|L].
  - destruct (boxes_low i L) as (x & r & E & Bx & O). exists i, None, false, x, r. split.
    + repeat split; auto; [econstructor; eauto|now exists x].
    + unfold box_at in *. congruence.
  - destruct (nth_error ims (N.to_nat (i - nb))) as [im|] eqn:E.
    2:{ exfalso. unfold box_at, boxes in H. rewrite nth_error_app2 in H by (rewrite map_length; unfold nb in L; lia).
        rewrite map_length in H. assert (K : (N.to_nat i - length bs < length ims)%nat).
        { rewrite <- (map_length (fun im => ball_box (im_x im) (im_r im)) ims). apply nth_error_Some. congruence. }
        apply nth_error_None in E. unfold nb in *. lia. }
    destruct (boxes_high _ _ E) as [Bx O]. replace (nb + N.of_nat (N.to_nat (i - nb)))%N with i in * by lia.
    destruct (images_seen im (nth_error_In _ _ E)) as (S & Rd & Lb).
    exists (im_body im), (Some (im_portal im)), (im_plane im), (im_x im), (im_r im). split.
    + repeat split; auto; [intros; lia|discriminate].
    + unfold box_at in *. congruence.
Qed.
Lemma seen_box b p s y : seen_at conv ps bs b p s y -> exists i r, shows i b p s y r.
Proof.
  intros H. destruct p as [k|].
  - destruct (seen_images b k s y H) as (im & I & E1 & E2 & E3 & E4 & Rd).
    apply In_nth_error in I as (n & En). destruct (boxes_high _ _ En) as [Bx O].
    destruct (images_seen im (nth_error_In _ _ En)) as (S & Rd' & Lb).
    exists (nb + N.of_nat n)%N, (im_r im). subst. repeat split; auto; [intros; lia|discriminate].
  - inversion H as [x r Hx| |]; subst.
    assert (L : (b < nb)%N). { assert (N.to_nat b < length bs)%nat by (apply nth_error_Some; congruence). unfold nb. lia. }
    destruct (boxes_low b L) as (x & r' & E & Bx & O). rewrite Hx in E. injection E as -> <-.
    exists b, r. repeat split; auto. now exists x.
Qed.
Lemma shows_owner i b p s y r b' p' s' y' r' : shows i b p s y r -> shows i b' p' s' y' r' -> b = b' /\ p = p' /\ s = s'.
Proof. intros (O & _) (O' & _). rewrite O in O'. injection O' as -> -> ->. auto. Qed.
Lemma seen_centre b p s y x r : seen_at conv ps bs b p s y -> nth_error bs (N.to_nat b) = Some (x, r) -> centre conv ps x p s = Ok y.
Proof.
  intros S E. inversion S as [x' r' Hx|x' r' k q y' Hx Hp T Ey|x' r' k q y' Hx Hp T Ey]; subst; rewrite E in Hx; injection Hx as <- <-; cbn [centre].
  - reflexivity.
  - now rewrite Hp.
  - now rewrite Hp.
Qed.

(* ---------- the narrow phase ---------- *)
Lemma happens_seen b0 b1 p0 p1 s0 s1 y0 y1 r0 r1 :
  seen_at conv ps bs b0 p0 s0 y0 -> seen_at conv ps bs b1 p1 s1 y1 -> radius_of bs b0 r0 -> radius_of bs b1 r1 ->
  tcoll_happens conv ps bs (mkT b0 b1 p0 p1 s0 s1) = Ok (balls_overlap y0 y1 r0 r1).
Proof.
  intros S0 S1 (x0 & E0) (x1 & E1). unfold tcoll_happens, ball_of. cbn [t_b0 t_b1 t_p0 t_p1 t_s0 t_s1].
  rewrite E0, E1. cbn [obind fst snd]. rewrite (seen_centre _ _ _ _ _ _ S0 E0), (seen_centre _ _ _ _ _ _ S1 E1). reflexivity.
Qed.
Lemma balls_overlap_sym x y r s : balls_overlap x y r s = balls_overlap y x s r.
Proof. unfold balls_overlap. f_equal; [unfold vdot, vsub; cbn [fst snd]; ring|ring]. Qed.
Lemma happens_tcoll b0 b1 p0 p1 s0 s1 y0 y1 r0 r1 :
  seen_at conv ps bs b0 p0 s0 y0 -> seen_at conv ps bs b1 p1 s1 y1 -> radius_of bs b0 r0 -> radius_of bs b1 r1 ->
  tcoll_happens conv ps bs (ball_tcoll b0 b1 p0 p1 s0 s1) = Ok (balls_overlap y0 y1 r0 r1).
Proof.
  intros. unfold ball_tcoll. destruct (b1 <? b0)%N.
  - rewrite balls_overlap_sym. now apply happens_seen.
  - now apply happens_seen.
Qed.

(* what a candidate pair contributes *)
Definition direct_pair (pr : N * N) : Prop := (fst pr < nb)%N /\ (snd pr < nb)%N /\
  exists x0 r0 x1 r1, nth_error bs (N.to_nat (fst pr)) = Some (x0, r0) /\ nth_error bs (N.to_nat (snd pr)) = Some (x1, r1) /\
    balls_overlap x0 x1 r0 r1 = true.
Definition tele_pair (pr : N * N) (c : tcoll) : Prop := exists b0 p0 s0 y0 r0 b1 p1 s1 y1 r1 x0 x1,
  shows (fst pr) b0 p0 s0 y0 r0 /\ shows (snd pr) b1 p1 s1 y1 r1 /\ (p0 <> None \/ p1 <> None) /\
  nth_error bs (N.to_nat b0) = Some (x0, r0) /\ nth_error bs (N.to_nat b1) = Some (x1, r1) /\
  ~ (p0 <> None /\ p1 <> None /\ balls_overlap x0 x1 r0 r1 = true) /\
  balls_overlap y0 y1 r0 r1 = true /\ c = ball_tcoll b0 b1 p0 p1 s0 s1.

Definition proper_pair (pr : N * N) : Prop := (exists B, box_at boxes (fst pr) B) /\ (exists B, box_at boxes (snd pr) B).

Lemma shows_unique i b p s y r b' p' s' y' r' : shows i b p s y r -> shows i b' p' s' y' r' ->
  b = b' /\ p = p' /\ s = s' /\ y = y' /\ r = r'.
Proof.
  intros S S'. destruct (shows_owner _ _ _ _ _ _ _ _ _ _ _ S S') as (<- & <- & <-).
  destruct S as (_ & _ & S & (x & E) & _), S' as (_ & _ & S' & (x' & E') & _).
  rewrite E in E'. injection E' as <- <-.
  pose proof (seen_centre _ _ _ _ _ _ S E) as C. pose proof (seen_centre _ _ _ _ _ _ S' E) as C'.
  rewrite C in C'. injection C' as <-. auto.
Qed.

Lemma narrow_step direct set pr : proper_pair pr ->
  (direct_pair pr /\ (forall c, ~ tele_pair pr c) /\ narrow_portal conv nb ps bs ims (direct, set) pr = Ok (direct ++ [pr], set)) \/
  (~ direct_pair pr /\ (forall c, ~ tele_pair pr c) /\ narrow_portal conv nb ps bs ims (direct, set) pr = Ok (direct, set)) \/
  (exists c, ~ direct_pair pr /\ (forall d, tele_pair pr d <-> d = c) /\ narrow_portal conv nb ps bs ims (direct, set) pr = Ok (direct, tinsert c set)).
Proof.
  destruct pr as [i j]. intros [(B0 & H0) (B1 & H1)]. cbn [fst snd] in *.
  destruct (every_box i B0 H0) as (b0 & p0 & s0 & y0 & r0 & S0 & _).
  destruct (every_box j B1 H1) as (b1 & p1 & s1 & y1 & r1 & S1 & _).
  assert (S0' := S0). assert (S1' := S1).
  destruct S0' as (O0 & Bx0 & Se0 & R0 & L0 & I0), S1' as (O1 & Bx1 & Se1 & R1 & L1 & I1).
  assert (R0' := R0). assert (R1' := R1). destruct R0' as (x0 & X0), R1' as (x1 & X1).
  unfold narrow_portal.
  destruct ((i <? nb)%N && (j <? nb)%N) eqn:Low.
  - apply andb_true_iff in Low. rewrite !N.ltb_lt in Low. destruct Low as [Li Lj].
    assert (p0 = None) by tauto. assert (p1 = None) by tauto. subst p0 p1.
    assert (b0 = i /\ b1 = j) as [-> ->].
    { unfold owner in O0, O1. rewrite (proj2 (N.ltb_lt i nb) Li) in O0. rewrite (proj2 (N.ltb_lt j nb) Lj) in O1.
      injection O0 as ->. injection O1 as ->. auto. }
    assert (NT : forall c, ~ tele_pair (i, j) c).
    { intros c (a0 & q0 & t0 & z0 & w0 & a1 & q1 & t1 & z1 & w1 & ? & ? & T0 & T1 & Hp & _). cbn [fst snd] in *.
      destruct (shows_owner _ _ _ _ _ _ _ _ _ _ _ S0 T0) as (_ & <- & _).
      destruct (shows_owner _ _ _ _ _ _ _ _ _ _ _ S1 T1) as (_ & <- & _). tauto. }
    unfold ball_of. rewrite X0, X1. cbn [obind fst snd].
    destruct (balls_overlap x0 x1 r0 r1) eqn:O.
    + left. split; [|auto]. unfold direct_pair. cbn [fst snd]. repeat split; auto. exists x0, r0, x1, r1. auto.
    + right. left. split; [|auto]. intros (_ & _ & ? & ? & ? & ? & E0 & E1 & O'). cbn [fst snd] in *.
      rewrite X0 in E0. rewrite X1 in E1. injection E0 as <- <-. injection E1 as <- <-. congruence.
  - assert (NP : p0 <> None \/ p1 <> None).
    { destruct p0; [left; discriminate|]. destruct p1; [right; discriminate|]. exfalso.
      apply andb_false_iff in Low. rewrite !N.ltb_ge in Low. pose proof (proj2 I0 eq_refl). pose proof (proj2 I1 eq_refl). lia. }
    assert (ND : ~ direct_pair (i, j)).
    { intros (Li & Lj & _). cbn [fst snd] in *. apply andb_false_iff in Low. rewrite !N.ltb_ge in Low. lia. }
    rewrite O0, O1. unfold ball_of. rewrite X0, X1. cbn [obind fst snd].
    assert (G : negb (i <? nb)%N && negb (j <? nb)%N && balls_overlap x0 x1 r0 r1 = true <->
                p0 <> None /\ p1 <> None /\ balls_overlap x0 x1 r0 r1 = true).
    { rewrite !andb_true_iff, !negb_true_iff, !N.ltb_ge. rewrite <- I0, <- I1. rewrite !N.nlt_ge. tauto. }
    destruct (negb (i <? nb)%N && negb (j <? nb)%N && balls_overlap x0 x1 r0 r1) eqn:Sk.
    + right. left. split; [exact ND|]. split; [|reflexivity].
      intros c (a0 & q0 & t0 & z0 & w0 & a1 & q1 & t1 & z1 & w1 & u0 & u1 & T0 & T1 & _ & U0 & U1 & NS & _). cbn [fst snd] in *.
      destruct (shows_unique _ _ _ _ _ _ _ _ _ _ _ S0 T0) as (<- & <- & _ & _ & <-).
      destruct (shows_unique _ _ _ _ _ _ _ _ _ _ _ S1 T1) as (<- & <- & _ & _ & <-).
      rewrite X0 in U0. rewrite X1 in U1. injection U0 as <-. injection U1 as <-. apply NS. now apply G.
    + rewrite (happens_tcoll b0 b1 p0 p1 s0 s1 y0 y1 r0 r1 Se0 Se1 R0 R1). cbn [obind].
      destruct (balls_overlap y0 y1 r0 r1) eqn:O.
      * right. right. exists (ball_tcoll b0 b1 p0 p1 s0 s1). split; [exact ND|]. split; [|reflexivity].
        intros d. split.
        -- intros (a0 & q0 & t0 & z0 & w0 & a1 & q1 & t1 & z1 & w1 & u0 & u1 & T0 & T1 & _ & _ & _ & _ & _ & ->). cbn [fst snd] in *.
           destruct (shows_unique _ _ _ _ _ _ _ _ _ _ _ S0 T0) as (<- & <- & <- & _ & _).
           destruct (shows_unique _ _ _ _ _ _ _ _ _ _ _ S1 T1) as (<- & <- & <- & _ & _). reflexivity.
        -- intros ->. exists b0, p0, s0, y0, r0, b1, p1, s1, y1, r1, x0, x1. cbn [fst snd].
           repeat (split; [assumption|]). split; [|auto]. intros C. apply G in C. discriminate.
      * right. left. split; [exact ND|]. split; [|reflexivity].
        intros c (a0 & q0 & t0 & z0 & w0 & a1 & q1 & t1 & z1 & w1 & u0 & u1 & T0 & T1 & _ & _ & _ & _ & O' & _). cbn [fst snd] in *.
        destruct (shows_unique _ _ _ _ _ _ _ _ _ _ _ S0 T0) as (_ & _ & _ & <- & <-).
        destruct (shows_unique _ _ _ _ _ _ _ _ _ _ _ S1 T1) as (_ & _ & _ & <- & <-). congruence.
Qed.

Lemma narrow_all : forall prs direct set, Forall proper_pair prs -> exists d cs,
  ofold (narrow_portal conv nb ps bs ims) prs (direct, set) = Ok (direct ++ d, fold_left (fun s c => tinsert c s) cs set) /\
  (forall pr, In pr d <-> In pr prs /\ direct_pair pr) /\
  (forall c, In c cs <-> exists pr, In pr prs /\ tele_pair pr c).
Proof.
  induction prs as [|pr prs IH]; intros direct set F.
  - exists [], []. cbn [ofold fold_left]. rewrite app_nil_r. split; [reflexivity|]. split.
    + intros pr. cbn [In]. tauto.
    + intros c. split; [intros []|intros (pr & [] & _)].
  - inversion F as [|? ? P F']; subst. cbn [ofold].
    destruct (narrow_step direct set pr P) as [(D & NT & E)|[(ND & NT & E)|(c & ND & T & E)]]; rewrite E; cbn [obind].
    + destruct (IH (direct ++ [pr]) set F') as (d & cs & -> & Hd & Hc). exists (pr :: d), cs. split; [|split].
      * rewrite <- app_assoc. reflexivity.
      * intros q. cbn [In]. rewrite Hd. intuition (subst; auto).
      * intros c. rewrite Hc. split; intros (q & I & T); exists q; (split; [|exact T]); [now right|]. destruct I as [<-|I]; [|exact I].
        exfalso. eapply NT; eauto.
    + destruct (IH direct set F') as (d & cs & -> & Hd & Hc). exists d, cs. split; [reflexivity|]. split.
      * intros q. cbn [In]. rewrite Hd. intuition (subst; tauto).
      * intros c. rewrite Hc. split; intros (q & I & T); exists q; (split; [|exact T]); [now right|]. destruct I as [<-|I]; [|exact I].
        exfalso. eapply NT; eauto.
    + destruct (IH direct (tinsert c set) F') as (d & cs & -> & Hd & Hc). exists d, (c :: cs). split; [reflexivity|]. split.
      * intros q. cbn [In]. rewrite Hd. intuition (subst; tauto).
      * intros e. cbn [In]. rewrite Hc. split.
        -- intros [<-|(q & I & T')]; [exists pr; split; [now left|now apply T]|exists q; auto].
        -- intros (q & [<-|I] & T'); [left; symmetry; now apply T|right; eauto].
Qed.
End Images.

Lemma images_of_length pi p : forall l bi ims, images_of conv pi p bi l = Ok ims -> (length ims <= length l)%nat.
Proof.
  induction l as [|[x r] l IH]; intros bi ims E; cbn [images_of] in E; [injection E as <-; auto|].
  apply obind_Ok_inv in E as (o & _ & E). apply obind_Ok_inv in E as (here & Eh & E).
  apply obind_Ok_inv in E as (more & Em & E). injection E as <-. apply IH in Em. rewrite app_length. cbn [length].
  assert (length here <= 1)%nat; [|lia].
  destruct o; [apply obind_Ok_inv in Eh as (y & _ & Eh)|]; injection Eh as <-; cbn [length]; lia.
Qed.
Lemma all_images_length l : forall qs pi ims, all_images conv pi qs l = Ok ims -> (length ims <= length qs * length l)%nat.
Proof.
  induction qs as [|q qs IH]; intros pi ims E; cbn [all_images] in E; [injection E as <-; auto|].
  apply obind_Ok_inv in E as (here & Eh & E). apply obind_Ok_inv in E as (more & Em & E). injection E as <-.
  apply IH in Em. apply images_of_length in Eh. rewrite app_length. cbn [length Nat.mul]. lia.
Qed.

Lemma ball_tcoll_bodies b0 b1 p0 p1 s0 s1 : t_b0 (ball_tcoll b0 b1 p0 p1 s0 s1) = N.min b0 b1 /\ t_b1 (ball_tcoll b0 b1 p0 p1 s0 s1) = N.max b0 b1.
Proof. unfold ball_tcoll. destruct (N.ltb_spec b1 b0); cbn [t_b0 t_b1]; lia. Qed.

Lemma active_portals direct tele :
  (N.of_nat (length bs) * (1 + N.of_nat (length ps)) <= 4294967296)%N -> Forall (fun b => 0 <= snd b) bs ->
  active_with_portals conv ps bs = Ok (direct, tele) ->
  (forall i j, (i < j)%N -> (In (i, j) direct <-> exists x0 r0 x1 r1,
     nth_error bs (N.to_nat i) = Some (x0, r0) /\ nth_error bs (N.to_nat j) = Some (x1, r1) /\ touching x0 x1 r0 r1)) /\
  (forall c, In c tele -> (t_b0 c <= t_b1 c)%N /\ (t_p0 c <> None \/ t_p1 c <> None) /\
     exists y0 y1 r0 r1, seen_at conv ps bs (t_b0 c) (t_p0 c) (t_s0 c) y0 /\ seen_at conv ps bs (t_b1 c) (t_p1 c) (t_s1 c) y1 /\
       radius_of bs (t_b0 c) r0 /\ radius_of bs (t_b1 c) r1 /\ touching y0 y1 r0 r1) /\
  (forall i p s y ri j q t z rj xi xj, seen_at conv ps bs i p s y -> seen_at conv ps bs j q t z ->
     nth_error bs (N.to_nat i) = Some (xi, ri) -> nth_error bs (N.to_nat j) = Some (xj, rj) ->
     (i, p, s) <> (j, q, t) -> (p <> None \/ q <> None) -> touching y z ri rj ->
     (p <> None -> q <> None -> ~ touching xi xj ri rj) ->
     exists c, In c tele /\ t_b0 c = N.min i j /\ t_b1 c = N.max i j) /\
  (forall c d, In c tele -> In d tele -> same_bodies c d -> c = d).
Proof.
  intros Len W E. unfold active_with_portals in E. fold nb in E.
  apply obind_Ok_inv in E as (ims & Eims & E). apply obind_Ok_inv in E as (possible & Ep & E).
  change (map (fun b => ball_box (fst b) (snd b)) bs ++ map (fun im => ball_box (im_x im) (im_r im)) ims) with (boxes ims) in Ep.
  rewrite Forall_forall in W.
  assert (Wi : forall i x r, nth_error bs i = Some (x, r) -> 0 <= r).
  { intros i x r H. apply (W (x, r)). eapply nth_error_In; eauto. }
  assert (Hi : indexable (boxes ims)).
  { unfold indexable, boxes. rewrite app_length, !map_length. pose proof (all_images_length _ _ _ _ Eims).
    assert (N.of_nat (length ims) <= N.of_nat (length ps) * N.of_nat (length bs))%N by lia. lia. }
  assert (Wf : Forall (wf2 real) (boxes ims)).
  { apply Forall_forall. intros B HB. apply In_nth_error in HB as (n & Hn).
    assert (HB : box_at (boxes ims) (N.of_nat n) B) by (unfold box_at; now rewrite Nnat.Nat2N.id).
    destruct (every_box ims Eims _ _ HB) as (b & p & s & y & r & (_ & _ & _ & (x & Hx) & _) & ->).
    apply ball_box_wf. eauto. }
  assert (Pp : Forall (proper_pair ims) possible).
  { apply Forall_forall. intros [i j] H. destruct (any_sound2 real _ _ _ _ _ Hi Ep H) as [[]|(_ & a & b & Ha & Hb & _)].
    split; eauto. }
  destruct (narrow_all ims Eims possible [] [] Pp) as (d & cs & E' & Hd & Hc). rewrite E' in E. cbn [app] in E.
  injection E as <- <-. fold (tset cs). destruct (tset_spec cs) as [Sorted Spec].
  split; [|split; [|split]].
  - intros i j Hij. rewrite Hd. split.
    + intros (_ & _ & _ & x0 & r0 & x1 & r1 & H0 & H1 & O). cbn [fst snd] in *. exists x0, r0, x1, r1.
      repeat split; auto. apply touching_iff; auto. pose proof (Wi _ _ _ H0). pose proof (Wi _ _ _ H1). lra.
    + intros (x0 & r0 & x1 & r1 & H0 & H1 & T). pose proof (Wi _ _ _ H0). pose proof (Wi _ _ _ H1).
      apply touching_iff in T; [|lra].
      assert (Li : (i < nb)%N). { assert (N.to_nat i < length bs)%nat by (apply nth_error_Some; congruence). unfold nb. lia. }
      assert (Lj : (j < nb)%N). { assert (N.to_nat j < length bs)%nat by (apply nth_error_Some; congruence). unfold nb. lia. }
      split.
      * destruct (boxes_low ims i Li) as (x0' & r0' & H0' & B0 & _). rewrite H0 in H0'. injection H0' as <- <-.
        destruct (boxes_low ims j Lj) as (x1' & r1' & H1' & B1 & _). rewrite H1 in H1'. injection H1' as <- <-.
        apply (any_complete2 real real_laws (boxes ims) [] possible i j _ _ Hi Wf Ep Hij B0 B1). apply near_boxes; [lra|exact T].
      * unfold direct_pair. cbn [fst snd]. split; [exact Li|]. split; [exact Lj|]. exists x0, r0, x1, r1. auto.
  - intros c Ic. apply Spec, first_In, Hc in Ic as ((i, j) & _ & T).
    destruct T as (b0 & p0 & s0 & y0 & r0 & b1 & p1 & s1 & y1 & r1 & x0 & x1 & S0 & S1 & NP & X0 & X1 & _ & O & ->).
    destruct S0 as (_ & _ & Se0 & R0 & _), S1 as (_ & _ & Se1 & R1 & _).
    pose proof (Wi _ _ _ X0). pose proof (Wi _ _ _ X1).
    unfold ball_tcoll. destruct (N.ltb_spec b1 b0); cbn [t_b0 t_b1 t_p0 t_p1 t_s0 t_s1].
    + split; [lia|]. split; [tauto|]. exists y1, y0, r1, r0. repeat split; auto. apply touching_iff; [lra|]. now rewrite balls_overlap_sym.
    + split; [lia|]. split; [tauto|]. exists y0, y1, r0, r1. repeat split; auto. apply touching_iff; [lra|]. exact O.
  - intros i p s y ri j q t z rj xi xj Si Sj Xi Xj Ne NP T NS.
    pose proof (Wi _ _ _ Xi). pose proof (Wi _ _ _ Xj). apply touching_iff in T; [|lra].
    destruct (seen_box ims Eims _ _ _ _ Si) as (m & ri' & Sm). destruct (seen_box ims Eims _ _ _ _ Sj) as (n & rj' & Sn).
    assert (ri' = ri). { destruct Sm as (_ & _ & _ & (x & Hx) & _). rewrite Hx in Xi. now injection Xi. } subst ri'.
    assert (rj' = rj). { destruct Sn as (_ & _ & _ & (x & Hx) & _). rewrite Hx in Xj. now injection Xj. } subst rj'.
    assert (Bm := proj1 (proj2 Sm)). assert (Bn := proj1 (proj2 Sn)).
    assert (G : exists c, In c cs /\ t_b0 c = N.min i j /\ t_b1 c = N.max i j).
    { destruct (N.lt_trichotomy m n) as [L|[->|L]].
      - exists (ball_tcoll i j p q s t). split; [|apply ball_tcoll_bodies]. apply Hc. exists (m, n). split.
        + apply (any_complete2 real real_laws (boxes ims) [] possible m n _ _ Hi Wf Ep L Bm Bn). apply near_boxes; [lra|exact T].
        + exists i, p, s, y, ri, j, q, t, z, rj, xi, xj. cbn [fst snd]. repeat (split; [assumption|]). split; [|auto].
          intros (P & Q & O). apply (NS P Q). apply touching_iff; [lra|exact O].
      - exfalso. destruct (shows_owner ims _ _ _ _ _ _ _ _ _ _ _ Sm Sn) as (-> & -> & ->). now apply Ne.
      - exists (ball_tcoll j i q p t s). split; [|rewrite N.min_comm, N.max_comm; apply ball_tcoll_bodies]. apply Hc. exists (n, m). split.
        + apply (any_complete2 real real_laws (boxes ims) [] possible n m _ _ Hi Wf Ep L Bn Bm). apply near_boxes; [lra|]. now rewrite balls_overlap_sym.
        + exists j, q, t, z, rj, i, p, s, y, ri, xj, xi. cbn [fst snd]. split; [exact Sn|]. split; [exact Sm|]. split; [tauto|].
          split; [exact Xj|]. split; [exact Xi|]. split; [|split; [now rewrite balls_overlap_sym|reflexivity]].
          intros (Q & P & O). apply (NS P Q). apply touching_iff; [lra|]. now rewrite balls_overlap_sym. }
    destruct G as (c & Ic & B0 & B1). destruct (first_exists cs c Ic) as (f & Ff & Bf & Bg).
    exists f. split; [now apply Spec|]. rewrite Bf, Bg. auto.
  - intros c d' Ic Id B. exact (tset_once cs c d' Ic Id B).
Qed.

(* ---------- the contacts created ---------- *)
Lemma lees_edwards_slides k b : lees_edwards_index ps k = Ok b -> (b = true <-> slides ps k).
Proof.
  unfold lees_edwards_index, slides. destruct k as [k|].
  - destruct (nth_error ps (N.to_nat k)) as [p|] eqn:E; [|discriminate]. intros H. injection H as <-.
    unfold lees_edwards. rewrite negb_true_iff. destruct (Reqb_spec (po_v p) 0); split; try discriminate; auto.
    + intros (i & q & H & E' & N). injection H as <-. rewrite E in E'. injection E' as <-. contradiction.
    + intros _. eauto 6.
  - intros H. injection H as <-. split; [discriminate|]. intros (i & q & H & _). discriminate.
Qed.
Lemma kick_seen k s x r y b v kick : (forall p, nth_error ps (N.to_nat k) = Some p -> ~ (touches_plane (po_a p) x r /\ touches_plane (po_b p) x r)) ->
  nth_error bs (N.to_nat b) = Some (x, r) ->
  seen_at conv ps bs b (Some k) s y -> portal_kick ps (Some k) x r = Ok kick -> seen_velocity ps (Some k) s v = vadd v kick.
Proof.
  intros NB X S. unfold portal_kick, seen_velocity.
  inversion S as [|x' r' k' p y' Hx Hp T E|x' r' k' p y' Hx Hp T E]; subst; rewrite Hx in X; injection X as -> ->; rewrite Hp; specialize (NB p Hp);
    intros H; injection H as <-; unfold kick_of_ball; destruct (within2_spec (po_a p) x r) as [W|W]; auto; exfalso.
  - contradiction.
  - tauto.
Qed.
End Active.

Lemma tele_contact_spec conv ps bs0 bs1 direct tele c con v :
  active_with_portals conv ps bs1 = Ok (direct, tele) ->
  (N.of_nat (length bs1) * (1 + N.of_nat (length ps)) <= 4294967296)%N -> Forall (fun b => 0 <= snd b) bs1 ->
  map snd bs0 = map snd bs1 -> In c tele -> ~ (slides ps (t_p0 c) /\ slides ps (t_p1 c)) ->
  tele_contact conv ps bs0 bs1 c = Ok con ->
  let i := N.to_nat (t_b0 c) in let j := N.to_nat (t_b1 c) in
  b_bodies con = (i, Some j) /\
  b_relvel con v = vsub (seen_velocity ps (t_p0 c) (t_s0 c) (seg2 v (2 * i))) (seen_velocity ps (t_p1 c) (t_s1 c) (seg2 v (2 * j))) /\
  exists x0 x1 y0 y1, nth_error (map fst bs0) i = Some x0 /\ nth_error (map fst bs0) j = Some x1 /\
    centre conv ps x0 (t_p0 c) (t_s0 c) = Ok y0 /\ centre conv ps x1 (t_p1 c) (t_s1 c) = Ok y1 /\
    b_normal con = vnormalized (vsub y0 y1).
Proof.
  intros EA Len W Rad Ic NSl E i j.
  assert (Rad' : forall n x r x' r', nth_error bs0 n = Some (x, r) -> nth_error bs1 n = Some (x', r') -> r = r').
  { intros n x r x' r' H H'. apply (map_nth_error snd) in H, H'. rewrite Rad in H. cbn [snd] in *. congruence. }
  pose proof (active_portals conv ps bs1 direct tele Len W EA) as (_ & Sound & _).
  destruct (Sound c Ic) as (_ & _ & z0 & z1 & r0 & r1 & S0 & S1 & (w0 & R0) & (w1 & R1) & _).
  assert (NB : forall b x r k p, nth_error bs1 (N.to_nat b) = Some (x, r) -> nth_error ps (N.to_nat k) = Some p ->
    ~ (touches_plane (po_a p) x r /\ touches_plane (po_b p) x r)).
  { intros b x r k p Hb Hp (T1 & T2). unfold active_with_portals in EA. apply obind_Ok_inv in EA as (ims & Ei & _).
    destruct (all_images_In conv bs1 ps 0 ims Ei) as [_ A]. destruct (A _ _ _ _ _ Hp Hb) as (o & Eo & _).
    unfold ball_touches, touches_plane in *. destruct (within2_spec (po_a p) x r); [|contradiction].
    destruct (within2_spec (po_b p) x r); [discriminate|contradiction]. }
  unfold tele_contact in E.
  apply obind_Ok_inv in E as ([x0 r0'] & E0 & E). apply obind_Ok_inv in E as ([x1 r1'] & E1 & E).
  apply obind_Ok_inv in E as (y0 & C0 & E). apply obind_Ok_inv in E as (y1 & C1 & E).
  apply obind_Ok_inv in E as (le0 & L0 & E). apply obind_Ok_inv in E as (le1 & L1 & E).
  apply obind_Ok_inv in E as ([u0 q0] & F0 & E). apply obind_Ok_inv in E as ([u1 q1] & F1 & E).
  cbn [fst snd] in *. unfold ball_of in *. fold i in E0, F0, R0. fold j in E1, F1, R1.
  destruct (nth_error bs0 i) as [[? ?]|] eqn:B0; [|discriminate]. injection E0 as -> ->.
  destruct (nth_error bs0 j) as [[? ?]|] eqn:B1; [|discriminate]. injection E1 as -> ->.
  rewrite R0 in F0. injection F0 as <- <-. rewrite R1 in F1. injection F1 as <- <-.
  assert (r0' = r0) by (eapply Rad'; eauto). assert (r1' = r1) by (eapply Rad'; eauto). subst r0' r1'.
  pose proof (lees_edwards_slides ps _ _ L0) as Sl0. pose proof (lees_edwards_slides ps _ _ L1) as Sl1.
  assert (NoKick : forall k s le u, lees_edwards_index ps k = Ok le -> le = false -> seen_velocity ps k s u = u).
  { intros k s le u Hl ->. unfold lees_edwards_index in Hl. destruct k as [k|]; [|reflexivity]. cbn [seen_velocity].
    destruct (nth_error ps (N.to_nat k)) as [p|]; [|reflexivity]. injection Hl as Hl. unfold lees_edwards in Hl.
    apply negb_false_iff in Hl. destruct (Reqb_spec (po_v p) 0) as [->|]; [|discriminate].
    apply veq; unfold vadd, vscale; cbn [fst snd]; ring. }
  assert (Rest : b_normal con = vnormalized (vsub y0 y1) -> exists x0 x1 y0 y1, nth_error (map fst bs0) i = Some x0 /\ nth_error (map fst bs0) j = Some x1 /\
    centre conv ps x0 (t_p0 c) (t_s0 c) = Ok y0 /\ centre conv ps x1 (t_p1 c) (t_s1 c) = Ok y1 /\
    b_normal con = vnormalized (vsub y0 y1)).
  { intros Hn. exists x0, x1, y0, y1. repeat split; auto; [exact (map_nth_error fst _ _ B0)|exact (map_nth_error fst _ _ B1)]. }
  destruct le0, le1; cbn [negb andb] in E.
  - exfalso. tauto.
  - apply obind_Ok_inv in E as (kick & Ek & E). injection E as <-. split; [reflexivity|]. split; [|apply Rest; reflexivity].
    cbn [mk_kick_ball_ball b_relvel]. rewrite (NoKick _ (t_s1 c) _ (seg2 v (2 * j)) L1 eq_refl).
    destruct (t_p0 c) as [k|] eqn:Ep; [|discriminate].
    rewrite (kick_seen conv ps bs1 k (t_s0 c) w0 r0 z0 (t_b0 c) (seg2 v (2 * i)) kick (fun p Hp => NB _ _ _ _ _ R0 Hp) R0 S0 Ek).
    unfold i, j. apply veq; unfold vsub, vadd, vneg; cbn [fst snd]; ring.
  - apply obind_Ok_inv in E as (kick & Ek & E). injection E as <-. split; [reflexivity|]. split; [|apply Rest; reflexivity].
    cbn [mk_kick_ball_ball b_relvel]. rewrite (NoKick _ (t_s0 c) _ (seg2 v (2 * i)) L0 eq_refl).
    destruct (t_p1 c) as [k|] eqn:Ep; [|discriminate].
    rewrite (kick_seen conv ps bs1 k (t_s1 c) w1 r1 z1 (t_b1 c) (seg2 v (2 * j)) kick (fun p Hp => NB _ _ _ _ _ R1 Hp) R1 S1 Ek).
    unfold i, j. apply veq; unfold vsub, vadd; cbn [fst snd]; ring.
  - injection E as <-. split; [reflexivity|]. split; [|apply Rest; reflexivity].
    cbn [mk_ball_ball b_relvel]. rewrite (NoKick _ _ _ _ L0 eq_refl), (NoKick _ _ _ _ L1 eq_refl). reflexivity.
Qed.
