(* Proofs on the planar cameras. *)
From Coq Require Import List Reals Lra Psatz Bool.
From Verif Require Import Outcome Ccd_Model Lin_Model Geom_Model Geom_Spec Geom_Aabb Cam_Model Cam_Spec.
Import ListNotations.
Open Scope R_scope.

Ltac nz := repeat match goal with |- _ /\ _ => split end; apply Rgt_not_eq; unfold Rgt; lra.
(* the projection is that of the controller, for the size it remembers *)
Definition synced (v : view2) : Prop :=
  g_l v = v_x v - v_s v / (v_h v / v_w v) /\ g_r v = v_x v + v_s v / (v_h v / v_w v)
  /\ g_b v = v_y v - v_s v /\ g_t v = v_y v + v_s v.
(* always, once the window has been shown *)
Definition sized (v : view2) : Prop := g_w v = v_w v /\ g_h v = v_h v /\ 0 < v_w v /\ 0 < v_h v /\ 0 < v_s v.

Lemma synced_faithful : forall v, sized v -> synced v -> faithful2 v.
Proof.
  intros v (W & H & W0 & H0 & S0) (L & R' & B & T). unfold faithful2, shows2. rewrite W, H. split; [assumption|]. split; [assumption|]. split; [assumption|]. split; [reflexivity|]. split; [reflexivity|].
  intros p. assert (0 < v_s v * v_w v) by (apply Rmult_lt_0_compat; assumption).
  unfold pixel2. rewrite L, R', B, T, W, H. cbn [fst snd]. f_equal; field; nz.
Qed.
Lemma reshape_synced : forall v w h, synced (reshape v w h).
Proof. intros. unfold synced, reshape. cbn. repeat split. Qed.
Lemma reshape_sized : forall v w h, 0 < w -> 0 < h -> 0 < v_s v -> sized (reshape v w h).
Proof. intros. unfold sized, reshape. cbn. repeat split; assumption. Qed.
Lemma max_pos : forall a x, 0 < a -> 0 < Rmax a x.
Proof. intros a x H. pose proof (Rmax_l a x). lra. Qed.
Lemma frame_scale_pos : forall v b w h, 0 < w -> 0 < h -> extended2 b -> 0 < v_s (frame_box v b w h).
Proof.
  intros v [[x0 y0] [x1 y1]] w h W H (X & Y & E). cbn [fst snd] in *. unfold frame_box, set_scale. cbv zeta. cbn [v_s fst snd].
  assert (0 < h / w) by (apply Rdiv_lt_0_compat; assumption).
  pose proof (Rmax_l (h / w * (x1 - (x0 + / 2 * (x1 - x0)))) (y1 - (y0 + / 2 * (y1 - y0)))).
  pose proof (Rmax_r (h / w * (x1 - (x0 + / 2 * (x1 - x0)))) (y1 - (y0 + / 2 * (y1 - y0)))).
  destruct E as [E|E].
  - assert (0 < h / w * (x1 - (x0 + / 2 * (x1 - x0)))) by (apply Rmult_lt_0_compat; lra). lra.
  - lra.
Qed.

Lemma step_sized : forall a v e, sized v -> sensible2 e -> sized (step2 a v e).
Proof.
  intros a v e (W & H & W0 & H0 & S0) E. destruct e as [w h|lb rb dx dy|d|b|c b|l]; cbn [step2 sensible2] in *.
  - destruct E. apply reshape_sized; assumption.
  - destruct (v_lock v); [unfold sized; tauto|].
    assert (A : sized (if lb then translate_view v dx dy else v)).
    { destruct lb; [|unfold sized; tauto]. unfold translate_view. apply reshape_sized; cbn; assumption. }
    destruct rb; [|exact A]. destruct A as (W' & H' & W0' & H0' & S0'). unfold zoom_view. apply reshape_sized; try assumption. cbn. apply max_pos. lra.
  - destruct (v_lock v); [unfold sized; tauto|]. unfold zoom_view. apply reshape_sized; try assumption. cbn. apply max_pos. lra.
  - unfold center_camera2. destruct (v_lock v); [unfold sized; tauto|]. destruct a, b as [b|].
    + rewrite W, H. apply reshape_sized; try assumption. apply frame_scale_pos; assumption.
    + unfold sized, reset_view. cbn. repeat split; try assumption; lra.
    + apply reshape_sized; try assumption. apply frame_scale_pos; assumption.
    + apply reshape_sized; try assumption. cbn. lra.
  - unfold open_scene2.
    assert (A : sized (match c with Some (x, y, s, _) => set_scale (set_center (set_lock v false) x y) s | None => center_camera2 a (set_lock v false) b false end)).
    { destruct c as [[[[x y] s] l]|].
      - unfold sized. cbn. repeat split; assumption.
      - unfold center_camera2. cbn [v_lock set_lock]. destruct a, b as [b|].
        + unfold sized. split; [exact W|]. split; [exact H|]. split; [exact W0|]. split; [exact H0|]. apply frame_scale_pos; cbn; rewrite ?W, ?H; assumption.
        + unfold sized. cbn. repeat split; try assumption; lra.
        + unfold sized. split; [exact W|]. split; [exact H|]. split; [exact W0|]. split; [exact H0|]. apply frame_scale_pos; cbn; assumption.
        + unfold sized. cbn. repeat split; try assumption; lra. }
    revert A. generalize (match c with Some (x, y, s, _) => set_scale (set_center (set_lock v false) x y) s | None => center_camera2 a (set_lock v false) b false end).
    intros v' (W' & H' & W0' & H0' & S0'). destruct a.
    + unfold sized. cbn. repeat split; assumption.
    + apply reshape_sized; cbn; rewrite ?W', ?H'; assumption.
  - unfold sized. cbn. repeat split; assumption.
Qed.

Lemma step_synced : forall a v e, sized v -> synced v -> (a = Bodies2 \/ ~ leaves_stale e) -> synced (step2 a v e).
Proof.
  intros a v e Z S E. destruct e as [w h|lb rb dx dy|d|b|c b|l]; cbn [step2 leaves_stale] in *.
  - apply reshape_synced.
  - destruct (v_lock v); [exact S|]. destruct rb; [apply reshape_synced|]. destruct lb; [apply reshape_synced|exact S].
  - destruct (v_lock v); [exact S|]. apply reshape_synced.
  - unfold center_camera2. destruct (v_lock v); [exact S|]. destruct a, b as [b|]; try apply reshape_synced. destruct E as [E|E]; [discriminate E|tauto].
  - destruct a; [destruct E as [E|E]; [discriminate E|tauto]|]. apply reshape_synced.
  - exact S.
Qed.

Theorem history2 : forall a v es, faithful2 v -> sized v -> synced v -> Forall sensible2 es -> (a = Bodies2 \/ Forall (fun e => ~ leaves_stale e) es) ->
  sized (run2 a v es) /\ synced (run2 a v es).
Proof.
  intros a v es _. revert v. induction es as [|e es IH]; intros v Z S F N; [split; assumption|]. unfold run2. cbn [fold_left].
  inversion F as [|? ? F1 F2]. apply IH.
  - apply step_sized; assumption.
  - apply step_synced; try assumption. destruct N as [N|N]; [left; exact N|right; inversion N; assumption].
  - exact F2.
  - destruct N as [N|N]; [left; exact N|right; inversion N; assumption].
Qed.
Lemma run_sized : forall a es v, sized v -> Forall sensible2 es -> sized (run2 a v es).
Proof. intros a es. induction es as [|e es IH]; intros v Z F; [exact Z|]. unfold run2. cbn [fold_left]. inversion F. apply IH; [apply step_sized|]; assumption. Qed.

(* a history that begins with the window being shown *)
Theorem after_show : forall a l r b t w0 h0 w h es, 0 < w -> 0 < h -> Forall sensible2 es ->
  (a = Bodies2 \/ Forall (fun e => ~ leaves_stale e) es) ->
  faithful2 (run2 a (start2 l r b t w0 h0) (Resize2 w h :: es)).
Proof.
  intros a l r b t w0 h0 w h es W H F N. unfold run2. cbn [fold_left step2]. fold (run2 a).
  assert (Z : sized (reshape (start2 l r b t w0 h0) w h)) by (apply reshape_sized; try assumption; cbn; lra).
  pose proof (reshape_synced (start2 l r b t w0 h0) w h) as S.
  destruct (history2 a _ es (synced_faithful _ Z S) Z S F N). apply synced_faithful; assumption.
Qed.
(* for the ball program too, whatever has been opened, once the picture has been touched *)
Definition touches (v : view2) (e : event2) : Prop :=
  match e with
  | Resize2 _ _ => True
  | Move2 lb rb _ _ => v_lock v = false /\ (lb = true \/ rb = true)
  | Wheel2 _ | Center2 (Some _) => v_lock v = false
  | _ => False
  end.
Theorem after_touch : forall a l r b t w0 h0 w h es e, 0 < w -> 0 < h -> Forall sensible2 es -> sensible2 e ->
  touches (run2 a (start2 l r b t w0 h0) (Resize2 w h :: es)) e ->
  faithful2 (run2 a (start2 l r b t w0 h0) (Resize2 w h :: es ++ [e])).
Proof.
  intros a l r b t w0 h0 w h es e W H F E T.
  replace (run2 a (start2 l r b t w0 h0) (Resize2 w h :: es ++ [e])) with (step2 a (run2 a (start2 l r b t w0 h0) (Resize2 w h :: es)) e)
    by (unfold run2; rewrite app_comm_cons, fold_left_app; reflexivity).
  assert (Z : sized (run2 a (start2 l r b t w0 h0) (Resize2 w h :: es))).
  { unfold run2. cbn [fold_left step2]. apply run_sized; [|exact F]. apply reshape_sized; try assumption. cbn. lra. }
  revert T Z. generalize (run2 a (start2 l r b t w0 h0) (Resize2 w h :: es)). intros v T Z.
  apply synced_faithful; [apply step_sized; assumption|]. destruct e as [w' h'|lb rb dx dy|d|[bx|]|c bx|lk]; cbn [touches step2] in *; try contradiction.
  - apply reshape_synced.
  - destruct T as [T B]. rewrite T. destruct B as [-> | ->]; [|apply reshape_synced]. destruct rb; apply reshape_synced.
  - rewrite T. apply reshape_synced.
  - unfold center_camera2. rewrite T. destruct a; apply reshape_synced.
Qed.

(* the size the controller remembers is that of the window, in all histories *)
Theorem always_sized : forall a l r b t w0 h0 w h es, 0 < w -> 0 < h -> Forall sensible2 es ->
  sized (run2 a (start2 l r b t w0 h0) (Resize2 w h :: es)).
Proof. intros a l r b t w0 h0 w h es W H F. unfold run2. cbn [fold_left step2]. apply run_sized; [|exact F]. apply reshape_sized; try assumption. cbn. lra. Qed.

(* ---------- what each gesture does to the picture ---------- *)
Lemma faithful_pixel : forall v p, faithful2 v -> pixel2 v p = (g_w v / 2 + g_h v / (2 * v_s v) * (fst p - v_x v), g_h v / 2 - g_h v / (2 * v_s v) * (snd p - v_y v)).
Proof. intros v p (_ & _ & _ & _ & _ & P). rewrite P. reflexivity. Qed.
Theorem drag2 : forall a v dx dy p, sized v -> synced v -> v_lock v = false ->
  pixel2 (step2 a v (Move2 true false dx dy)) p = (fst (pixel2 v p) + dx, snd (pixel2 v p) + dy).
Proof.
  intros a v dx dy p Z S L.
  assert (Z' : sized (step2 a v (Move2 true false dx dy))) by (apply step_sized; [exact Z|exact I]).
  assert (S' : synced (step2 a v (Move2 true false dx dy))) by (apply step_synced; try assumption; right; cbn; tauto).
  rewrite (faithful_pixel _ p (synced_faithful _ Z' S')), (faithful_pixel _ p (synced_faithful _ Z S)).
  destruct Z as (W & H & W0 & H0 & S0). cbn [step2]. rewrite L. unfold translate_view, reshape, set_center. cbn [g_w g_h v_s v_x v_y fst snd].
  rewrite W, H. f_equal; field; nz.
Qed.
Theorem wheel2 : forall a v d p, sized v -> synced v -> v_lock v = false ->
  let s' := Rmax (/ 100000) (v_s v * (1 - 2 / 1000 * d)) in
  v_s (step2 a v (Wheel2 d)) = s'
  /\ fst (pixel2 (step2 a v (Wheel2 d)) p) - g_w v / 2 = v_s v / s' * (fst (pixel2 v p) - g_w v / 2)
  /\ snd (pixel2 (step2 a v (Wheel2 d)) p) - g_h v / 2 = v_s v / s' * (snd (pixel2 v p) - g_h v / 2).
Proof.
  intros a v d p Z S L s'.
  assert (Z' : sized (step2 a v (Wheel2 d))) by (apply step_sized; [exact Z|exact I]).
  assert (S' : synced (step2 a v (Wheel2 d))) by (apply step_synced; try assumption; right; cbn; tauto).
  rewrite (faithful_pixel _ p (synced_faithful _ Z' S')), (faithful_pixel _ p (synced_faithful _ Z S)).
  destruct Z as (W & H & W0 & H0 & S0). cbn [step2]. rewrite L. unfold zoom_view, reshape, set_scale. cbn [g_w g_h v_s v_x v_y fst snd].
  replace (v_s v + - (2 / 1000) * v_s v * d) with (v_s v * (1 - 2 / 1000 * d)) by ring. fold s'.
  assert (0 < s') by (unfold s'; apply max_pos; lra). rewrite W, H. split; [reflexivity|]. split; field; nz.
Qed.
Theorem zoom_drag2 : forall a v dx dy p, sized v -> synced v -> v_lock v = false ->
  let s' := Rmax (/ 100000) (v_s v * (1 + 2 / 100 * dy)) in
  v_s (step2 a v (Move2 false true dx dy)) = s'
  /\ fst (pixel2 (step2 a v (Move2 false true dx dy)) p) - g_w v / 2 = v_s v / s' * (fst (pixel2 v p) - g_w v / 2)
  /\ snd (pixel2 (step2 a v (Move2 false true dx dy)) p) - g_h v / 2 = v_s v / s' * (snd (pixel2 v p) - g_h v / 2).
Proof.
  intros a v dx dy p Z S L s'.
  assert (Z' : sized (step2 a v (Move2 false true dx dy))) by (apply step_sized; [exact Z|exact I]).
  assert (S' : synced (step2 a v (Move2 false true dx dy))) by (apply step_synced; try assumption; right; cbn; tauto).
  rewrite (faithful_pixel _ p (synced_faithful _ Z' S')), (faithful_pixel _ p (synced_faithful _ Z S)).
  destruct Z as (W & H & W0 & H0 & S0). cbn [step2]. rewrite L. unfold zoom_view, reshape, set_scale. cbn [g_w g_h v_s v_x v_y fst snd].
  replace (v_s v + 2 / 100 * v_s v * dy) with (v_s v * (1 + 2 / 100 * dy)) by ring. fold s'.
  assert (0 < s') by (unfold s'; apply max_pos; lra). rewrite W, H. split; [reflexivity|]. split; field; nz.
Qed.
(* the window's size does not change the scale of the picture or its middle *)
Theorem resize2 : forall a v w h p, 0 < w -> 0 < h -> 0 < v_s v ->
  pixel2 (step2 a v (Resize2 w h)) p = (w / 2 + h / (2 * v_s v) * (fst p - v_x v), h / 2 - h / (2 * v_s v) * (snd p - v_y v)).
Proof.
  intros a v w h p W H S. cbn [step2]. rewrite faithful_pixel by (apply synced_faithful; [apply reshape_sized; assumption|apply reshape_synced]). reflexivity.
Qed.
Lemma abs_bound : forall x b, - b <= x <= b -> Rabs x <= b.
Proof. intros x b [A B]. apply Rabs_le. split; assumption. Qed.
Theorem centred2 : forall a v b p, sized v -> v_lock v = false -> extended2 b -> within2 b p ->
  in_window2 (step2 a v (Center2 (Some b))) (1 / 6) p.
Proof.
  intros a v b p Z L E P.
  assert (Z' : sized (step2 a v (Center2 (Some b)))) by (apply step_sized; assumption).
  assert (S' : synced (step2 a v (Center2 (Some b)))) by (cbn [step2]; unfold center_camera2; rewrite L; destruct a; apply reshape_synced).
  unfold in_window2. rewrite (faithful_pixel _ p (synced_faithful _ Z' S')). cbn [fst snd].
  destruct Z as (W & H & W0 & H0 & S0).
  assert (Q : step2 a v (Center2 (Some b)) = reshape (frame_box v b (v_w v) (v_h v)) (v_w v) (v_h v)).
  { cbn [step2]. unfold center_camera2. rewrite L. destruct a; rewrite ?W, ?H; reflexivity. }
  rewrite Q. clear Q Z' S'. pose proof (frame_scale_pos v b (v_w v) (v_h v) W0 H0 E) as SP.
  destruct b as [[x0 y0] [x1 y1]], p as [px py]. destruct P as [[Px Px'] [Py Py']]. destruct E as (Ex & Ey & _). cbn [fst snd] in *.
  unfold reshape, frame_box, set_scale, set_center in *. cbv zeta in *. cbn [g_w g_h v_s v_x v_y fst snd] in *.
  set (M := Rmax (v_h v / v_w v * (x1 - (x0 + / 2 * (x1 - x0)))) (y1 - (y0 + / 2 * (y1 - y0)))) in *.
  assert (M1 : v_h v / v_w v * (x1 - (x0 + / 2 * (x1 - x0))) <= M) by apply Rmax_l.
  assert (M2 : y1 - (y0 + / 2 * (y1 - y0)) <= M) by apply Rmax_r.
  assert (MP : 0 < M) by lra.
  assert (IM : 0 < / M) by (apply Rinv_0_lt_compat; exact MP). assert (IW : 0 < / v_w v) by (apply Rinv_0_lt_compat; exact W0).
  assert (X : (x1 - x0) / 2 <= M * v_w v / v_h v).
  { apply (Rmult_le_reg_l (v_h v / v_w v)); [apply Rdiv_lt_0_compat; assumption|].
    replace (v_h v / v_w v * (M * v_w v / v_h v)) with M by (field; nz). lra. }
  assert (K : 0 < v_h v / (2 * (12 / 10 * M))) by (apply Rdiv_lt_0_compat; lra).
  split.
  - replace (v_w v / 2 + v_h v / (2 * (12 / 10 * M)) * (px - (x0 + / 2 * (x1 - x0))) - v_w v / 2)
      with (v_h v / (2 * (12 / 10 * M)) * (px - (x0 + / 2 * (x1 - x0)))) by ring.
    replace ((1 - 1 / 6) * (v_w v / 2)) with (v_h v / (2 * (12 / 10 * M)) * (M * v_w v / v_h v)) by (field; nz).
    rewrite Rabs_mult, (Rabs_pos_eq (v_h v / (2 * (12 / 10 * M)))) by lra. apply Rmult_le_compat_l; [lra|]. apply abs_bound. lra.
  - replace (v_h v / 2 - v_h v / (2 * (12 / 10 * M)) * (py - (y0 + / 2 * (y1 - y0))) - v_h v / 2)
      with (- (v_h v / (2 * (12 / 10 * M)) * (py - (y0 + / 2 * (y1 - y0))))) by ring.
    rewrite Rabs_Ropp. replace ((1 - 1 / 6) * (v_h v / 2)) with (v_h v / (2 * (12 / 10 * M)) * M) by (field; nz).
    rewrite Rabs_mult, (Rabs_pos_eq (v_h v / (2 * (12 / 10 * M)))) by lra. apply Rmult_le_compat_l; [lra|]. apply abs_bound. lra.
Qed.
Theorem locked2 : forall a v e, v_lock v = true -> match e with Move2 _ _ _ _ | Wheel2 _ | Center2 _ => True | _ => False end -> step2 a v e = v.
Proof. intros a v e L E. destruct e; try contradiction; cbn [step2]; unfold center_camera2; rewrite L; reflexivity. Qed.
(* opening a scene with a camera, in the program for bodies *)
Theorem opened2 : forall v x y s l b, sized v -> 0 < s ->
  let v' := step2 Bodies2 v (Open2 (Some (x, y, s, l)) b) in
  shows2 v' (g_w v) (g_h v) (x, y) (g_h v / (2 * s)) /\ v_lock v' = l.
Proof.
  intros v x y s l b Z S v'.
  assert (F : faithful2 v').
  { apply synced_faithful; [apply step_sized; assumption|]. unfold v'. cbn [step2]. apply reshape_synced. }
  destruct F as (_ & _ & _ & F). split; [exact F|reflexivity].
Qed.
