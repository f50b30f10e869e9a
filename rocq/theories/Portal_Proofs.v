From Coq Require Import List NArith ZArith Reals Lia Lra Bool.
From Verif Require Import Outcome Grid_Model Ccd_Model Ccd_Proofs Lin_Model Cache_Model Portal_Model Portal_Spec.
Import ListNotations.
Open Scope R_scope.

(* ---------- the conversion ---------- *)
Lemma Int_part_char x k : IZR k <= x < IZR k + 1 -> Int_part x = k.
Proof.
  intros H. pose proof (Int_part_spec x) as S. 
  assert (A : (Int_part x < k + 1)%Z) by (apply lt_IZR; rewrite plus_IZR; lra).
  assert (B : (k < Int_part x + 1)%Z) by (apply lt_IZR; rewrite plus_IZR; lra). lia.
Qed.
Lemma strict_conv : int_conversion strict.
Proof.
  intros x k H R. unfold strict. rewrite (Int_part_char x k H). unfold in_int.
  replace ((-2147483648 <=? k)%Z) with true by (symmetry; apply Z.leb_le; lia).
  replace ((k <=? 2147483647)%Z) with true by (symmetry; apply Z.leb_le; lia). reflexivity.
Qed.
Lemma hardware_conv : int_conversion hardware /\ always_answers hardware.
Proof.
  split.
  - intros x k H R. unfold hardware. rewrite (Int_part_char x k H). unfold in_int.
    replace ((-2147483648 <=? k)%Z) with true by (symmetry; apply Z.leb_le; lia).
    replace ((k <=? 2147483647)%Z) with true by (symmetry; apply Z.leb_le; lia). reflexivity.
  - intros [x|]; cbn [hardware]; [destruct (in_int _)|]; eauto.
Qed.

Lemma Rabs_le_inv x a : Rabs x <= a -> - a <= x <= a.
Proof. intros H. pose proof (Rle_abs x). pose proof (Rle_abs (- x)). rewrite Rabs_Ropp in *. lra. Qed.

(* wrapping a coordinate into [-b, b) *)
Lemma wrap conv t b : int_conversion conv -> 0 < b -> Rabs t <= 4294967294 * b ->
  exists k, conv (ddiv (t + b) (2 * b)) = Ok k /\ - b <= t - 2 * IZR k * b < b.
Proof.
  intros C Hb Ht. unfold ddiv. destruct (Req_EM_T (2 * b) 0); [lra|].
  set (q := (t + b) / (2 * b)). pose proof (Int_part_spec q) as S. set (k := Int_part q) in *.
  assert (Q : t + b = q * (2 * b)) by (unfold q; field; lra).
  assert (L : IZR k * (2 * b) <= q * (2 * b)) by (apply Rmult_le_compat_r; lra).
  assert (U : q * (2 * b) < (IZR k + 1) * (2 * b)) by (apply Rmult_lt_compat_r; lra).
  exists k. split; [|lra]. apply C; [exact S|].
  assert (T : - (4294967294 * b) <= t <= 4294967294 * b) by (apply Rabs_le_inv in Ht; lra).
  split.
  - assert (X : IZR (- 2 ^ 31 - 1) < IZR k).
    { replace (IZR (- 2 ^ 31 - 1)) with (-2147483649) by (f_equal; reflexivity).
      apply Rmult_lt_reg_r with (2 * b); [lra|]. lra. }
    apply lt_IZR in X. lia.
  - apply lt_IZR. replace (IZR (2 ^ 31)) with 2147483648 by (f_equal; reflexivity).
    apply Rmult_lt_reg_r with (2 * b); [lra|]. lra.
Qed.

(* ---------- coordinates of a plane ---------- *)
Ltac vunf := unfold height, along, sqdist, vdot, vsub, vadd, vscale, vneg, vperp in *; cbn [fst snd] in *.

Lemma veq (a b : vec) : fst a = fst b -> snd a = snd b -> a = b.
Proof. destruct a, b. cbn [fst snd]. now intros -> ->. Qed.

Lemma place p h s : unit_plane p ->
  height p (vadd (vadd (p_x p) (vscale h (p_n p))) (vscale s (p_t p))) = h /\
  along p (vadd (vadd (p_x p) (vscale h (p_n p))) (vscale s (p_t p))) = s.
Proof.
  intros (N & T). rewrite ?T. unfold height, along. rewrite T. vunf. split.
  - transitivity (h * (fst (p_n p) * fst (p_n p) + snd (p_n p) * snd (p_n p))); [ring|]. rewrite N. ring.
  - transitivity (s * (fst (p_n p) * fst (p_n p) + snd (p_n p) * snd (p_n p))); [ring|]. rewrite N. ring.
Qed.
Lemma unplace p x : unit_plane p ->
  vadd (vadd (p_x p) (vscale (height p x) (p_n p))) (vscale (along p x) (p_t p)) = x.
Proof.
  intros (N & T). unfold along. rewrite T. vunf. apply veq; cbn [fst snd].
  - transitivity (fst (p_x p) + (fst x - fst (p_x p)) * (fst (p_n p) * fst (p_n p) + snd (p_n p) * snd (p_n p))); [ring|].
    rewrite N. ring.
  - transitivity (snd (p_x p) + (snd x - snd (p_x p)) * (fst (p_n p) * fst (p_n p) + snd (p_n p) * snd (p_n p))); [ring|].
    rewrite N. ring.
Qed.
Lemma coords_eq p x y : unit_plane p -> height p x = height p y -> along p x = along p y -> x = y.
Proof. intros U H A. rewrite <- (unplace p x U), <- (unplace p y U). now rewrite H, A. Qed.
Lemma sqdist_coords p x y : unit_plane p ->
  sqdist x y = (height p x - height p y) ^ 2 + (along p x - along p y) ^ 2.
Proof.
  intros (N & T). unfold along. rewrite T. vunf.
  transitivity (((fst x - fst y) * (fst x - fst y) + (snd x - snd y) * (snd x - snd y)) *
    (fst (p_n p) * fst (p_n p) + snd (p_n p) * snd (p_n p))); [rewrite N; ring|ring].
Qed.
Lemma height_linear p x s u : height p (vadd x (vscale s u)) = height p x + s * vdot (p_n p) u.
Proof. vunf. ring. Qed.
Lemma along_linear p x s u : along p (vadd x (vscale s u)) = along p x + s * vdot (p_t p) u.
Proof. vunf. ring. Qed.

(* what the code computes, in coordinates *)
Lemma through2_eq conv from to b dx x : unit_plane from -> through2 conv from to b dx x =
  obind (conv (ddiv (dx - along from x + b) (2 * b))) (fun k =>
    Ok (vadd (vadd (p_x to) (vscale (- height from x) (p_n to))) (vscale (dx - along from x - 2 * IZR k * b) (p_t to)))).
Proof.
  intros (N & T). unfold through2.
  assert (E1 : vdot (p_n from) (vsub (p_x from) x) = - height from x) by (vunf; ring).
  assert (E2 : vdot (p_t from) (vsub (vadd (vscale dx (p_t from)) (p_x from)) x) = dx - along from x).
  { unfold along. rewrite T. vunf.
    transitivity (dx * (fst (p_n from) * fst (p_n from) + snd (p_n from) * snd (p_n from))
                  - (- snd (p_n from) * (fst x - fst (p_x from)) + fst (p_n from) * (snd x - snd (p_x from)))); [ring|].
    rewrite N. ring. }
  rewrite E1, E2. reflexivity.
Qed.
Lemma through2_Ok conv from to b dx x y : unit_plane from -> unit_plane to -> through2 conv from to b dx x = Ok y ->
  exists k, height to y = - height from x /\ along to y = dx - along from x - 2 * IZR k * b.
Proof.
  intros U V E. rewrite through2_eq in E by exact U. apply obind_Ok_inv in E as (k & _ & E). injection E as <-.
  exists k. now apply place.
Qed.

(* ---------- fixed portals ---------- *)
Lemma fixed_through conv from to x : always_answers conv -> unit_plane from -> unit_plane to ->
  exists y, through2 conv from to 0 0 x = Ok y /\ height to y = - height from x /\ along to y = - along from x.
Proof.
  intros A U V. rewrite through2_eq by exact U. destruct (A (ddiv (0 - along from x + 0) (2 * 0))) as (k & ->).
  cbn [obind]. eexists. split; [reflexivity|].
  destruct (place to (- height from x) (0 - along from x - 2 * IZR k * 0) V) as [-> ->]. split; ring.
Qed.
Lemma fixed_round conv from to x : always_answers conv -> unit_plane from -> unit_plane to ->
  obind (through2 conv from to 0 0 x) (through2 conv to from 0 0) = Ok x.
Proof.
  intros A U V. destruct (fixed_through conv from to x A U V) as (y & -> & H1 & H2). cbn [obind].
  destruct (fixed_through conv to from y A V U) as (z & -> & H3 & H4). f_equal.
  apply (coords_eq from); auto; lra.
Qed.
Lemma fixed_isometry conv from to x x' y y' : unit_plane from -> unit_plane to ->
  through2 conv from to 0 0 x = Ok y -> through2 conv from to 0 0 x' = Ok y' -> sqdist y y' = sqdist x x'.
Proof.
  intros U V E E'. apply through2_Ok in E as (k & H1 & H2); auto. apply through2_Ok in E' as (k' & H1' & H2'); auto.
  rewrite (sqdist_coords to y y' V), (sqdist_coords from x x' U), H1, H2, H1', H2'. ring.
Qed.
Lemma fixed_undefined from to x : through2 strict from to 0 0 x = UB.
Proof.
  unfold through2, ddiv. destruct (Req_EM_T (2 * 0) 0); [reflexivity|lra].
Qed.

(* ---------- sliding portals ---------- *)
Lemma sliding_through conv from to b dx x : int_conversion conv -> unit_plane from -> unit_plane to ->
  0 < b -> Rabs (dx - along from x) <= 4294967294 * b ->
  exists y k, through2 conv from to b dx x = Ok y /\ height to y = - height from x /\
    along to y = dx - along from x - 2 * IZR k * b /\ - b <= along to y < b.
Proof.
  intros C U V Hb Hr. rewrite through2_eq by exact U. destruct (wrap conv _ _ C Hb Hr) as (k & -> & W).
  cbn [obind]. eexists. exists k. split; [reflexivity|].
  destruct (place to (- height from x) (dx - along from x - 2 * IZR k * b) V) as [-> ->]. auto.
Qed.
Lemma same_period a c b k : 0 < b -> - b <= a < b -> - b <= c < b -> a = c + 2 * IZR k * b -> a = c.
Proof.
  intros Hb Ha Hc E.
  assert (k = 0%Z).
  { assert (L : IZR k * (2 * b) < 1 * (2 * b)) by lra. apply Rmult_lt_reg_r in L; [|lra].
    assert (G : -1 * (2 * b) < IZR k * (2 * b)) by lra. apply Rmult_lt_reg_r in G; [|lra].
    apply (lt_IZR k 1) in L. apply (lt_IZR (-1) k) in G. lia. }
  subst k. lra.
Qed.
Lemma sliding_round conv from to b dx x : int_conversion conv -> unit_plane from -> unit_plane to ->
  0 < b -> - b <= dx <= b -> Rabs (dx - along from x) <= 4294967294 * b ->
  exists z k, obind (through2 conv from to b dx x) (through2 conv to from b dx) = Ok z /\
    height from z = height from x /\ along from z = along from x + 2 * IZR k * b /\ - b <= along from z < b.
Proof.
  intros C U V Hb Hd Hr. destruct (sliding_through conv from to b dx x C U V Hb Hr) as (y & k & -> & H1 & H2 & H3).
  cbn [obind]. destruct (sliding_through conv to from b dx y C V U Hb) as (z & k' & -> & H4 & H5 & H6).
  { apply Rabs_le. lra. }
  exists z, (k - k')%Z. split; [reflexivity|]. rewrite minus_IZR. split; [lra|]. split; [rewrite H5, H2; ring|exact H6].
Qed.
Lemma sliding_round_exact conv from to b dx x : int_conversion conv -> unit_plane from -> unit_plane to ->
  0 < b -> - b <= dx <= b -> - b <= along from x < b ->
  obind (through2 conv from to b dx x) (through2 conv to from b dx) = Ok x.
Proof.
  intros C U V Hb Hd Ha.
  destruct (sliding_round conv from to b dx x C U V Hb Hd) as (z & k & -> & H1 & H2 & H3).
  { apply Rabs_le. lra. }
  f_equal. apply (coords_eq from); auto. eapply same_period; eauto.
Qed.
Lemma sliding_distance conv from to b dx x x' y y' : unit_plane from -> unit_plane to ->
  through2 conv from to b dx x = Ok y -> through2 conv from to b dx x' = Ok y' ->
  exists k, sqdist (vadd y (vscale (2 * IZR k * b) (p_t to))) y' = sqdist x x'.
Proof.
  intros U V E E'. apply through2_Ok in E as (k & H1 & H2); auto. apply through2_Ok in E' as (k' & H1' & H2'); auto.
  exists (k - k')%Z. rewrite minus_IZR.
  assert (T : vdot (p_n to) (p_t to) = 0 /\ vdot (p_t to) (p_t to) = 1).
  { destruct V as (N & T). rewrite T. vunf. split; [ring|]. rewrite <- N. ring. }
  rewrite (sqdist_coords to _ y' V), (sqdist_coords from x x' U), height_linear, along_linear, (proj1 T), (proj2 T), H1, H2, H1', H2'. ring.
Qed.

(* ---------- moving while the portal slides ---------- *)
Lemma facing_sym a b w : facing a b w -> facing b a w.
Proof.
  intros (U & V & N & H & W). repeat split; auto; try apply U; try apply V.
  - rewrite N. unfold vneg. cbn [fst snd]. apply veq; cbn [fst snd]; ring.
  - unfold height in *. rewrite N. vunf. lra.
Qed.
Lemma facing_t a b w : facing a b w -> p_t b = vneg (p_t a).
Proof. intros ((_ & T) & (_ & T') & N & _). rewrite T, T', N. unfold vperp, vneg. cbn [fst snd]. reflexivity. Qed.
Lemma facing_heights a b w x : facing a b w -> height b x = w - height a x.
Proof. intros (U & V & N & H & W). rewrite <- H. unfold height. rewrite N. vunf. ring. Qed.

(* the image of a point through facing planes is a translation *)
Lemma facing_image conv a b w bd dx x y : facing a b w -> through2 conv a b bd dx x = Ok y ->
  exists k, y = vadd (vadd x (vsub (p_x b) (p_x a))) (vscale (2 * IZR k * bd - dx) (p_t a)).
Proof.
  intros F E. pose proof (facing_t a b w F) as Tb. destruct F as (U & V & N & H & W).
  rewrite through2_eq in E by exact U. apply obind_Ok_inv in E as (k & _ & E). injection E as <-. exists k.
  rewrite <- (unplace a x U) at 3. rewrite N, Tb. unfold vadd, vscale, vneg, vsub. cbn [fst snd].
  apply veq; cbn [fst snd]; ring.
Qed.
Lemma facing_kick conv a b w bd v dx h x u y y' : facing a b w ->
  through2 conv a b bd dx x = Ok y -> through2 conv a b bd (dx + h * v) (vadd x (vscale h u)) = Ok y' ->
  exists k, y' = vadd (vadd y (vscale h (vadd u (vscale (- v) (p_t a))))) (vscale (2 * IZR k * bd) (p_t a)).
Proof.
  intros F E E'. apply (facing_image _ _ _ _ _ _ _ _ F) in E as (k & ->). apply (facing_image _ _ _ _ _ _ _ _ F) in E' as (k' & ->).
  exists (k' - k)%Z. rewrite minus_IZR. unfold vadd, vscale, vsub. cbn [fst snd]. apply veq; cbn [fst snd]; ring.
Qed.

(* ---------- the portal offset ---------- *)
Lemma update_Ok conv p t : int_conversion conv -> 0 < po_bounds p -> Rabs (po_v p * t) <= 4294967294 * po_bounds p ->
  exists q k, update_portal conv p t = Ok q /\ po_a q = po_a p /\ po_b q = po_b p /\ po_v q = po_v p /\ po_bounds q = po_bounds p /\
    po_dx q = po_v p * t - 2 * IZR k * po_bounds p /\ - po_bounds p <= po_dx q < po_bounds p.
Proof.
  intros C Hb Hr. unfold update_portal. destruct (wrap conv _ _ C Hb Hr) as (k & -> & W). cbn [obind].
  eexists. exists k. split; [reflexivity|]. cbn [po_a po_b po_v po_bounds po_dx]. auto 10.
Qed.
Lemma update_twice conv p t1 t2 : obind (update_portal conv p t1) (fun q => update_portal conv q t2) =
  obind (update_portal conv p t1) (fun _ => update_portal conv p t2).
Proof. unfold update_portal. destruct (conv _); reflexivity. Qed.
Lemma update_history conv : forall times p t q, ofold (fun q t => update_portal conv q t) times p = Ok q ->
  update_portal conv q t = update_portal conv p t.
Proof.
  induction times as [|s times IH]; intros p t q E; cbn [ofold] in E.
  - now injection E as <-.
  - apply obind_Ok_inv in E as (p' & E1 & E2). rewrite (IH _ _ _ E2).
    unfold update_portal in E1. apply obind_Ok_inv in E1 as (k & _ & E1). injection E1 as <-. reflexivity.
Qed.
Lemma update_undefined p t : po_bounds p = 0 -> update_portal strict p t = UB.
Proof. intros E. unfold update_portal, ddiv. rewrite E. destruct (Req_EM_T (2 * 0) 0); [reflexivity|lra]. Qed.
Lemma update_too_late p t : 0 < po_bounds p -> 4294967296 * po_bounds p <= po_v p * t -> update_portal strict p t = UB.
Proof.
  intros Hb H. unfold update_portal, ddiv. destruct (Req_EM_T (2 * po_bounds p) 0); [lra|].
  unfold strict. pose proof (Int_part_spec ((po_v p * t + po_bounds p) / (2 * po_bounds p))) as S.
  set (k := Int_part _) in *. set (q := (po_v p * t + po_bounds p) / (2 * po_bounds p)) in *.
  assert (Q : po_v p * t + po_bounds p = q * (2 * po_bounds p)) by (unfold q; field; lra).
  assert (G : 2147483648 < q).
  { apply Rmult_lt_reg_r with (2 * po_bounds p); [lra|]. lra. }
  assert (K : (2147483647 < k)%Z) by (apply lt_IZR; lra).
  unfold in_int. replace ((k <=? 2147483647)%Z) with false by (symmetry; apply Z.leb_gt; lia).
  rewrite andb_false_r. reflexivity.
Qed.

(* ---------- enforcing the boundary conditions ---------- *)
Lemma behind2_spec p x : reflect (height p x < 0) (behind2 p x).
Proof. unfold behind2, depth2, height. apply Rltb_spec. Qed.
Lemma within2_spec p x r : reflect (height p x <= r) (within2 p x r).
Proof. unfold within2, depth2, height. apply Rleb_spec. Qed.

(* one sliding or fixed portal *)
Lemma enforce_body_sliding conv p w x v : int_conversion conv -> facing (po_a p) (po_b p) w -> 0 < po_bounds p ->
  Rabs (po_dx p) <= po_bounds p -> Rabs (along (po_a p) x) <= 1000000000 * po_bounds p ->
  Rabs (along (po_b p) x) <= 1000000000 * po_bounds p ->
  - w <= height (po_a p) x <= 2 * w ->
  exists y u, enforce2_body conv p (x, v) = Ok (y, u) /\ 0 <= height (po_a p) y <= w /\ 0 <= height (po_b p) y <= w /\
    (0 <= height (po_a p) x <= w -> y = x /\ u = v) /\
    (height (po_a p) x < 0 -> through2_a conv p x = Ok y /\ - po_bounds p <= along (po_b p) y < po_bounds p /\
       u = vadd v (vscale (- po_v p) (p_t (po_a p)))) /\
    (w < height (po_a p) x -> through2_b conv p x = Ok y /\ - po_bounds p <= along (po_a p) y < po_bounds p /\
       u = vadd v (vscale (- po_v p) (p_t (po_b p)))).
Proof.
  intros C F Hb Hd Ha Hb' Hh. apply Rabs_le_inv in Hd, Ha, Hb'.
  pose proof (facing_heights _ _ _ x F) as Hx.
  pose proof (facing_sym _ _ _ F) as F'.
  assert (U := proj1 F). assert (V := proj1 (proj2 F)).
  assert (K : forall t, (if lees_edwards p then vadd v (vscale (- po_v p) t) else v) = vadd v (vscale (- po_v p) t)).
  { intros t. unfold lees_edwards. destruct (Reqb_spec (po_v p) 0) as [E|]; [|reflexivity]. cbn [negb]. rewrite E.
    unfold vadd, vscale. apply veq; cbn [fst snd]; ring. }
  unfold enforce2_body, in_portal2, teleport_inside2, kick_of_point. cbn [fst snd].
  destruct (behind2_spec (po_a p) x) as [A|A].
  - cbn [orb]. unfold through2_a.
    destruct (sliding_through conv (po_a p) (po_b p) (po_bounds p) (po_dx p) x C U V Hb) as (y & k & E & H1 & H2 & H3).
    { apply Rabs_le. lra. }
    rewrite E. cbn [obind]. rewrite K. exists y. eexists. split; [reflexivity|].
    rewrite (facing_heights _ _ _ y F) in *. repeat split; try lra; auto.
  - destruct (behind2_spec (po_b p) x) as [B|B].
    + cbn [orb]. unfold through2_b.
      destruct (sliding_through conv (po_b p) (po_a p) (po_bounds p) (po_dx p) x C V U Hb) as (y & k & E & H1 & H2 & H3).
      { apply Rabs_le. lra. }
      rewrite E. cbn [obind]. rewrite K. exists y. eexists. split; [reflexivity|].
      rewrite (facing_heights _ _ _ y F) in *. repeat split; try lra; auto.
    + cbn [orb]. exists x, v. split; [reflexivity|]. repeat split; try lra; auto.
Qed.

(* several fixed portals *)
Lemma fixed_step conv p x v : always_answers conv -> fixed_facing p -> within_one p x ->
  exists y m, enforce2_body conv p (x, v) = Ok (y, v) /\ between p y /\
    y = vadd x (vscale (IZR m) (vsub (p_x (po_b p)) (p_x (po_a p)))) /\ (m = 0 \/ m = 1 \/ m = -1)%Z /\ (between p x -> m = 0%Z).
Proof.
  intros A (Ev & Eb & Ed & w & F) Wi. specialize (Wi w F).
  pose proof (facing_heights _ _ _ x F) as Hx.
  assert (U := proj1 F). assert (V := proj1 (proj2 F)). pose proof (facing_sym _ _ _ F) as F'.
  unfold enforce2_body, in_portal2, teleport_inside2. cbn [fst snd].
  assert (L : lees_edwards p = false).
  { unfold lees_edwards. destruct (Reqb_spec (po_v p) 0); [reflexivity|lra]. }
  rewrite L. unfold between. destruct (behind2_spec (po_a p) x) as [Ba|Ba].
  - cbn [orb]. unfold through2_a. rewrite Eb, Ed.
    destruct (fixed_through conv _ _ x A U V) as (y & E & H1 & H2). rewrite E. cbn [obind].
    exists y, 1%Z. split; [reflexivity|]. pose proof (facing_heights _ _ _ y F) as Hy. repeat split; try lra; auto.
    apply (facing_image _ _ _ _ _ _ _ _ F) in E as (k & ->). apply veq; unfold vadd, vscale; cbn [fst snd]; ring.
  - destruct (behind2_spec (po_b p) x) as [Bb|Bb]; cbn [orb].
    + unfold through2_b. rewrite Eb, Ed.
      destruct (fixed_through conv _ _ x A V U) as (y & E & H1 & H2). rewrite E. cbn [obind].
      exists y, (-1)%Z. split; [reflexivity|]. pose proof (facing_heights _ _ _ y F) as Hy. repeat split; try lra; auto.
      apply (facing_image _ _ _ _ _ _ _ _ F') in E as (k & ->).
      apply veq; unfold vadd, vscale, vsub; cbn [fst snd]; ring.
    + exists x, 0%Z. split; [reflexivity|]. repeat split; try lra; auto.
      apply veq; unfold vadd, vscale, vsub; cbn [fst snd]; ring.
Qed.
Lemma independent_height p q x m : independent p q -> (exists w, facing (po_a q) (po_b q) w) ->
  height (po_a q) (vadd x (vscale m (vsub (p_x (po_b p)) (p_x (po_a p))))) = height (po_a q) x /\
  height (po_b q) (vadd x (vscale m (vsub (p_x (po_b p)) (p_x (po_a p))))) = height (po_b q) x.
Proof.
  intros I (w & F).
  assert (E : height (po_a q) (vadd x (vscale m (vsub (p_x (po_b p)) (p_x (po_a p))))) = height (po_a q) x).
  { rewrite height_linear. unfold independent in I. rewrite I. ring. }
  split; [exact E|]. rewrite !(facing_heights _ _ _ _ F), E. reflexivity.
Qed.

Lemma Forall2_right {A B} (R : A -> B -> Prop) (P : B -> Prop) l m : Forall2 R l m -> (forall x y, R x y -> P y) -> Forall P m.
Proof. intros F H. induction F; constructor; eauto. Qed.
Lemma enforce_fixed_gen conv : always_answers conv -> forall ps prev bodies,
  Forall fixed_facing ps -> Forall fixed_facing prev ->
  ForallOrdPairs (fun p q => independent p q /\ independent q p) ps ->
  (forall p q, In p prev -> In q ps -> independent q p) ->
  Forall (fun xv => Forall (fun p => within_one p (fst xv)) ps) bodies ->
  Forall (fun xv => Forall (fun p => between p (fst xv)) prev) bodies ->
  exists out, enforce2 conv ps bodies = Ok out /\
    Forall2 (fun xv yv => snd yv = snd xv /\ Forall (fun p => between p (fst yv)) (prev ++ ps) /\
      shifted_by ps (fst xv) (fst yv) /\ (Forall (fun p => between p (fst xv)) ps -> fst yv = fst xv)) bodies out.
Proof.
  intros A. induction ps as [|p ps IH]; intros prev bodies Hf Hp Hi Hpi Hw Hb.
  - exists bodies. split; [reflexivity|]. rewrite app_nil_r. clear -Hb.
    induction Hb; constructor; auto. repeat split; auto. constructor.
  - inversion Hf as [|? ? Fp Fps]; subst. inversion Hi as [|? ? Ip Ips]; subst.
    assert (S : exists mid, omapM (enforce2_body conv p) bodies = Ok mid /\
      Forall2 (fun xv yv => snd yv = snd xv /\ between p (fst yv) /\ Forall (fun q => within_one q (fst yv)) ps /\
        Forall (fun q => between q (fst yv)) prev /\
        (forall q, In q ps -> between q (fst xv) -> between q (fst yv)) /\
        exists m, fst yv = vadd (fst xv) (vscale (IZR m) (vsub (p_x (po_b p)) (p_x (po_a p)))) /\ (m = 0 \/ m = 1 \/ m = -1)%Z /\
          (between p (fst xv) -> m = 0%Z)) bodies mid).
    { clear IH. induction bodies as [|[x v] bodies IHb].
      - exists []. split; [reflexivity|constructor].
      - inversion Hw as [|? ? Wx Ws]; subst. inversion Hb as [|? ? Bx Bs]; subst. cbn [fst snd] in *.
        inversion Wx as [|? ? Wp Wps]; subst.
        destruct (IHb Ws Bs) as (mid & E & F). destruct (fixed_step conv p x v A Fp Wp) as (y & m & E1 & B1 & Y & M & M0).
        exists ((y, v) :: mid). cbn [omapM]. rewrite E1. cbn [obind]. rewrite E. split; [reflexivity|].
        constructor; [|exact F]. cbn [fst snd]. split; [reflexivity|]. split; [exact B1|].
        rewrite Forall_forall in Fps, Hp, Ip, Wps, Bx. repeat split.
        + apply Forall_forall. intros q Iq w Fw. subst y.
          rewrite (proj1 (independent_height p q x (IZR m) (proj1 (Ip q Iq)) (ex_intro _ w Fw))).
          apply (Wps q Iq w Fw).
        + apply Forall_forall. intros q Iq. destruct (Hp q Iq) as (_ & _ & _ & Fw). subst y. unfold between.
          destruct (independent_height p q x (IZR m) (Hpi q p Iq (or_introl eq_refl)) Fw) as [-> ->]. apply (Bx q Iq).
        + destruct (Fps q H) as (_ & _ & _ & Fw). subst y.
          destruct (independent_height p q x (IZR m) (proj1 (Ip q H)) Fw) as [-> _]. apply H0.
        + destruct (Fps q H) as (_ & _ & _ & Fw). subst y.
          destruct (independent_height p q x (IZR m) (proj1 (Ip q H)) Fw) as [_ ->]. apply H0.
        + eauto. }
    destruct S as (mid & E & F).
    destruct (IH (prev ++ [p]) mid) as (out & E2 & F2).
    + exact Fps.
    + apply Forall_app. split; auto.
    + exact Ips.
    + intros q r Iq Ir. apply in_app_or in Iq as [Iq|[<-|[]]].
      * apply Hpi; [exact Iq|now right].
      * rewrite Forall_forall in Ip. apply (Ip r Ir).
    + apply (Forall2_right _ _ _ _ F). intros ? ? (_ & _ & J & _). exact J.
    + apply (Forall2_right _ _ _ _ F). intros ? ? (_ & J1 & _ & J2 & _). apply Forall_app. auto.
    + exists out. unfold enforce2. cbn [ofold]. rewrite E. cbn [obind]. split; [exact E2|].
      clear -F F2. revert out F2. induction F as [|xv yv bodies mid H F IHF]; intros out F2; inversion F2 as [|? zv ? out' HK F2']; subst; constructor.
      * destruct HK as (K1 & K2 & K3 & K4). destruct H as (J1 & J2 & J3 & J4 & J5 & m & J6 & J7 & J8).
        split; [congruence|]. split; [rewrite <- app_assoc in K2; exact K2|]. split.
        -- econstructor; eauto. rewrite <- J6. exact K3.
        -- intros Ball. inversion Ball as [|? ? B0 Bs]; subst. rewrite K4.
           ++ rewrite J6, (J8 B0). apply veq; unfold vadd, vscale; cbn [fst snd]; ring.
           ++ rewrite Forall_forall in *. intros q Iq. apply J5; auto.
      * apply IHF. assumption.
Qed.
Lemma enforce_fixed conv ps bodies : always_answers conv ->
  Forall fixed_facing ps -> ForallOrdPairs (fun p q => independent p q /\ independent q p) ps ->
  Forall (fun xv => Forall (fun p => within_one p (fst xv)) ps) bodies ->
  exists out, enforce2 conv ps bodies = Ok out /\
    Forall2 (fun xv yv => snd yv = snd xv /\ Forall (fun p => between p (fst yv)) ps /\
      shifted_by ps (fst xv) (fst yv) /\ (Forall (fun p => between p (fst xv)) ps -> fst yv = fst xv)) bodies out.
Proof.
  intros A F I W. apply (enforce_fixed_gen conv A ps [] bodies F (Forall_nil _) I); auto.
  - intros p q [].
  - apply Forall_forall. intros; constructor.
Qed.

(* ---------- boxes against half planes ---------- *)
Lemma lin_min l u x a : l <= x <= u -> a * l <= a * x \/ a * u <= a * x.
Proof.
  intros H. destruct (Rle_dec 0 a).
  - left. apply Rmult_le_compat_l; lra.
  - right. assert ((- a) * x <= (- a) * u) by (apply Rmult_le_compat_l; lra). lra.
Qed.
Lemma aabb_in2_iff lo up p : fst lo <= fst up -> snd lo <= snd up ->
  (aabb_in2 lo up p = true <-> exists x, fst lo <= fst x <= fst up /\ snd lo <= snd x <= snd up /\ height p x <= 0).
Proof.
  intros H1 H2. unfold aabb_in2, depth2. fold (height p).
  change (fun x => vdot (p_n p) (vsub x (p_x p))) with (height p).
  set (f := fun a b => height p (a, b)).
  rewrite !orb_true_iff. split.
  - intros [[[H|H]|H]|H]; (match type of H with Rleb ?a ?b = true => destruct (Rleb_spec a b) as [L|]; [|discriminate] end);
      match type of L with vdot _ (vsub ?x _) <= 0 => exists x end; cbn [fst snd]; (split; [lra|split; [lra|exact L]]).
  - intros ((x, y) & Hx & Hy & H). cbn [fst snd] in *. unfold height in H. vunf.
    destruct (lin_min _ _ x (fst (p_n p)) Hx) as [Ex|Ex]; destruct (lin_min _ _ y (snd (p_n p)) Hy) as [Ey|Ey].
    + left; left; left. destruct (Rleb_spec (fst (p_n p) * (fst lo - fst (p_x p)) + snd (p_n p) * (snd lo - snd (p_x p))) 0); [reflexivity|lra].
    + left; left; right. destruct (Rleb_spec (fst (p_n p) * (fst lo - fst (p_x p)) + snd (p_n p) * (snd up - snd (p_x p))) 0); [reflexivity|lra].
    + left; right. destruct (Rleb_spec (fst (p_n p) * (fst up - fst (p_x p)) + snd (p_n p) * (snd lo - snd (p_x p))) 0); [reflexivity|lra].
    + right. destruct (Rleb_spec (fst (p_n p) * (fst up - fst (p_x p)) + snd (p_n p) * (snd up - snd (p_x p))) 0); [reflexivity|lra].
Qed.
Lemma aabb_in3_iff lo up p : c0 lo <= c0 up -> c1 lo <= c1 up -> c2 lo <= c2 up ->
  (aabb_in3 lo up p = true <-> exists x, c0 lo <= c0 x <= c0 up /\ c1 lo <= c1 x <= c1 up /\ c2 lo <= c2 x <= c2 up /\ height3 p x <= 0).
Proof.
  intros H1 H2 H3. unfold aabb_in3. rewrite !orb_true_iff. split.
  - intros H. repeat (destruct H as [H|H]);
    (match type of H with Rleb ?a ?b = true => destruct (Rleb_spec a b) as [L|]; [|discriminate] end);
      match type of L with depth3 _ ?x <= 0 => exists x end; cbn [c0 c1 c2]; (repeat split; try lra; exact L).
  - intros (x & Hx & Hy & Hz & H). unfold height3, dot3, sub3 in H. cbn [c0 c1 c2] in H.
    unfold depth3, dot3, sub3. cbn [c0 c1 c2].
    destruct (lin_min _ _ _ (c0 (q_n p)) Hx) as [Ex|Ex]; destruct (lin_min _ _ _ (c1 (q_n p)) Hy) as [Ey|Ey];
      destruct (lin_min _ _ _ (c2 (q_n p)) Hz) as [Ez|Ez];
    repeat match goal with |- context [Rleb ?a ?b] => destruct (Rleb_spec a b); [tauto|] end; exfalso; lra.
Qed.
