(* Small scenes with a floor and a ceiling that are joined by a portal. *)
From Coq Require Import List Reals Arith NArith ZArith Bool Lra Lia.
From Verif Require Import Outcome Grid_Model Ccd_Model Ccd_Spec ContactRb2_Model ContactRb3_Model Rot_Model Rot_Spec Rot_Alg Cache_Model Lin_Model Geom_Model Geom_Spec Geom_Sets Geom_Circle Geom_Space Geom_Aabb
  Portal_Model Portal_Spec Portal_Proofs Portal_Runs Portal_Ex Wall_Model Wall_Spec Wall_More Narrow_Model Narrow_Spec Narrow_Proofs Narrow_Space Narrow_Ex
  Tele_Model Tele_Spec Tele_Search Tele_Plane Tele_Planar Tele_Space Tele_Only.
Import ListNotations.
Local Open Scope R_scope.

(* ---------- the plane: discs of radii r and s ---------- *)
Definition discs2 (r s : R) (i : nat) : shape2 := match i with O => Circle2 r | _ => Circle2 s end.
Definition rad2 (r s : R) (i : nat) : R := match i with O => r | _ => s end.
Definition cen2 (x y a b : R) (i : nat) : vec := match i with O => (x, y) | _ => (a, b) end.
Lemma discs2_circle : forall r s i, discs2 r s i = Circle2 (rad2 r s i).
Proof. intros r s [|i]; reflexivity. Qed.
Lemma cen2_at : forall x y a b i, (i < 2)%nat -> seg2 (ex_q2 x y a b) (3 * i) = cen2 x y a b i.
Proof. intros x y a b [|[|i]] H; [reflexivity|reflexivity|lia]. Qed.
Lemma rad2_pos : forall r s i, 0 < r -> 0 < s -> 0 < rad2 r s i.
Proof. intros r s [|i] A B; assumption. Qed.
Lemma disc_reaches : forall x r p, 0 < r -> (reaches2 (in_disc x r) p <-> exists y, Geom_Spec.within2 (circle_aabb r x 0) y /\ height p y <= 0).
Proof.
  intros x r p Hr. pose proof (circle_aabb_tight r x 0 ltac:(lra)) as T. split.
  - intros (b & y & Tb & W & H). rewrite (Narrow_Proofs.tight2_unique _ _ _ Tb T) in W. exists y. split; assumption.
  - intros (y & W & H). exists (circle_aabb r x 0), y. split; [exact T|]. split; assumption.
Qed.
Lemma reaches_floor : forall x r, 0 < r -> (reaches2 (in_disc x r) floor2 <-> snd x <= r).
Proof.
  intros [x y] r Hr. rewrite disc_reaches by exact Hr. unfold Geom_Spec.within2, circle_aabb, floor2. vcalc. split.
  - intros (p & W & H). lra.
  - intros H. exists (x, y - r). cbn [fst snd]. lra.
Qed.
Lemma reaches_ceiling : forall w x r, 0 < r -> (reaches2 (in_disc x r) (ceiling w) <-> w <= snd x + r).
Proof.
  intros w [x y] r Hr. rewrite disc_reaches by exact Hr. unfold Geom_Spec.within2, circle_aabb, ceiling. vcalc. split.
  - intros (p & W & H). lra.
  - intros H. exists (x, y + r). cbn [fst snd]. lra.
Qed.
Lemma disc_view : forall w nb r s x y a b i k t z, (nb <= 2)%nat -> 0 < r -> 0 < s ->
  (view2 hardware nb (discs2 r s) (hole w) (ex_q2 x y a b) i k t z <-> (i < nb)%nat /\
   let c := cen2 x y a b i in let u := rad2 r s i in
   ((k = None /\ t = false /\ z = c) \/ (k = Some 0%N /\ t = false /\ snd c <= u /\ z = (fst c, w + snd c))
    \/ (k = Some 0%N /\ t = true /\ u < snd c /\ w <= snd c + u /\ z = (fst c, snd c - w)))).
Proof.
  intros w nb r s x y a b i k t z Nb Hr Hs. cbv zeta.
  assert (Nr : forall t i, (i < nb)%nat -> (near2 (discs2 r s) (ex_q2 x y a b) (fixed_portal2 floor2 (ceiling w)) t i <->
    if t then rad2 r s i < snd (cen2 x y a b i) /\ w <= snd (cen2 x y a b i) + rad2 r s i else snd (cen2 x y a b i) <= rad2 r s i)).
  { intros t' i' L. unfold near2, body2_points, body_at2. cbn [b2_shape b2_x fixed_portal2 po_a po_b]. rewrite discs2_circle, cen2_at by lia.
    pose proof (rad2_pos r s i' Hr Hs) as P. destruct t'; rewrite reaches_floor by exact P; [|reflexivity]. rewrite reaches_ceiling by exact P. split; intros [A B]; split; lra. }
  split.
  - intros H. inversion H as [L|k' p t' z' L Ep Np Ez]; subst.
    + split; [exact L|]. left. rewrite cen2_at by lia. auto.
    + split; [exact L|]. assert (Hk : k' = 0%N /\ p = fixed_portal2 floor2 (ceiling w)).
      { unfold hole in Ep. destruct (N.to_nat k') as [|n] eqn:En; [|destruct n; discriminate]. injection Ep as <-. split; [lia|reflexivity]. }
      destruct Hk as [-> ->]. apply (Nr t i L) in Np. rewrite cen2_at in Ez by lia. destruct (cen2 x y a b i) as [c d]. cbn [fst snd] in *. unfold seen2 in Ez. destruct t.
      * rewrite through_ceiling in Ez. injection Ez as <-. right. right. split; [reflexivity|]. split; [reflexivity|]. split; [apply Np|]. split; [apply Np|reflexivity].
      * rewrite through_floor in Ez. injection Ez as <-. right. left. auto.
  - intros (L & [(-> & -> & ->)|[(-> & -> & H & ->)|(-> & -> & H & H' & ->)]]).
    + rewrite <- cen2_at by lia. exact (View_in_place _ _ _ _ _ _ L).
    + apply (View_through _ _ _ _ _ _ 0%N (fixed_portal2 floor2 (ceiling w)) false _ L); [reflexivity|apply (Nr false i L); exact H|].
      rewrite cen2_at by lia. unfold seen2. destruct (cen2 x y a b i). apply through_floor.
    + apply (View_through _ _ _ _ _ _ 0%N (fixed_portal2 floor2 (ceiling w)) true _ L); [reflexivity|apply (Nr true i L); split; assumption|].
      rewrite cen2_at by lia. unfold seen2. destruct (cen2 x y a b i). apply through_ceiling.
Qed.
Lemma discs_sized : forall nb r s, 0 < r -> 0 < s -> forall i, (i < nb)%nat -> sized2 (discs2 r s i).
Proof. intros nb r s Hr Hs [|i] _; assumption. Qed.
Lemma discs_touch_iff : forall r s i j y z, 0 < r -> 0 < s ->
  (discs_touch (discs2 r s) i j y z <-> sqdist y z <= (rad2 r s i + rad2 r s j) * (rad2 r s i + rad2 r s j)).
Proof.
  intros r s i j y z Hr Hs. pose proof (rad2_pos r s i Hr Hs) as Pi. pose proof (rad2_pos r s j Hr Hs) as Pj. unfold sqdist. rewrite discs_meet by lra.
  unfold discs_touch. rewrite !discs2_circle. split.
  - intros (u & u' & A & B & M). injection A as ->. injection B as ->. exact M.
  - intros M. exists (rad2 r s i), (rad2 r s j). auto.
Qed.
Lemma discs_overlap_iff : forall r s x y a b i j, 0 < r -> 0 < s -> (i < 2)%nat -> (j < 2)%nat ->
  (overlap2 (discs2 r s) (ex_q2 x y a b) i j <-> sqdist (cen2 x y a b i) (cen2 x y a b j) <= (rad2 r s i + rad2 r s j) * (rad2 r s i + rad2 r s j)).
Proof.
  intros r s x y a b i j Hr Hs Li Lj. pose proof (rad2_pos r s i Hr Hs) as Pi. pose proof (rad2_pos r s j Hr Hs) as Pj. unfold sqdist. rewrite discs_meet by lra.
  unfold overlap2, body2_points, body_at2. cbn [b2_shape b2_x]. rewrite !discs2_circle, !cen2_at by assumption. reflexivity.
Qed.
Lemma discs_run : forall w nb r s q0 x y a b v planes, (0 < nb <= 2)%nat -> 0 < w <= 10 -> 0.1 <= r <= 10 -> 0.1 <= s <= 10 ->
  Rabs x <= 20 -> Rabs y <= 20 -> Rabs a <= 20 -> Rabs b <= 20 ->
  exists set, rb2_active_set_portals hardware nb (fun _ => false) (discs2 r s) (hole w) q0 (ex_q2 x y a b) v planes = Ok set.
Proof.
  intros w nb r s q0 x y a b v planes Nb Hw Hr Hs Hx Hy Ha Hb. destruct hardware_conv as [_ An].
  apply (set2_portals_run hardware nb (fun _ => false) (discs2 r s) (hole w) q0 (ex_q2 x y a b) v) with (M := 100) (m := 0.2).
  - apply discs_sized; lra.
  - cbn [length hole]. lia.
  - exact An.
  - lia.
  - lra.
  - lra.
  - intros i L. split; [reflexivity|]. exists (rad2 r s i). split; [apply discs2_circle|]. destruct i; cbn [rad2]; lra.
  - intros i k t z p V P. apply disc_view in V; [|lia|lra|lra]. destruct V as (L & V).
    unfold body2_points, pose in P. cbn [b2_shape b2_x] in P. rewrite discs2_circle in P.
    assert (C : Rabs (fst (cen2 x y a b i)) <= 20 /\ Rabs (snd (cen2 x y a b i)) <= 20) by (destruct i; split; assumption).
    assert (Q : 0 <= rad2 r s i <= 10) by (destruct i; cbn [rad2]; lra).
    destruct (cen2 x y a b i) as [c d]. cbn [fst snd] in *. destruct C as [C D]. apply abs_inv in C, D. unfold in_disc, vdot, vsub in P. apply side in P; [|lra].
    destruct V as [(_ & _ & ->)|[(_ & _ & _ & ->)|(_ & _ & _ & _ & ->)]]; cbn [fst snd] in P; split; apply abs_in; lra.
  - discriminate.
Qed.

(* ---------- space: balls ---------- *)
Definition hole3 (w : R) : list portal3 := [mkPortal3 floor3 (ceiling3 w) (1, 1, 1)%Z].
Lemma floor_tangents : q_t0 floor3 = V3 1 0 0 /\ q_t1 floor3 = V3 0 0 1.
Proof.
  unfold q_t0, q_t1, floor3, from_two_vectors. cbn [q_n].
  destruct (Req_EM_T (1 + dot3 (V3 0 1 0) (V3 0 1 0)) 0) as [E|E]; [unfold dot3 in E; cbn [c0 c1 c2] in E; lra|].
  unfold add3, scale3, cross3. cbn [c0 c1 c2]. split; f_equal; ring.
Qed.
Lemma through_floor3 : forall w y, seen3 (mkPortal3 floor3 (ceiling3 w) (1, 1, 1)%Z) false (V3 0 y 0) = Ok (V3 0 (w + y) 0).
Proof.
  intros w y. unfold seen3, through3_a, through3. cbn [pt_a pt_b pt_mult]. destruct floor_tangents as [-> ->].
  unfold floor3, ceiling3, dot3, sub3, add3, scale3. cbn [q_x q_n c0 c1 c2]. f_equal. f_equal; ring.
Qed.
Definition balls3 (r s : R) (i : nat) : shape3 := match i with O => Sphere3 r | _ => Sphere3 s end.
Lemma balls3_sphere : forall r s i, balls3 r s i = Sphere3 (rad2 r s i).
Proof. intros r s [|i]; reflexivity. Qed.
Definition col3 (y b : R) : dvec := ex_q3 0 y 0 0 b 0.
Definition alt3 (y b : R) (i : nat) : R := match i with O => y | _ => b end.
Lemma col3_at : forall y b i, (i < 2)%nat -> pos3 (col3 y b) i = V3 0 (alt3 y b i) 0.
Proof. intros y b [|[|i]] H; [reflexivity|reflexivity|lia]. Qed.
Lemma ball_reaches : forall x r p, 0 < r -> (reaches3 (in_ball3 x r) p <-> exists y, within3 (sphere_aabb r x id3) y /\ height3 p y <= 0).
Proof.
  intros x r p Hr. pose proof (sphere_aabb_tight r x id3 ltac:(lra)) as T. split.
  - intros (b & y & Tb & W & H). rewrite (tight3_unique _ _ _ Tb T) in W. exists y. split; assumption.
  - intros (y & W & H). exists (sphere_aabb r x id3), y. split; [exact T|]. split; assumption.
Qed.
(* balls that stay below the ceiling are seen in place and, if they reach the floor, above the ceiling *)
Lemma ball_view : forall w nb r s y b i k t z, (nb <= 2)%nat -> 0 < r -> 0 < s -> y + r < w -> b + s < w ->
  (view3 nb (balls3 r s) (hole3 w) (col3 y b) i k t z <-> (i < nb)%nat /\
   ((k = None /\ t = false /\ z = V3 0 (alt3 y b i) 0) \/ (k = Some 0%N /\ t = false /\ alt3 y b i <= rad2 r s i /\ z = V3 0 (w + alt3 y b i) 0))).
Proof.
  intros w nb r s y b i k t z Nb Hr Hs Hy Hb.
  assert (Nr : forall t i, (i < nb)%nat -> (near3 nb (balls3 r s) (col3 y b) (mkPortal3 floor3 (ceiling3 w) (1, 1, 1)%Z) t i <->
    if t then False else alt3 y b i <= rad2 r s i)).
  { intros t' i' L. unfold near3, reach3, body3_points, body_at3. cbn [b3_shape b3_x pt_a pt_b]. rewrite balls3_sphere, col3_at by lia.
    pose proof (rad2_pos r s i' Hr Hs) as P. assert (Q : alt3 y b i' + rad2 r s i' < w) by (destruct i'; assumption).
    destruct t'.
    - split; [|intros []]. intros [_ B]. apply ball_reaches in B; [|exact P]. destruct B as (p & W & H).
      unfold within3, sphere_aabb, height3, ceiling3, dot3, sub3, add3 in *. cbn [fst snd q_x q_n c0 c1 c2] in *. lra.
    - rewrite ball_reaches by exact P. unfold within3, sphere_aabb, height3, floor3, dot3, sub3, add3. cbn [fst snd q_x q_n c0 c1 c2]. split.
      + intros (p & W & H). lra.
      + intros H. exists (V3 0 (alt3 y b i' - rad2 r s i') 0). cbn [c0 c1 c2]. lra. }
  split.
  - intros H. inversion H as [L|k' p t' z' L Ep Np Ez]; subst.
    + split; [exact L|]. left. rewrite col3_at by lia. auto.
    + split; [exact L|]. assert (Hk : k' = 0%N /\ p = mkPortal3 floor3 (ceiling3 w) (1, 1, 1)%Z).
      { unfold hole3 in Ep. destruct (N.to_nat k') as [|n] eqn:En; [|destruct n; discriminate]. injection Ep as <-. split; [lia|reflexivity]. }
      destruct Hk as [-> ->]. apply (Nr t i L) in Np. rewrite col3_at in Ez by lia. destruct t; [destruct Np|]. rewrite through_floor3 in Ez. injection Ez as <-. right. auto.
  - intros (L & [(-> & -> & ->)|(-> & -> & H & ->)]).
    + rewrite <- col3_at by lia. exact (View_in_place _ _ _ _ _ _ L).
    + apply (View_through _ _ _ _ _ _ 0%N (mkPortal3 floor3 (ceiling3 w) (1, 1, 1)%Z) false _ L); [reflexivity|apply (Nr false i L); exact H|].
      rewrite col3_at by lia. apply through_floor3.
Qed.
Lemma balls_sized : forall nb r s, 0 < r -> 0 < s -> forall i, (i < nb)%nat -> sized3 (balls3 r s i).
Proof. intros nb r s Hr Hs [|i] _; assumption. Qed.
Lemma balls_run : forall o fixed w r s q0 y b, 0 < w <= 10 -> 0.1 <= r <= 10 -> 0.1 <= s <= 10 -> y + r < w -> b + s < w -> 0 <= y -> 0 <= b ->
  exists set, rb3_active_set_portals o 2 fixed (balls3 r s) (hole3 w) q0 (col3 y b) [] [] = Ok set.
Proof.
  intros o fixed w r s q0 y b Hw Hr Hs Hy Hb Py Pb.
  destruct (set3_portals_run o 2 fixed (balls3 r s) (hole3 w) q0 (col3 y b)) with (M := 100) (m := 0.2) as (bodies & E).
  - apply balls_sized; lra.
  - intros i L. apply ex_rotation3. exact L.
  - cbn [length hole3]. lia.
  - lia.
  - lra.
  - lra.
  - intros i L. exists (rad2 r s i). split; [apply balls3_sphere|]. destruct i; cbn [rad2]; lra.
  - intros i k t z p V P. apply ball_view in V; [|lia|lra|lra|lra|lra]. destruct V as (L & V).
    unfold body3_points in P. cbn [b3_shape b3_x] in P. rewrite balls3_sphere in P.
    assert (C : 0 <= alt3 y b i <= 10) by (destruct i; cbn [alt3]; lra).
    assert (Q : 0 <= rad2 r s i <= 10) by (destruct i; cbn [rad2]; lra).
    apply ball_comps in P; [|lra]. destruct V as [(_ & _ & ->)|(_ & _ & _ & ->)]; cbn [c0 c1 c2] in P; repeat split; apply abs_in; lra.
  - unfold rb3_active_set_portals. rewrite E. cbn [obind]. eexists. reflexivity.
Qed.
Lemma balls_touch_iff : forall r s i j y z, 0 < r -> 0 < s ->
  (balls_touch (balls3 r s) i j y z <-> sqdist3 y z <= (rad2 r s i + rad2 r s j) * (rad2 r s i + rad2 r s j)).
Proof.
  intros r s i j y z Hr Hs. pose proof (rad2_pos r s i Hr Hs) as Pi. pose proof (rad2_pos r s j Hr Hs) as Pj.
  change (sqdist3 y z) with (dist2 y z). rewrite balls_meet by lra.
  unfold balls_touch. rewrite !balls3_sphere. split.
  - intros (u & u' & A & B & M). injection A as ->. injection B as ->. exact M.
  - intros M. exists (rad2 r s i), (rad2 r s j). auto.
Qed.
