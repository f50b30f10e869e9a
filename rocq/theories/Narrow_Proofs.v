(* The planar contact set: the narrow phase, the grid and the loop over the candidates. *)
From Coq Require Import List Reals Arith NArith Bool Lra Lia.
From Verif Require Import Outcome Grid_Model Grid_Spec Grid_Proofs Grid_Dim Grid_Real Ccd_Model Ccd_Spec Ccd_Proofs Lin_Model ContactRb2_Model ContactRb3_Model
  Rot_Model Rot_Spec Rot_Alg Geom_Model Geom_Spec Geom_Sets Geom_Circle Geom_Boxes Geom_BoxBox Geom_Aabb Wall_Model Wall_Spec Wall_Thms Wall_More Narrow_Model Narrow_Spec.
Import ListNotations.
Local Open Scope R_scope.

(* ---------- swept discs ---------- *)
Lemma touch_meets : forall a a' b b' r s t, 0 < r -> 0 < s ->
  (touch a a' r b b' s t <-> meets (in_disc (at_time a a' t) r) (in_disc (at_time b b' t) s)).
Proof.
  intros a a' b b' r s t Hr Hs. rewrite <- discs_meet by lra. unfold touch, distance.
  set (u := at_time a a' t). set (v := at_time b b' t). unfold vdot, vsub. cbn [fst snd].
  rewrite sqrt_le_iff; [|pose proof (sq_nn (fst u - fst v)); pose proof (sq_nn (snd u - snd v)); lra|lra].
  replace ((fst u - fst v) ^ 2 + (snd u - snd v) ^ 2) with ((fst u - fst v) * (fst u - fst v) + (snd u - snd v) * (snd u - snd v)) by ring. reflexivity.
Qed.
Lemma at_time_1 : forall a b, at_time a b 1 = b.
Proof. intros [a0 a1] [b0 b1]. unfold at_time. cbn [fst snd]. f_equal; ring. Qed.
Lemma at_time_along : forall a b t, at_time a b t = vadd a (vscale t (vsub b a)).
Proof. intros [a0 a1] [b0 b1] t. unfold at_time, vadd, vscale, vsub. cbn [fst snd]. f_equal; ring. Qed.

(* ---------- symmetry ---------- *)
Lemma meets_sym : forall {A} (S T : A -> Prop), meets S T <-> meets T S.
Proof. intros A S T. split; intros (p & X & Y); exists p; split; assumption. Qed.
Lemma collide2_sym : forall shape q0 q1 i j, collide2 shape q0 q1 i j <-> collide2 shape q0 q1 j i.
Proof.
  intros shape q0 q1 i j. unfold collide2, overlap2, discs_sweep.
  destruct (shape i) eqn:Si; destruct (shape j) eqn:Sj; try apply meets_sym.
  split; intros (t & T & M); exists t; (split; [exact T|apply meets_sym; exact M]).
Qed.

(* ---------- reach and collision boxes ---------- *)
Lemma collide2_reach : forall shape q0 q1 i j, collide2 shape q0 q1 i j -> exists p, reach2 shape q0 q1 i p /\ reach2 shape q0 q1 j p.
Proof.
  intros shape q0 q1 i j. unfold collide2, overlap2, discs_sweep, reach2, body2_points, body_at2. cbn [b2_shape b2_x b2_theta].
  destruct (shape i) as [r|w]; destruct (shape j) as [s|w'].
  - intros (t & T & p & P & Q). exists p. split; exists t; split; assumption.
  - intros (p & P & Q). exists p. split; [|exact Q]. exists 1. rewrite at_time_1. split; [lra|exact P].
  - intros (p & P & Q). exists p. split; [exact P|]. exists 1. rewrite at_time_1. split; [lra|exact Q].
  - intros (p & P & Q). exists p. split; assumption.
Qed.
Definition bounds2 (shape : nat -> shape2) (q0 q1 : dvec) (i : nat) : vec * vec :=
  (lo2 (collision_box2 shape q0 q1 i), up2 (collision_box2 shape q0 q1 i)).
Lemma tight2_ext : forall b S T, (forall p, S p <-> T p) -> tight2 b S -> tight2 b T.
Proof.
  intros b S T E [A B]. split.
  - intros p P. apply A, E, P.
  - intros b' Eb. apply B. intros p P. apply Eb, E, P.
Qed.
Lemma bounds2_tight : forall shape q0 q1 i, sized2 (shape i) -> tight2 (bounds2 shape q0 q1 i) (reach2 shape q0 q1 i).
Proof.
  intros shape q0 q1 i Sz. unfold bounds2, collision_box2, reach2, sized2 in *. destruct (shape i) as [r|w]; cbn [lo2 up2].
  - rewrite <- surjective_pairing. eapply tight2_ext; [|apply (circle_sweep_tight r _ (q0 (3 * i + 2)%nat) _ (q1 (3 * i + 2)%nat)); lra].
    intros p. unfold swept_disc. split; intros (t & T & D); exists t; (split; [exact T|]); rewrite ?at_time_along in *; exact D.
  - rewrite <- surjective_pairing. apply (box_aabb_tight w); lra.
Qed.
Lemma reach2_some : forall shape q0 q1 i, sized2 (shape i) -> exists p, reach2 shape q0 q1 i p.
Proof.
  intros shape q0 q1 i Sz. exists (seg2 q1 (3 * i)). unfold reach2, sized2 in *. destruct (shape i) as [r|w].
  - exists 1. rewrite at_time_1. split; [lra|]. unfold in_disc, vdot, vsub. cbn [fst snd]. pose proof (sq_nn r). lra.
  - unfold in_box2, vdot, vsub. cbn [fst snd]. rewrite !Rminus_eq_0, !Rmult_0_r, Rplus_0_l, Rabs_R0. lra.
Qed.
Lemma tight2_unique : forall b b' S, tight2 b S -> tight2 b' S -> b = b'.
Proof.
  intros [[l0 l1] [u0 u1]] [[l0' l1'] [u0' u1']] S [A B] [A' B']. specialize (B _ A'). specialize (B' _ A). cbn [fst snd] in *.
  repeat f_equal; lra.
Qed.
Lemma collision_box_wf : forall shape q0 q1 i, sized2 (shape i) -> wf2 real (collision_box2 shape q0 q1 i).
Proof.
  intros shape q0 q1 i Sz. destruct (bounds2_tight shape q0 q1 i Sz) as [E _]. destruct (reach2_some shape q0 q1 i Sz) as [p P].
  apply E in P. unfold within2, bounds2 in P. cbn [fst snd] in P. cbn [real sc] in *. set (b := collision_box2 shape q0 q1 i) in *. clearbody b. destruct P as [[P1 P2] [P3 P4]]. split; apply alt_real_false; [apply (Rle_trans _ _ _ P1 P2)|apply (Rle_trans _ _ _ P3 P4)].
Qed.
Lemma overlaps_bounds : forall shape q0 q1 i j, sized2 (shape i) -> sized2 (shape j) ->
  (overlaps2 (collision_box2 shape q0 q1 i) (collision_box2 shape q0 q1 j) = true <-> bounds_meet2 shape q0 q1 i j).
Proof.
  intros shape q0 q1 i j Si Sj. split.
  - intros O. exists (bounds2 shape q0 q1 i), (bounds2 shape q0 q1 j). split; [apply bounds2_tight; exact Si|]. split; [apply bounds2_tight; exact Sj|].
    apply overlaps2_inv in O. destruct O as (A & B & C & D). apply alt_real_false in A, B, C, D.
    destruct (collision_box_wf shape q0 q1 i Si) as [W1 W2]. destruct (collision_box_wf shape q0 q1 j Sj) as [W3 W4].
    apply alt_real_false in W1, W2, W3, W4.
    unfold boxes_meet2, meets, bounds2, within2. cbn [fst snd].
    set (a := collision_box2 shape q0 q1 i) in *. set (b := collision_box2 shape q0 q1 j) in *. clearbody a b.
    exists (Rmax (fst (lo2 a)) (fst (lo2 b)), Rmax (snd (lo2 a)) (snd (lo2 b))). cbn [fst snd].
    cbn [real sc] in *.
    pose proof (Rmax_l (fst (lo2 a)) (fst (lo2 b))). pose proof (Rmax_r (fst (lo2 a)) (fst (lo2 b))).
    pose proof (Rmax_l (snd (lo2 a)) (snd (lo2 b))). pose proof (Rmax_r (snd (lo2 a)) (snd (lo2 b))).
    assert (Rmax (fst (lo2 a)) (fst (lo2 b)) <= fst (up2 a)) by (apply Rmax_lub; assumption).
    assert (Rmax (fst (lo2 a)) (fst (lo2 b)) <= fst (up2 b)) by (apply Rmax_lub; assumption).
    assert (Rmax (snd (lo2 a)) (snd (lo2 b)) <= snd (up2 a)) by (apply Rmax_lub; assumption).
    assert (Rmax (snd (lo2 a)) (snd (lo2 b)) <= snd (up2 b)) by (apply Rmax_lub; assumption).
    repeat split; assumption.
  - intros (a & b & Ta & Tb & p & Pa & Pb).
    rewrite (tight2_unique _ _ _ Ta (bounds2_tight shape q0 q1 i Si)) in Pa. rewrite (tight2_unique _ _ _ Tb (bounds2_tight shape q0 q1 j Sj)) in Pb.
    unfold within2, bounds2 in Pa, Pb. cbn [fst snd] in Pa, Pb.
    apply overlaps2_intro; apply alt_real_false; cbn [real sc] in *; lra.
Qed.
Lemma collide2_bounds : forall shape q0 q1 i j, sized2 (shape i) -> sized2 (shape j) -> collide2 shape q0 q1 i j -> bounds_meet2 shape q0 q1 i j.
Proof.
  intros shape q0 q1 i j Si Sj C. destruct (collide2_reach _ _ _ _ _ C) as (p & Pi & Pj).
  exists (bounds2 shape q0 q1 i), (bounds2 shape q0 q1 j). split; [apply bounds2_tight; exact Si|]. split; [apply bounds2_tight; exact Sj|].
  exists p. split; apply bounds2_tight; assumption.
Qed.

Lemma circle_normal : forall a b : vec, a <> b -> points_from2 b a (vnormalized (vsub a b)).
Proof.
  intros a b D. apply points_from2_norm. destruct a as [a0 a1], b as [b0 b1]. unfold vdot, vsub. cbn [fst snd]. pose proof (sq_nn (a0 - b0)). pose proof (sq_nn (a1 - b1)).
  destruct (Req_dec (a0 - b0) 0) as [Z|Z]; [|pose proof (sq_pos _ Z); lra]. destruct (Req_dec (a1 - b1) 0) as [Z'|Z']; [|pose proof (sq_pos _ Z'); lra].
  exfalso. apply D. f_equal; lra.
Qed.

(* ---------- the narrow phase on an ordered pair ---------- *)
Definition core2 (fixed : nat -> bool) (shape : nat -> shape2) (q0 q1 v : dvec) (i j : nat) : outcome (list rb2_contact) :=
  match shape i, shape j with
  | Circle2 ra, Circle2 rb => Ok (circle_circle_narrow2 fixed i j ra rb q0 q1 v)
  | Circle2 r, Box2 w => box_circle_narrow2 fixed i j r w q0 q1 v
  | Box2 w, Circle2 r => box_circle_narrow2 fixed j i r w q0 q1 v
  | Box2 wi, Box2 wj => box_box_narrow2 fixed i j wi wj q0 q1
  end.
Definition good2 (fixed : nat -> bool) (shape : nat -> shape2) (q0 q1 v : dvec) (i j : nat) (c : rb2_contact) : Prop :=
  pair2 c = Some (i, j) /\ two_sided2 c = negb (fixed j) /\ describes2 shape q0 q1 i j c (rb2_normal c)
  /\ (fixed j = true -> exists r n, shape i = Circle2 r /\ c = KinCircle i r n j (seg2 q0 (3 * j)) (seg2 v (3 * j)) (v (3 * j + 2)%nat)).
Lemma vneg_neg : forall a, vneg (vneg a) = a.
Proof. intros [x y]. unfold vneg. cbn [fst snd]. f_equal; ring. Qed.
Lemma body_acts : forall q i j p n, acts_at2 q (mk_body_body2 i j p n q) p.
Proof.
  intros q i j [p0 p1] n. unfold mk_body_body2, acts_at2, vadd, vsub. cbn [fst snd]. split; f_equal; ring.
Qed.
Lemma core2_ok : forall fixed shape q0 q1 v i j, sized2 (shape i) -> sized2 (shape j) -> fixed i = false -> (fixed j = false -> (i < j)%nat) ->
  (fixed j = true /\ is_circle (shape i) = false /\ core2 fixed shape q0 q1 v i j = Exit)
  \/ (~ (fixed j = true /\ is_circle (shape i) = false) /\ exists cs, core2 fixed shape q0 q1 v i j = Ok cs
      /\ (cs <> [] <-> collide2 shape q0 q1 i j) /\ (length cs <= 2)%nat
      /\ (is_circle (shape i) = true \/ is_circle (shape j) = true -> (length cs <= 1)%nat)
      /\ Forall (good2 fixed shape q0 q1 v i j) cs).
Proof.
  intros fixed shape q0 q1 v i j Si Sj Fi Fj. unfold core2, collide2, overlap2, good2, describes2, body2_points, body_at2, sized2 in *. cbn [b2_shape b2_x b2_theta].
  destruct (shape i) as [r|w] eqn:Shi; destruct (shape j) as [s|w'] eqn:Shj; cbn [is_circle].
  - right. split; [intros [_ X]; discriminate|]. unfold circle_circle_narrow2. eexists. split; [reflexivity|].
    assert (I : (exists t, ccd (seg2 q0 (3 * i)) (seg2 q1 (3 * i)) r (seg2 q0 (3 * j)) (seg2 q1 (3 * j)) s = Some t) <-> discs_sweep r s q0 q1 i j).
    { rewrite ccd_iff by lra. unfold discs_sweep. split; intros (t & T & M); exists t; (split; [exact T|]); apply (touch_meets _ _ _ _ r s t Si Sj); exact M. }
    destruct (ccd _ _ _ _ _ _) as [t|].
    + split; [split; [intros _; apply I; eexists; reflexivity|intros _; destruct (negb (fixed j)); discriminate]|].
      split; [destruct (negb (fixed j)); cbn [length]; lia|]. split; [intros _; destruct (negb (fixed j)); cbn [length]; lia|].
      destruct (fixed j) eqn:Fj'; cbn [negb]; (constructor; [|constructor]).
      * cbn [pair2 two_sided2 rb2_normal]. split; [reflexivity|]. split; [reflexivity|]. split; [split; [|discriminate]|].
        -- intros N. apply (circle_normal _ _ N).
        -- intros _. eexists _, _. split; reflexivity.
      * unfold mk_circle_circle. cbn [pair2 two_sided2 rb2_normal]. split; [reflexivity|]. split; [reflexivity|]. split; [split|discriminate].
        -- intros N. apply (circle_normal _ _ N).
        -- intros _. eexists. split; [reflexivity|]. apply divides2_mid; lra.
    + split; [split; [intros X; exfalso; apply X; reflexivity|intros C; apply I in C; destruct C as [t C]; discriminate]|].
      split; [cbn; lia|]. split; [cbn; lia|constructor].
  - right. split; [intros [_ X]; discriminate|]. unfold box_circle_narrow2. rewrite Fi.
    pose proof (circle_box_exact (seg2 q1 (3 * i)) r (seg2 q1 (3 * j)) (q1 (3 * j + 2)%nat) w' ltac:(lra) ltac:(lra) ltac:(lra)) as X.
    destruct (circle_box _ _ _ _ _) as [[n p]|] eqn:E.
    + apply circle_box_contact in E; try lra. destruct E as (U & K).
      assert (M : meets (in_disc (seg2 q1 (3 * i)) r) (in_box2 (seg2 q1 (3 * j)) (q1 (3 * j + 2)%nat) w')).
      { destruct (proj1 X) as (z & A & B); [discriminate|]. exists z. split; assumption. }
      destruct (fixed j) eqn:Fj'; cbn [negb]; eexists.
      * split; [reflexivity|]. split; [split; [intros _; exact M|discriminate]|]. split; [cbn; lia|]. split; [cbn; lia|]. constructor; [|constructor].
        cbn [pair2 two_sided2 rb2_normal]. split; [reflexivity|]. split; [reflexivity|]. split; [|intros _; eexists _, _; split; reflexivity].
        exists p. split; [split; [exact U|exact K]|discriminate].
      * rewrite (proj2 (Nat.ltb_lt i j) (Fj eq_refl)). split; [reflexivity|]. split; [split; [intros _; exact M|discriminate]|]. split; [cbn; lia|]. split; [cbn; lia|].
        constructor; [|constructor]. split; [reflexivity|]. split; [reflexivity|]. split; [|discriminate].
        exists p. split; [split; [exact U|exact K]|intros _; apply body_acts].
    + exists []. split; [reflexivity|]. split.
      * split; [intros Y; exfalso; apply Y; reflexivity|]. intros (z & A & B). exfalso. apply (proj2 X); [|reflexivity]. exists z. split; assumption.
      * split; [cbn; lia|]. split; [cbn; lia|constructor].
  - unfold box_circle_narrow2. destruct (fixed j) eqn:Fj'; [left; repeat split|]. right. split; [intros [Y _]; discriminate|].
    pose proof (circle_box_exact (seg2 q1 (3 * j)) s (seg2 q1 (3 * i)) (q1 (3 * i + 2)%nat) w ltac:(lra) ltac:(lra) ltac:(lra)) as X.
    destruct (circle_box _ _ _ _ _) as [[n p]|] eqn:E.
    + apply circle_box_contact in E; try lra. destruct E as (U & K).
      assert (M : meets (in_box2 (seg2 q1 (3 * i)) (q1 (3 * i + 2)%nat) w) (in_disc (seg2 q1 (3 * j)) s)).
      { destruct (proj1 X) as (z & A & B); [discriminate|]. exists z. split; assumption. }
      rewrite Fi. cbn [negb]. assert (L : Nat.ltb j i = false) by (apply Nat.ltb_ge; specialize (Fj eq_refl); lia). rewrite L.
      eexists. split; [reflexivity|]. split; [split; [intros _; exact M|discriminate]|]. split; [cbn; lia|]. split; [cbn; lia|].
      constructor; [|constructor]. split; [reflexivity|]. split; [reflexivity|]. split; [|discriminate].
      exists p. unfold mk_body_body2 at 1. cbn [rb2_normal]. rewrite vneg_neg. split; [split; [exact U|exact K]|apply body_acts].
    + exists []. split; [reflexivity|]. split.
      * split; [intros Y; exfalso; apply Y; reflexivity|]. intros (z & A & B). exfalso. apply (proj2 X); [|reflexivity]. exists z. split; assumption.
      * split; [cbn; lia|]. split; [cbn; lia|constructor].
  - unfold box_box_narrow2. rewrite Fi. cbn [orb]. destruct (fixed j) eqn:Fj'; [left; repeat split|]. right. split; [intros [Y _]; discriminate|].
    pose proof (box_box_spec (seg2 q1 (3 * i)) (q1 (3 * i + 2)%nat) w (seg2 q1 (3 * j)) (q1 (3 * j + 2)%nat) w' ltac:(lra) ltac:(lra)) as X.
    destruct (box_box _ _ _ _ _ _) as [[[n ps]|]| |]; try contradiction; cbn [obind].
    + destruct X as (M & U & _ & Ne & Len & F). eexists. split; [reflexivity|]. rewrite map_length. split.
      * split; [intros _; exact M|]. intros _ Y. apply Ne. destruct ps; [reflexivity|discriminate].
      * split; [exact Len|]. split; [intros [Y|Y]; discriminate|]. apply Forall_forall. intros c Hc. apply in_map_iff in Hc. destruct Hc as (p & <- & Hp).
        split; [reflexivity|]. split; [reflexivity|]. split; [|discriminate]. exists p. split; [apply body_acts|]. cbn [mk_body_body2 rb2_normal]. split; [exact U|].
        destruct F as [F|F]; [left|right]; apply F; exact Hp.
    + exists []. split; [reflexivity|]. split.
      * split; [intros Y; exfalso; apply Y; reflexivity|]. intros M. exfalso. apply (proj1 X). exact M.
      * split; [cbn; lia|]. split; [cbn; lia|constructor].
Qed.
