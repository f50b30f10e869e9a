(* The spatial contact set: candidates, dispatch and what each pair of shapes contributes. *)
From Coq Require Import List Reals Arith NArith Bool Lra Lia Sorted.
From Verif Require Import Outcome Grid_Model Grid_Spec Grid_Proofs Grid_Dim Grid_Real Grid_Real3 Ccd_Model Ccd_Spec Ccd_Proofs ContactRb2_Model ContactRb3_Model
  Rot_Model Rot_Spec Rot_Alg Lin_Model Geom_Model Geom_Spec Geom_Sets Geom_Circle Geom_Space Geom_Aabb Wall_Model Wall_Spec Wall_Geo Wall_Thms Wall_More Narrow_Model Narrow_Spec Narrow_Proofs Narrow_Thms.
Import ListNotations.
Local Open Scope R_scope.

(* ---------- boxes ---------- *)
Definition bounds3 (nb : nat) (shape : nat -> shape3) (q : dvec) (i : nat) : v3 * v3 :=
  let b := aabb3 nb shape q i in
  (V3 (fst (fst (lo3 b))) (snd (fst (lo3 b))) (snd (lo3 b)), V3 (fst (fst (up3 b))) (snd (fst (up3 b))) (snd (up3 b))).
Lemma v3_eta : forall a, V3 (c0 a) (c1 a) (c2 a) = a.
Proof. intros [x y z]. reflexivity. Qed.
Lemma bounds3_tight : forall nb shape q i, rotation (ori3 nb q i) -> sized3 (shape i) -> tight3 (bounds3 nb shape q i) (reach3 nb shape q i).
Proof.
  intros nb shape q i Rt Sz.
  assert (H : exists b, body3_aabb (Body3 (pos3 q i) (ori3 nb q i) (shape i)) = Some b /\ tight3 b (reach3 nb shape q i)).
  { unfold body3_aabb, reach3, body_at3, body3_points, sized3 in *. cbn [b3_shape b3_x b3_R]. destruct (shape i) as [w|r|s|vs].
    - eexists. split; [reflexivity|]. apply box3_aabb_tight; [exact Rt|lra|lra|lra].
    - eexists. split; [reflexivity|]. apply sphere_aabb_tight. lra.
    - pose proof (vertices_aabb_tight (st_p s) (pos3 q i) (ori3 nb q i)) as T. destruct (vertices_aabb _ _ _) as [b|]; [exists b; split; [reflexivity|exact T]|].
      exfalso. destruct Sz as (w & l & D & -> & _). cbn [covers3] in T. eapply T. eexists. split; [|reflexivity].
      apply hull_vertex. cbn [mk_staple st_p]. left. reflexivity.
    - pose proof (vertices_aabb_tight vs (pos3 q i) (ori3 nb q i)) as T. destruct (vertices_aabb _ _ _) as [b|]; [exists b; split; [reflexivity|exact T]|].
      exfalso. destruct vs as [|v vs]; [apply Sz; reflexivity|]. eapply T. eexists. split; [|reflexivity]. apply hull_vertex. left. reflexivity. }
  destruct H as ([lo up] & E & T). unfold bounds3, aabb3. rewrite E. cbn [lo3 up3 fst snd]. rewrite !v3_eta. exact T.
Qed.
Lemma reach3_some : forall nb shape q i, sized3 (shape i) -> exists p, reach3 nb shape q i p.
Proof.
  intros nb shape q i Sz. unfold reach3, body3_points, body_at3, sized3 in *. cbn [b3_shape b3_x b3_R]. destruct (shape i) as [w|r|s|vs].
  - exists (pos3 q i). unfold in_box3, dot3, sub3. cbn [c0 c1 c2]. rewrite !Rminus_eq_0, !Rmult_0_r, !Rplus_0_l, Rabs_R0. lra.
  - exists (pos3 q i). unfold in_ball3, dot3, sub3. cbn [c0 c1 c2]. pose proof (sq_nn r). lra.
  - destruct Sz as (w & l & D & -> & _). eexists. eexists. split; [|reflexivity]. apply hull_vertex. cbn [mk_staple st_p]. left. reflexivity.
  - destruct vs as [|v vs]; [exfalso; apply Sz; reflexivity|]. eexists. eexists. split; [|reflexivity]. apply hull_vertex. left. reflexivity.
Qed.
Lemma tight3_unique : forall b b' S, tight3 b S -> tight3 b' S -> b = b'.
Proof.
  intros [[l0 l1 l2] [u0 u1 u2]] [[m0 m1 m2] [w0 w1 w2]] S [A B] [A' B']. specialize (B _ A'). specialize (B' _ A). cbn [fst snd c0 c1 c2] in *.
  repeat f_equal; lra.
Qed.
Lemma aabb3_wf : forall nb shape q i, rotation (ori3 nb q i) -> sized3 (shape i) -> wf3 real (aabb3 nb shape q i).
Proof.
  intros nb shape q i Rt Sz. destruct (bounds3_tight nb shape q i Rt Sz) as [E _]. destruct (reach3_some nb shape q i Sz) as [p P].
  apply E in P. unfold within3, bounds3 in P. cbn [fst snd c0 c1 c2] in P. unfold wf3, Grid_Model.c0, Grid_Model.c1, Grid_Model.c2.
  set (b := aabb3 nb shape q i) in *. clearbody b. destruct P as ([P1 P2] & [P3 P4] & [P5 P6]).
  split; [|split]; apply alt_real_false; [apply (Rle_trans _ _ _ P1 P2)|apply (Rle_trans _ _ _ P3 P4)|apply (Rle_trans _ _ _ P5 P6)].
Qed.
Lemma max_within : forall a b c d : R, a <= c -> b <= d -> a <= d -> b <= c -> a <= Rmax a b <= c /\ b <= Rmax a b <= d.
Proof.
  intros a b c d A B C D. pose proof (Rmax_l a b). pose proof (Rmax_r a b). pose proof (Rmax_lub a b c A D). pose proof (Rmax_lub a b d C B). lra.
Qed.
Lemma overlaps_bounds3 : forall nb shape q i j, rotation (ori3 nb q i) -> rotation (ori3 nb q j) -> sized3 (shape i) -> sized3 (shape j) ->
  (overlaps3 (aabb3 nb shape q i) (aabb3 nb shape q j) = true <-> bounds_meet3 nb shape q i j).
Proof.
  intros nb shape q i j Ri Rj Si Sj. split.
  - intros O. exists (bounds3 nb shape q i), (bounds3 nb shape q j). split; [apply bounds3_tight; assumption|]. split; [apply bounds3_tight; assumption|].
    apply overlaps3_inv in O. destruct O as ((A & B & C) & D & E & F). apply alt_real_false in A, B, C, D, E, F.
    destruct (aabb3_wf nb shape q i Ri Si) as (W1 & W2 & W3). destruct (aabb3_wf nb shape q j Rj Sj) as (W4 & W5 & W6).
    apply alt_real_false in W1, W2, W3, W4, W5, W6. unfold boxes_meet3, meets, bounds3, within3. cbn [fst snd c0 c1 c2].
    set (a := aabb3 nb shape q i) in *. set (b := aabb3 nb shape q j) in *. clearbody a b.
    destruct a as [[[a0 a1] a2] [[a3 a4] a5]], b as [[[b0 b1] b2] [[b3 b4] b5]].
    unfold Grid_Model.c0, Grid_Model.c1, Grid_Model.c2 in *. cbn [lo3 up3 fst snd] in *.
    exists (V3 (Rmax a0 b0) (Rmax a1 b1) (Rmax a2 b2)). cbn [c0 c1 c2].
    pose proof (max_within a0 b0 a3 b3 W1 W4 D A). pose proof (max_within a1 b1 a4 b4 W2 W5 E B). pose proof (max_within a2 b2 a5 b5 W3 W6 F C). tauto.
  - intros (a & b & Ta & Tb & p & Pa & Pb).
    rewrite (tight3_unique _ _ _ Ta (bounds3_tight nb shape q i Ri Si)) in Pa. rewrite (tight3_unique _ _ _ Tb (bounds3_tight nb shape q j Rj Sj)) in Pb.
    unfold within3, bounds3 in Pa, Pb. cbn [fst snd c0 c1 c2] in Pa, Pb.
    destruct Pa as ([A1 A2] & [A3 A4] & [A5 A6]). destruct Pb as ([B1 B2] & [B3 B4] & [B5 B6]).
    apply overlaps3_intro; apply alt_real_false; unfold Grid_Model.c0, Grid_Model.c1, Grid_Model.c2; eapply Rle_trans; eassumption.
Qed.

(* ---------- one ordered pair ---------- *)
Definition core3 (o : narrow3) (nb : nat) (fixed : nat -> bool) (shape : nat -> shape3) (q0 q1 : dvec) (i j : nat) : outcome (list rb3_contact) :=
  match shape i, shape j with
  | Box3 wi, Box3 wj => Ok (contacts3 fixed i j q0 (n3_box_box o (pos3 q1 i) (ori3 nb q1 i) wi (pos3 q1 j) (ori3 nb q1 j) wj))
  | Sphere3 ri, Sphere3 rj => Ok (sphere_sphere_narrow i j ri rj (fixed j) q0 q1)
  | Staple3 si, Staple3 sj =>
      if staple_staple (pos3 q1 i) (ori3 nb q1 i) si (pos3 q1 j) (ori3 nb q1 j) sj then Exit else Ok []
  | Mesh3 mi, Mesh3 mj => Ok (contacts3 fixed i j q0 (n3_mesh_mesh o (pos3 q1 i) (ori3 nb q1 i) mi (pos3 q1 j) (ori3 nb q1 j) mj))
  | _, _ => Exit
  end.
Lemma dispatch3_core : forall o nb fixed shape q0 q1 i j,
  dispatch3 o nb fixed shape q0 q1 i j =
    if fixed i && fixed j then Ok [] else if fixed i then core3 o nb fixed shape q0 q1 j i else core3 o nb fixed shape q0 q1 i j.
Proof.
  intros o nb fixed shape q0 q1 i j. unfold dispatch3. destruct (fixed i) eqn:Fi; destruct (fixed j) eqn:Fj; cbn [andb]; unfold core3; rewrite ?Fi, ?Fj; reflexivity.
Qed.
Lemma contacts3_in : forall fixed i j q0 l c, In c (contacts3 fixed i j q0 l) <-> exists p n, In (p, n) l /\ c = point_contact fixed q0 i j p n.
Proof.
  intros fixed i j q0 l c. unfold contacts3. rewrite in_map_iff. split.
  - intros ([p n] & <- & H). exists p, n. split; [exact H|]. cbn [fst snd]. unfold point_contact. destruct (fixed j); reflexivity.
  - intros (p & n & H & ->). exists (p, n). split; [|exact H]. cbn [fst snd]. unfold point_contact. destruct (fixed j); reflexivity.
Qed.
Lemma overlap3_sym : forall nb shape q i j, overlap3 nb shape q i j <-> overlap3 nb shape q j i.
Proof. intros nb shape q i j. apply meets_sym. Qed.
Lemma staples_touch : forall nb shape q i j s t, rotation (ori3 nb q i) -> rotation (ori3 nb q j) -> shape i = Staple3 s -> shape j = Staple3 t ->
  sized3 (shape i) -> sized3 (shape j) ->
  (staple_staple (pos3 q i) (ori3 nb q i) s (pos3 q j) (ori3 nb q j) t = true <-> overlap3 nb shape q i j).
Proof.
  intros nb shape q i j s t Ri Rj Si Sj Zi Zj. unfold overlap3, body3_points, body_at3, sized3 in *. cbn [b3_shape b3_x b3_R]. rewrite Si, Sj in *.
  destruct Zi as (w & l & D & -> & Z1 & Z2 & Z3). destruct Zj as (w' & l' & D' & -> & Z4 & Z5 & Z6).
  rewrite staple_staple_exact by assumption. cbn [mk_staple st_w st_l st_r].
  replace (/ 2 * D) with (D / 2) by field. replace (/ 2 * D') with (D' / 2) by field. reflexivity.
Qed.

Section Set3.
  Context (o : narrow3) (nb : nat) (fixed : nat -> bool) (shape : nat -> shape3) (q0 q1 : dvec).
  Hypothesis Few : (N.of_nat nb <= 4294967296)%N.
  Hypothesis Sized : forall i, (i < nb)%nat -> sized3 (shape i).
  Hypothesis Turned : forall i, (i < nb)%nat -> rotation (ori3 nb q1 i).

  Lemma core3_exit : forall i j, (i < nb)%nat -> (j < nb)%nat -> ~ (fixed i = true /\ fixed j = true) ->
    (unsupported3 nb fixed shape q1 i j /\ core3 o nb fixed shape q0 q1 i j = Exit)
    \/ (~ unsupported3 nb fixed shape q1 i j /\ exists cs, core3 o nb fixed shape q0 q1 i j = Ok cs
        /\ forall c, In c cs <-> from_pair3 o nb fixed shape q0 q1 i j c).
  Proof.
    intros i j Hi Hj Nf. pose proof (Sized i Hi) as Si. pose proof (Sized j Hj) as Sj. unfold core3, from_pair3, unsupported3.
    destruct (shape i) as [w|r|s|vs] eqn:Ei; destruct (shape j) as [w'|r'|s'|vs'] eqn:Ej; cbn [same_kind3];
      try (left; split; [split; [exact Nf|left; reflexivity]|reflexivity]).
    - right. split; [intros [_ [X|(_ & (s & X) & _)]]; discriminate|]. eexists. split; [reflexivity|]. intros c. apply contacts3_in.
    - right. split; [intros [_ [X|(_ & (s & X) & _)]]; discriminate|]. eexists. split; [reflexivity|]. intros c. cbn [sized3] in Si, Sj.
      rewrite (proj1 (sphere_sphere_narrow_ok i j r r' (fixed j) q0 q1 ltac:(lra) ltac:(lra) ltac:(lra)) c).
      unfold overlap3, body3_points, body_at3. cbn [b3_shape b3_x b3_R]. rewrite Ei, Ej. reflexivity.
    - pose proof (staples_touch nb shape q1 i j s s' (Turned i Hi) (Turned j Hj) Ei Ej (Sized i Hi) (Sized j Hj)) as T.
      destruct (staple_staple _ _ _ _ _ _).
      + left. split; [|reflexivity]. split; [exact Nf|]. right. split; [exists s; reflexivity|]. split; [exists s'; reflexivity|]. apply T. reflexivity.
      + right. split; [intros [_ [X|(_ & _ & X)]]; [discriminate|apply T in X; discriminate]|]. exists []. split; [reflexivity|]. intros c. split; intros [].
    - right. split; [intros [_ [X|(_ & (s & X) & _)]]; discriminate|]. eexists. split; [reflexivity|]. intros c. apply contacts3_in.
  Qed.
  Lemma unsupported3_sym : forall i j, unsupported3 nb fixed shape q1 i j <-> unsupported3 nb fixed shape q1 j i.
  Proof.
    intros i j. unfold unsupported3. rewrite overlap3_sym.
    assert (K : same_kind3 (shape i) (shape j) = same_kind3 (shape j) (shape i)) by (destruct (shape i), (shape j); reflexivity). rewrite K. tauto.
  Qed.
  Lemma from_pair3_pair : forall i j c, from_pair3 o nb fixed shape q0 q1 i j c -> pair3 c = Some (i, j).
  Proof.
    intros i j c. unfold from_pair3. destruct (shape i), (shape j); try (intros []; fail).
    - intros (p & n & _ & ->). unfold point_contact. destruct (fixed j); reflexivity.
    - intros (_ & ->). destruct (fixed j); reflexivity.
    - intros (p & n & _ & ->). unfold point_contact. destruct (fixed j); reflexivity.
  Qed.
  (* one candidate pair i < j *)
  Lemma dispatch3_ok : forall i j, (i < j)%nat -> (j < nb)%nat ->
    (unsupported3 nb fixed shape q1 i j /\ dispatch3 o nb fixed shape q0 q1 i j = Exit)
    \/ (~ unsupported3 nb fixed shape q1 i j /\ exists cs, dispatch3 o nb fixed shape q0 q1 i j = Ok cs
        /\ forall c, In c cs <-> exists a b, ((a = i /\ b = j) \/ (a = j /\ b = i)) /\ fixed a = false /\ (fixed b = false -> (a < b)%nat)
             /\ from_pair3 o nb fixed shape q0 q1 a b c).
  Proof.
    intros i j Hij Hj. rewrite dispatch3_core. destruct (fixed i) eqn:Fi; destruct (fixed j) eqn:Fj; cbn [andb].
    - right. split; [intros [X _]; apply X; split; assumption|]. exists []. split; [reflexivity|]. intros c. split; [intros []|].
      intros (a & b & [[-> ->]|[-> ->]] & X & _); congruence.
    - destruct (core3_exit j i Hj ltac:(lia)) as [[U E]|[U (cs & E & F)]]; [rewrite Fj; intros [X _]; discriminate| |].
      + left. split; [apply unsupported3_sym; exact U|exact E].
      + right. split; [rewrite unsupported3_sym; exact U|]. exists cs. split; [exact E|]. intros c. rewrite F. split.
        * intros H. exists j, i. split; [right; split; reflexivity|]. split; [exact Fj|]. split; [congruence|exact H].
        * intros (a & b & [[-> ->]|[-> ->]] & X & _ & H); [congruence|exact H].
    - destruct (core3_exit i j ltac:(lia) Hj) as [[U E]|[U (cs & E & F)]]; [rewrite Fi; intros [X _]; discriminate| |].
      + left. split; [exact U|exact E].
      + right. split; [exact U|]. exists cs. split; [exact E|]. intros c. rewrite F. split.
        * intros H. exists i, j. split; [left; split; reflexivity|]. split; [exact Fi|]. split; [congruence|exact H].
        * intros (a & b & [[-> ->]|[-> ->]] & X & _ & H); [exact H|congruence].
    - destruct (core3_exit i j ltac:(lia) Hj) as [[U E]|[U (cs & E & F)]]; [rewrite Fi; intros [X _]; discriminate| |].
      + left. split; [exact U|exact E].
      + right. split; [exact U|]. exists cs. split; [exact E|]. intros c. rewrite F. split.
        * intros H. exists i, j. split; [left; split; reflexivity|]. split; [exact Fi|]. split; [intros _; exact Hij|exact H].
        * intros (a & b & [[-> ->]|[-> ->]] & _ & X & H); [exact H|]. specialize (X Fi). lia.
  Qed.
  (* a body paired with itself: only a free staple ends the program, and the contacts name the body twice *)
  Lemma dispatch3_self : forall i, (i < nb)%nat ->
    (dispatch3 o nb fixed shape q0 q1 i i = Exit /\ is_staple (shape i) = true)
    \/ exists cs, dispatch3 o nb fixed shape q0 q1 i i = Ok cs /\ forall c, In c cs -> pair3 c = Some (i, i).
  Proof.
    intros i Hi. rewrite dispatch3_core. destruct (fixed i) eqn:Fi; cbn [andb]; [right; exists []; split; [reflexivity|intros c []]|].
    destruct (core3_exit i i Hi Hi) as [[[_ U] E]|[_ (cs & E & F)]]; [rewrite Fi; intros [X _]; discriminate| |].
    - left. split; [exact E|]. destruct U as [U|((s & Es) & _)]; [destruct (shape i); discriminate|rewrite Es; reflexivity].
    - right. exists cs. split; [exact E|]. intros c Hc. apply F in Hc. apply from_pair3_pair in Hc. exact Hc.
  Qed.

  Let boxes := map (aabb3 nb shape q1) (seq 0 nb).
  Lemma boxes_indexable3 : indexable boxes.
  Proof. unfold indexable, boxes. rewrite map_length, seq_length. exact Few. Qed.
  Lemma boxes_wf3 : Forall (wf3 real) boxes.
  Proof.
    apply Forall_forall. intros b H. apply in_map_iff in H. destruct H as (i & <- & H). apply in_seq in H. apply aabb3_wf; [apply Turned|apply Sized]; lia.
  Qed.
  Lemma possible_iff3 : forall out i j, getPotentialOverlaps3 real boxes [] = Ok out -> (i < j)%nat -> (j < nb)%nat ->
    (In (N.of_nat i, N.of_nat j) out <-> bounds_meet3 nb shape q1 i j).
  Proof.
    intros out i j E Hij Hj. rewrite <- overlaps_bounds3 by (try apply Turned; try apply Sized; lia). split.
    - intros H. apply (any_sound3 real boxes [] out _ _ boxes_indexable3 E) in H. destruct H as [[]|(_ & a & b & Ha & Hb & O)].
      apply box_at_seq in Ha, Hb. rewrite !Nat2N.id in *. destruct Ha as [_ ->]. destruct Hb as [_ ->]. exact O.
    - intros O. apply (any_complete3 real real_laws boxes [] out (N.of_nat i) (N.of_nat j) (aabb3 nb shape q1 i) (aabb3 nb shape q1 j) boxes_indexable3 boxes_wf3 E).
      + lia.
      + apply box_at_seq. rewrite Nat2N.id. split; [lia|reflexivity].
      + apply box_at_seq. rewrite Nat2N.id. split; [lia|reflexivity].
      + exact O.
  Qed.
  Lemma possible_range3 : forall out a b, getPotentialOverlaps3 real boxes [] = Ok out -> In (a, b) out ->
    (N.to_nat a <= N.to_nat b)%nat /\ (N.to_nat b < nb)%nat.
  Proof.
    intros out a b E H. apply (any_sound3 real boxes [] out _ _ boxes_indexable3 E) in H. destruct H as [[]|(L & x & y & _ & Hb & _)].
    apply box_at_seq in Hb. lia.
  Qed.
  Lemma wall_pairs3 : forall planes cyls ps cs c, rb3_plane_set nb q0 q1 fixed shape planes = Ok ps -> rb3_cylinder_set nb q0 q1 fixed shape cyls = Ok cs ->
    In c (map snd ps ++ map snd cs) -> pair3 c = None.
  Proof.
    intros planes cyls ps cs c Ep Ec H. apply in_app_iff in H.
    destruct H as [H|H]; apply in_map_iff in H; destruct H as ([k c'] & <- & H); [apply (gather_ok _ _ Ep) in H|apply (gather_ok _ _ Ec) in H];
      destruct H as (l & Hl & H); unfold Wall_Model.all_pairs in Hl; apply in_flat_map in Hl; destruct Hl as (kp & _ & Hl);
      apply in_flat_map in Hl; destruct Hl as (i & _ & Hl); destruct Hl as [Hl|[]]; destruct (fixed i);
      try (injection Hl as <-; destruct H; fail).
    - unfold rb3_plane_one in Hl. destruct (shape i) as [w|r|s|vs]; try discriminate; injection Hl as <-.
      + apply in_map_iff in H. destruct H as (x & E & _). injection E as <- <-. reflexivity.
      + destruct (ball_plane_active3 _ _ _ _); [|destruct H]. destruct H as [E|[]]. injection E as <- <-. reflexivity.
      + apply in_map_iff in H. destruct H as (x & E & _). injection E as <- <-. reflexivity.
    - unfold rb3_cylinder_one in Hl. destruct (shape i) as [w|r|s|vs]; try discriminate; injection Hl as <-.
      + destruct (ball_cylinder_active _ _ _ _ _); [|destruct H]. destruct H as [E|[]]. injection E as <- <-. reflexivity.
      + apply in_map_iff in H. destruct H as (x & E & _). injection E as <- <-. reflexivity.
  Qed.

  (* the contacts between bodies are exactly those of the pairs whose boxes meet *)
  Theorem set3_exact : forall planes cyls set, rb3_active_set o nb fixed shape planes cyls q0 q1 = Ok set ->
    forall c a b, pair3 c = Some (a, b) -> a <> b ->
    (In c set <-> (a < nb)%nat /\ (b < nb)%nat /\ fixed a = false /\ (fixed b = false -> (a < b)%nat)
                  /\ bounds_meet3 nb shape q1 a b /\ from_pair3 o nb fixed shape q0 q1 a b c).
  Proof.
    intros planes cyls set E c a b Pc Nab. unfold rb3_active_set in E. apply obind_Ok_inv in E. destruct E as (bs & Eb & E).
    apply obind_Ok_inv in E. destruct E as (ps & Ep & E). apply obind_Ok_inv in E. destruct E as (cs & Ec & E). injection E as <-.
    unfold body_body_set3 in Eb. apply obind_Ok_inv in Eb. destruct Eb as (out & Eo & Eb). pose proof (gather_ok _ _ Eb) as G. fold boxes in Eo. rewrite in_app_iff.
    assert (Sym : bounds_meet3 nb shape q1 a b <-> bounds_meet3 nb shape q1 b a).
    { unfold bounds_meet3. split; intros (x & y & X & Y & M); exists y, x; (split; [exact Y|split; [exact X|apply meets_sym; exact M]]). }
    split.
    - intros [H|H]; [|apply (wall_pairs3 planes cyls ps cs c Ep Ec) in H; congruence]. apply G in H. destruct H as (l & Hl & Hc). apply in_map_iff in Hl.
      destruct Hl as ([x y] & D & Hxy). cbn [fst snd] in D. destruct (possible_range3 out x y Eo Hxy) as [L R].
      destruct (Nat.eq_dec (N.to_nat x) (N.to_nat y)) as [Eq|Ne].
      + exfalso. rewrite Eq in D. destruct (dispatch3_self _ R) as [[D' _]|(l' & D' & P)]; rewrite D' in D; [discriminate|]. injection D as ->. rewrite (P c Hc) in Pc. congruence.
      + assert (B : bounds_meet3 nb shape q1 (N.to_nat x) (N.to_nat y)) by (apply (possible_iff3 out _ _ Eo); [lia|exact R|rewrite !N2Nat.id; exact Hxy]).
        destruct (dispatch3_ok (N.to_nat x) (N.to_nat y) ltac:(lia) R) as [[_ D']|[_ (l' & D' & P)]]; rewrite D' in D; [discriminate|]. injection D as ->.
        apply P in Hc. destruct Hc as (a' & b' & Ab & Fa & Fb & F). pose proof (from_pair3_pair a' b' c F) as Pc'. rewrite Pc in Pc'. injection Pc' as <- <-.
        destruct Ab as [[-> ->]|[-> ->]]; (split; [lia|]); (split; [lia|]); (split; [exact Fa|]); (split; [exact Fb|]); (split; [|exact F]); [exact B|apply Sym; exact B].
    - intros (Ha & Hb & Fa & Fb & B & F). left. apply G.
      assert (K : forall i j, (i < j)%nat -> (j < nb)%nat -> ((a = i /\ b = j) \/ (a = j /\ b = i)) -> bounds_meet3 nb shape q1 i j ->
        exists l, In (Ok l) (map (fun p => dispatch3 o nb fixed shape q0 q1 (N.to_nat (fst p)) (N.to_nat (snd p))) out) /\ In c l).
      { intros i j Hij Hj Ab B'.
        assert (I : In (dispatch3 o nb fixed shape q0 q1 i j) (map (fun p => dispatch3 o nb fixed shape q0 q1 (N.to_nat (fst p)) (N.to_nat (snd p))) out)).
        { apply in_map_iff. exists (N.of_nat i, N.of_nat j). cbn [fst snd]. rewrite !Nat2N.id. split; [reflexivity|]. apply (possible_iff3 out i j Eo Hij Hj). exact B'. }
        destruct (dispatch3_ok i j Hij Hj) as [[[_ U] _]|[_ (l & D & P)]].
        - exfalso. unfold from_pair3 in F. destruct U as [U|((s & Es) & (s' & Es') & _)].
          + destruct Ab as [[-> ->]|[-> ->]]; destruct (shape i), (shape j); try discriminate; exact F.
          + destruct Ab as [[-> ->]|[-> ->]]; rewrite ?Es, ?Es' in F; exact F.
        - exists l. rewrite D in I. split; [exact I|]. apply P. exists a, b. repeat (split; [assumption|]). exact F. }
      destruct (Nat.lt_total a b) as [H|[H|H]]; [|contradiction|].
      + apply (K a b H Hb); [left; split; reflexivity|exact B].
      + apply (K b a H Ha); [right; split; reflexivity|apply Sym; exact B].
  Qed.

  (* balls: a contact exactly when they overlap at the end of the step *)
  Theorem set3_spheres : forall planes cyls set i j r s, rb3_active_set o nb fixed shape planes cyls q0 q1 = Ok set ->
    (i < j)%nat -> (j < nb)%nat -> shape i = Sphere3 r -> shape j = Sphere3 s ->
    (in_contact pair3 set i j <-> ~ (fixed i = true /\ fixed j = true) /\ overlap3 nb shape q1 i j).
  Proof.
    intros planes cyls set i j r s E Hij Hj Si Sj. pose proof (set3_exact planes cyls set E) as X.
    assert (Meet : forall a b ra rb, shape a = Sphere3 ra -> shape b = Sphere3 rb -> (a < nb)%nat -> (b < nb)%nat -> overlap3 nb shape q1 a b -> bounds_meet3 nb shape q1 a b).
    { intros a b ra rb Ea Eb Ha Hb (p & Pa & Pb). exists (bounds3 nb shape q1 a), (bounds3 nb shape q1 b).
      pose proof (bounds3_tight nb shape q1 a (Turned a Ha) (Sized a Ha)) as Ta. pose proof (bounds3_tight nb shape q1 b (Turned b Hb) (Sized b Hb)) as Tb.
      split; [exact Ta|]. split; [exact Tb|]. exists p. split; [apply (proj1 Ta)|apply (proj1 Tb)]; unfold reach3; [rewrite Ea|rewrite Eb]; assumption. }
    split.
    - intros (c & Hc & [Pc|Pc]); apply (X c _ _ Pc ltac:(lia)) in Hc; destruct Hc as (_ & _ & Fa & _ & _ & F); unfold from_pair3 in F; rewrite Si, Sj in F; destruct F as [O _].
      + split; [intros [Y _]; congruence|exact O].
      + split; [intros [_ Y]; congruence|apply overlap3_sym; exact O].
    - intros [Nf O]. destruct (fixed i) eqn:Fi.
      + assert (Fj : fixed j = false) by (destruct (fixed j); [exfalso; apply Nf; split; reflexivity|reflexivity]).
        apply overlap3_sym in O. eexists. split; [apply (X _ j i)|right]; [|lia| |].
        2: { split; [lia|]. split; [lia|]. split; [exact Fj|]. split; [congruence|]. split; [apply (Meet j i s r Sj Si); [lia|lia|exact O]|].
             unfold from_pair3. rewrite Si, Sj, Fi. split; [exact O|reflexivity]. }
        all: reflexivity.
      + eexists. split; [apply (X _ i j)|left]; [|lia| |].
        2: { split; [lia|]. split; [lia|]. split; [exact Fi|]. split; [intros _; exact Hij|]. split; [apply (Meet i j r s Si Sj); [lia|lia|exact O]|].
             unfold from_pair3. rewrite Si, Sj. split; [exact O|reflexivity]. }
        all: destruct (fixed j); reflexivity.
  Qed.

  (* when the program ends *)
  Theorem set3_exit : forall planes cyls out, getPotentialOverlaps3 real boxes [] = Ok out ->
    (forall k, ~ In (k, k) out) ->
    ((exists i j, (i < j)%nat /\ (j < nb)%nat /\ unsupported3 nb fixed shape q1 i j /\ bounds_meet3 nb shape q1 i j)
     /\ rb3_active_set o nb fixed shape planes cyls q0 q1 = Exit)
    \/ (~ (exists i j, (i < j)%nat /\ (j < nb)%nat /\ unsupported3 nb fixed shape q1 i j /\ bounds_meet3 nb shape q1 i j)
        /\ exists bodies, body_body_set3 o nb fixed shape q0 q1 = Ok bodies).
  Proof.
    intros planes cyls out Eo Solo. unfold rb3_active_set, body_body_set3. fold boxes. rewrite Eo. cbn [obind].
    set (l := map _ out).
    assert (S' : forall x y, In (x, y) out -> (N.to_nat x < N.to_nat y)%nat /\ (N.to_nat y < nb)%nat).
    { intros x y H. destruct (possible_range3 out x y Eo H) as [L R]. split; [|exact R]. destruct (Nat.eq_dec (N.to_nat x) (N.to_nat y)) as [Q|Q]; [|lia].
      apply N2Nat.inj in Q. subst y. exfalso. apply (Solo x H). }
    assert (K : forall r, In r l -> r = Exit \/ exists cs, r = Ok cs).
    { intros r Hr. apply in_map_iff in Hr. destruct Hr as ([x y] & <- & Hp). cbn [fst snd]. destruct (S' x y Hp) as [L R].
      destruct (dispatch3_ok _ _ L R) as [[_ D]|[_ (cs & D & _)]]; [left; exact D|right; exists cs; exact D]. }
    assert (X : In Exit l <-> exists i j, (i < j)%nat /\ (j < nb)%nat /\ unsupported3 nb fixed shape q1 i j /\ bounds_meet3 nb shape q1 i j).
    { split.
      - intros H. apply in_map_iff in H. destruct H as ([x y] & D & Hxy). cbn [fst snd] in D. destruct (S' x y Hxy) as [L R].
        destruct (dispatch3_ok _ _ L R) as [[U _]|[_ (cs & D' & _)]]; [|congruence].
        exists (N.to_nat x), (N.to_nat y). split; [exact L|]. split; [exact R|]. split; [exact U|]. apply (possible_iff3 out _ _ Eo L R). rewrite !N2Nat.id. exact Hxy.
      - intros (i & j & Hij & Hj & U & B). apply in_map_iff. exists (N.of_nat i, N.of_nat j). cbn [fst snd]. rewrite !Nat2N.id.
        split; [|apply (possible_iff3 out i j Eo Hij Hj); exact B]. destruct (dispatch3_ok i j Hij Hj) as [[_ D]|[N _]]; [exact D|contradiction]. }
    assert (Dec : In Exit l \/ ~ In Exit l).
    { clear -K. induction l as [|r l IH]; [right; intros []|]. destruct (K r (or_introl eq_refl)) as [->|[cs ->]]; [left; left; reflexivity|].
      destruct IH as [I|I]; [intros r Hr; apply K; right; exact Hr|left; right; exact I|right; intros [H|H]; [discriminate|contradiction]]. }
    destruct Dec as [D|D].
    - left. split; [apply X; exact D|]. rewrite (gather_exit l K D). reflexivity.
    - right. split; [rewrite <- X; exact D|]. apply (gather_total l). intros r Hr. destruct (K r Hr) as [->|H]; [contradiction|exact H].
  Qed.

  (* the grid can always be built when the scene is bounded and no body is too thin *)
  Theorem set3_grid : forall M m, (0 < nb)%nat -> 0 < m -> 2 * M + 1 < 4294967000 * m ->
    (forall i p, (i < nb)%nat -> reach3 nb shape q1 i p -> Rabs (c0 p) <= M /\ Rabs (c1 p) <= M /\ Rabs (c2 p) <= M) ->
    (forall i, (i < nb)%nat -> exists p p', reach3 nb shape q1 i p /\ reach3 nb shape q1 i p' /\ m <= c0 p' - c0 p) ->
    exists out, getPotentialOverlaps3 real boxes [] = Ok out /\ (2 * M + 1 <= 1600 * m -> forall k, ~ In (k, k) out).
  Proof.
    intros M m Hnb Hm HM In_ Wide.
    cut (exists out, getPotentialOverlaps3 real boxes [] = Ok out /\ (indexable boxes -> 2 * M + 1 <= 1600 * m -> forall k, In (k, k) out -> In (k, k) [])).
    { intros (out & E & S). exists out. split; [exact E|]. intros Sm k H. exact (S boxes_indexable3 Sm k H). }
    apply (real_total3 boxes [] M m).
    - unfold boxes. destruct nb; [lia|discriminate].
    - apply Forall_forall. intros b H. apply in_map_iff in H. destruct H as (i & <- & H). apply in_seq in H. assert (Hi : (i < nb)%nat) by lia.
      destruct (bounds3_tight nb shape q1 i (Turned i Hi) (Sized i Hi)) as [En Ti]. destruct (aabb3_wf nb shape q1 i (Turned i Hi) (Sized i Hi)) as (W1 & W2 & W3).
      apply alt_real_false in W1, W2, W3. destruct (Wide i Hi) as (p & p' & P & P' & Wd). apply En in P, P'.
      assert (T : encloses3 (V3 (- M) (- M) (- M), V3 M M M) (reach3 nb shape q1 i)).
      { intros z Z. destruct (In_ i z Hi Z) as (Z0 & Z1 & Z2). apply abs_inv in Z0. apply abs_inv in Z1. apply abs_inv in Z2.
        unfold within3. cbn [fst snd c0 c1 c2]. lra. }
      specialize (Ti _ T). unfold within3, bounds3 in *. cbn [fst snd c0 c1 c2] in *. unfold in_arena3.
      set (b := aabb3 nb shape q1 i) in *. clearbody b. destruct b as [[[l0 l1] l2] [[u0 u1] u2]].
      unfold Grid_Model.c0, Grid_Model.c1, Grid_Model.c2 in *. cbn [lo3 up3 fst snd] in *. cbn [real sc] in *.
      split.
      + intros k Hk. destruct k as [|[|[|k]]]; cbn [axis3]; unfold Grid_Model.c0, Grid_Model.c1, Grid_Model.c2; cbn [fst snd]; [tauto|tauto|tauto|lia].
      + destruct P as ([P1 P2] & _). destruct P' as ([P1' P2'] & _). apply Rle_trans with (1 := Wd). unfold Rminus. apply Rplus_le_compat; [exact P2'|apply Ropp_le_contravar; exact P1].
    - exact Hm.
    - exact HM.
  Qed.
End Set3.
