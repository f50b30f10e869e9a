(* Portals in space, the set of teleported collisions and the contacts across portals. *)
From Coq Require Import List NArith ZArith Reals Lia Lra Bool Sorted.
From Verif Require Import Outcome Grid_Model Grid_Spec Grid_Dim Ccd_Model Ccd_Proofs Lin_Model Lin_Proofs Contact_Proofs
  Cache_Model Cache_Spec Cache_Thms ContactBall_Model Portal_Model Portal_Spec Portal_Proofs.
From Verif Require Import Lin_Model.
Import ListNotations.
Open Scope R_scope.

(* ---------- space ---------- *)
Definition frame_of (p : plane3) : frame := mkFrame (q_n p) (q_t0 p) (q_t1 p).
Lemma frame_orthonormal p : unit_plane3 p -> orthonormal (frame_of p).
Proof.
  intros U. unfold frame_of, orthonormal. cbn [f_n f_s f_t].
  assert (Y : dot3 (V3 0 1 0) (V3 0 1 0) = 1) by (unfold dot3; cbn [c0 c1 c2]; ring).
  destruct (from_two_vectors_turns (V3 0 1 0) (q_n p) Y U) as (T & P & _).
  assert (Q : forall x, dot3 (q_n p) (from_two_vectors (V3 0 1 0) (q_n p) x) = dot3 (V3 0 1 0) x).
  { intros x. rewrite <- (P (V3 0 1 0) x), T. reflexivity. }
  unfold q_t0, q_t1. rewrite !P, !Q.
  split; [exact U|]. unfold dot3; cbn [c0 c1 c2]. repeat split; ring.
Qed.
Definition coords3 (p : plane3) (x : v3) : R * R * R :=
  (dot3 (sub3 x (q_x p)) (q_n p), dot3 (sub3 x (q_x p)) (q_t0 p), dot3 (sub3 x (q_x p)) (q_t1 p)).
Definition place3 (p : plane3) (c : R * R * R) : v3 := add3 (q_x p) (world_force (frame_of p) c).

Lemma place3_coords p x : unit_plane3 p -> place3 p (coords3 p x) = x.
Proof.
  intros U. unfold place3, coords3.
  pose proof (expand (frame_of p) (sub3 x (q_x p)) (frame_orthonormal p U)) as E.
  change (f_n (frame_of p)) with (q_n p) in E. change (f_s (frame_of p)) with (q_t0 p) in E.
  change (f_t (frame_of p)) with (q_t1 p) in E. rewrite E.
  apply v3_eq; unfold add3, sub3; cbn [c0 c1 c2]; ring.
Qed.
Lemma coords3_place p c : unit_plane3 p -> coords3 p (place3 p c) = c.
Proof.
  intros U. destruct c as [[a b0] b1]. destruct (components (frame_of p) a b0 b1 (frame_orthonormal p U)) as (A & B & C).
  cbn [f_n f_s f_t frame_of] in A, B, C.
  assert (E : sub3 (place3 p (a, b0, b1)) (q_x p) = world_force (frame_of p) (a, b0, b1)).
  { unfold place3. apply v3_eq; unfold sub3, add3; cbn [c0 c1 c2]; ring. }
  unfold coords3. rewrite E, A, B, C. reflexivity.
Qed.
Lemma sqdist3_coords p x y : unit_plane3 p -> sqdist3 x y =
  let '(a, b, c) := coords3 p x in let '(a', b', c') := coords3 p y in
  (a - a') * (a - a') + (b - b') * (b - b') + (c - c') * (c - c').
Proof.
  intros U. unfold sqdist3. rewrite (parseval (frame_of p) (sub3 x y) (frame_orthonormal p U)).
  unfold coords3. cbn [f_n f_s f_t frame_of]. unfold dot3, sub3. cbn [c0 c1 c2]. ring.
Qed.
Definition flip3 (m : Z * Z * Z) (c : R * R * R) : R * R * R :=
  let '(m0, m1, m2) := m in let '(a, b, d) := c in (- IZR m0 * a, - IZR m1 * b, - IZR m2 * d).
Lemma through3_eq from to m x : through3 from to m x = place3 to (flip3 m (coords3 from x)).
Proof.
  destruct m as [[m0 m1] m2]. unfold through3, place3, flip3, coords3, world_force, frame_of. cbn [f_n f_s f_t].
  apply v3_eq; unfold add3, scale3, sub3, dot3; cbn [c0 c1 c2]; ring.
Qed.
Lemma flip3_twice m c : signs m -> flip3 m (flip3 m c) = c.
Proof.
  destruct m as [[m0 m1] m2], c as [[a b] d]. intros (H0 & H1 & H2). unfold flip3, sign in *.
  destruct H0 as [-> | ->], H1 as [-> | ->], H2 as [-> | ->]; f_equal; try f_equal; ring.
Qed.
Lemma height3_coords p x : height3 p x = fst (fst (coords3 p x)).
Proof. unfold height3, coords3. cbn [fst]. apply dot3_comm. Qed.

Lemma through3_spec from to m x : unit_plane3 from -> unit_plane3 to -> signs m ->
  height3 to (through3 from to m x) = - IZR (fst (fst m)) * height3 from x /\
  through3 to from m (through3 from to m x) = x /\
  forall y, sqdist3 (through3 from to m x) (through3 from to m y) = sqdist3 x y.
Proof.
  intros U V S. rewrite !through3_eq, height3_coords, coords3_place by assumption. split; [|split].
  - rewrite height3_coords. destruct m as [[m0 m1] m2]. unfold flip3. destruct (coords3 from x) as [[a b] d]. reflexivity.
  - rewrite flip3_twice by exact S. now apply place3_coords.
  - intros y. rewrite !through3_eq. rewrite (sqdist3_coords to _ _ V), !coords3_place by assumption.
    rewrite (sqdist3_coords from x y U). destruct m as [[m0 m1] m2]. destruct S as (H0 & H1 & H2).
    destruct (coords3 from x) as [[a b] d], (coords3 from y) as [[a' b'] d']. unfold flip3, sign in *.
    destruct H0 as [-> | ->], H1 as [-> | ->], H2 as [-> | ->]; ring.
Qed.

Lemma enforce3_one p w x : unit_plane3 (pt_a p) -> unit_plane3 (pt_b p) -> signs (pt_mult p) -> fst (fst (pt_mult p)) = 1%Z ->
  q_n (pt_b p) = neg3 (q_n (pt_a p)) -> height3 (pt_a p) (q_x (pt_b p)) = w -> 0 < w ->
  - w <= height3 (pt_a p) x <= 2 * w ->
  exists y, enforce3 [p] [x] = [y] /\ 0 <= height3 (pt_a p) y <= w /\ 0 <= height3 (pt_b p) y <= w /\
    (0 <= height3 (pt_a p) x <= w -> y = x).
Proof.
  intros U V S M Nb W Hw Hx.
  assert (H : forall z, height3 (pt_b p) z = w - height3 (pt_a p) z).
  { intros z. rewrite <- W. unfold height3. rewrite Nb. unfold dot3, sub3, neg3. cbn [c0 c1 c2]. ring. }
  unfold enforce3. cbn [fold_left map]. unfold in_portal3, teleport_inside3, depth3.
  change (dot3 (q_n (pt_a p)) (sub3 x (q_x (pt_a p)))) with (height3 (pt_a p) x).
  change (dot3 (q_n (pt_b p)) (sub3 x (q_x (pt_b p)))) with (height3 (pt_b p) x).
  destruct (Rltb_spec (height3 (pt_a p) x) 0) as [A|A]; cbn [orb].
  - destruct (through3_spec (pt_a p) (pt_b p) (pt_mult p) x U V S) as (E & _). rewrite M in E.
    eexists. split; [reflexivity|]. unfold through3_a. rewrite H in E |- *. repeat split; lra.
  - destruct (Rltb_spec (height3 (pt_b p) x) 0) as [B|B]; cbn [orb].
    + destruct (through3_spec (pt_b p) (pt_a p) (pt_mult p) x V U S) as (E & _). rewrite M in E.
      rewrite H in B, E. eexists. split; [reflexivity|]. unfold through3_b. rewrite !H. repeat split; try lra.
    + rewrite H in B. eexists. split; [reflexivity|]. rewrite H. repeat split; lra.
Qed.

(* ---------- the set of teleported collisions ---------- *)
Definition tcoll_lt (a b : tcoll) : Prop := tcoll_ltb a b = true.
Lemma tcoll_ltb_iff a b : tcoll_ltb a b = true <-> (t_b0 a < t_b0 b \/ (t_b0 a = t_b0 b /\ t_b1 a < t_b1 b))%N.
Proof. unfold tcoll_ltb. rewrite orb_true_iff, andb_true_iff, !N.ltb_lt, N.eqb_eq. reflexivity. Qed.
Lemma tcoll_ltb_false a b : tcoll_ltb a b = false <-> ~ (t_b0 a < t_b0 b \/ (t_b0 a = t_b0 b /\ t_b1 a < t_b1 b))%N.
Proof. rewrite <- tcoll_ltb_iff. destruct (tcoll_ltb a b); split; congruence. Qed.
Lemma tcoll_lt_trans a b c : tcoll_lt a b -> tcoll_lt b c -> tcoll_lt a c.
Proof. unfold tcoll_lt. rewrite !tcoll_ltb_iff. lia. Qed.
Lemma tcoll_incomparable a b : tcoll_ltb a b = false /\ tcoll_ltb b a = false <-> same_bodies a b.
Proof. rewrite !tcoll_ltb_false. unfold same_bodies. lia. Qed.
Lemma tcoll_lt_not_same a b : tcoll_lt a b -> ~ same_bodies a b.
Proof. unfold tcoll_lt. rewrite tcoll_ltb_iff. unfold same_bodies. lia. Qed.
Lemma same_bodies_sym a b : same_bodies a b -> same_bodies b a.
Proof. unfold same_bodies. intuition. Qed.

Lemma tinsert_In c s d : StronglySorted tcoll_lt s ->
  (In d (tinsert c s) <-> In d s \/ (d = c /\ forall e, In e s -> ~ same_bodies e c)).
Proof.
  induction s as [|e s IH]; intros S; cbn [tinsert].
  - cbn [In]. intuition (subst; auto).
  - inversion S as [|? ? S' F]; subst. rewrite Forall_forall in F.
    destruct (tcoll_ltb c e) eqn:L.
    + cbn [In]. split; [|intros [H|[-> _]]; auto]. intros [<-|H]; [|tauto]. right. split; [reflexivity|].
      intros g [<-|Ig] B; apply same_bodies_sym in B; revert B; apply tcoll_lt_not_same; [exact L|].
      eapply tcoll_lt_trans; [exact L|auto].
    + destruct (tcoll_ltb e c) eqn:G.
      * cbn [In]. rewrite (IH S'). split.
        -- intros [<-|[H|[-> H]]]; auto. right. split; [reflexivity|]. intros g [<-|Ig]; [now apply tcoll_lt_not_same|auto].
        -- intros [[<-|H]|[-> H]]; [now left|right; now left|]. right. right. split; [reflexivity|]. intros g Ig. apply H. now right.
      * split; [auto|]. intros [H|[-> H]]; [exact H|]. exfalso. apply (H e (or_introl eq_refl)).
        apply tcoll_incomparable. auto.
Qed.
Lemma tinsert_sorted c s : StronglySorted tcoll_lt s -> StronglySorted tcoll_lt (tinsert c s).
Proof.
  induction s as [|e s IH]; intros S; cbn [tinsert].
  - constructor; constructor.
  - inversion S as [|? ? S' F]; subst.
    destruct (tcoll_ltb c e) eqn:L.
    + constructor; [exact S|]. constructor; [exact L|]. eapply Forall_impl; [|exact F]. intros g. now apply tcoll_lt_trans.
    + destruct (tcoll_ltb e c) eqn:G; [|exact S]. constructor; [auto|].
      apply Forall_forall. intros d Hd. apply tinsert_In in Hd; [|exact S'].
      destruct Hd as [Hd|[-> _]]; [|exact G]. rewrite Forall_forall in F. auto.
Qed.
Definition tset (l : list tcoll) : list tcoll := fold_left (fun s c => tinsert c s) l [].
Lemma first_app l c d : first_with_bodies (l ++ [c]) d <->
  first_with_bodies l d \/ (d = c /\ forall e, In e l -> ~ same_bodies e c).
Proof.
  split.
  - intros (l1 & l2 & E & H). destruct l2 as [|x l2] using rev_ind.
    + apply app_inj_tail in E as (-> & <-). right. auto.
    + clear IHl2. rewrite app_comm_cons, app_assoc in E. apply app_inj_tail in E as (-> & <-).
      left. exists l1, l2. auto.
  - intros [(l1 & l2 & -> & H)|[-> H]].
    + exists l1, (l2 ++ [c]). rewrite <- app_assoc. auto.
    + exists l, []. auto.
Qed.
Lemma first_exists l c : In c l -> exists d, first_with_bodies l d /\ same_bodies d c.
Proof.
  revert c. induction l as [|x l IH] using rev_ind; [intros c []|]. intros c H.
  assert (A : forall e, In e l -> exists d, first_with_bodies (l ++ [x]) d /\ same_bodies d e).
  { intros e Ie. destruct (IH e Ie) as (d & Fd & B). exists d. split; [apply first_app; auto|exact B]. }
  apply in_app_or in H as [H|[->|[]]]; [auto|].
  destruct (existsb (fun e => (t_b0 e =? t_b0 c)%N && (t_b1 e =? t_b1 c)%N) l) eqn:X.
  - apply existsb_exists in X as (e & Ie & B). apply andb_true_iff in B. rewrite !N.eqb_eq in B.
    destruct (A e Ie) as (d & Fd & B'). exists d. split; [exact Fd|]. unfold same_bodies in *. intuition congruence.
  - exists c. split; [|split; reflexivity]. apply first_app. right. split; [reflexivity|]. intros e Ie (B1 & B2).
    assert (Y : existsb (fun e => (t_b0 e =? t_b0 c)%N && (t_b1 e =? t_b1 c)%N) l = true).
    { apply existsb_exists. exists e. split; [exact Ie|]. rewrite B1, B2, !N.eqb_refl. reflexivity. }
    congruence.
Qed.
Lemma first_In l c : first_with_bodies l c -> In c l.
Proof. intros (l1 & l2 & -> & _). apply in_or_app. right. now left. Qed.
Lemma tset_spec l : StronglySorted tcoll_lt (tset l) /\ forall c, In c (tset l) <-> first_with_bodies l c.
Proof.
  unfold tset. induction l as [|x l IH] using rev_ind.
  - split; [constructor|]. intros c. split; [intros []|]. intros (l1 & l2 & E & _). now destruct l1.
  - destruct IH as [S I]. rewrite fold_left_app. cbn [fold_left]. split; [now apply tinsert_sorted|].
    intros c. rewrite tinsert_In by exact S. rewrite first_app, I. split; (intros [H|[-> H]]; [auto|]); right; (split; [reflexivity|]).
    + intros e Ie B. destruct (first_exists l e Ie) as (d & Fd & Bd). apply I in Fd. apply (H d Fd).
      unfold same_bodies in *. intuition congruence.
    + intros e Ie. apply I, first_In in Ie. auto.
Qed.
Lemma tset_once l c d : In c (tset l) -> In d (tset l) -> same_bodies c d -> c = d.
Proof.
  destruct (tset_spec l) as [S _]. revert S. generalize (tset l). intros s S. induction S as [|x s S IH F]; intros Hc Hd B; [destruct Hc|].
  rewrite Forall_forall in F. destruct Hc as [->|Hc], Hd as [->|Hd]; auto; exfalso.
  - now apply (tcoll_lt_not_same c d (F d Hd)).
  - apply same_bodies_sym in B. now apply (tcoll_lt_not_same d c (F c Hc)).
Qed.
