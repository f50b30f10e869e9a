(* The assembled lists of static contacts, gap functions, contact points, simulation boundary. *)
From Coq Require Import List Reals Arith Bool Lra Lia.
From Verif Require Import Outcome Ccd_Model ContactBall_Model ContactRb2_Model ContactRb3_Model Rot_Model Rot_Spec Rot_Alg Lin_Model Lin_Proofs
  Geom_Model Geom_Spec Geom_Sets Geom_Circle Geom_Space Geom_Aabb Frame_Proofs Wall_Model Wall_Spec Wall_Geo.
From Verif Require Cache_Thms.
Import ListNotations.
Open Scope R_scope.

(* ---------- loops ---------- *)
Lemma numbered_in : forall {A} (l : list A) k a, In (k, a) (numbered l) <-> nth_error l k = Some a.
Proof.
  intros A l. unfold numbered. assert (G : forall (l : list A) o k a, In (k, a) (combine (seq o (length l)) l) <-> (o <= k)%nat /\ nth_error l (k - o) = Some a).
  { induction l0 as [|x l0 IH]; intros o k a; cbn [length seq combine In].
    - split; [intros []|]. intros [_ H]. destruct (k - o)%nat; discriminate.
    - rewrite IH. split.
      + intros [H|[H1 H2]].
        * injection H as -> ->. split; [lia|]. rewrite Nat.sub_diag. reflexivity.
        * split; [lia|]. replace (k - o)%nat with (S (k - S o)) by lia. exact H2.
      + intros [H1 H2]. destruct (Nat.eq_dec k o) as [->|N].
        * left. rewrite Nat.sub_diag in H2. injection H2 as ->. reflexivity.
        * right. split; [lia|]. replace (k - o)%nat with (S (k - S o)) in H2 by lia. exact H2. }
  intros k a. rewrite (G l 0%nat k a), Nat.sub_0_r. split; [tauto|]. intros H. split; [lia|exact H].
Qed.
Lemma all_pairs_in : forall {A B} (l : list A) n (f : nat -> A -> nat -> list B) x,
  In x (all_pairs l n f) <-> exists k a i, nth_error l k = Some a /\ (i < n)%nat /\ In x (f k a i).
Proof.
  intros A B l n f x. unfold all_pairs. rewrite in_flat_map. split.
  - intros ([k a] & I & H). cbn [fst snd] in H. apply in_flat_map in H. destruct H as (i & Ii & H). apply in_seq in Ii.
    exists k, a, i. split; [apply numbered_in; exact I|]. split; [lia|exact H].
  - intros (k & a & i & E & Hi & H). exists (k, a). split; [apply numbered_in; exact E|]. cbn [fst snd]. apply in_flat_map. exists i.
    split; [apply in_seq; lia|exact H].
Qed.
(* no two reports of the same obstacle and body when each pair yields at most one *)
Lemma nodup_app : forall {A} (a b : list A), NoDup a -> NoDup b -> (forall x, In x a -> In x b -> False) -> NoDup (a ++ b).
Proof.
  intros A a. induction a as [|x a IH]; intros b Ha Hb D; [exact Hb|]. cbn [app]. inversion Ha as [|y l Nx Na]. subst. constructor.
  - intros I. apply in_app_iff in I. destruct I as [I|I]; [exact (Nx I)|]. apply (D x); [left; reflexivity|exact I].
  - apply IH; [exact Na|exact Hb|]. intros z Z1 Z2. apply (D z); [right; exact Z1|exact Z2].
Qed.
Lemma all_pairs_once : forall {A B} (l : list A) n (f : nat -> A -> nat -> list B) (key : B -> nat * nat),
  (forall k a i x, In x (f k a i) -> key x = (k, i)) -> (forall k a i, (length (f k a i) <= 1)%nat) ->
  NoDup (map key (all_pairs l n f)).
Proof.
  intros A B l n f key K L. unfold all_pairs, numbered.
  assert (In1 : forall k a m o, NoDup (map key (flat_map (fun i => f k a i) (seq o m)))
    /\ forall p, In p (map key (flat_map (fun i => f k a i) (seq o m))) -> fst p = k /\ (o <= snd p)%nat).
  { intros k a m. induction m as [|m IH]; intros o; cbn [seq flat_map map]; [split; [constructor|intros p []]|].
    destruct (IH (S o)) as [N P]. rewrite map_app. split.
    - apply nodup_app; [|exact N|].
      + specialize (L k a o). destruct (f k a o) as [|x [|y t]]; cbn [map length] in *; [constructor|constructor; [intros []|constructor]|lia].
      + intros p I1 I2. apply in_map_iff in I1. destruct I1 as (x & Ex & Ix). rewrite (K k a o x Ix) in Ex. subst p.
        apply P in I2. cbn [snd] in I2. lia.
    - intros p I. apply in_app_iff in I. destruct I as [I|I].
      + apply in_map_iff in I. destruct I as (x & Ex & Ix). rewrite (K k a o x Ix) in Ex. subst p. cbn [fst snd]. lia.
      + apply P in I. destruct I as [I1 I2]. split; [exact I1|lia]. }
  generalize 0%nat at 2. induction l as [|a l IH]; intros o; cbn [length seq combine flat_map map]; [constructor|].
  rewrite map_app. cbn [fst snd]. apply nodup_app; [apply In1|apply IH|].
  intros p I1 I2. apply (proj2 (In1 o a n 0%nat)) in I1. destruct I1 as [I1 _]. apply in_map_iff in I2. destruct I2 as (x & Ex & Ix).
  apply in_flat_map in Ix. destruct Ix as ([k a'] & Ic & Ix). apply in_flat_map in Ix. destruct Ix as (i & _ & Ix). cbn [fst snd] in Ix.
  rewrite (K k a' i x Ix) in Ex. subst p. cbn [fst] in I1. subst k. apply in_combine_l in Ic. apply in_seq in Ic. lia.
Qed.

Lemma if_in : forall {A} (b : bool) (x y : A), In x (if b then [y] else []) <-> b = true /\ x = y.
Proof.
  intros A b x y. destruct b; cbn [In]; split; intros H; [|..].
  - destruct H as [<-|[]]; split; reflexivity.
  - left. symmetry. tauto.
  - destruct H.
  - destruct H; discriminate.
Qed.

(* ---------- balls ---------- *)
Theorem ball_plane_set_ok : forall q1 r balls planes,
  (forall i, (i < balls)%nat -> 0 <= r i) -> (forall p, In p planes -> vdot (bp_n p) (bp_n p) = 1) ->
  (forall k c, In (k, c) (ball_plane_set q1 r balls planes) <->
     exists p i, nth_error planes k = Some p /\ (i < balls)%nat /\ c = BallPlane i (r i) p
       /\ meets (in_disc (seg2 q1 (2 * i)) (r i)) (half_plane (bp_x p) (bp_n p)))
  /\ NoDup (map (fun kc => (fst kc, fst (b_bodies (snd kc)))) (ball_plane_set q1 r balls planes)).
Proof.
  intros q1 r balls planes Hr Hn. split.
  - intros k c. unfold ball_plane_set. rewrite all_pairs_in. split.
    + intros (k' & p & i & E & Hi & H). apply if_in in H. destruct H as [A C]. injection C as -> ->. exists p, i.
      split; [exact E|]. split; [exact Hi|]. split; [reflexivity|]. apply disc_plane_exact; [apply Hr; exact Hi|apply Hn; eapply nth_error_In; exact E|exact A].
    + intros (p & i & E & Hi & -> & M). exists k, p, i. split; [exact E|]. split; [exact Hi|]. apply if_in. split; [|reflexivity].
      apply disc_plane_exact; [apply Hr; exact Hi|apply Hn; eapply nth_error_In; exact E|exact M].
  - apply all_pairs_once.
    + intros k p i [k' c] H. apply if_in in H. destruct H as [_ C]. injection C as -> ->. reflexivity.
    + intros k p i. destruct (disc_plane_active _ _ _ _); cbn [length]; lia.
Qed.
Theorem ball_drum_set_ok : forall q0 q1 r balls drums,
  (forall i d, (i < balls)%nat -> In d drums -> 0 <= r i <= snd d) ->
  (forall k c, In (k, c) (ball_drum_set q0 q1 r balls drums) <->
     exists X Rd i, nth_error drums k = Some (X, Rd) /\ (i < balls)%nat
       /\ c = BallDrum i (vnormalized (vsub X (seg2 q0 (2 * i)))) (r i)
       /\ meets (in_disc (seg2 q1 (2 * i)) (r i)) (outside_drum X Rd))
  /\ NoDup (map (fun kc => (fst kc, fst (b_bodies (snd kc)))) (ball_drum_set q0 q1 r balls drums)).
Proof.
  intros q0 q1 r balls drums Hr. split.
  - intros k c. unfold ball_drum_set. rewrite all_pairs_in. split.
    + intros (k' & [X Rd] & i & E & Hi & H). cbn [fst snd] in H. apply if_in in H. destruct H as [A C]. injection C as -> ->. exists X, Rd, i.
      split; [exact E|]. split; [exact Hi|]. split; [reflexivity|].
      apply disc_drum_exact; [apply (Hr i (X, Rd) Hi); eapply nth_error_In; exact E|exact A].
    + intros (X & Rd & i & E & Hi & -> & M). exists k, (X, Rd), i. split; [exact E|]. split; [exact Hi|]. cbn [fst snd]. apply if_in.
      split; [|reflexivity]. apply disc_drum_exact; [apply (Hr i (X, Rd) Hi); eapply nth_error_In; exact E|exact M].
  - apply all_pairs_once.
    + intros k p i [k' c] H. apply if_in in H. destruct H as [_ C]. injection C as -> ->. reflexivity.
    + intros k p i. destruct (disc_drum_active _ _ _ _); cbn [length]; lia.
Qed.

(* ---------- planar rigid bodies ---------- *)
Definition rb2_body (q : dvec) (shape : nat -> shape2) (i : nat) : body2 := Body2 (seg2 q (3 * i)) (q (3 * i + 2)%nat) (shape i).
Theorem rb2_plane_set_ok : forall q1 fixed shape bodies planes,
  (forall i, (i < bodies)%nat -> body2_valid (rb2_body q1 shape i)) -> (forall p, In p planes -> vdot (rp_n p) (rp_n p) = 1) ->
  (forall k i, reported (fun c => fst (rb2_bodies c)) (rb2_plane_set q1 fixed shape bodies planes) k i <->
     exists p, nth_error planes k = Some p /\ (i < bodies)%nat /\ fixed i = false
       /\ meets (body2_points (rb2_body q1 shape i)) (half_plane (rp_x p) (rp_n p)))
  /\ (forall k c, In (k, c) (rb2_plane_set q1 fixed shape bodies planes) <->
     exists p i, nth_error planes k = Some p /\ (i < bodies)%nat /\ fixed i = false
       /\ match shape i with
          | Circle2 r => c = PlaneCircle i r p /\ meets (in_disc (seg2 q1 (3 * i)) r) (half_plane (rp_x p) (rp_n p))
          | Box2 r => exists a, is_corner2 r a /\ c = PlaneBody2 i a p
              /\ half_plane (rp_x p) (rp_n p) (vadd (seg2 q1 (3 * i)) (rot2 (q1 (3 * i + 2)%nat) a))
          end).
Proof.
  intros q1 fixed shape bodies planes V Hn.
  assert (Second : forall k c, In (k, c) (rb2_plane_set q1 fixed shape bodies planes) <->
     exists p i, nth_error planes k = Some p /\ (i < bodies)%nat /\ fixed i = false
       /\ match shape i with
          | Circle2 r => c = PlaneCircle i r p /\ meets (in_disc (seg2 q1 (3 * i)) r) (half_plane (rp_x p) (rp_n p))
          | Box2 r => exists a, is_corner2 r a /\ c = PlaneBody2 i a p
              /\ half_plane (rp_x p) (rp_n p) (vadd (seg2 q1 (3 * i)) (rot2 (q1 (3 * i + 2)%nat) a))
          end).
  { intros k c. unfold rb2_plane_set. rewrite all_pairs_in. split.
    - intros (k' & p & i & E & Hi & H). destruct (fixed i) eqn:F; [destruct H|]. specialize (V i Hi). unfold body2_valid, rb2_body in V.
      cbn [b2_shape] in V. destruct (shape i) as [r|r] eqn:Sh.
      + apply if_in in H. destruct H as [A C]. injection C as -> ->. exists p, i. rewrite Sh. repeat (split; [assumption||reflexivity|]).
        apply disc_plane_exact; [exact V|apply Hn; eapply nth_error_In; exact E|exact A].
      + apply in_flat_map in H. destruct H as (a & Ia & H). cbv zeta in H. apply if_in in H. destruct H as [A C]. injection C as -> ->.
        exists p, i. rewrite Sh. repeat (split; [assumption||reflexivity|]). exists a. apply corners2_are in Ia. apply Rleb_true in A.
        split; [exact Ia|]. split; [reflexivity|exact A].
    - intros (p & i & E & Hi & F & H). exists k, p, i. split; [exact E|]. split; [exact Hi|]. rewrite F. specialize (V i Hi). unfold body2_valid, rb2_body in V.
      cbn [b2_shape] in V. destruct (shape i) as [r|r].
      + destruct H as [-> M]. apply if_in. split; [|reflexivity]. apply disc_plane_exact; [exact V|apply Hn; eapply nth_error_In; exact E|exact M].
      + destruct H as (a & Ca & -> & A). apply in_flat_map. exists a. split; [apply corners2_are; exact Ca|]. cbv zeta. apply if_in.
        split; [apply Rleb_true; exact A|reflexivity]. }
  split; [|exact Second]. intros k i. unfold reported. split.
  - intros (c & I & B). apply Second in I. destruct I as (p & j & E & Hj & F & H). exists p. split; [exact E|].
    assert (Eij : j = i).
    { destruct (shape j); [destruct H as [-> _]|destruct H as (a & _ & -> & _)]; exact B. }
    subst j. split; [exact Hj|]. split; [exact F|]. specialize (V i Hj). unfold body2_valid, body2_points, rb2_body in *. cbn [b2_shape b2_x b2_theta] in *.
    destruct (shape i) as [r|r]; [apply H|]. destruct H as (a & Ca & _ & A). destruct V as [V0 V1]. apply box2_plane_exact; [exact V0|exact V1|].
    exists a. split; assumption.
  - intros (p & E & Hi & F & M). specialize (V i Hi). unfold body2_valid, body2_points, rb2_body in *. cbn [b2_shape b2_x b2_theta] in *.
    destruct (shape i) as [r|r] eqn:Sh.
    + exists (PlaneCircle i r p). split; [|reflexivity]. apply Second. exists p, i. rewrite Sh. repeat (split; [assumption||reflexivity|]). exact M.
    + destruct V as [V0 V1]. apply box2_plane_exact in M; [|exact V0|exact V1]. destruct M as (a & Ca & A). exists (PlaneBody2 i a p).
      split; [|reflexivity]. apply Second. exists p, i. rewrite Sh. repeat (split; [assumption||reflexivity|]). exists a. repeat (split; [assumption||reflexivity|]). exact A.
Qed.

(* ---------- rigid bodies in space ---------- *)
Lemma gather_ok : forall {A} (l : list (outcome (list A))) s, gather l = Ok s -> forall x, In x s <-> exists a, In (Ok a) l /\ In x a.
Proof.
  intros A l. induction l as [|o l IH]; intros s E x; cbn [gather] in E.
  - injection E as <-. split; [intros []|]. intros (a & [] & _).
  - apply obind_Ok_inv in E. destruct E as (a & -> & E). apply obind_Ok_inv in E. destruct E as (b & Eb & E). injection E as <-.
    rewrite in_app_iff, (IH b Eb x). split.
    + intros [H|(a' & I & H)]; [exists a; split; [left; reflexivity|exact H]|exists a'; split; [right; exact I|exact H]].
    + intros (a' & [I|I] & H); [injection I as ->; left; exact H|right; exists a'; split; assumption].
Qed.
Lemma gather_total : forall {A} (l : list (outcome (list A))), (forall o, In o l -> exists a, o = Ok a) -> exists s, gather l = Ok s.
Proof.
  intros A l. induction l as [|o l IH]; intros H; [exists []; reflexivity|]. cbn [gather].
  destruct (H o (or_introl eq_refl)) as [a ->]. destruct IH as [b Eb]; [intros o Ho; apply H; right; exact Ho|]. cbn [obind]. rewrite Eb.
  cbn [obind]. eexists. reflexivity.
Qed.
Lemma gather_exit : forall {A} (l : list (outcome (list A))), (forall o, In o l -> o = Exit \/ exists a, o = Ok a) -> In Exit l -> gather l = Exit.
Proof.
  intros A l. induction l as [|o l IH]; intros H I; [destruct I|]. cbn [gather].
  destruct (H o (or_introl eq_refl)) as [->|[a ->]]; [reflexivity|]. destruct I as [I|I]; [discriminate|]. cbn [obind].
  rewrite IH; [reflexivity|intros o Ho; apply H; right; exact Ho|exact I].
Qed.

Definition rb3_body (nb : nat) (q : dvec) (shape : nat -> shape3) (i : nat) : body3 := Body3 (pos3 q i) (ori3 nb q i) (shape i).
Definition is_staple (s : shape3) : bool := match s with Staple3 _ => true | _ => false end.
Definition is_box (s : shape3) : bool := match s with Box3 _ => true | _ => false end.

Lemma map_nil_iff : forall {A B} (f : A -> B) l, (exists x, In x (map f l)) <-> l <> [].
Proof.
  intros A B f l. destruct l as [|a l]; split.
  - intros (x & []).
  - congruence.
  - discriminate.
  - intros _. exists (f a). left. reflexivity.
Qed.

Theorem rb3_plane_set_ok : forall nb q0 q1 fixed shape planes,
  (forall i, (i < nb)%nat -> fixed i = false -> body3_valid (rb3_body nb q1 shape i)) -> (forall p, In p planes -> dot3 (tp_n p) (tp_n p) = 1) ->
  exists set, rb3_plane_set nb q0 q1 fixed shape planes = Ok set
  /\ (forall k i, reported (fun c => fst (rb3_bodies c)) set k i <->
     exists p, nth_error planes k = Some p /\ (i < nb)%nat /\ fixed i = false
       /\ meets (body3_points (rb3_body nb q1 shape i)) (half_space (tp_x p) (tp_n p)))
  /\ (forall k c, In (k, c) set <->
     exists p i, nth_error planes k = Some p /\ (i < nb)%nat /\ fixed i = false
       /\ match shape i with
          | Box3 w => exists a, is_corner3 w a /\ c = PlaneBody3 i (tp_n p) (mul3 (ori3 nb q0 i) a) k
              /\ half_space (tp_x p) (tp_n p) (add3 (pos3 q1 i) (mul3 (ori3 nb q1 i) a))
          | Sphere3 r => c = PlaneSphere i r p /\ meets (in_ball3 (pos3 q1 i) r) (half_space (tp_x p) (tp_n p))
          | Staple3 _ => False
          | Mesh3 vs => exists v, In v vs /\ c = PlaneBody3 i (tp_n p) (mul3 (ori3 nb q0 i) v) k
              /\ half_space (tp_x p) (tp_n p) (add3 (pos3 q1 i) (mul3 (ori3 nb q1 i) v))
          end).
Proof.
  intros nb q0 q1 fixed shape planes V Hn.
  assert (T : exists set, rb3_plane_set nb q0 q1 fixed shape planes = Ok set).
  { apply gather_total. intros o Ho. apply all_pairs_in in Ho. destruct Ho as (k & p & i & E & Hi & [<-|[]]).
    destruct (fixed i) eqn:F; [eexists; reflexivity|]. specialize (V i Hi F). unfold body3_valid, rb3_body in V. cbn [b3_shape b3_R] in V.
    unfold rb3_plane_one. destruct (shape i); try (eexists; reflexivity). destruct V as [_ []]. }
  destruct T as [set E]. exists set. split; [exact E|].
  assert (Second : forall k c, In (k, c) set <->
     exists p i, nth_error planes k = Some p /\ (i < nb)%nat /\ fixed i = false
       /\ match shape i with
          | Box3 w => exists a, is_corner3 w a /\ c = PlaneBody3 i (tp_n p) (mul3 (ori3 nb q0 i) a) k
              /\ half_space (tp_x p) (tp_n p) (add3 (pos3 q1 i) (mul3 (ori3 nb q1 i) a))
          | Sphere3 r => c = PlaneSphere i r p /\ meets (in_ball3 (pos3 q1 i) r) (half_space (tp_x p) (tp_n p))
          | Staple3 _ => False
          | Mesh3 vs => exists v, In v vs /\ c = PlaneBody3 i (tp_n p) (mul3 (ori3 nb q0 i) v) k
              /\ half_space (tp_x p) (tp_n p) (add3 (pos3 q1 i) (mul3 (ori3 nb q1 i) v))
          end).
  { intros k c. unfold rb3_plane_set in E. rewrite (gather_ok _ _ E). split.
    - intros (a & Ia & Ic). apply all_pairs_in in Ia. destruct Ia as (k' & p & i & Ep & Hi & Ia). destruct Ia as [Ia|[]].
      destruct (fixed i) eqn:F; [injection Ia as <-; destruct Ic|]. specialize (V i Hi F). unfold body3_valid, rb3_body in V. cbn [b3_shape b3_R] in V.
      unfold rb3_plane_one in Ia. destruct (shape i) as [w|r|s|vs] eqn:Sh.
      + apply Ok_inj in Ia. subst a. apply in_map_iff in Ic. destruct Ic as (c0 & Ec & Ic). injection Ec as <- <-.
        apply filter_In in Ic. destruct Ic as [Is A]. apply in_seq in Is. apply Rleb_true in A. exists p, i. rewrite Sh.
        repeat (split; [assumption|]). exists (corner3 w c0). split; [apply corner3_are; exists c0; split; [lia|reflexivity]|].
        split; [reflexivity|]. unfold half_space. rewrite add3_comm. exact A.
      + apply Ok_inj in Ia. subst a. apply if_in in Ic. destruct Ic as [A C]. injection C as -> ->. exists p, i. rewrite Sh.
        repeat (split; [assumption||reflexivity|]). apply ball_plane_exact; [apply V|apply Hn; eapply nth_error_In; exact Ep|exact A].
      + discriminate.
      + apply Ok_inj in Ia. subst a. apply in_map_iff in Ic. destruct Ic as (v & Ec & Ic). apply filter_In in Ic. destruct Ic as [Iv A]. apply Rleb_true in A.
        unfold mk_plane_body3 in Ec. fold (pos3 q0 i) in Ec. rewrite sub_add3 in Ec. injection Ec as <- <-. exists p, i. rewrite Sh.
        repeat (split; [assumption|]). exists v. split; [exact Iv|]. split; [reflexivity|]. unfold half_space. rewrite add3_comm. exact A.
    - intros (p & i & Ep & Hi & F & H). specialize (V i Hi F). unfold body3_valid, rb3_body in V. cbn [b3_shape b3_R] in V.
      assert (G : forall a, rb3_plane_one nb q0 q1 (shape i) k p i = Ok a -> In (k, c) a ->
        exists a, In (Ok a) (all_pairs planes nb (fun k p i => [if fixed i then Ok [] else rb3_plane_one nb q0 q1 (shape i) k p i])) /\ In (k, c) a).
      { intros a Ea Ia. exists a. split; [|exact Ia]. apply all_pairs_in. exists k, p, i. split; [exact Ep|]. split; [exact Hi|]. left. rewrite F. exact Ea. }
      unfold rb3_plane_one in G. destruct (shape i) as [w|r|s|vs].
      + destruct H as (a & Ca & -> & A). apply (G _ eq_refl). apply corner3_are in Ca. destruct Ca as (c & Hc & ->). apply in_map_iff. exists c.
        split; [reflexivity|]. apply filter_In. split; [apply in_seq; lia|]. apply Rleb_true. unfold half_space in A. rewrite add3_comm in A. exact A.
      + destruct H as [-> M]. apply (G _ eq_refl). apply if_in. split; [|reflexivity].
        apply ball_plane_exact; [apply V|apply Hn; eapply nth_error_In; exact Ep|exact M].
      + destruct H.
      + destruct H as (v & Iv & -> & A). apply (G _ eq_refl). apply in_map_iff. exists v. split.
        * unfold mk_plane_body3. fold (pos3 q0 i). rewrite sub_add3. reflexivity.
        * apply filter_In. split; [exact Iv|]. apply Rleb_true. unfold half_space in A. rewrite add3_comm in A. exact A. }
  split; [|exact Second]. intros k i. unfold reported. split.
  - intros (c & I & B). apply Second in I. destruct I as (p & j & Ep & Hj & F & H). exists p. split; [exact Ep|].
    assert (Eij : j = i).
    { destruct (shape j); [destruct H as (a & _ & -> & _)|destruct H as [-> _]|destruct H|destruct H as (a & _ & -> & _)]; exact B. }
    subst j. split; [exact Hj|]. split; [exact F|]. specialize (V i Hj F). unfold body3_valid, body3_points, rb3_body in *. cbn [b3_shape b3_x b3_R] in *.
    destruct (shape i) as [w|r|s|vs].
    + destruct H as (a & Ca & _ & A). destruct V as (HM & W0 & W1 & W2). exists (add3 (pos3 q1 i) (mul3 (ori3 nb q1 i) a)). split; [|exact A].
      apply in_box3_fits; [exact HM|]. apply corner3_fits; assumption.
    + apply H.
    + destruct H.
    + destruct H as (v & Iv & _ & A). exists (add3 (pos3 q1 i) (mul3 (ori3 nb q1 i) v)). split; [|exact A]. exists v. split; [apply hull_vertex; exact Iv|reflexivity].
  - intros (p & Ep & Hi & F & M). pose proof (V i Hi F) as Vi. unfold body3_valid, body3_points, rb3_body in Vi, M. cbn [b3_shape b3_x b3_R] in Vi, M.
    destruct (shape i) as [w|r|s|vs] eqn:Sh.
    + destruct Vi as (HM & W0 & W1 & W2). apply box3_plane_exact in M; try assumption. apply filter_some in M. destruct M as (c & Ic & A). apply in_seq in Ic.
      apply Rleb_true in A. exists (PlaneBody3 i (tp_n p) (mul3 (ori3 nb q0 i) (corner3 w c)) k). split; [|reflexivity]. apply Second. exists p, i. rewrite Sh.
      repeat (split; [assumption|]). exists (corner3 w c). split; [apply corner3_are; exists c; split; [lia|reflexivity]|]. split; [reflexivity|].
      unfold half_space. rewrite add3_comm. exact A.
    + exists (PlaneSphere i r p). split; [|reflexivity]. apply Second. exists p, i. rewrite Sh. repeat (split; [assumption||reflexivity|]). exact M.
    + destruct Vi as [_ []].
    + apply mesh_plane_exact in M. apply filter_some in M. destruct M as (v & Iv & A). apply Rleb_true in A.
      exists (PlaneBody3 i (tp_n p) (mul3 (ori3 nb q0 i) v) k). split; [|reflexivity]. apply Second. exists p, i. rewrite Sh.
      repeat (split; [assumption|]). exists v. split; [exact Iv|]. split; [reflexivity|]. unfold half_space. rewrite add3_comm. exact A.
Qed.

Theorem rb3_cylinder_set_ok : forall nb q0 q1 fixed shape cyls,
  (forall i, (i < nb)%nat -> fixed i = false -> is_box (shape i) = false /\ is_staple (shape i) = false) ->
  (forall i r c, (i < nb)%nat -> shape i = Sphere3 r -> In c cyls -> 0 <= r <= cy_r c) ->
  (forall c, In c cyls -> dot3 (cy_axis c) (cy_axis c) = 1 /\ 0 <= cy_r c) ->
  exists set, rb3_cylinder_set nb q0 q1 fixed shape cyls = Ok set
  /\ (forall k i, reported (fun c => fst (rb3_bodies c)) set k i <->
     exists cy, nth_error cyls k = Some cy /\ (i < nb)%nat /\ fixed i = false
       /\ meets (body3_points (rb3_body nb q1 shape i)) (outside_cylinder (cy_x cy) (cy_axis cy) (cy_r cy)))
  /\ (forall k c, In (k, c) set <->
     exists cy i, nth_error cyls k = Some cy /\ (i < nb)%nat /\ fixed i = false
       /\ match shape i with
          | Sphere3 r => c = CylSphere i r cy /\ meets (in_ball3 (pos3 q1 i) r) (outside_cylinder (cy_x cy) (cy_axis cy) (cy_r cy))
          | Mesh3 vs => exists v, In v vs /\ c = CylBody i (mul3 (ori3 nb q0 i) v) cy
              /\ outside_cylinder (cy_x cy) (cy_axis cy) (cy_r cy) (add3 (pos3 q1 i) (mul3 (ori3 nb q1 i) v))
          | _ => False
          end).
Proof.
  intros nb q0 q1 fixed shape cyls V Hr Hc.
  assert (T : exists set, rb3_cylinder_set nb q0 q1 fixed shape cyls = Ok set).
  { apply gather_total. intros o Ho. apply all_pairs_in in Ho. destruct Ho as (k & p & i & E & Hi & [<-|[]]).
    destruct (fixed i) eqn:F; [eexists; reflexivity|]. destruct (V i Hi F) as [V1 V2].
    unfold rb3_cylinder_one. destruct (shape i); try (eexists; reflexivity); discriminate. }
  destruct T as [set E]. exists set. split; [exact E|].
  assert (Second : forall k c, In (k, c) set <->
     exists cy i, nth_error cyls k = Some cy /\ (i < nb)%nat /\ fixed i = false
       /\ match shape i with
          | Sphere3 r => c = CylSphere i r cy /\ meets (in_ball3 (pos3 q1 i) r) (outside_cylinder (cy_x cy) (cy_axis cy) (cy_r cy))
          | Mesh3 vs => exists v, In v vs /\ c = CylBody i (mul3 (ori3 nb q0 i) v) cy
              /\ outside_cylinder (cy_x cy) (cy_axis cy) (cy_r cy) (add3 (pos3 q1 i) (mul3 (ori3 nb q1 i) v))
          | _ => False
          end).
  { intros k c. unfold rb3_cylinder_set in E. rewrite (gather_ok _ _ E). split.
    - intros (a & Ia & Ic). apply all_pairs_in in Ia. destruct Ia as (k' & cy & i & Ep & Hi & Ia). destruct Ia as [Ia|[]].
      destruct (fixed i) eqn:F; [injection Ia as <-; destruct Ic|]. pose proof (nth_error_In _ _ Ep) as Icy. destruct (Hc cy Icy) as [Ax Rp].
      unfold rb3_cylinder_one in Ia. destruct (shape i) as [w|r|s|vs] eqn:Sh; [discriminate| |discriminate|].
      + apply Ok_inj in Ia. subst a. apply if_in in Ic. destruct Ic as [A C]. injection C as -> ->. exists cy, i. rewrite Sh.
        repeat (split; [assumption||reflexivity|]). apply ball_cylinder_exact; [apply (Hr i r cy Hi Sh Icy)|exact Ax|exact A].
      + apply Ok_inj in Ia. subst a. apply in_map_iff in Ic. destruct Ic as (v & Ec & Ic). apply filter_In in Ic. destruct Ic as [Iv A]. cbv zeta in A. apply Rleb_true in A.
        unfold mk_cyl_body in Ec. fold (pos3 q0 i) in Ec. rewrite sub_add3 in Ec. injection Ec as <- <-. exists cy, i. rewrite Sh.
        repeat (split; [assumption|]). exists v. split; [exact Iv|]. split; [reflexivity|]. apply outside_cylinder_radial; [exact Ax|]. rewrite add3_comm. exact A.
    - intros (cy & i & Ep & Hi & F & H). pose proof (nth_error_In _ _ Ep) as Icy. destruct (Hc cy Icy) as [Ax Rp].
      assert (G : forall a, rb3_cylinder_one nb q0 q1 (shape i) k cy i = Ok a -> In (k, c) a ->
        exists a, In (Ok a) (all_pairs cyls nb (fun k c i => [if fixed i then Ok [] else rb3_cylinder_one nb q0 q1 (shape i) k c i])) /\ In (k, c) a).
      { intros a Ea Ia. exists a. split; [|exact Ia]. apply all_pairs_in. exists k, cy, i. split; [exact Ep|]. split; [exact Hi|]. left. rewrite F. exact Ea. }
      unfold rb3_cylinder_one in G. destruct (shape i) as [w|r|s|vs] eqn:Sh; [destruct H| |destruct H|].
      + destruct H as [-> M]. apply (G _ eq_refl). apply if_in. split; [|reflexivity].
        apply ball_cylinder_exact; [apply (Hr i r cy Hi Sh Icy)|exact Ax|exact M].
      + destruct H as (v & Iv & -> & A). apply (G _ eq_refl). apply in_map_iff. exists v. split.
        * unfold mk_cyl_body. fold (pos3 q0 i). rewrite sub_add3. reflexivity.
        * apply filter_In. split; [exact Iv|]. cbv zeta. apply Rleb_true. apply outside_cylinder_radial in A; [|exact Ax]. rewrite add3_comm in A. exact A. }
  split; [|exact Second]. intros k i. unfold reported. split.
  - intros (c & I & B). apply Second in I. destruct I as (cy & j & Ep & Hj & F & H). exists cy. split; [exact Ep|].
    assert (Eij : j = i).
    { destruct (shape j); [destruct H|destruct H as [-> _]|destruct H|destruct H as (a & _ & -> & _)]; exact B. }
    subst j. split; [exact Hj|]. split; [exact F|]. unfold body3_points, rb3_body in *. cbn [b3_shape b3_x b3_R] in *.
    destruct (shape i) as [w|r|s|vs]; [destruct H| |destruct H|].
    + apply H.
    + destruct H as (v & Iv & _ & A). exists (add3 (pos3 q1 i) (mul3 (ori3 nb q1 i) v)). split; [|exact A]. exists v. split; [apply hull_vertex; exact Iv|reflexivity].
  - intros (cy & Ep & Hi & F & M). destruct (V i Hi F) as [V1 V2]. pose proof (nth_error_In _ _ Ep) as Icy. destruct (Hc cy Icy) as [Ax Rp].
    unfold body3_points, rb3_body in M. cbn [b3_shape b3_x b3_R] in M.
    destruct (shape i) as [w|r|s|vs] eqn:Sh; [discriminate| |discriminate|].
    + exists (CylSphere i r cy). split; [|reflexivity]. apply Second. exists cy, i. rewrite Sh. repeat (split; [assumption||reflexivity|]). exact M.
    + apply mesh_cylinder_exact in M; [|exact Rp|exact Ax]. apply filter_some in M. destruct M as (v & Iv & A). cbv zeta in A. apply Rleb_true in A.
      exists (CylBody i (mul3 (ori3 nb q0 i) v) cy). split; [|reflexivity]. apply Second. exists cy, i. rewrite Sh.
      repeat (split; [assumption|]). exists v. split; [exact Iv|]. split; [reflexivity|]. apply outside_cylinder_radial; [exact Ax|]. rewrite add3_comm. exact A.
Qed.

(* unsupported shapes end the program *)
Theorem rb3_plane_set_exits : forall nb q0 q1 fixed shape planes i, planes <> [] -> (i < nb)%nat -> fixed i = false ->
  is_staple (shape i) = true -> rb3_plane_set nb q0 q1 fixed shape planes = Exit.
Proof.
  intros nb q0 q1 fixed shape planes i Np Hi F St. unfold rb3_plane_set. apply gather_exit.
  - intros o Ho. apply all_pairs_in in Ho. destruct Ho as (k & p & j & E & Hj & [<-|[]]).
    destruct (fixed j); [right; eexists; reflexivity|]. unfold rb3_plane_one. destruct (shape j); (right; eexists; reflexivity) || (left; reflexivity).
  - destruct planes as [|p ps]; [congruence|]. apply all_pairs_in. exists 0%nat, p, i. split; [reflexivity|]. split; [exact Hi|]. left. rewrite F.
    unfold rb3_plane_one. destruct (shape i); try discriminate. reflexivity.
Qed.
Theorem rb3_cylinder_set_exits : forall nb q0 q1 fixed shape cyls i, cyls <> [] -> (i < nb)%nat -> fixed i = false ->
  is_staple (shape i) = true \/ is_box (shape i) = true -> rb3_cylinder_set nb q0 q1 fixed shape cyls = Exit.
Proof.
  intros nb q0 q1 fixed shape cyls i Np Hi F St. unfold rb3_cylinder_set. apply gather_exit.
  - intros o Ho. apply all_pairs_in in Ho. destruct Ho as (k & p & j & E & Hj & [<-|[]]).
    destruct (fixed j); [right; eexists; reflexivity|]. unfold rb3_cylinder_one. destruct (shape j); (right; eexists; reflexivity) || (left; reflexivity).
  - destruct cyls as [|p ps]; [congruence|]. apply all_pairs_in. exists 0%nat, p, i. split; [reflexivity|]. split; [exact Hi|]. left. rewrite F.
    unfold rb3_cylinder_one. destruct (shape i), St; try discriminate; reflexivity.
Qed.
