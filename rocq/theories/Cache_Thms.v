(* The three programs' caches, and warm starting with friction in three dimensions. *)
From Coq Require Import List NArith Reals Bool Lia Lra.
From Verif Require Import Outcome Codec_Model Codec_Spec Codec_Proofs Lin_Model Lin_Proofs Cache_Model Cache_Spec Cache_Proofs.
Import ListNotations.
Open Scope N_scope.

Lemma same_pair_ordered i j i' j' : i < j -> i' < j' -> same_pair i j i' j' = true <-> (i, j) = (i', j').
Proof.
  intros H H'. unfold same_pair. rewrite orb_true_iff, !andb_true_iff, !N.eqb_eq. split.
  - intros [[-> ->]|[-> ->]]; [reflexivity|lia].
  - intros E. injection E as -> ->. auto.
Qed.
Lemma same_pair_minmax i j i' j' : same_pair i j i' j' = true <-> (N.min i j, N.max i j) = (N.min i' j', N.max i' j').
Proof.
  unfold same_pair. rewrite orb_true_iff, !andb_true_iff, !N.eqb_eq. split.
  - intros [[-> ->]|[-> ->]]; [reflexivity|]. now rewrite N.min_comm, N.max_comm.
  - intros E. injection E as E1 E2. lia.
Qed.
Lemma both_eq (i j i' j' : N) : (i =? i') && (j =? j') = true <-> (i, j) = (i', j').
Proof. rewrite andb_true_iff, !N.eqb_eq. split; [intros [-> ->]; reflexivity|intros E; injection E; auto]. Qed.

Lemma pair_slot {S K} (s : S) (a b : K) : a = b <-> (s, a) = (s, b).
Proof. split; congruence. Qed.

(* ---------- 2D balls ---------- *)
Definition ball_slot (c : ball_contact) : nat * key :=
  match c with
  | BallBall i j => (0%nat, (i, j))
  | BallPlane p b => (1%nat, (p, b))
  | BallDrum d b => (2%nat, (d, b))
  | _ => (3%nat, (0, 0))
  end.
Definition ball_table {A} (s : nat) (t : ball_cache A) : kmap (list A) :=
  match s with 0%nat => bc_ball_ball A t | 1%nat => bc_plane_ball A t | 2%nat => bc_drum_ball A t | _ => [] end.

Ltac slots := intros s Hs; do 5 (destruct s as [|s]; [try reflexivity; try congruence|]); reflexivity.

Section Balls.
Context {A : Type} (zero : A).
Lemma ball_Hput c r (t : ball_cache A) : good_ball c -> exists t', op_put (ball_ops A zero) c r t = Ok t' /\
  ball_table (fst (ball_slot c)) t' = kinsert (snd (ball_slot c)) r (ball_table (fst (ball_slot c)) t) /\
  forall s, s <> fst (ball_slot c) -> ball_table s t' = ball_table s t.
Proof.
  intros [S _]. destruct c; try discriminate; eexists; (split; [reflexivity|]);
    (split; [reflexivity|]); cbn [ball_slot fst]; slots.
Qed.
Lemma ball_Hget c n (t : ball_cache A) : good_ball c ->
  op_get (ball_ops A zero) c n t = Ok (answer zero n (kfind (snd (ball_slot c)) (ball_table (fst (ball_slot c)) t))).
Proof. intros [S _]. destruct c; try discriminate; reflexivity. Qed.
Lemma ball_Hclear s (t : ball_cache A) : ball_table s (op_clear (ball_ops A zero) t) = [].
Proof. do 3 (destruct s as [|s]; [reflexivity|]). reflexivity. Qed.
Lemma ball_Hempty (t : ball_cache A) : op_empty (ball_ops A zero) t = true <-> forall s, ball_table s t = [].
Proof.
  destruct t as [a b c]. cbn [ball_ops op_empty ball_cache_empty bc_ball_ball bc_plane_ball bc_drum_ball].
  unfold ball_cache_empty. cbn [bc_ball_ball bc_plane_ball bc_drum_ball]. split.
  - destruct a, b, c; intros E; try discriminate. intros s. do 3 (destruct s as [|s]; [reflexivity|]). reflexivity.
  - intros H. pose proof (H 0%nat) as H0. pose proof (H 1%nat) as H1. pose proof (H 2%nat) as H2.
    cbn in H0, H1, H2. now subst.
Qed.
End Balls.
Lemma ball_Hsame c d : good_ball c -> good_ball d -> same_ball c d = true <-> ball_slot c = ball_slot d.
Proof.
  intros [S O] [S' O']. destruct c, d; try discriminate; cbn [same_ball ball_slot ordered_ball] in *;
    try (split; discriminate); rewrite <- pair_slot;
    first [apply same_pair_ordered; assumption | apply both_eq].
Qed.

(* ---------- 2D rigid bodies ---------- *)
Definition rb2_slot (c : rb2_contact) : nat * key :=
  match c with
  | CircleCircle i j => (0%nat, (i, j))
  | BodyBody2 i j => (1%nat, (i, j))
  | KinCircle b k => (2%nat, (N.min b k, N.max b k))
  | PlaneCircle p b => (3%nat, (p, b))
  | _ => (4%nat, (0, 0))
  end.
Definition rb2_table {A} (s : nat) (t : rb2_cache A) : kmap (list A) :=
  match s with
  | 0%nat => rc2_circle_circle A t | 1%nat => rc2_body_body A t
  | 2%nat => rc2_kin_circle A t | 3%nat => rc2_plane_circle A t | _ => []
  end.
Section Rb2.
Context {A : Type} (zero : A).
Lemma rb2_Hput c r (t : rb2_cache A) : good_rb2 c -> exists t', op_put (rb2_ops A zero) c r t = Ok t' /\
  rb2_table (fst (rb2_slot c)) t' = kinsert (snd (rb2_slot c)) r (rb2_table (fst (rb2_slot c)) t) /\
  forall s, s <> fst (rb2_slot c) -> rb2_table s t' = rb2_table s t.
Proof.
  intros [S _]. destruct c; try discriminate; eexists; (split; [reflexivity|]);
    (split; [reflexivity|]); cbn [rb2_slot fst]; slots.
Qed.
Lemma rb2_Hget c n (t : rb2_cache A) : good_rb2 c ->
  op_get (rb2_ops A zero) c n t = Ok (answer zero n (kfind (snd (rb2_slot c)) (rb2_table (fst (rb2_slot c)) t))).
Proof. intros [S _]. destruct c; try discriminate; reflexivity. Qed.
Lemma rb2_Hclear s (t : rb2_cache A) : rb2_table s (op_clear (rb2_ops A zero) t) = [].
Proof. do 4 (destruct s as [|s]; [reflexivity|]). reflexivity. Qed.
Lemma rb2_Hempty (t : rb2_cache A) : op_empty (rb2_ops A zero) t = true <-> forall s, rb2_table s t = [].
Proof.
  destruct t as [a b c d]. cbn [rb2_ops op_empty]. unfold rb2_cache_empty.
  cbn [rc2_circle_circle rc2_body_body rc2_kin_circle rc2_plane_circle]. split.
  - destruct a, b, c, d; intros E; try discriminate. intros s. do 4 (destruct s as [|s]; [reflexivity|]). reflexivity.
  - intros H. pose proof (H 0%nat) as H0. pose proof (H 1%nat) as H1. pose proof (H 2%nat) as H2.
    pose proof (H 3%nat) as H3. cbn in H0, H1, H2, H3. now subst.
Qed.
End Rb2.
Lemma rb2_Hsame c d : good_rb2 c -> good_rb2 d -> same_rb2 c d = true <-> rb2_slot c = rb2_slot d.
Proof.
  intros [S O] [S' O']. destruct c, d; try discriminate; cbn [same_rb2 rb2_slot ordered_rb2] in *;
    try (split; discriminate); rewrite <- pair_slot;
    first [apply same_pair_ordered; assumption | apply both_eq | apply same_pair_minmax].
Qed.

(* ---------- 3D rigid bodies ---------- *)
Definition rb3_slot (c : rb3_contact) : nat * key :=
  match c with
  | SphereSphere i j => (0%nat, (i, j))
  | PlaneSphere p b => (1%nat, (p, b))
  | CylinderSphere p b => (2%nat, (p, b))
  | KinSphereSphere p b => (3%nat, (p, b))
  | _ => (4%nat, (0, 0))
  end.
Definition rb3_table {A} (s : nat) (t : rb3_cache A) : kmap (list A) :=
  match s with
  | 0%nat => rc3_sphere_sphere A t | 1%nat => rc3_plane_sphere A t
  | 2%nat => rc3_cylinder_sphere A t | 3%nat => rc3_kin_sphere A t | _ => []
  end.
Section Rb3.
Context {A : Type} (zero : A).
Lemma rb3_Hput c r (t : rb3_cache A) : good_rb3 c -> exists t', op_put (rb3_ops A zero) c r t = Ok t' /\
  rb3_table (fst (rb3_slot c)) t' = kinsert (snd (rb3_slot c)) r (rb3_table (fst (rb3_slot c)) t) /\
  forall s, s <> fst (rb3_slot c) -> rb3_table s t' = rb3_table s t.
Proof.
  intros [S _]. destruct c; try discriminate; eexists; (split; [reflexivity|]);
    (split; [reflexivity|]); cbn [rb3_slot fst]; slots.
Qed.
Lemma rb3_Hget c n (t : rb3_cache A) : good_rb3 c ->
  op_get (rb3_ops A zero) c n t = Ok (answer zero n (kfind (snd (rb3_slot c)) (rb3_table (fst (rb3_slot c)) t))).
Proof. intros [S _]. destruct c; try discriminate; reflexivity. Qed.
Lemma rb3_Hclear s (t : rb3_cache A) : rb3_table s (op_clear (rb3_ops A zero) t) = [].
Proof. do 4 (destruct s as [|s]; [reflexivity|]). reflexivity. Qed.
Lemma rb3_Hempty (t : rb3_cache A) : op_empty (rb3_ops A zero) t = true <-> forall s, rb3_table s t = [].
Proof.
  destruct t as [a b c d]. cbn [rb3_ops op_empty]. unfold rb3_cache_empty.
  cbn [rc3_sphere_sphere rc3_plane_sphere rc3_cylinder_sphere rc3_kin_sphere]. split.
  - destruct a, b, c, d; intros E; try discriminate. intros s. do 4 (destruct s as [|s]; [reflexivity|]). reflexivity.
  - intros H. pose proof (H 0%nat) as H0. pose proof (H 1%nat) as H1. pose proof (H 2%nat) as H2.
    pose proof (H 3%nat) as H3. cbn in H0, H1, H2, H3. now subst.
Qed.
End Rb3.
Lemma rb3_Hsame c d : good_rb3 c -> good_rb3 d -> same_rb3 c d = true <-> rb3_slot c = rb3_slot d.
Proof.
  intros [S O] [S' O']. destruct c, d; try discriminate; cbn [same_rb3 rb3_slot ordered_rb3] in *;
    try (split; discriminate); rewrite <- pair_slot;
    first [apply same_pair_ordered; assumption | apply both_eq].
Qed.

(* ---------- histories ---------- *)
Section Instances.
Context {A : Type} (zero : A).
Theorem ball_map : behaves_as_map zero good_ball same_ball (ball_ops A zero).
Proof. exact (generic_map zero _ _ _ ball_slot ball_table (ball_Hput zero) (ball_Hget zero) (ball_Hclear zero) (ball_Hempty zero) ball_Hsame). Qed.
Theorem rb2_map : behaves_as_map zero good_rb2 same_rb2 (rb2_ops A zero).
Proof. exact (generic_map zero _ _ _ rb2_slot rb2_table (rb2_Hput zero) (rb2_Hget zero) (rb2_Hclear zero) (rb2_Hempty zero) rb2_Hsame). Qed.
Theorem rb3_map : behaves_as_map zero good_rb3 same_rb3 (rb3_ops A zero).
Proof. exact (generic_map zero _ _ _ rb3_slot rb3_table (rb3_Hput zero) (rb3_Hget zero) (rb3_Hclear zero) (rb3_Hempty zero) rb3_Hsame). Qed.

Theorem ball_unsupported c r n t : supported_ball c = false ->
  op_put (ball_ops A zero) c r t = Exit /\ op_get (ball_ops A zero) c n t = Exit.
Proof. destruct c; intros E; try discriminate; auto. Qed.
Theorem rb2_unsupported c r n t : supported_rb2 c = false ->
  op_put (rb2_ops A zero) c r t = Exit /\ op_get (rb2_ops A zero) c n t = Exit.
Proof. destruct c; intros E; try discriminate; auto. Qed.
Theorem rb3_unsupported c r n t : supported_rb3 c = false ->
  op_put (rb3_ops A zero) c r t = Exit /\ op_get (rb3_ops A zero) c n t = Exit.
Proof. destruct c; intros E; try discriminate; auto. Qed.

(* the maps stay sorted, whatever the history *)
Definition all_good {C} (good : C -> Prop) (h : list (call A C)) : Prop :=
  Forall (fun o => match o with Put c _ => good c | Clear => True end) h.
Theorem ball_sorted (h : list (call A ball_contact)) t0 t : all_good good_ball h ->
  replay (ball_ops A zero) h (op_clear (ball_ops A zero) t0) = Ok t ->
  sorted_keys (bc_ball_ball A t) /\ sorted_keys (bc_plane_ball A t) /\ sorted_keys (bc_drum_ball A t).
Proof.
  intros G H. destruct (inv_replay (ball_ops A zero) good_ball same_ball ball_slot ball_table
    (ball_Hput zero) (ball_Hclear zero) ball_Hsame h [] _ (inv_clear _ _ _ _ _ (ball_Hclear zero) t0) G)
    as (t' & Ht & (_ & S & _)).
  rewrite H in Ht. injection Ht as <-. exact (conj (S 0%nat) (conj (S 1%nat) (S 2%nat))).
Qed.
Theorem rb2_sorted (h : list (call A rb2_contact)) t0 t : all_good good_rb2 h ->
  replay (rb2_ops A zero) h (op_clear (rb2_ops A zero) t0) = Ok t ->
  sorted_keys (rc2_circle_circle A t) /\ sorted_keys (rc2_body_body A t) /\
  sorted_keys (rc2_kin_circle A t) /\ sorted_keys (rc2_plane_circle A t).
Proof.
  intros G H. destruct (inv_replay (rb2_ops A zero) good_rb2 same_rb2 rb2_slot rb2_table
    (rb2_Hput zero) (rb2_Hclear zero) rb2_Hsame h [] _ (inv_clear _ _ _ _ _ (rb2_Hclear zero) t0) G)
    as (t' & Ht & (_ & S & _)).
  rewrite H in Ht. injection Ht as <-. exact (conj (S 0%nat) (conj (S 1%nat) (conj (S 2%nat) (S 3%nat)))).
Qed.
Theorem rb3_sorted (h : list (call A rb3_contact)) t0 t : all_good good_rb3 h ->
  replay (rb3_ops A zero) h (op_clear (rb3_ops A zero) t0) = Ok t ->
  sorted_keys (rc3_sphere_sphere A t) /\ sorted_keys (rc3_plane_sphere A t) /\
  sorted_keys (rc3_cylinder_sphere A t) /\ sorted_keys (rc3_kin_sphere A t).
Proof.
  intros G H. destruct (inv_replay (rb3_ops A zero) good_rb3 same_rb3 rb3_slot rb3_table
    (rb3_Hput zero) (rb3_Hclear zero) rb3_Hsame h [] _ (inv_clear _ _ _ _ _ (rb3_Hclear zero) t0) G)
    as (t' & Ht & (_ & S & _)).
  rewrite H in Ht. injection Ht as <-. exact (conj (S 0%nat) (conj (S 1%nat) (conj (S 2%nat) (S 3%nat)))).
Qed.
End Instances.

(* ---------- three dimensional friction ---------- *)
Open Scope R_scope.

(* the Gram determinant of four vectors of R^3 vanishes *)
Lemma parseval b x : orthonormal b ->
  dot3 x x = dot3 x (f_n b) * dot3 x (f_n b) + dot3 x (f_s b) * dot3 x (f_s b) + dot3 x (f_t b) * dot3 x (f_t b).
Proof.
  destruct b as [n s t]. unfold orthonormal. cbn [f_n f_s f_t].
  intros (Hnn & Hss & Htt & Hns & Hnt & Hst).
  set (G := fun (xx xn xs xt nn ns nt ss st tt : R) =>
     xx * (nn * (ss * tt - st * st) - ns * (ns * tt - st * nt) + nt * (ns * st - ss * nt))
   - xn * (xn * (ss * tt - st * st) - ns * (xs * tt - st * xt) + nt * (xs * st - ss * xt))
   + xs * (xn * (ns * tt - nt * st) - nn * (xs * tt - st * xt) + nt * (xs * nt - ns * xt))
   - xt * (xn * (ns * st - nt * ss) - nn * (xs * st - ss * xt) + ns * (xs * nt - ns * xt))).
  assert (Z : G (dot3 x x) (dot3 x n) (dot3 x s) (dot3 x t) (dot3 n n) (dot3 n s) (dot3 n t) (dot3 s s) (dot3 s t) (dot3 t t) = 0).
  { unfold G, dot3. ring. }
  rewrite Hnn, Hss, Htt, Hns, Hnt, Hst in Z. unfold G in Z. lra.
Qed.

Lemma dot3_comm a b : dot3 a b = dot3 b a.
Proof. unfold dot3. ring. Qed.

Lemma dot3_zero x : dot3 x x = 0 -> x = zero3.
Proof.
  destruct x as [a b c]. unfold dot3. cbn [c0 c1 c2]. intros H.
  assert (a * a = 0 /\ b * b = 0 /\ c * c = 0) as (Ha & Hb & Hc).
  { pose proof (Rle_0_sqr a). pose proof (Rle_0_sqr b). pose proof (Rle_0_sqr c). unfold Rsqr in *. repeat split; lra. }
  apply Rsqr_0_uniq in Ha, Hb, Hc. now subst.
Qed.

(* a vector is the sum of its components along an orthonormal frame *)
Lemma expand b x : orthonormal b -> world_force b (dot3 x (f_n b), dot3 x (f_s b), dot3 x (f_t b)) = x.
Proof.
  intros O. pose proof (parseval b x O) as P. destruct O as (Hnn & Hss & Htt & Hns & Hnt & Hst).
  set (w := world_force _ _). assert (Z : sub3 x w = zero3).
  { apply dot3_zero.
    transitivity (dot3 x x - 2 * (dot3 x (f_n b) * dot3 x (f_n b) + dot3 x (f_s b) * dot3 x (f_s b) + dot3 x (f_t b) * dot3 x (f_t b))
      + dot3 x (f_n b) * dot3 x (f_n b) * dot3 (f_n b) (f_n b) + dot3 x (f_s b) * dot3 x (f_s b) * dot3 (f_s b) (f_s b)
      + dot3 x (f_t b) * dot3 x (f_t b) * dot3 (f_t b) (f_t b)
      + 2 * dot3 x (f_n b) * dot3 x (f_s b) * dot3 (f_n b) (f_s b) + 2 * dot3 x (f_n b) * dot3 x (f_t b) * dot3 (f_n b) (f_t b)
      + 2 * dot3 x (f_s b) * dot3 x (f_t b) * dot3 (f_s b) (f_t b)).
    - unfold w, world_force, sub3, add3, scale3. set (p := dot3 x (f_n b)). set (q := dot3 x (f_s b)). set (r := dot3 x (f_t b)).
      assert (Hp : p = dot3 x (f_n b)) by reflexivity. assert (Hq : q = dot3 x (f_s b)) by reflexivity.
      assert (Hr : r = dot3 x (f_t b)) by reflexivity. clearbody p q r.
      replace (p * p + q * q + r * r) with (p * dot3 x (f_n b) + q * dot3 x (f_s b) + r * dot3 x (f_t b)) by (rewrite <- Hp, <- Hq, <- Hr; ring).
      unfold dot3. cbn [c0 c1 c2]. ring.
    - rewrite Hnn, Hss, Htt, Hns, Hnt, Hst, P. ring. }
  clearbody w. unfold sub3, zero3 in Z. injection Z as Z0 Z1 Z2. apply v3_eq; lra.
Qed.

(* the components of the force along its own frame *)
Lemma components b a b0 b1 : orthonormal b ->
  dot3 (world_force b (a, b0, b1)) (f_n b) = a /\ dot3 (world_force b (a, b0, b1)) (f_s b) = b0 /\
  dot3 (world_force b (a, b0, b1)) (f_t b) = b1.
Proof.
  intros (Hnn & Hss & Htt & Hns & Hnt & Hst). unfold world_force.
  assert (L : forall y, dot3 (add3 (add3 (scale3 a (f_n b)) (scale3 b0 (f_s b))) (scale3 b1 (f_t b))) y =
    a * dot3 (f_n b) y + b0 * dot3 (f_s b) y + b1 * dot3 (f_t b) y).
  { intros y. unfold dot3, add3, scale3. cbn [c0 c1 c2]. ring. }
  rewrite !L, (dot3_comm (f_s b) (f_n b)), (dot3_comm (f_t b) (f_n b)), (dot3_comm (f_t b) (f_s b)).
  rewrite Hnn, Hss, Htt, Hns, Hnt, Hst. repeat split; ring.
Qed.

Section Spatial.
Context {C T : Type}.
Variable ops : cache_ops R C T.
Variable good : C -> Prop.
Variable same : C -> C -> bool.
Variable slot : C -> nat * key.
Variable table : nat -> T -> kmap (list R).
Hypothesis Hput : forall c r t, good c -> exists t', op_put ops c r t = Ok t' /\
  table (fst (slot c)) t' = kinsert (snd (slot c)) r (table (fst (slot c)) t) /\
  forall s, s <> fst (slot c) -> table s t' = table s t.
Hypothesis Hget : forall c n t, good c ->
  op_get ops c n t = Ok (answer 0 n (kfind (snd (slot c)) (table (fst (slot c)) t))).
Hypothesis Hclear : forall s t, table s (op_clear ops t) = [].
Hypothesis Hempty : forall t, op_empty ops t = true <-> forall s, table s t = [].
Hypothesis Hsame : forall c d, good c -> good d -> same c d = true <-> slot c = slot d.
Variable turn : v3 -> v3 -> v3 -> v3.
Hypothesis Hturn : turns turn.

Definition packed3 (b : C -> frame) (prev : list (C * (R * R * R))) :=
  map (fun e => (fst e, pack_spatial (b (fst e)) (snd e))) prev.

Lemma stored_packed3 b (prev : list (C * (R * R * R))) c :
  stored same (packed3 b prev) c =
  option_map (fun e => pack_spatial (b (fst e)) (snd e)) (find (fun e => same (fst e) c) prev).
Proof.
  unfold stored, packed3. induction prev as [|e prev IH]; [reflexivity|]. cbn [map find fst].
  destruct (same (fst e) c); [reflexivity|exact IH].
Qed.

Lemma pack_nonzero b x : orthonormal b -> all_zero (pack_spatial b x) = false.
Proof.
  intros (Hnn & _). unfold pack_spatial, all_zero. cbn [forallb].
  destruct (Req_EM_T (c0 (f_n b)) 0) as [E0|]; [|reflexivity].
  destruct (Req_EM_T (c1 (f_n b)) 0) as [E1|]; [|reflexivity].
  destruct (Req_EM_T (c2 (f_n b)) 0) as [E2|]; [|reflexivity].
  exfalso. unfold dot3 in Hnn. rewrite E0, E1, E2 in Hnn. lra.
Qed.

Lemma combine_pack (b : C -> frame) active (y : list (R * R * R)) :
  combine active (map (fun cx => pack_spatial (b (fst cx)) (snd cx)) (combine active y)) = packed3 b (combine active y).
Proof.
  unfold packed3. revert y. induction active as [|c active IH]; intros [|x y]; try reflexivity.
  cbn [combine map fst snd]. now rewrite IH.
Qed.

Lemma read_ok pb b prev c t : agrees 0 ops good same (packed3 pb prev) t -> good c ->
  Forall (fun e => good (fst e)) prev -> distinct same (map fst prev) ->
  (forall e, In e prev -> orthonormal (pb (fst e))) -> orthonormal (b c) ->
  exists x, read_spatial1 ops turn b t c = Ok x /\ carried3 same pb b prev c x.
Proof.
  intros Ha G Fp D Op Ob. unfold read_spatial1. rewrite Ha by exact G. cbn [obind]. rewrite stored_packed3.
  destruct (find (fun e => same (fst e) c) prev) as [e|] eqn:E; cbn [option_map answer].
  - assert (Ie : In e prev /\ same (fst e) c = true) by (now apply find_some in E). destruct Ie as [Ie Se].
    pose proof (Op e Ie) as Oe. rewrite pack_nonzero by exact Oe.
    destruct e as [d y]. cbn [fst snd] in *.
    set (f := world_force (pb d) y).
    eexists. split.
    { unfold pack_spatial, seg3_list, coeff. cbn [nth_error obind Nat.add]. fold f.
      replace (V3 (c0 (f_n (pb d))) (c1 (f_n (pb d))) (c2 (f_n (pb d)))) with (f_n (pb d)) by (destruct (f_n (pb d)); reflexivity).
      replace (V3 (c0 f) (c1 f) (c2 f)) with f by (destruct f; reflexivity). reflexivity. }
    split.
    + intros e' I' S'. rewrite (distinct_unique good same slot Hsame prev c e') in E by assumption.
      injection E as ->. cbn [fst snd].
      destruct (Hturn (f_n (pb d)) (f_n (b c))) as (Tn & Tp & Ti); [apply Oe|apply Ob|].
      set (g := turn (f_n (pb d)) (f_n (b c)) f).
      destruct y as [[a b0] b1]. destruct (components (pb d) a b0 b1 Oe) as (K1 & K2 & K3).
      assert (Hn : dot3 g (f_n (b c)) = a).
      { unfold g. rewrite <- Tn at 2. rewrite Tp. exact K1. }
      assert (Hgg : dot3 g g = a * a + b0 * b0 + b1 * b1).
      { unfold g. rewrite Tp. rewrite (parseval (pb d) f Oe). unfold f. rewrite K1, K2, K3. reflexivity. }
      split.
      * cbn [continues]. split; [exact Hn|]. rewrite (parseval (b c) g Ob) in Hgg. rewrite Hn in Hgg. lra.
      * intros En. rewrite expand by exact Ob. unfold g. rewrite <- En. apply Ti.
    + intros Hn. specialize (Hn (d, y) Ie). cbn [fst] in Hn. congruence.
  - exists (0, 0, 0). split.
    + replace (all_zero (repeat 0 6)) with true; [reflexivity|]. unfold all_zero. cbn [repeat forallb].
      destruct (Req_EM_T 0 0); [reflexivity|congruence].
    + split; [|reflexivity]. intros e' I' S'.
      rewrite (distinct_unique good same slot Hsame prev c e') in E by assumption. discriminate.
Qed.

Lemma combine_In_fst {X Y} (l : list X) (ys : list Y) e : In e (combine l ys) -> In (fst e) l.
Proof. destruct e as [x y]. apply in_combine_l. Qed.

Lemma run3_ok steps : forall pb prev t, agrees 0 ops good same (packed3 pb prev) t ->
  Forall (fun e => good (fst e)) prev -> distinct same (map fst prev) ->
  (forall e, In e prev -> orthonormal (pb (fst e))) -> good_steps3 same good steps ->
  exists logs t', run_steps3 (spatial_step ops turn) steps t = Ok (logs, t') /\ logged3 steps logs /\
                  well_started3 same pb prev logs.
Proof.
  induction steps as [|[[active basis] solve] rest IH]; intros pb prev t Ha Fp D Op G.
  - exists [], t. repeat split. constructor.
  - inversion G as [|? ? (Ga & Da & Oa & Ls) Gr]; subst. cbn [fst snd] in *.
    destruct active as [|c active].
    + cbn [run_steps3 spatial_step obind fst snd].
      destruct (IH basis [] (op_clear ops t) (agrees_clear 0 ops good same slot table Hget Hclear t)
                   (Forall_nil _) (FOP_nil _) (fun e (H : In e []) => match H with end) Gr) as (logs & t' & Hr & Hl & Hw).
      rewrite Hr. cbn [obind fst snd]. eexists _, _. split; [reflexivity|]. split.
      * constructor; [|exact Hl]. cbn. repeat split; congruence.
      * cbn [well_started3 l3_active l3_guess l3_basis l3_result]. split; [constructor|exact Hw].
    + set (act := c :: active) in *.
      destruct (omapM_ok (read_spatial1 ops turn basis t) (carried3 same pb basis prev) act) as (xs & Hx & Hc).
      { intros d Hd. apply read_ok; auto. rewrite Forall_forall in Ga. auto. }
      pose proof (Forall2_length_ _ _ _ Hc) as Hlen. specialize (Ls xs (eq_sym Hlen)).
      destruct (write_all_ok 0 ops good same slot table Hput Hget Hclear Hempty Hsame
                  (packed3 basis (combine act (solve act xs))) t) as (t2 & Hw2 & Ha2).
      { unfold packed3. apply Forall_map. cbn [fst]. apply combine_good, Ga. }
      destruct (IH basis (combine act (solve act xs)) t2) as (logs & t' & Hr & Hl & Hw); auto.
      * apply combine_good, Ga.
      * rewrite combine_fst by exact Ls. exact Da.
      * intros e He. apply Oa. eapply combine_In_fst, He.
      * cbn [run_steps3]. change (spatial_step ops turn basis solve act t) with
          (let! x := omapM (read_spatial1 ops turn basis t) act in
           let! t2 := write_all R ops (combine act (map (fun cx => pack_spatial (basis (fst cx)) (snd cx))
                        (combine act (solve act x)))) (op_clear ops t) in Ok (x, solve act x, t2)).
        rewrite Hx. cbn [obind]. rewrite combine_pack, Hw2. cbn [obind snd fst]. rewrite Hr. cbn [obind fst snd].
        eexists _, _. split; [reflexivity|]. split.
        -- constructor; [|exact Hl]. cbn [l3_active l3_basis l3_guess l3_result fst snd]. auto.
        -- cbn [well_started3 l3_active l3_basis l3_guess l3_result]. split; [exact Hc|exact Hw].
Qed.
End Spatial.

(* ---------- Eigen's FromTwoVectors ---------- *)
Lemma perpendicular_ok a : dot3 a a = 1 ->
  dot3 (perpendicular a) a = 0 /\ dot3 (perpendicular a) (perpendicular a) = 1.
Proof.
  intros Ha. unfold perpendicular. destruct (Req_EM_T _ 0) as [E|E].
  - assert (c0 a * c0 a = 0 /\ c1 a * c1 a = 0) as [E0 E1].
    { pose proof (Rle_0_sqr (c0 a)). pose proof (Rle_0_sqr (c1 a)). unfold Rsqr in *. split; lra. }
    apply Rsqr_0_uniq in E0, E1. unfold dot3. cbn [c0 c1 c2]. rewrite E0. split; ring.
  - set (s := c0 a * c0 a + c1 a * c1 a) in *.
    assert (P : 0 < s). { pose proof (Rle_0_sqr (c0 a)). pose proof (Rle_0_sqr (c1 a)). unfold Rsqr in *. unfold s in *. lra. }
    assert (Q : sqrt s <> 0) by (apply Rgt_not_eq, sqrt_lt_R0, P).
    unfold dot3, scale3. cbn [c0 c1 c2]. split; [ring|].
    replace (/ sqrt s * - c1 a * (/ sqrt s * - c1 a) + / sqrt s * c0 a * (/ sqrt s * c0 a) + / sqrt s * 0 * (/ sqrt s * 0))
      with (/ (sqrt s * sqrt s) * s) by (unfold s at 3; rewrite Rinv_mult; ring).
    rewrite sqrt_sqrt by lra. apply Rinv_l. lra.
Qed.

Lemma cross_self a : cross3 a a = zero3.
Proof. unfold cross3, zero3. f_equal; ring. Qed.

Theorem from_two_vectors_turns : turns from_two_vectors.
Proof.
  intros a b Ha Hb. split; [|split].
  - unfold from_two_vectors. destruct (Req_EM_T _ 0) as [E|E].
    + assert (Z : add3 a b = zero3).
      { apply dot3_zero. transitivity (dot3 a a + 2 * dot3 a b + dot3 b b); [unfold dot3, add3; cbn [c0 c1 c2]; ring|lra]. }
      unfold add3, zero3 in Z. injection Z as Z0 Z1 Z2. destruct (perpendicular_ok a Ha) as [P _]. rewrite P.
      apply v3_eq; unfold sub3, scale3; cbn [c0 c1 c2]; lra.
    + set (c := dot3 a b) in *.
      assert (K : cross3 (cross3 a b) (cross3 (cross3 a b) a) = scale3 (c * c - dot3 a a * dot3 b b) a).
      { unfold c, dot3, cross3, scale3. cbn [c0 c1 c2]. f_equal; ring. }
      assert (K1 : cross3 (cross3 a b) a = sub3 (scale3 (dot3 a a) b) (scale3 c a)).
      { unfold c, dot3, cross3, sub3, scale3. cbn [c0 c1 c2]. f_equal; ring. }
      rewrite K, K1, Ha, Hb. unfold add3, sub3, scale3. cbn [c0 c1 c2]. destruct a as [a0 a1 a2], b as [b0 b1 b2].
      cbn [c0 c1 c2]. f_equal; field; exact E.
  - intros x y. unfold from_two_vectors. destruct (Req_EM_T _ 0) as [E|E].
    + destruct (perpendicular_ok a Ha) as [_ P]. set (u := perpendicular a) in *.
      transitivity (4 * dot3 u x * dot3 u y * dot3 u u - 4 * dot3 u x * dot3 u y + dot3 x y).
      * unfold dot3, sub3, scale3. cbn [c0 c1 c2]. ring.
      * rewrite P. ring.
    + set (c := dot3 a b) in *. set (h := / (1 + c)).
      assert (Kk : dot3 (cross3 a b) (cross3 a b) = 1 - c * c).
      { transitivity (dot3 a a * dot3 b b - c * c); [unfold c, dot3, cross3; cbn [c0 c1 c2]; ring|rewrite Ha, Hb; ring]. }
      set (k := cross3 a b) in *. clearbody k.
      transitivity (dot3 x y - (2 * h - 1 - h * h * dot3 k k) * dot3 (cross3 k x) (cross3 k y)).
      * unfold dot3, add3, scale3, cross3. cbn [c0 c1 c2]. ring.
      * rewrite Kk. replace (2 * h - 1 - h * h * (1 - c * c)) with 0; [ring|]. unfold h. field. exact E.
  - intros x. unfold from_two_vectors. destruct (Req_EM_T _ 0) as [E|E]; [lra|].
    rewrite cross_self. unfold add3, scale3, cross3, zero3. cbn [c0 c1 c2]. destruct x as [x0 x1 x2]. cbn [c0 c1 c2].
    f_equal; ring.
Qed.

(* ---------- the three programs ---------- *)
Section Warm.
Context {A : Type} (zero : A).
Theorem ball_impact_warm : warm_starts good_ball same_ball zero (fun a => a) (op_clear (ball_ops A zero)) (impact_map_step A zero (ball_ops A zero) true).
Proof. exact (impact_warm zero _ _ _ ball_slot ball_table (ball_Hput zero) (ball_Hget zero) (ball_Hclear zero) (ball_Hempty zero) ball_Hsame). Qed.
Theorem rb2_impact_warm : warm_starts good_rb2 same_rb2 zero (fun a => a) (op_clear (rb2_ops A zero)) (impact_map_step A zero (rb2_ops A zero) true).
Proof. exact (impact_warm zero _ _ _ rb2_slot rb2_table (rb2_Hput zero) (rb2_Hget zero) (rb2_Hclear zero) (rb2_Hempty zero) rb2_Hsame). Qed.
Theorem rb3_impact_warm : warm_starts good_rb3 same_rb3 zero (fun a => a) (op_clear (rb3_ops A zero)) (impact_map_step A zero (rb3_ops A zero) true).
Proof. exact (impact_warm zero _ _ _ rb3_slot rb3_table (rb3_Hput zero) (rb3_Hget zero) (rb3_Hclear zero) (rb3_Hempty zero) rb3_Hsame). Qed.

Definition normal_part (ab : A * A) : A * A := (fst ab, zero).
Theorem ball_normal_warm d3 : warm_starts good_ball same_ball (zero, zero) normal_part (op_clear (ball_ops A zero)) (friction_map_step A zero (ball_ops A zero) CacheNormal d3).
Proof. exact (normal_warm zero _ _ _ ball_slot ball_table (ball_Hput zero) (ball_Hget zero) (ball_Hclear zero) (ball_Hempty zero) ball_Hsame d3). Qed.
Theorem rb2_normal_warm d3 : warm_starts good_rb2 same_rb2 (zero, zero) normal_part (op_clear (rb2_ops A zero)) (friction_map_step A zero (rb2_ops A zero) CacheNormal d3).
Proof. exact (normal_warm zero _ _ _ rb2_slot rb2_table (rb2_Hput zero) (rb2_Hget zero) (rb2_Hclear zero) (rb2_Hempty zero) rb2_Hsame d3). Qed.
Theorem rb3_normal_warm d3 : warm_starts good_rb3 same_rb3 (zero, zero) normal_part (op_clear (rb3_ops A zero)) (friction_map_step A zero (rb3_ops A zero) CacheNormal d3).
Proof. exact (normal_warm zero _ _ _ rb3_slot rb3_table (rb3_Hput zero) (rb3_Hget zero) (rb3_Hclear zero) (rb3_Hempty zero) rb3_Hsame d3). Qed.

Theorem ball_planar_warm : warm_starts good_ball same_ball (zero, zero) (fun ab => ab) (op_clear (ball_ops A zero)) (friction_map_step A zero (ball_ops A zero) CacheNormalAndFriction false).
Proof. exact (planar_warm zero _ _ _ ball_slot ball_table (ball_Hput zero) (ball_Hget zero) (ball_Hclear zero) (ball_Hempty zero) ball_Hsame). Qed.
Theorem rb2_planar_warm : warm_starts good_rb2 same_rb2 (zero, zero) (fun ab => ab) (op_clear (rb2_ops A zero)) (friction_map_step A zero (rb2_ops A zero) CacheNormalAndFriction false).
Proof. exact (planar_warm zero _ _ _ rb2_slot rb2_table (rb2_Hput zero) (rb2_Hget zero) (rb2_Hclear zero) (rb2_Hempty zero) rb2_Hsame). Qed.
End Warm.

Theorem rb3_spatial_warm steps t0 basis0 : good_steps3 same_rb3 good_rb3 steps ->
  exists logs t, run_steps3 (spatial_step (rb3_ops R 0) from_two_vectors) steps (op_clear (rb3_ops R 0) t0) = Ok (logs, t) /\
    logged3 steps logs /\ well_started3 same_rb3 basis0 [] logs.
Proof.
  intros G. exact (run3_ok (rb3_ops R 0) good_rb3 same_rb3 rb3_slot rb3_table (rb3_Hput 0) (rb3_Hget 0) (rb3_Hclear 0)
    (rb3_Hempty 0) rb3_Hsame from_two_vectors from_two_vectors_turns steps basis0 [] _
    (agrees_clear 0 _ _ _ rb3_slot rb3_table (rb3_Hget 0) (rb3_Hclear 0) t0) (Forall_nil _) (FOP_nil _)
    (fun e (H : In e []) => match H with end) G).
Qed.

(* ---------- contacts the caches cannot hold ---------- *)
Lemma omapM_exit {X Y} (f : X -> outcome Y) l :
  (forall x, In x l -> f x = Exit \/ exists y, f x = Ok y) -> (exists x, In x l /\ f x = Exit) -> omapM f l = Exit.
Proof.
  induction l as [|x l IH]; intros H (z & Hz & Ez); [contradiction|]. cbn [omapM].
  destruct (H x (or_introl eq_refl)) as [E|[y E]]; rewrite E; [reflexivity|]. cbn [obind].
  rewrite IH; [reflexivity| |].
  - intros w Hw. apply H. now right.
  - exists z. destruct Hz as [->|Hz]; [congruence|auto].
Qed.

Lemma impact_exit {A C T} (zero : A) (ops : cache_ops A C T) solve active t :
  (forall c, op_get ops c 1 t = Exit \/ op_get ops c 1 t = Ok [zero]) ->
  (exists c, In c active /\ op_get ops c 1 t = Exit) -> impact_map_step A zero ops true solve active t = Exit.
Proof.
  intros H (c & Hc & Ec). unfold impact_map_step. destruct active as [|d active]; [contradiction|].
  unfold read_normal. rewrite omapM_exit; [reflexivity| |].
  - intros x _. destruct (H x) as [E|E]; rewrite E; [left; reflexivity|right; exists zero; reflexivity].
  - exists c. split; [exact Hc|]. now rewrite Ec.
Qed.
Section Exits.
Context {A : Type} (zero : A).
Theorem ball_exit solve active t c : In c active -> supported_ball c = false ->
  impact_map_step A zero (ball_ops A zero) true solve active (op_clear (ball_ops A zero) t) = Exit.
Proof.
  intros I S. apply impact_exit; [intros []; auto|]. exists c. split; [exact I|]. destruct c; try discriminate; reflexivity.
Qed.
Theorem rb2_exit solve active t c : In c active -> supported_rb2 c = false ->
  impact_map_step A zero (rb2_ops A zero) true solve active (op_clear (rb2_ops A zero) t) = Exit.
Proof.
  intros I S. apply impact_exit; [intros []; auto|]. exists c. split; [exact I|]. destruct c; try discriminate; reflexivity.
Qed.
Theorem rb3_exit solve active t c : In c active -> supported_rb3 c = false ->
  impact_map_step A zero (rb3_ops A zero) true solve active (op_clear (rb3_ops A zero) t) = Exit.
Proof.
  intros I S. apply impact_exit; [intros []; auto|]. exists c. split; [exact I|]. destruct c; try discriminate; reflexivity.
Qed.
End Exits.
