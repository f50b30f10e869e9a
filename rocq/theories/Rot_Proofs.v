(* Mass matrices and steps of the 3D rigid body state. *)
From Coq Require Import List Reals Arith Bool Lia Lra FunctionalExtensionality.
From Verif Require Import Ccd_Model Lin_Model ContactRb3_Model Lin_Proofs Rot_Model Rot_Spec Rot_Alg.
Import ListNotations.
Open Scope R_scope.

(* ---------- segments ---------- *)
Ltac nat_tests := repeat match goal with |- context [Nat.eqb ?a ?b] => destruct (Nat.eqb_spec a b); try lia end.
Lemma seg_set : forall v k x, seg3 (set_seg3 v k x) k = x.
Proof. intros v k [x y z]. unfold seg3, set_seg3. nat_tests. reflexivity. Qed.
Lemma seg_set_other : forall v k j x, (k + 3 <= j \/ j + 3 <= k)%nat -> seg3 (set_seg3 v k x) j = seg3 v j.
Proof. intros v k j x H. unfold seg3, set_seg3. nat_tests. reflexivity. Qed.
Lemma seg_add : forall v k x, seg3 (add_seg3 v k x) k = add3 (seg3 v k) x.
Proof. intros v k [x y z]. unfold seg3, add_seg3, add3. nat_tests. reflexivity. Qed.
Lemma seg_add_other : forall v k j x, (k + 3 <= j \/ j + 3 <= k)%nat -> seg3 (add_seg3 v k x) j = seg3 v j.
Proof. intros v k j x H. unfold seg3, add_seg3. nat_tests. reflexivity. Qed.
Lemma mat_set : forall v k A, mat_at (set_mat v k A) k = A.
Proof.
  intros v k [a b c]. unfold mat_at, set_mat. cbn [row0 row1 row2_].
  rewrite seg_set, !(seg_set_other _ (k + 6)), seg_set, !(seg_set_other _ (k + 3)), seg_set by lia. reflexivity.
Qed.
Lemma mat_set_other : forall v k j A, (k + 9 <= j \/ j + 9 <= k)%nat -> mat_at (set_mat v k A) j = mat_at v j.
Proof. intros v k j A H. unfold mat_at, set_mat. rewrite !seg_set_other by lia. reflexivity. Qed.
Lemma seg_set_mat : forall v k j A, (k + 9 <= j \/ j + 3 <= k)%nat -> seg3 (set_mat v k A) j = seg3 v j.
Proof. intros v k j A H. unfold set_mat. rewrite !seg_set_other by lia. reflexivity. Qed.
Lemma mat_set_seg : forall v k j x, (k + 3 <= j \/ j + 9 <= k)%nat -> mat_at (set_seg3 v k x) j = mat_at v j.
Proof. intros v k j x H. unfold mat_at. rewrite !seg_set_other by lia. reflexivity. Qed.
Lemma mat_add_seg : forall v k j x, (k + 3 <= j \/ j + 9 <= k)%nat -> mat_at (add_seg3 v k x) j = mat_at v j.
Proof. intros v k j x H. unfold mat_at. rewrite !seg_add_other by lia. reflexivity. Qed.

(* ---------- loops over the bodies ---------- *)
Lemma fold_keep : forall {T} (obs : dvec -> T) (l : list nat) (f : nat -> dvec -> dvec) x, (forall i x, In i l -> obs (f i x) = obs x) -> obs (fold_left (fun x i => f i x) l x) = obs x.
Proof.
  intros T obs l f. induction l as [|i l IH]; intros x H; cbn [fold_left]; [reflexivity|].
  rewrite IH; [apply H; left; reflexivity|]. intros j y Hj. apply H. right. exact Hj.
Qed.
Lemma loop_keep : forall {T} (obs : dvec -> T) n f x, (forall i x, (i < n)%nat -> obs (f i x) = obs x) -> obs (for_bodies n f x) = obs x.
Proof. intros T obs n f x H. apply fold_keep. intros i y Hi. apply H. apply in_seq in Hi. lia. Qed.
Lemma loop_slot : forall {T} (obs : dvec -> T) (F : T -> T) n f j x, (j < n)%nat ->
  (forall i x, (i < n)%nat -> i <> j -> obs (f i x) = obs x) -> (forall x, obs (f j x) = F (obs x)) -> obs (for_bodies n f x) = F (obs x).
Proof.
  intros T obs F n f j x Hj Ho Hs. unfold for_bodies.
  replace (seq 0 n) with (seq 0 j ++ seq j 1 ++ seq (S j) (n - S j)).
  2:{ rewrite <- (seq_app 1 (n - S j) j) at 1 || idtac. replace n with (j + (1 + (n - S j)))%nat at 2 by lia. rewrite !seq_app. cbn [Nat.add].
      replace (j + 1)%nat with (S j) by lia. reflexivity. }
  rewrite !fold_left_app. cbn [seq fold_left].
  rewrite fold_keep by (intros i y Hi; apply in_seq in Hi; apply Ho; lia).
  rewrite Hs. f_equal. apply fold_keep. intros i y Hi; apply in_seq in Hi; apply Ho; lia.
Qed.

(* ---------- the product with a mass array ---------- *)
Lemma mass_mul_lin : forall n V x i, (i < n)%nat ->
  seg3 (mass_mul n V x) (3 * i) = V3 (V (3 * i + 0)%nat * x (3 * i + 0)%nat) (V (3 * i + 1)%nat * x (3 * i + 1)%nat) (V (3 * i + 2)%nat * x (3 * i + 2)%nat).
Proof.
  intros n V x i H. unfold mass_mul. unfold seg3 at 1.
  rewrite !(proj2 (Nat.ltb_lt _ _)) by lia. reflexivity.
Qed.
Lemma mass_mul_all : forall n V x i m, (i < n)%nat -> seg3 V (3 * i) = all3 m -> seg3 (mass_mul n V x) (3 * i) = scale3 m (seg3 x (3 * i)).
Proof. intros n V x i m H E. rewrite mass_mul_lin by exact H. 
  pose proof (f_equal c0 E) as E0. pose proof (f_equal c1 E) as E1. pose proof (f_equal c2 E) as E2. unfold seg3, all3 in E0, E1, E2.
  cbn [c0 c1 c2] in E0, E1, E2. rewrite E0, E1, E2. reflexivity.
Qed.
Lemma div3 : forall i k, (k < 3)%nat -> ((3 * i + k) / 3 = i)%nat /\ ((3 * i + k) mod 3 = k)%nat.
Proof.
  intros i k H. split.
  - symmetry. apply (Nat.div_unique _ _ _ k); lia.
  - symmetry. apply (Nat.mod_unique _ _ i k); lia.
Qed.
Lemma mass_mul_ang : forall n V x i, (i < n)%nat ->
  seg3 (mass_mul n V x) (3 * n + 3 * i) = mul3 (tr (mat_at V (3 * n + 9 * i))) (seg3 x (3 * n + 3 * i)).
Proof.
  intros n V x i H. unfold mass_mul. unfold seg3 at 1.
  rewrite !(proj2 (Nat.ltb_ge _ _)) by lia.
  assert (forall k, (k < 3)%nat -> (3 * n + 3 * i + k - 3 * n)%nat = (3 * i + k)%nat) as E by (intros; lia).
  rewrite (E 0%nat), (E 1%nat), (E 2%nat) by lia.
  rewrite (proj1 (div3 i 0 ltac:(lia))), (proj1 (div3 i 1 ltac:(lia))), (proj1 (div3 i 2 ltac:(lia))).
  rewrite (proj2 (div3 i 0 ltac:(lia))), (proj2 (div3 i 1 ltac:(lia))), (proj2 (div3 i 2 ltac:(lia))). reflexivity.
Qed.
(* dofs of an n-body velocity: agreement on every segment *)
Definition agree (n : nat) (x y : dvec) : Prop := forall k, (k < 6 * n)%nat -> x k = y k.
Lemma agree_segs : forall n x y, (forall i, (i < n)%nat -> seg3 x (3 * i) = seg3 y (3 * i) /\ seg3 x (3 * n + 3 * i) = seg3 y (3 * n + 3 * i)) -> agree n x y.
Proof.
  intros n x y H k Hk.
  assert (forall i j r, (r < 3)%nat -> seg3 x j = seg3 y j -> i = (j + r)%nat -> x i = y i) as G.
  { intros i j r Hr E ->. unfold seg3 in E. injection E as E0 E1 E2. destruct r as [|[|[|r]]]; [exact E0|exact E1|exact E2|lia]. }
  destruct (Nat.lt_ge_cases k (3 * n)) as [L|L].
  - apply (G k (3 * (k / 3))%nat (k mod 3)%nat); [apply Nat.mod_upper_bound; lia| |apply Nat.div_mod; lia].
    apply H. apply Nat.div_lt_upper_bound; lia.
  - assert ((k - 3 * n) / 3 < n)%nat as Hi by (apply Nat.div_lt_upper_bound; lia).
    apply (G k (3 * n + 3 * ((k - 3 * n) / 3))%nat ((k - 3 * n) mod 3)%nat); [apply Nat.mod_upper_bound; lia|apply H; exact Hi|].
    pose proof (Nat.div_mod (k - 3 * n) 3 ltac:(lia)). lia.
Qed.
Lemma dotn_segs : forall n x y, dotn n x y =
  rsum n (fun i => dot3 (seg3 x (3 * i)) (seg3 y (3 * i))) + rsum n (fun i => dot3 (seg3 x (3 * n + 3 * i)) (seg3 y (3 * n + 3 * i))).
Proof.
  intros n x y. unfold dotn. replace (6 * n)%nat with (3 * n + 3 * n)%nat by lia. rewrite rsum_split.
  assert (forall m f, rsum (3 * m) f = rsum m (fun i => f (3 * i + 0)%nat + f (3 * i + 1)%nat + f (3 * i + 2)%nat)) as T.
  { intros m f. induction m as [|m IH]; [reflexivity|]. replace (3 * S m)%nat with (3 * m + 3)%nat by lia. rewrite rsum_split, IH.
    cbn [rsum]. rewrite Nat.add_0_r. ring. }
  rewrite !T. f_equal; apply rsum_ext; intros i Hi; unfold dot3, seg3; cbn [c0 c1 c2]; rewrite ?Nat.add_assoc; reflexivity.
Qed.
Lemma mat_eq_seg : forall V W k, (forall r, (r < 9)%nat -> V (k + r)%nat = W (k + r)%nat) -> mat_at V k = mat_at W k.
Proof.
  intros V W k H. unfold mat_at, seg3. rewrite <- !Nat.add_assoc. cbn [Nat.add]. rewrite !H by lia. reflexivity.
Qed.

(* ---------- C31 ---------- *)
Lemma consistent_segs : forall s x i, consistent s -> (i < s3_n s)%nat ->
  seg3 (mass_mul (s3_n s) (s3_M s) x) (3 * i) = scale3 (mass s i) (seg3 x (3 * i))
  /\ seg3 (mass_mul (s3_n s) (s3_Minv s) x) (3 * i) = scale3 (/ mass s i) (seg3 x (3 * i))
  /\ seg3 (mass_mul (s3_n s) (s3_M s) x) (3 * s3_n s + 3 * i) = mul3 (turned (orientation s i) (inertia0 s i)) (seg3 x (3 * s3_n s + 3 * i))
  /\ seg3 (mass_mul (s3_n s) (s3_Minv s) x) (3 * s3_n s + 3 * i) = mul3 (turned (orientation s i) (inv3 (inertia0 s i))) (seg3 x (3 * s3_n s + 3 * i)).
Proof.
  intros s x i (HC & HR & HU) Hi. destruct (HC i Hi) as (_ & _ & _ & _ & _ & HM & HMi). destruct (HU i Hi) as [EI EIi].
  split; [apply mass_mul_all; assumption|]. split; [apply mass_mul_all; assumption|].
  split; rewrite mass_mul_ang by exact Hi; rewrite ?EI, ?EIi, turned_tr; reflexivity.
Qed.
Lemma scale_inv : forall m x, 0 < m -> scale3 m (scale3 (/ m) x) = x /\ scale3 (/ m) (scale3 m x) = x.
Proof. intros m [x y z] H. unfold scale3. cbn [c0 c1 c2]. split; f_equal; field; lra. Qed.
Lemma mass_inverse : forall s x, consistent s ->
  agree (s3_n s) (mass_mul (s3_n s) (s3_Minv s) (mass_mul (s3_n s) (s3_M s) x)) x
  /\ agree (s3_n s) (mass_mul (s3_n s) (s3_M s) (mass_mul (s3_n s) (s3_Minv s) x)) x.
Proof.
  intros s x H. pose proof H as (HC & HR & _). split; apply agree_segs; intros i Hi; destruct (HC i Hi) as (Hm & Hp & _);
  destruct (consistent_segs s (mass_mul (s3_n s) (s3_M s) x) i H Hi) as (_ & E2 & _ & E4);
  destruct (consistent_segs s (mass_mul (s3_n s) (s3_Minv s) x) i H Hi) as (F1 & _ & F3 & _);
  destruct (consistent_segs s x i H Hi) as (G1 & G2 & G3 & G4).
  - rewrite E2, E4, G1, G3. split; [apply scale_inv; exact Hm|]. rewrite <- mul3_mm, turned_inv_l by (assumption || (apply HR; exact Hi)). apply mul3_id.
  - rewrite F1, F3, G2, G4. split; [apply scale_inv; exact Hm|]. rewrite <- mul3_mm, turned_inv by (assumption || (apply HR; exact Hi)). apply mul3_id.
Qed.
Lemma turned_dot : forall A d x y, dot3 x (mul3 (turned A d) y) = dot3 y (mul3 (turned A d) x).
Proof.
  intros A d x y. rewrite dot_mul3, turned_tr. unfold dot3. ring.
Qed.
Lemma scale_dot : forall m x y, dot3 x (scale3 m y) = dot3 y (scale3 m x).
Proof. intros m [a b c] [d e f]. unfold dot3, scale3. cbn [c0 c1 c2]. ring. Qed.
Lemma mass_symmetric : forall s x y, consistent s ->
  dotn (s3_n s) x (mass_mul (s3_n s) (s3_M s) y) = dotn (s3_n s) y (mass_mul (s3_n s) (s3_M s) x)
  /\ dotn (s3_n s) x (mass_mul (s3_n s) (s3_Minv s) y) = dotn (s3_n s) y (mass_mul (s3_n s) (s3_Minv s) x).
Proof.
  intros s x y H. rewrite !dotn_segs. split; f_equal; apply rsum_ext; intros i Hi;
  destruct (consistent_segs s x i H Hi) as (E1 & E2 & E3 & E4); destruct (consistent_segs s y i H Hi) as (F1 & F2 & F3 & F4).
  - rewrite E1, F1. apply scale_dot.
  - rewrite E3, F3. apply turned_dot.
  - rewrite E2, F2. apply scale_dot.
  - rewrite E4, F4. apply turned_dot.
Qed.
Lemma dot_scale_pos : forall m x, 0 < m -> x <> zero3 -> 0 < dot3 x (scale3 m x).
Proof.
  intros m x H N. pose proof (form_pos (all3 m) x ltac:(repeat split; exact H) N) as P. destruct x as [a b c]. m3u. lra.
Qed.
Lemma dot_scale_nonneg : forall m x, 0 < m -> 0 <= dot3 x (scale3 m x).
Proof.
  intros m [a b c] H. m3u. pose proof (Rmult_le_pos _ _ (Rlt_le _ _ H) (sq_nn a)). pose proof (Rmult_le_pos _ _ (Rlt_le _ _ H) (sq_nn b)).
  pose proof (Rmult_le_pos _ _ (Rlt_le _ _ H) (sq_nn c)). lra.
Qed.
Lemma turned_nonneg : forall A d x, positive3 d -> 0 <= dot3 x (mul3 (turned A d) x).
Proof.
  intros A d x (H0 & H1 & H2). rewrite turned_form. set (y := mul3 (tr A) x).
  pose proof (Rmult_le_pos _ _ (Rlt_le _ _ H0) (sq_nn (c0 y))). pose proof (Rmult_le_pos _ _ (Rlt_le _ _ H1) (sq_nn (c1 y))).
  pose proof (Rmult_le_pos _ _ (Rlt_le _ _ H2) (sq_nn (c2 y))). lra.
Qed.
Lemma rsum_pos : forall n f j, (forall i, (i < n)%nat -> 0 <= f i) -> (j < n)%nat -> 0 < f j -> 0 < rsum n f.
Proof.
  induction n as [|n IH]; intros f j Hn Hj Hp; [lia|]. cbn [rsum].
  assert (0 <= rsum n f) by (apply rsum_nonneg; intros; apply Hn; lia). pose proof (Hn n ltac:(lia)).
  destruct (Nat.eq_dec j n) as [->|N]; [lra|]. pose proof (IH f j ltac:(intros; apply Hn; lia) ltac:(lia) Hp). lra.
Qed.
Lemma v3_dec : forall x : v3, x = zero3 \/ x <> zero3.
Proof.
  intros [a b c]. destruct (Req_dec a 0) as [->|N]; [|right; intro E; apply N; exact (f_equal c0 E)].
  destruct (Req_dec b 0) as [->|N]; [|right; intro E; apply N; exact (f_equal c1 E)].
  destruct (Req_dec c 0) as [->|N]; [|right; intro E; apply N; exact (f_equal c2 E)]. left. reflexivity.
Qed.
Lemma mass_positive : forall s x, consistent s -> (exists k, (k < 6 * s3_n s)%nat /\ x k <> 0) ->
  0 < dotn (s3_n s) x (mass_mul (s3_n s) (s3_M s) x).
Proof.
  intros s x H (k & Hk & Nk). set (n := s3_n s) in *.
  assert (forall i, (i < n)%nat -> 0 <= dot3 (seg3 x (3 * i)) (seg3 (mass_mul n (s3_M s) x) (3 * i))) as P1.
  { intros i Hi. destruct (consistent_segs s x i H Hi) as (E1 & _). destruct (proj1 H i Hi) as (Hm & _). unfold n. rewrite E1. apply dot_scale_nonneg. exact Hm. }
  assert (forall i, (i < n)%nat -> 0 <= dot3 (seg3 x (3 * n + 3 * i)) (seg3 (mass_mul n (s3_M s) x) (3 * n + 3 * i))) as P2.
  { intros i Hi. destruct (consistent_segs s x i H Hi) as (_ & _ & E3 & _). destruct (proj1 H i Hi) as (_ & Hp & _). unfold n. rewrite E3. apply turned_nonneg. exact Hp. }
  assert (exists i, (i < n)%nat /\ (seg3 x (3 * i) <> zero3 \/ seg3 x (3 * n + 3 * i) <> zero3)) as (i & Hi & D).
  { apply Classical_Prop.NNPP. intro C. apply Nk. change 0 with ((fun _ : nat => 0) k). revert k Hk Nk. 
    assert (agree n x (fun _ => 0)) as A.
    { apply agree_segs. intros i Hi. change (seg3 (fun _ => 0) (3 * i)) with zero3. change (seg3 (fun _ => 0) (3 * n + 3 * i)) with zero3.
      destruct (v3_dec (seg3 x (3 * i))) as [Z1|N1]; [|exfalso; apply C; exists i; split; [exact Hi|left; exact N1]].
      destruct (v3_dec (seg3 x (3 * n + 3 * i))) as [Z2|N2]; [split; assumption|exfalso; apply C; exists i; split; [exact Hi|right; exact N2]]. }
    intros k Hk _. apply A. exact Hk. }
  rewrite dotn_segs. fold n.
  destruct (consistent_segs s x i H Hi) as (E1 & _ & E3 & _). destruct (proj1 H i Hi) as (Hm & Hp & _). fold n in E1, E3.
  pose proof (rsum_nonneg _ _ P1) as S1. pose proof (rsum_nonneg _ _ P2) as S2.
  destruct D as [D|D].
  - assert (0 < rsum n (fun i => dot3 (seg3 x (3 * i)) (seg3 (mass_mul n (s3_M s) x) (3 * i)))); [|lra].
    apply (rsum_pos _ _ i P1 Hi). rewrite E1. apply dot_scale_pos; assumption.
  - assert (0 < rsum n (fun i => dot3 (seg3 x (3 * n + 3 * i)) (seg3 (mass_mul n (s3_M s) x) (3 * n + 3 * i)))); [|lra].
    apply (rsum_pos _ _ i P2 Hi). rewrite E3. apply turned_pos; [apply H; exact Hi|exact Hp|exact D].
Qed.

(* ---------- updateMandMinv ---------- *)
Lemma update_blocks : forall n q D V j, (j < n)%nat ->
  let V' := for_bodies n (fun i V => let Rm := mat_at q (3 * n + 9 * i) in
      set_mat V (3 * n + 9 * i) (tr (mm (mm Rm (diag3 (seg3 D (3 * n + 3 * i)))) (tr Rm)))) V in
  mat_at V' (3 * n + 9 * j) = turned (mat_at q (3 * n + 9 * j)) (seg3 D (3 * n + 3 * j)) /\ seg3 V' (3 * j) = seg3 V (3 * j).
Proof.
  intros n q D V j Hj V'. subst V'. split.
  - rewrite (loop_slot (fun V => mat_at V (3 * n + 9 * j)) (fun _ => turned (mat_at q (3 * n + 9 * j)) (seg3 D (3 * n + 3 * j))) n _ j); [reflexivity|exact Hj| |].
    + intros i x Hi N. apply mat_set_other. lia.
    + intros x. cbv beta zeta. rewrite mat_set. apply turned_tr.
  - apply (loop_keep (fun V => seg3 V (3 * j))). intros i x Hi. apply seg_set_mat. lia.
Qed.
Lemma update_consistent : forall s, constants_ok s -> rotations s -> consistent (update_mass s).
Proof.
  intros s HC HR. split; [|split].
  - intros i Hi. cbn [s3_n update_mass] in Hi. destruct (HC i Hi) as (Hm & Hp & E1 & E2 & E3 & E4 & E5).
    unfold mass, inertia0 in *. cbn [s3_n s3_q s3_v s3_M0 s3_Minv0 s3_M s3_Minv update_mass].
    rewrite (proj2 (update_blocks _ _ _ _ i Hi)), (proj2 (update_blocks _ _ _ _ i Hi)).
    split; [exact Hm|]. split; [exact Hp|]. split; [exact E1|]. split; [exact E2|]. split; [exact E3|]. split; assumption.
  - intros i Hi. exact (HR i Hi).
  - intros i Hi. cbn [s3_n update_mass] in Hi. destruct (HC i Hi) as (_ & _ & _ & _ & E3 & _).
    unfold orientation, inertia0 in *. cbn [s3_n s3_q s3_v s3_M0 s3_Minv0 s3_M s3_Minv update_mass].
    rewrite (proj1 (update_blocks _ _ _ _ i Hi)), (proj1 (update_blocks _ _ _ _ i Hi)), E3. split; reflexivity.
Qed.
Lemma world_blocks : forall n (T : nat -> m3) V j, (j < n)%nat ->
  mat_at (for_bodies n (fun i V => set_mat V (3 * n + 9 * i) (T i)) V) (3 * n + 9 * j) = T j
  /\ seg3 (for_bodies n (fun i V => set_mat V (3 * n + 9 * i) (T i)) V) (3 * j) = seg3 V (3 * j).
Proof.
  intros n T V j Hj. split.
  - rewrite (loop_slot (fun V => mat_at V (3 * n + 9 * j)) (fun _ => T j) n _ j); [reflexivity|exact Hj| |].
    + intros i x Hi N. apply mat_set_other. lia.
    + intros x. apply mat_set.
  - apply (loop_keep (fun V => seg3 V (3 * j))). intros i x Hi. apply seg_set_mat. lia.
Qed.
Lemma vec_slots : forall n o (T : nat -> v3) V j, (j < n)%nat ->
  seg3 (for_bodies n (fun i V => set_seg3 V (o + 3 * i) (T i)) V) (o + 3 * j) = T j.
Proof.
  intros n o T V j Hj. rewrite (loop_slot (fun V => seg3 V (o + 3 * j)) (fun _ => T j) n _ j); [reflexivity|exact Hj| |].
  - intros i x Hi N. apply seg_set_other. lia.
  - intros x. apply seg_set.
Qed.
(* what setState stores *)
Lemma set_state_views : forall n X Vl m Rm omega I0 fixed g i, (i < n)%nat ->
  let s := set_state n X Vl m Rm omega I0 fixed g in
  position s i = X i /\ velocity s i = Vl i /\ orientation s i = Rm i /\ spin s i = omega i /\ mass s i = m i /\ inertia0 s i = I0 i.
Proof.
  intros n X Vl m Rm omega I0 fixed g i Hi s. subst s. unfold position, velocity, orientation, spin, mass, inertia0. cbn [s3_n s3_q s3_v s3_M0 set_state].
  split; [|split; [|split; [|split; [|split]]]].
  - rewrite (proj2 (world_blocks n Rm _ i Hi)). apply (vec_slots n 0 X); exact Hi.
  - rewrite (loop_keep (fun V => seg3 V (3 * i))) by (intros j x Hj; apply seg_set_other; lia). apply (vec_slots n 0 Vl); exact Hi.
  - apply world_blocks. exact Hi.
  - apply (vec_slots n (3 * n) omega). exact Hi.
  - unfold body_mass. rewrite (proj2 (Nat.ltb_lt _ _)) by lia. f_equal. rewrite <- (Nat.add_0_r (3 * i)). apply div3. lia.
  - unfold body_mass, seg3. rewrite !(proj2 (Nat.ltb_ge _ _)) by lia.
    replace (3 * n + 3 * i + 0 - 3 * n)%nat with (3 * i + 0)%nat by lia. replace (3 * n + 3 * i + 1 - 3 * n)%nat with (3 * i + 1)%nat by lia.
    replace (3 * n + 3 * i + 2 - 3 * n)%nat with (3 * i + 2)%nat by lia.
    rewrite (proj1 (div3 i 0 ltac:(lia))), (proj1 (div3 i 1 ltac:(lia))), (proj1 (div3 i 2 ltac:(lia))), (proj2 (div3 i 0 ltac:(lia))), (proj2 (div3 i 1 ltac:(lia))), (proj2 (div3 i 2 ltac:(lia))). destruct (I0 i); reflexivity.
Qed.
Lemma set_state_consistent : forall n X Vl m Rm omega I0 fixed g,
  (forall i, (i < n)%nat -> 0 < m i /\ positive3 (I0 i) /\ rotation (Rm i)) -> consistent (set_state n X Vl m Rm omega I0 fixed g).
Proof.
  intros n X Vl m Rm omega I0 fixed g H.
  assert (forall i, (i < n)%nat -> let s := set_state n X Vl m Rm omega I0 fixed g in
    orientation s i = Rm i /\ mass s i = m i /\ inertia0 s i = I0 i) as VW by (intros i Hi; destruct (set_state_views n X Vl m Rm omega I0 fixed g i Hi) as (_ & _ & E1 & _ & E2 & E3); auto).
  assert (forall i r, (r < 3)%nat -> ((3 * i + r) / 3 = i)%nat) as D by (intros; apply div3; assumption).
  split; [|split]; intros i Hi; cbn [s3_n set_state] in Hi; destruct (VW i Hi) as (EO & EM & EI); destruct (H i Hi) as (Hm & Hp & HR).
  - rewrite EM, EI. split; [exact Hm|]. split; [exact Hp|]. cbn [s3_n s3_M0 s3_Minv0 s3_M s3_Minv set_state].
    split; [|split; [|split; [|split]]].
    + unfold body_mass, seg3, all3. rewrite !(proj2 (Nat.ltb_lt _ _)) by lia. rewrite !D by lia. reflexivity.
    + unfold body_inverse_mass, seg3, all3. rewrite !(proj2 (Nat.ltb_lt _ _)) by lia. rewrite !D by lia. f_equal; lra.
    + unfold body_inverse_mass, seg3, inv3. rewrite !(proj2 (Nat.ltb_ge _ _)) by lia.
      replace (3 * n + 3 * i + 0 - 3 * n)%nat with (3 * i + 0)%nat by lia. replace (3 * n + 3 * i + 1 - 3 * n)%nat with (3 * i + 1)%nat by lia.
      replace (3 * n + 3 * i + 2 - 3 * n)%nat with (3 * i + 2)%nat by lia.
      rewrite (proj1 (div3 i 0 ltac:(lia))), (proj1 (div3 i 1 ltac:(lia))), (proj1 (div3 i 2 ltac:(lia))), (proj2 (div3 i 0 ltac:(lia))), (proj2 (div3 i 1 ltac:(lia))), (proj2 (div3 i 2 ltac:(lia))). f_equal; lra.
    + unfold world_mass. rewrite (proj2 (world_blocks n _ _ i Hi)). unfold seg3, all3. rewrite !D by lia. reflexivity.
    + unfold world_inverse_mass. rewrite (proj2 (world_blocks n _ _ i Hi)). unfold seg3, all3. rewrite !D by lia. f_equal; lra.
  - rewrite EO. exact HR.
  - rewrite EO, EI. cbn [s3_n s3_M s3_Minv set_state]. unfold world_mass, world_inverse_mass. split; apply (world_blocks n (fun i => turned (Rm i) _) _ i Hi).
Qed.
