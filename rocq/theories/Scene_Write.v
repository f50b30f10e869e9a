(* Every scene in range has a file that describes it. *)
From Coq Require Import ZArith NArith QArith Bool Ascii String List Lia ZifyBool ZifyNat ZifyN.
From Verif Require Import Outcome Str_Model Rational_Model RatParse_Model Scene_Text Scene_Model Scene_Spec Scene_TextProofs Scene_Proofs.
From Verif Require State_Spec State_Proofs.
Import ListNotations.
Open Scope string_scope.
Open Scope list_scope.

Definition writable {A} (f : node -> parse A) (v : A) : Prop :=
  exists at' ch, forall nm, f (Node nm at' ch) = accept v.

Lemma attr_hit nm a t at' ch : attr (Node nm ((a, t) :: at') ch) a = accept t.
Proof. unfold attr, first_attribute. cbn [attrs_of find fst]. rewrite seqb_refl. reflexivity. Qed.
Lemma attr_skip nm a b t at' ch : seqb b a = false -> attr (Node nm ((b, t) :: at') ch) a = attr (Node nm at' ch) a.
Proof. intros H. unfold attr, first_attribute. cbn [attrs_of find fst]. rewrite H. reflexivity. Qed.
Lemma child_hit nm at' a at2 ch2 ch : first_node (Node nm at' (Node a at2 ch2 :: ch)) a = Some (Node a at2 ch2).
Proof. unfold first_node, first_in. cbn [children_of find name_of]. rewrite seqb_refl. reflexivity. Qed.
Lemma child_skip nm at' a b at2 ch2 ch : seqb b a = false ->
  first_node (Node nm at' (Node b at2 ch2 :: ch)) a = first_node (Node nm at' ch) a.
Proof. intros H. unfold first_node, first_in. cbn [children_of find name_of]. rewrite H. reflexivity. Qed.

Ltac closed_seqb := match goal with
  | |- context [seqb (lit ?a) (lit ?b)] =>
      let v := eval vm_compute in (seqb (lit a) (lit b)) in change (seqb (lit a) (lit b)) with v end.
Ltac wstep := first
  [ rewrite attr_hit | rewrite attr_skip by reflexivity | rewrite child_hit | rewrite child_skip by reflexivity
  | rewrite pbind_accept | rewrite of_some | rewrite lift_ok
  | progress closed_seqb
  | match goal with
    | H : checked _ = Some _ |- _ => rewrite H
    | H : unchecked _ = Ok _ |- _ => rewrite H
    | H : forall nm, _ (Node nm ?a ?c) = accept _ |- context [Node _ ?a ?c] => rewrite H
    end ]; cbv beta iota; cbn [andb].
Ltac wgo := repeat wstep.
Ltac wguard := rewrite guard_true; [|first [now apply qle_not | now apply qlt_not | lia]].

Lemma scalar_w fp x : decimal fp x -> exists t, checked (read_scalar fp t) = Some x.
Proof. apply checked_writable. Qed.
Ltac dec H := let t := fresh "t" in let E := fresh "E" in destruct (checked_writable _ _ H) as (t & E).
Ltac loo H := let t := fresh "t" in let E := fresh "E" in destruct (unchecked_writable _ _ H) as (t & E).

Lemma end_time_w fp t : decimal fp t -> (0 < t)%Q -> writable (load_end_time fp) t.
Proof.
  intros D P. dec D. exists [(lit "t", t0)], []. intros nm. unfold load_end_time, scalar_attr. wgo. wguard. wgo. reflexivity.
Qed.
Lemma lcp_w fp bd ap s : lcp_ok fp bd ap s -> writable (load_lcp fp bd ap) s.
Proof.
  destruct s as [tol it|tol|tol|ws tol]; cbn [lcp_ok].
  - intros (-> & [D P] & R). dec D. destruct (unsigned_writable 32 it R) as (u & Eu).
    exists [(lit "name", lit "apgd"); (lit "tol", t); (lit "max_iters", u)], []. intros nm.
    unfold load_lcp, scalar_attr, unsigned_attr. wgo. wguard. wgo. reflexivity.
  - intros (Q & D). dec D. exists [(lit "name", lit "ql_vp"); (lit "tol", t)], []. intros nm.
    unfold load_lcp, scalar_attr, unsigned_attr. wgo. rewrite andb_false_r, Q. wgo. reflexivity.
  - intros (Q & D). dec D. exists [(lit "name", lit "ql"); (lit "tol", t)], []. intros nm.
    unfold load_lcp, scalar_attr, unsigned_attr. wgo. rewrite andb_false_r, Q. wgo. reflexivity.
  - intros (Q & N & W & D & P). dec D. destruct (words_writable ws W) as (u & Eu).
    exists [(lit "name", lit "ipopt"); (lit "tol", t); (lit "linear_solvers", u)], []. intros nm.
    unfold load_lcp, scalar_attr, unsigned_attr, load_words. wgo. rewrite !andb_false_r, Q. wgo. rewrite Eu.
    destruct ws as [|w ws]; [contradiction|]. wgo. wguard. wgo. reflexivity.
Qed.
(* with room for two more attributes in front *)
Definition spare (a : str) : Prop := a = lit "CoR" \/ a = lit "cache_impulses".
Lemma attr_spare nm a b at' ch : spare (fst b) -> seqb (lit "CoR") a = false -> seqb (lit "cache_impulses") a = false ->
  attr (Node nm (b :: at') ch) a = attr (Node nm at' ch) a.
Proof. destruct b as [b t]. cbn [fst]. intros [-> | ->] H1 H2; apply attr_skip; assumption. Qed.
Lemma impact_w fp bd ap o : impact_ok fp bd ap o -> exists at' ch, forall nm pre, Forall (fun b => spare (fst b)) pre ->
  load_impact fp bd ap (Node nm (pre ++ at') ch) = accept o.
Proof.
  assert (forall pre nm at' ch a, Forall (fun b => spare (fst b)) pre -> seqb (lit "CoR") a = false -> seqb (lit "cache_impulses") a = false ->
    attr (Node nm (pre ++ at') ch) a = attr (Node nm at' ch) a) as SP.
  { intros pre nm at' ch a H H1 H2. induction H as [|b pre Hb _ IH]; [reflexivity|]. cbn [app]. rewrite attr_spare by assumption. exact IH. }
  assert (forall nm at' at2 ch a, first_node (Node nm at' ch) a = first_node (Node nm at2 ch) a) as FN by reflexivity.
  induction o as [v|v|s|v s|e IHe i IHi]; cbn [impact_ok].
  - intros [D P]. dec D. exists [(lit "type", lit "gauss_seidel"); (lit "v_tol", t)], []. intros nm pre HP. rewrite load_impact_eq.
    unfold load_v_tol, scalar_attr. rewrite !SP by (exact HP || reflexivity). wgo. wguard. wgo. reflexivity.
  - intros [D P]. dec D. exists [(lit "type", lit "jacobi"); (lit "v_tol", t)], []. intros nm pre HP. rewrite load_impact_eq.
    unfold load_v_tol, scalar_attr. rewrite !SP by (exact HP || reflexivity). wgo. wguard. wgo. reflexivity.
  - intros L. destruct (lcp_w _ _ _ _ L) as (a1 & c1 & E1).
    exists [(lit "type", lit "lcp")], [Node "solver" a1 c1]. intros nm pre HP. rewrite load_impact_eq.
    unfold load_v_tol, scalar_attr, load_inner. rewrite !SP by (exact HP || reflexivity). wgo. reflexivity.
  - intros [[D P] L]. dec D. destruct (lcp_w _ _ _ _ L) as (a1 & c1 & E1).
    exists [(lit "type", lit "gr"); (lit "v_tol", t)], [Node "solver" a1 c1]. intros nm pre HP. rewrite load_impact_eq.
    unfold load_v_tol, scalar_attr, load_inner. rewrite !SP by (exact HP || reflexivity). wgo. wguard. wgo. reflexivity.
  - intros [H1 H2]. destruct (IHe H1) as (a1 & c1 & E1). destruct (IHi H2) as (a2 & c2 & E2).
    exists [(lit "type", lit "grr")], [Node "elastic_operator" a1 c1; Node "inelastic_operator" a2 c2]. intros nm pre HP.
    rewrite load_impact_eq. unfold child_impact. rewrite !SP by (exact HP || reflexivity). wgo.
    specialize (E1 "elastic_operator" [] (Forall_nil _)). specialize (E2 "inelastic_operator" [] (Forall_nil _)). cbn [app] in E1, E2.
    rewrite E1, E2. reflexivity.
Qed.
Lemma impact_cor_w fp bd ap op cor c : impact_ok fp bd ap op -> decimal fp cor -> c <> None ->
  writable (load_impact_cor fp bd ap) (op, cor, c).
Proof.
  intros H D N. destruct c as [c|]; [|contradiction]. dec D. destruct (bool_writable c) as (u & Eu & _).
  destruct (impact_w _ _ _ _ H) as (a1 & c1 & E1).
  exists ((lit "CoR", t) :: (lit "cache_impulses", u) :: a1), c1. intros nm.
  unfold load_impact_cor, scalar_attr, bool_attr. wgo.
  specialize (E1 nm [(lit "CoR", t); (lit "cache_impulses", u)]). cbn [app] in E1. rewrite E1.
  - reflexivity.
  - constructor; [left; reflexivity|]. constructor; [right; reflexivity|]. constructor.
Qed.

Lemma iter_w k : iterations k -> exists t, checked (read_int t) = Some k.
Proof. intros H. apply int_writable. unfold iterations, int_min, int_max in *. lia. Qed.
Lemma cor_guard cor : (0 <= cor <= 1)%Q -> negb (qlt cor 0 || qlt 1 cor) = true.
Proof. intros [H1 H2]. rewrite negb_orb. apply andb_true_intro. split; now apply qlt_not. Qed.

Lemma mdp_ball_w fp bd t : has_ql bd = true -> tolerance fp t -> writable (load_mdp_ball fp bd) (MdpQl t).
Proof.
  intros Q [D P]. dec D. exists [(lit "name", lit "ql"); (lit "tol", t0)], []. intros nm.
  unfold load_mdp_ball, load_tol, scalar_attr. wgo. rewrite Q. wgo. wguard. wgo. reflexivity.
Qed.
Lemma staggered_w fp lcp mdp wa wb l f m mu cor :
  writable lcp l -> writable mdp f -> friction_coefficients fp mu cor -> map_ok fp cor m ->
  match m with Geometric _ _ c => c = CacheNone | Stabilized _ _ => True | _ => False end ->
  writable (load_staggered fp lcp mdp) (Staggered wa wb l f, m, mu, cor).
Proof.
  intros (a1 & c1 & E1) (a2 & c2 & E2) (D1 & P1 & D2 & P2) HM K.
  dec D1. dec D2. destruct (bool_writable wa) as (u & Eu & _). destruct (bool_writable wb) as (v & Ev & _).
  assert (exists tol k, tolerance fp tol /\ iterations k /\ (m = Geometric tol k CacheNone \/ m = Stabilized tol k)) as (tol & k & [D3 P3] & I & Em).
  { destruct m as [tol k c|tol k c b p|tol k]; cbn [map_ok] in HM; [subst c|contradiction|]; exists tol, k; tauto. }
  clear HM K. dec D3. destruct (iter_w k I) as (w & Ew). unfold iterations in I.
  set (kind := match m with Geometric _ _ _ => lit "geometric" | _ => lit "stabilized" end).
  exists [(lit "mu", t); (lit "CoR", t0); (lit "internal_warm_start_alpha", u); (lit "internal_warm_start_beta", v);
          (lit "staggering", kind); (lit "tol", t1); (lit "max_iters", w)],
    [Node "lcp_impact_solver" a1 c1; Node "mdp_friction_solver" a2 c2]. intros nm.
  unfold load_staggered, load_mu, load_cor, load_tol, load_max_iters, scalar_attr, bool_attr, int_attr. wgo. wguard. wgo.
  rewrite guard_true by (apply cor_guard, P2). wgo. wguard. wgo. wguard. wgo. subst kind.
  destruct Em as [-> | ->]; wgo; reflexivity.
Qed.
Lemma sobogus_ball_w fp e m mu cor : friction_coefficients fp mu cor -> map_ok fp cor m -> (0 < e <= map_iterations m)%Z ->
  writable (load_sobogus_ball fp) (Sobogus e, m, mu, cor).
Proof.
  intros (D1 & P1 & D2 & P2) HM He. dec D1. dec D2.
  assert (exists tol, tolerance fp tol /\ iterations (map_iterations m) /\
     match m with Geometric t _ _ => t = tol | SymplecticEulerMap t _ _ _ _ => t = tol | Stabilized t _ => t = tol end) as (tol & [D3 P3] & I & Et).
  { destruct m as [tol k c|tol k c b p|tol k]; cbn [map_ok map_iterations] in *; exists tol; tauto. }
  dec D3. destruct (iter_w _ I) as (w & Ew). unfold iterations in I.
  destruct (int_writable e) as (x & Ex); [unfold int_min, int_max; lia|].
  set (cache := match m with Geometric _ _ c => c | SymplecticEulerMap _ _ c _ _ => c | _ => CacheNone end).
  set (ctext := match cache with CacheNone => lit "none" | CacheNormal => lit "normal" | CacheBoth => lit "normal_and_friction" end).
  assert (exists st pt, match m with SymplecticEulerMap _ _ _ b p => checked (read_bool st) = Some b /\ checked (read_scalar fp pt) = Some p | _ => True end) as (st & pt & Es).
  { destruct m as [| tol' k c b p |]; try (exists [], []; exact Logic.I). cbn [map_ok] in HM. destruct HM as (_ & _ & [Dp _] & _).
    destruct (bool_writable b) as (st & Hs & _). destruct (checked_writable _ _ Dp) as (pt & Hp). exists st, pt. auto. }
  set (kind := match m with Geometric _ _ _ => lit "geometric" | SymplecticEulerMap _ _ _ _ _ => lit "symplectic_euler" | _ => lit "stabilized" end).
  exists [(lit "mu", t); (lit "CoR", t0); (lit "max_iters", w); (lit "eval_every", x); (lit "tol", t1);
          (lit "cache_impulses", ctext); (lit "staggering", kind); (lit "stabilization", st); (lit "penetration_threshold", pt)], [].
  intros nm. unfold load_sobogus_ball, load_mu, load_cor, load_tol, load_max_iters, load_eval_every, scalar_attr, int_attr.
  wgo. wguard. wgo. rewrite guard_true by (apply cor_guard, P2). wgo. wguard. wgo. wguard. wgo. wguard. wgo. wguard. wgo.
  assert (forall nm at', load_caching (Node nm ((lit "cache_impulses", ctext) :: at') []) = accept cache) as EC.
  { intros nm' at'. unfold load_caching. wgo. subst ctext. destruct cache; wgo; reflexivity. }
  assert (forall nm at' ch b u, seqb b "cache_impulses" = false -> load_caching (Node nm ((b, u) :: at') ch) = load_caching (Node nm at' ch)) as ES.
  { intros. unfold load_caching. rewrite attr_skip by assumption. reflexivity. }
  rewrite !ES by reflexivity. rewrite EC. wgo. subst kind cache. destruct m as [tol' k c|tol' k c b p|tol' k]; subst tol'; wgo; try reflexivity.
  cbn [map_ok] in HM. destruct HM as (_ & _ & [_ Pp] & Z). destruct Es as [Es Ep].
  unfold load_stabilization, bool_attr, scalar_attr. rewrite guard_true by (apply Qeq_bool_iff, Z). wgo. wguard. wgo. reflexivity.
Qed.

Lemma ball_w fp b : ball_ok fp b -> writable (load_ball fp) b.
Proof.
  destruct b as [[x y] [vx vy] m r f]. unfold ball_ok. cbn [b_x b_v b_m b_r fst snd]. intros (H1 & H2 & H3 & H4 & H5 & H6).
  loo H1. loo H2. loo H3. loo H4. loo H5. loo H6. destruct (bool_writable f) as (u & _ & Eu).
  exists [(lit "x", t); (lit "y", t0); (lit "vx", t1); (lit "vy", t2); (lit "m", t3); (lit "r", t4); (lit "fixed", u)], [].
  intros nm. unfold load_ball, loose_scalar, loose_bool. wgo. reflexivity.
Qed.
Lemma drum_w fp d : loose fp (fst (fst d)) /\ loose fp (snd (fst d)) /\ loose fp (snd d) -> writable (load_drum fp) d.
Proof.
  destruct d as [[x y] r]. cbn [fst snd]. intros (H1 & H2 & H3). loo H1. loo H2. loo H3.
  exists [(lit "x", t); (lit "y", t0); (lit "r", t1)], []. intros nm. unfold load_drum, loose_scalar. wgo. reflexivity.
Qed.
Lemma plane_ball_w fp p : plane2_ok fp p -> writable (load_plane_ball fp) p.
Proof.
  destruct p as [[x y] [nx ny]]. cbn. intros (H1 & H2 & H3 & H4).
  destruct (scalars_writable fp [x; y]) as (t & E); [repeat constructor; assumption|].
  destruct (scalars_writable fp [nx; ny]) as (u & E'); [repeat constructor; assumption|].
  exists [(lit "x", t); (lit "n", u)], []. intros nm. unfold load_plane_ball, pair_attr. wgo. rewrite E. wgo. rewrite E'. reflexivity.
Qed.
Lemma gravity_w fp f : ball_force_ok fp f -> is_gravity f = true -> writable (load_gravity_ball fp) f.
Proof.
  destruct f as [[x y]|]; [|discriminate]. cbn [ball_force_ok]. intros (H1 & H2) _. loo H1. loo H2.
  exists [(lit "fx", t); (lit "fy", t0)], []. intros nm. unfold load_gravity_ball, loose_scalar. wgo. reflexivity.
Qed.
Lemma penalty_w fp f : ball_force_ok fp f -> is_gravity f = false -> writable (load_penalty fp) f.
Proof.
  destruct f as [|k p]; [discriminate|]. cbn [ball_force_ok]. intros ([D P] & D2) _. dec D. dec D2.
  exists [(lit "stiffness", t); (lit "potential_power", t0)], []. intros nm. unfold load_penalty, scalar_attr. wgo. wguard. wgo. reflexivity.
Qed.

(* lists of elements of one name *)
Definition named (a : str) (l : list node) : Prop := Forall (fun n => name_of n = a) l.
Lemma each_w {A} (f : node -> parse A) (a : str) vs : Forall (writable f) vs -> exists l, named a l /\ each f l = accept vs.
Proof.
  induction 1 as [|v vs (at' & ch & E) _ (l & N & El)]; [exists []; split; [constructor|reflexivity]|].
  exists (Node a at' ch :: l). split; [constructor; [reflexivity|exact N]|]. cbn [each]. rewrite E, pbind_accept, El. reflexivity.
Qed.
Lemma named_hit a l : named a l -> filter (fun c => seqb (name_of c) a) l = l.
Proof. induction 1 as [|n l E _ IH]; [reflexivity|]. cbn [filter]. rewrite E, seqb_refl, IH. reflexivity. Qed.
Lemma named_miss a b l : named b l -> seqb b a = false -> filter (fun c => seqb (name_of c) a) l = [].
Proof. induction 1 as [|n l E _ IH]; intros H; [reflexivity|]. cbn [filter]. rewrite E, H. apply IH, H. Qed.
Lemma find_hd {A} f (l : list A) : find f l = hd_error (filter f l).
Proof. induction l as [|x l IH]; [reflexivity|]. cbn [find filter]. destruct (f x); [reflexivity|exact IH]. Qed.
Lemma first_node_hd n a : first_node n a = hd_error (elements n a).
Proof. apply find_hd. Qed.

(* portals *)
Lemma in_flat_seq used n i : flat used = seq 0 (2 * n) -> (2 * n <= i)%nat -> taken i used = false.
Proof.
  intros E H. destruct (taken i used) eqn:T; [|reflexivity]. apply taken_iff in T. rewrite E in T. apply in_seq in T. lia.
Qed.
Lemma index_w np i at' nm ch : (i < np)%nat -> (Z.of_nat i < 2 ^ 32)%Z -> exists t, forall a,
  plane_index np (Node nm ((a, t) :: at') ch) a = accept i.
Proof.
  intros H1 H2. destruct (unsigned_writable 32 (Z.of_nat i)) as (t & E); [lia|]. exists t. intros a'.
  unfold plane_index, unsigned_attr. wgo. wguard. wgo. rewrite Nat2Z.id. reflexivity.
Qed.
Definition pairs_from (k : nat) {E} (es : list E) : list (nat * nat * E) :=
  combine (map (fun i => (2 * i, 2 * i + 1)%nat) (seq k (List.length es))) es.
Lemma pairs_flat {E} (es : list E) : forall k, flat (map fst (pairs_from k es)) = seq (2 * k) (2 * List.length es).
Proof.
  unfold pairs_from, flat. induction es as [|e es IH]; intros k; [reflexivity|].
  cbn [List.length seq map combine fst snd concat app]. rewrite IH.
  replace (2 * S (List.length es))%nat with (S (S (2 * List.length es))) by lia. cbn [seq].
  replace (2 * k + 1)%nat with (S (2 * k)) by lia. replace (2 * S k)%nat with (S (S (2 * k))) by lia. reflexivity.
Qed.
Lemma links_w {E} (extra : node -> parse E) (nm : str) np es : forall k used,
  Forall (fun e => exists pre, Forall (fun p => seqb (fst p) "planeA" = false /\ seqb (fst p) "planeB" = false) pre /\
     forall post, extra (Node nm (pre ++ post) []) = accept e) es ->
  flat used = seq 0 (2 * k) -> (2 * (k + List.length es) <= np)%nat -> (2 * Z.of_nat (k + List.length es) <= 2 ^ 32)%Z ->
  exists l, named nm l /\ load_links extra np used l = accept (pairs_from k es).
Proof.
  induction es as [|e es IH]; intros k used HE HU HN HZ; [exists []; split; [constructor|reflexivity]|].
  cbn [List.length] in *. inversion HE as [|? ? (pre & HP & Ee) HE']; subst.
  destruct (unsigned_writable 32 (Z.of_nat (2 * k))) as (ta & Ea); [lia|].
  destruct (unsigned_writable 32 (Z.of_nat (2 * k + 1))) as (tb & Eb); [lia|].
  destruct (IH (S k) (used ++ [(2 * k, 2 * k + 1)%nat]) HE') as (l & N & El).
  { rewrite flat_app, HU. change (flat [(2 * k, 2 * k + 1)%nat]) with [(2 * k)%nat; (2 * k + 1)%nat].
    replace (2 * S k)%nat with (2 * k + 2)%nat by lia. rewrite seq_app. cbn [seq plus].
    replace (2 * k + 1)%nat with (S (2 * k)) by lia. reflexivity. }
  { lia. } { lia. }
  exists (Node nm (pre ++ [(lit "planeA", ta); (lit "planeB", tb)]) [] :: l). split; [constructor; [reflexivity|exact N]|].
  cbn [load_links]. unfold portal_indices, plane_index, unsigned_attr.
  assert (forall a post, a = lit "planeA" \/ a = lit "planeB" -> attr (Node nm (pre ++ post) []) a = attr (Node nm post []) a) as SP.
  { intros a post Ha. clear -HP Ha. induction HP as [|[b u] pre [H1 H2] _ IHp]; [reflexivity|]. cbn [app]. rewrite attr_skip; [exact IHp|].
    destruct Ha as [-> | ->]; assumption. }
  rewrite !SP by auto. wgo. wguard. wgo. wguard. wgo. rewrite !Nat2Z.id. rewrite (guard_true (negb (_ =? _)%nat)) by lia. wgo.
  rewrite (in_flat_seq used k (2 * k)), (in_flat_seq used k (2 * k + 1)) by (exact HU || lia). cbn [orb negb]. rewrite guard_true by reflexivity. wgo.
  rewrite Ee. wgo. rewrite El. wgo. reflexivity.
Qed.
Lemma picked_pairs {P E} (base : list P) (ps : list (P * P * E)) : forall k pre, List.length pre = (2 * k)%nat ->
  Forall2 (picked (pre ++ flat_map (fun p => [fst (fst p); snd (fst p)]) ps ++ base)) (pairs_from k (map snd ps)) ps.
Proof.
  induction ps as [|[[a b] e] ps IH]; intros k pre HL; [constructor|].
  unfold pairs_from. cbn [map List.length seq combine flat_map fst snd app]. constructor.
  - unfold picked. cbn [fst snd]. repeat split.
    + rewrite nth_error_app2 by lia. replace (2 * k - _)%nat with 0%nat by lia. reflexivity.
    + rewrite nth_error_app2 by lia. replace (2 * k + 1 - _)%nat with 1%nat by lia. reflexivity.
  - specialize (IH (S k) (pre ++ [a; b])). rewrite <- app_assoc in IH. apply IH. rewrite app_length. cbn [List.length]. lia.
Qed.
Lemma pairs_app {E} (a b : list E) : forall k, pairs_from k (a ++ b) = pairs_from k a ++ pairs_from (k + List.length a) b.
Proof.
  unfold pairs_from. induction a as [|e a IH]; intros k; [rewrite Nat.add_0_r; reflexivity|].
  cbn [app List.length seq map combine]. rewrite IH. replace (S k + List.length a)%nat with (k + S (List.length a))%nat by lia. reflexivity.
Qed.
Lemma flat_map_length2 {A B} (f : A -> B) (g : A -> B) l : List.length (flat_map (fun p => [f p; g p]) l) = (2 * List.length l)%nat.
Proof. induction l as [|x l IH]; [reflexivity|]. cbn [flat_map app List.length]. rewrite IH. lia. Qed.

Lemma portals_w {P} fp (bok : Q -> bool) (bprop : Q -> Prop) (pok : P -> Prop) (rest : list P) portals :
  (forall b, bprop b -> bok b = true) -> portals2_ok fp pok bprop portals ->
  exists planes pl le, named "planar_portal" pl /\ named "lees_edwards_portal" le /\
    planes = flat_map (fun p => [fst (fst p); snd (fst p)]) portals ++ rest /\
    forall root, elements root "planar_portal" = pl -> elements root "lees_edwards_portal" = le ->
    load_portals fp bok root planes = accept (rest, portals).
Proof.
  intros HB (_ & HZ & still & moving & -> & HS & HM).
  set (planes := flat_map (fun p => [fst (fst p); snd (fst p)]) (still ++ moving) ++ rest).
  assert (List.length planes = 2 * List.length (still ++ moving) + List.length rest)%nat as HL.
  { unfold planes. rewrite app_length, flat_map_length2. reflexivity. }
  rewrite app_length in HZ, HL.
  destruct (links_w (fun _ => accept (0%Q, 0%Q)) "planar_portal" (List.length planes) (map snd still) 0 []) as (pl & N1 & E1).
  { apply Forall_map. eapply Forall_impl; [|exact HS]. intros p ->. exists []. split; [constructor|reflexivity]. }
  { reflexivity. } { rewrite map_length. lia. } { rewrite map_length. lia. }
  destruct (links_w (load_lees_edwards fp bok) "lees_edwards_portal" (List.length planes) (map snd moving) (List.length still)
    (map fst (pairs_from 0 (map snd still)))) as (le & N2 & E2).
  { apply Forall_map. eapply Forall_impl; [|exact HM]. intros p (D1 & D2 & B). dec D1. dec D2.
    exists [(lit "v", t); (lit "bounds", t0)]. split; [repeat constructor|]. intros post. cbn [app].
    unfold load_lees_edwards, scalar_attr. wgo. rewrite guard_true by (apply HB, B). wgo. destruct p as [? [? ?]]. reflexivity. }
  { rewrite pairs_flat, map_length. reflexivity. } { rewrite map_length. lia. } { rewrite map_length. lia. }
  exists planes, pl, le. split; [exact N1|]. split; [exact N2|]. split; [reflexivity|].
  intros root R1 R2. unfold load_portals. rewrite R1, R2.
  assert (pairs_from 0 (map snd still) ++ pairs_from (List.length still) (map snd moving) = pairs_from 0 (map snd (still ++ moving))) as EP.
  { rewrite map_app, pairs_app, map_length. reflexivity. }
  assert (omapM (join_planes planes) (pairs_from 0 (map snd (still ++ moving))) = Ok (still ++ moving)) as EJ.
  { apply omapM_iff. pose proof (picked_pairs rest (still ++ moving) 0 [] eq_refl) as K. cbn [app] in K. fold planes in K.
    eapply State_Proofs.forall2_impl; [|exact K]. intros x y. apply join_planes_iff. }
  assert (erase_all planes (flat (map fst (pairs_from 0 (map snd (still ++ moving))))) = Ok rest) as ER.
  { rewrite erase_all_without; rewrite pairs_flat, map_length.
    - f_equal. rewrite State_Proofs.without_keep. unfold planes. rewrite State_Proofs.keep_app, keep_all.
      + cbn [app]. apply keep_none. intros i Hi. rewrite flat_map_length2 in Hi.
        destruct (existsb _ _) eqn:X; [|reflexivity]. apply existsb_exists in X as (j & Hj & X). apply in_seq in Hj.
        apply Nat.eqb_eq in X. lia.
      + intros i Hi. rewrite flat_map_length2 in Hi. apply existsb_exists. exists i. split; [apply in_seq; lia|apply Nat.eqb_refl].
    - apply seq_NoDup.
    - apply Forall_forall. intros i Hi. apply in_seq in Hi. rewrite HL, <- app_length. lia. }
  destruct pl as [|p0 pl]; [destruct le as [|l0 le]|].
  - cbn [load_links] in E1, E2. apply (f_equal (fun x => match x with Ok (Some l) => List.length l | _ => 0%nat end)) in E1, E2.
    cbn [accept] in E1, E2. unfold pairs_from in E1, E2. rewrite combine_length, !map_length, seq_length in E1, E2. rewrite ?map_length in E1, E2.
    cbn [List.length] in E1, E2. destruct still; [|cbn [List.length] in E1; lia]. destruct moving; [|cbn [List.length] in E2; lia].
    reflexivity.
  - assert (2 <= List.length planes)%nat.
    { destruct moving; [|cbn [List.length] in HL; lia]. exfalso. cbn [map pairs_from] in E2. cbn [load_links] in E2.
      apply pbind_inv in E2 as (? & _ & E2). apply pbind_inv in E2 as (? & _ & E2). apply pbind_inv in E2 as (? & _ & E2). discriminate. }
    cbv zeta. rewrite (guard_true (negb _)) by lia. wgo. rewrite E1. wgo. rewrite E2. wgo. rewrite EP, EJ. wgo. rewrite ER. reflexivity.
  - assert (2 <= List.length planes)%nat.
    { destruct still; [|cbn [List.length] in HL; lia]. exfalso. cbn [map pairs_from] in E1. cbn [load_links] in E1.
      apply pbind_inv in E1 as (? & _ & E1). apply pbind_inv in E1 as (? & _ & E1). apply pbind_inv in E1 as (? & _ & E1). discriminate. }
    cbv zeta. rewrite (guard_true (negb _)) by lia. wgo. rewrite E1. wgo. rewrite E2. wgo. rewrite EP, EJ. wgo. rewrite ER. reflexivity.
Qed.
