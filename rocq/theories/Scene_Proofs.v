From Coq Require Import ZArith NArith QArith Bool Ascii String List Lia ZifyBool ZifyNat ZifyN Permutation Sorted.
From Verif Require Import Outcome Str_Model Str_Spec Str_Proofs Rational_Model RatParse_Model Scene_Text Scene_Model Scene_Spec Scene_TextProofs.
From Verif Require State_Spec State_Proofs.
Import ListNotations.
Open Scope string_scope.
Open Scope list_scope.

(* ---------------------------------------------------------------- strings and bindings *)
Lemma seqb_true a b : seqb a b = true <-> a = b.
Proof. unfold seqb. destruct (list_eq_dec ascii_dec a b); split; congruence. Qed.
Lemma seqb_refl a : seqb a a = true.
Proof. now apply seqb_true. Qed.
Lemma seqb_false a b : seqb a b = false <-> a <> b.
Proof. unfold seqb. destruct (list_eq_dec ascii_dec a b); split; congruence. Qed.

Lemma pbind_inv {A B} (x : parse A) (f : A -> parse B) b :
  pbind x f = Ok (Some b) -> exists a, x = Ok (Some a) /\ f a = Ok (Some b).
Proof. unfold pbind. destruct x as [[a|]| |]; cbn [obind]; try discriminate. eauto. Qed.
Lemma pbind_accept {A B} (a : A) (f : A -> parse B) : pbind (accept a) f = f a.
Proof. reflexivity. Qed.
Lemma pbind_ok {A B} (a : A) (f : A -> parse B) : pbind (Ok (Some a)) f = f a.
Proof. reflexivity. Qed.
Lemma of_some {A} (a : A) : of_option (Some a) = accept a.
Proof. reflexivity. Qed.
Lemma guard_true b : b = true -> guard b = accept tt.
Proof. intros ->. reflexivity. Qed.
Lemma guard_inv b u : guard b = Ok (Some u) -> b = true.
Proof. destruct b; [reflexivity|discriminate]. Qed.
Lemma lift_ok {A} (a : A) : lift (Ok a) = accept a.
Proof. reflexivity. Qed.
Lemma lift_inv {A} (x : outcome A) a : lift x = Ok (Some a) -> x = Ok a.
Proof. unfold lift, accept. destruct x; cbn [obind]; try discriminate. intros H. injection H as ->. reflexivity. Qed.
Lemma accept_inv {A} (a b : A) : accept a = Ok (Some b) -> a = b.
Proof. unfold accept. congruence. Qed.
Lemma of_option_inv {A} (o : option A) a : of_option o = Ok (Some a) -> o = Some a.
Proof. unfold of_option. congruence. Qed.
Lemma reject_inv {A} (a : A) : reject = Ok (Some a) -> False.
Proof. discriminate. Qed.

Ltac pstep H := lazymatch type of H with pbind _ _ = _ => idtac end; let a := fresh "a" in let Ha := fresh "Ha" in apply pbind_inv in H as (a & Ha & H); cbv beta in H.
Ltac pgo H :=
  repeat (pstep H);
  repeat match goal with
  | K : guard _ = Ok (Some _) |- _ => apply guard_inv in K
  | K : accept _ = Ok (Some _) |- _ => apply accept_inv in K
  | K : reject = Ok (Some _) |- _ => destruct (reject_inv _ K)
  | K : lift _ = Ok (Some _) |- _ => apply lift_inv in K
  | K : of_option _ = Ok (Some _) |- _ => apply of_option_inv in K
  end.

Lemma scalar_attr_inv fp n a x : scalar_attr fp n a = Ok (Some x) -> decimal fp x.
Proof. unfold scalar_attr. intros H. pgo H. eapply checked_scalar, H. Qed.
Lemma loose_scalar_inv fp n a x : loose_scalar fp n a = Ok (Some x) -> loose fp x.
Proof. unfold loose_scalar. intros H. pgo H. eapply unchecked_scalar, H. Qed.
Lemma int_attr_inv n a x : int_attr n a = Ok (Some x) -> (int_min <= x <= int_max)%Z.
Proof. unfold int_attr. intros H. pgo H. eapply checked_int, H. Qed.
Lemma unsigned_attr_inv n a x : unsigned_attr n a = Ok (Some x) -> (0 <= x < 2 ^ 32)%Z.
Proof. unfold unsigned_attr. intros H. pgo H. eapply checked_unsigned, H. lia. Qed.

Lemma qle_iff a b : qle a b = true <-> (a <= b)%Q.
Proof. apply Qle_bool_iff. Qed.
Lemma qle_not a b : negb (qle a b) = true <-> (b < a)%Q.
Proof.
  unfold qle. destruct (Qle_bool a b) eqn:E; cbn [negb].
  - apply Qle_bool_iff in E. split; [discriminate|]. intros H. exfalso. apply (Qlt_not_le _ _ H E).
  - split; [intros _|reflexivity]. apply Qnot_le_lt. intros H. apply Qle_bool_iff in H. congruence.
Qed.
Lemma qlt_iff a b : qlt a b = true <-> (a < b)%Q.
Proof. unfold qlt. apply (qle_not b a). Qed.
Lemma qlt_not a b : negb (qlt a b) = true <-> (b <= a)%Q.
Proof. unfold qlt. rewrite negb_involutive. apply Qle_bool_iff. Qed.

(* ---------------------------------------------------------------- what an accepted setting satisfies *)
Lemma load_end_time_inv fp n t : load_end_time fp n = Ok (Some t) -> decimal fp t /\ (0 < t)%Q.
Proof.
  unfold load_end_time. intros H. pgo H. subst. apply qle_not in Ha0. apply scalar_attr_inv in Ha. auto.
Qed.
Lemma load_dt_inv n t d : load_dt n = Ok (Some (t, d)) -> parse_rational t = Ok (Some d) /\ (0 < num d)%Z.
Proof.
  unfold load_dt. intros H. pgo H. injection H as -> ->. split; [exact Ha0|]. unfold positive in Ha1. lia.
Qed.
Lemma load_words_inv n a w : load_words n a = Ok (Some w) -> w <> [] /\ Forall word w.
Proof.
  unfold load_words. intros H. pgo H. pose proof (read_words_words a0) as W. destruct (read_words a0); pgo H. subst.
  split; [discriminate|exact W].
Qed.
Ltac branches H :=
  repeat match type of H with
  | (if ?b then _ else _) = Ok (Some _) => let E := fresh "B" in destruct b eqn:E
  end; pgo H.
Lemma load_lcp_inv fp bd ap n s : load_lcp fp bd ap n = Ok (Some s) -> lcp_ok fp bd ap s.
Proof.
  unfold load_lcp. intros H. pstep H. branches H; subst; cbn [lcp_ok];
  repeat match goal with
  | K : scalar_attr _ _ _ = _ |- _ => apply scalar_attr_inv in K
  | K : negb (qle _ _) = true |- _ => apply qle_not in K
  | K : unsigned_attr _ _ = _ |- _ => apply unsigned_attr_inv in K
  | K : load_words _ _ = _ |- _ => apply load_words_inv in K
  | K : (_ && _)%bool = true |- _ => apply andb_prop in K as [? ?]
  end; unfold strict_tolerance; tauto.
Qed.
Lemma load_v_tol_inv fp n v : load_v_tol fp n = Ok (Some v) -> tolerance fp v.
Proof. unfold load_v_tol. intros H. pgo H. subst. apply qlt_not in Ha0. apply scalar_attr_inv in Ha. split; auto. Qed.
Lemma load_inner_inv fp bd ap n s : load_inner fp bd ap n = Ok (Some s) -> lcp_ok fp bd ap s.
Proof. unfold load_inner. destruct (first_node n "solver"); intros H; pgo H. eapply load_lcp_inv, H. Qed.

(* the nested loops of load_impact are first_node *)
Definition child_impact fp bd ap (n : node) (a : str) : parse impact_op :=
  match first_node n a with None => reject | Some c => load_impact fp bd ap c end.
Lemma load_impact_eq fp bd ap n : load_impact fp bd ap n =
  let? type := attr n "type" in
  if seqb type "gauss_seidel" then let? v := load_v_tol fp n in accept (GaussSeidel v)
  else if seqb type "jacobi" then let? v := load_v_tol fp n in accept (Jacobi v)
  else if seqb type "lcp" then let? s := load_inner fp bd ap n in accept (Lcp s)
  else if seqb type "gr" then
    let? v := load_v_tol fp n in let? s := load_inner fp bd ap n in accept (Gr v s)
  else if seqb type "grr" then
    let? e := child_impact fp bd ap n "elastic_operator" in
    let? i := child_impact fp bd ap n "inelastic_operator" in
    accept (Grr e i)
  else reject.
Proof.
  assert (forall a l, (fix go (l : list node) : parse impact_op :=
                 match l with
                 | [] => reject
                 | c :: t => if seqb (name_of c) a then load_impact fp bd ap c else go t
                 end) l = match first_in l a with None => reject | Some c => load_impact fp bd ap c end) as G.
  { intros a l. induction l as [|c t IH]; [reflexivity|]. unfold first_in in *. cbn [find].
    destruct (seqb (name_of c) a); [reflexivity|exact IH]. }
  destruct n as [nm at' ch]. unfold child_impact, first_node. cbn [children_of]. rewrite <- !G. reflexivity.
Qed.
Lemma load_impact_inv fp bd ap : forall o n, load_impact fp bd ap n = Ok (Some o) -> impact_ok fp bd ap o.
Proof.
  induction o as [v|v|s|v s|e IHe i IHi]; intros n H; rewrite load_impact_eq in H; pstep H; branches H;
    try discriminate H; cbn [impact_ok].
  - injection H as ->. eapply load_v_tol_inv; eassumption.
  - injection H as ->. eapply load_v_tol_inv; eassumption.
  - injection H as ->. eapply load_inner_inv; eassumption.
  - injection H as -> ->. split; [eapply load_v_tol_inv|eapply load_inner_inv]; eassumption.
  - injection H as -> ->. unfold child_impact in *.
    destruct (first_node n "elastic_operator"); [|discriminate].
    destruct (first_node n "inelastic_operator"); [|discriminate]. split; [eapply IHe|eapply IHi]; eassumption.
Qed.

Lemma load_mu_inv fp n x : load_mu fp n = Ok (Some x) -> decimal fp x /\ (0 <= x)%Q.
Proof. unfold load_mu. intros H. pgo H. subst. apply qlt_not in Ha0. apply scalar_attr_inv in Ha. auto. Qed.
Lemma load_cor_inv fp n x : load_cor fp n = Ok (Some x) -> decimal fp x /\ (0 <= x <= 1)%Q.
Proof.
  unfold load_cor. intros H. pgo H. subst. rewrite negb_orb in Ha0. apply andb_prop in Ha0 as [H1 H2].
  apply qlt_not in H1, H2. apply scalar_attr_inv in Ha. auto.
Qed.
Lemma load_tol_inv fp n x : load_tol fp n = Ok (Some x) -> tolerance fp x.
Proof. unfold load_tol. intros H. pgo H. subst. apply qlt_not in Ha0. apply scalar_attr_inv in Ha. split; auto. Qed.
Lemma load_max_iters_inv n k : load_max_iters n = Ok (Some k) -> iterations k.
Proof. unfold load_max_iters, iterations. intros H. pgo H. subst. apply int_attr_inv in Ha. unfold int_max in Ha. lia. Qed.
Lemma load_eval_every_inv n k e : load_eval_every n k = Ok (Some e) -> (0 < e <= k)%Z.
Proof. unfold load_eval_every. intros H. pgo H. subst. lia. Qed.
Lemma load_stabilization_inv fp n cor b p : load_stabilization fp n cor = Ok (Some (b, p)) ->
  (cor == 0)%Q /\ tolerance fp p.
Proof.
  unfold load_stabilization. intros H. pgo H. injection H as -> ->. apply Qeq_bool_iff in Ha.
  apply qlt_not in Ha2. apply scalar_attr_inv in Ha1. split; [exact Ha|split; auto].
Qed.

Definition staggered_ok fp (lcp : lcp_solver -> Prop) (mdp : friction_op -> Prop)
  (x : friction_solver * friction_map * Q * Q) : Prop :=
  let '(s, m, mu, cor) := x in
  friction_coefficients fp mu cor /\ map_ok fp cor m /\
  match s with Staggered _ _ l f => lcp l /\ mdp f | _ => False end /\
  match m with Geometric _ _ c => c = CacheNone | Stabilized _ _ => True | _ => False end.
Lemma load_staggered_inv fp lcp mdp (LP : lcp_solver -> Prop) (MP : friction_op -> Prop) n x :
  (forall n s, lcp n = Ok (Some s) -> LP s) -> (forall n s, mdp n = Ok (Some s) -> MP s) ->
  load_staggered fp lcp mdp n = Ok (Some x) -> staggered_ok fp LP MP x.
Proof.
  intros HL HM H. unfold load_staggered in H. repeat pstep H.
  apply load_mu_inv in Ha. apply load_cor_inv in Ha0. apply HL in Ha4. apply HM in Ha6.
  apply load_tol_inv in Ha8. apply load_max_iters_inv in Ha9.
  branches H; subst; unfold staggered_ok, friction_coefficients, map_ok; tauto.
Qed.
Lemma load_mdp_ball_inv fp bd n f : load_mdp_ball fp bd n = Ok (Some f) ->
  match f with MdpQl t => has_ql bd = true /\ tolerance fp t | _ => False end.
Proof.
  unfold load_mdp_ball. intros H. pstep H. branches H; subst. apply andb_prop in B as [B _].
  split; [exact B|]. eapply load_tol_inv; eassumption.
Qed.
Definition fsolver_ok fp (ok : friction_solver -> friction_map -> Prop) (x : friction_solver * friction_map * Q * Q) : Prop :=
  let '(s, m, mu, cor) := x in friction_coefficients fp mu cor /\ map_ok fp cor m /\ ok s m.
Lemma load_staggered_ball_inv fp bd n x : load_staggered fp (load_lcp fp bd true) (load_mdp_ball fp bd) n = Ok (Some x) ->
  fsolver_ok fp (ball_solver_ok fp bd) x.
Proof.
  intros H. eapply load_staggered_inv in H; [|apply load_lcp_inv|apply load_mdp_ball_inv].
  destruct x as [[[s m] mu] cor]. unfold staggered_ok, fsolver_ok in *. destruct H as (H1 & H2 & H3 & H4).
  split; [exact H1|]. split; [exact H2|]. destruct s as [wa wb l f| |]; [|contradiction H3..].
  destruct f; [|tauto]. cbn [ball_solver_ok]. tauto.
Qed.
Lemma load_sobogus_ball_inv fp bd n x : load_sobogus_ball fp n = Ok (Some x) -> fsolver_ok fp (ball_solver_ok fp bd) x.
Proof.
  unfold load_sobogus_ball. intros H. do 7 pstep H.
  apply load_mu_inv in Ha. apply load_cor_inv in Ha0. apply load_max_iters_inv in Ha1.
  apply load_eval_every_inv in Ha2. apply load_tol_inv in Ha3.
  destruct (seqb a5 "geometric"); [pgo H; subst; unfold fsolver_ok, friction_coefficients, map_ok; cbn [ball_solver_ok map_iterations]; tauto|].
  destruct (seqb a5 "symplectic_euler").
  - pgo H. subst. destruct a6 as [b p]. apply load_stabilization_inv in Ha6.
    unfold fsolver_ok, friction_coefficients, map_ok; cbn [ball_solver_ok map_iterations fst snd]; tauto.
  - destruct (seqb a5 "stabilized"); [|pgo H]. destruct a4; pgo H; try discriminate H. subst.
    unfold fsolver_ok, friction_coefficients, map_ok; cbn [ball_solver_ok map_iterations fst snd]; tauto.
Qed.
Lemma load_impact_cor_inv fp bd ap n op cor c : load_impact_cor fp bd ap n = Ok (Some (op, cor, c)) ->
  impact_ok fp bd ap op /\ decimal fp cor /\ c <> None.
Proof.
  unfold load_impact_cor. intros H. pgo H. injection H as -> -> <-.
  apply scalar_attr_inv in Ha. apply load_impact_inv in Ha1. repeat split; auto. discriminate.
Qed.

Lemma load_solvers_inv root (fok : friction_solver * friction_map * Q * Q -> Prop) solvers :
  Forall (fun p => forall n x, snd p n = Ok (Some x) -> fok x) solvers ->
  forall busy r0 r, load_solvers root busy solvers r0 = Ok (Some r) ->
  r = r0 \/ exists s m mu cor, r = Friction s m mu cor /\ fok (s, m, mu, cor).
Proof.
  induction 1 as [|[a f] solvers Hf _ IH]; intros busy r0 r; cbn [load_solvers]; intros H.
  - pgo H. auto.
  - destruct (first_node root a) as [n|]; [|eapply IH, H].
    destruct busy; [pgo H|]. pstep H. destruct a0 as [[[s m] mu] cor].
    apply IH in H as [->|H]; [|right; exact H]. right. exists s, m, mu, cor. split; [reflexivity|]. eapply Hf, Ha.
Qed.
Lemma load_response_inv impact solvers root (iok : impact_op * Q * option bool -> Prop)
  (fok : friction_solver * friction_map * Q * Q -> Prop) r :
  (forall n x, impact n = Ok (Some x) -> iok x) ->
  Forall (fun p => forall n x, snd p n = Ok (Some x) -> fok x) solvers ->
  load_response impact solvers root = Ok (Some r) ->
  match r with NoResponse => True | Impact op cor c => iok (op, cor, c) | Friction s m mu cor => fok (s, m, mu, cor) end.
Proof.
  intros HI HS. unfold load_response. destruct (first_node root "impact_operator") as [n|]; intros H.
  - pstep H. apply HI in Ha. destruct a as [[op cor] c].
    eapply load_solvers_inv in H as [->|(s & m & mu & co & -> & H)]; [exact Ha|exact H|exact HS].
  - eapply load_solvers_inv in H as [->|(s & m & mu & co & -> & H)]; [exact Logic.I|exact H|exact HS].
Qed.
Lemma ball_response_inv fp bd root r :
  load_response (load_impact_cor fp bd true) (ball_solvers fp bd) root = Ok (Some r) -> ball_response_ok fp bd r.
Proof.
  intros H. eapply load_response_inv with (fok := fsolver_ok fp (ball_solver_ok fp bd))
    (iok := fun x => let '(op, cor, c) := x in impact_ok fp bd true op /\ decimal fp cor /\ c <> None) in H.
  - destruct r as [|op cor c|s m mu cor]; exact H.
  - intros n [[op cor] c] K. eapply load_impact_cor_inv, K.
  - unfold ball_solvers. constructor; [|constructor; [|constructor]]; cbn [snd]; intros n x K.
    + apply load_staggered_ball_inv in K. exact K.
    + eapply load_sobogus_ball_inv, K.
Qed.

Lemma each_inv {A} (f : node -> parse A) : forall l r, each f l = Ok (Some r) <-> Forall2 (fun n a => f n = Ok (Some a)) l r.
Proof.
  induction l as [|n l IH]; intros r; cbn [each]; split; intros H.
  - pgo H. subst. constructor.
  - inversion H. reflexivity.
  - pgo H. subst. apply IH in Ha0. constructor; assumption.
  - inversion H as [|? y ? r' E1 E2]; subst. apply IH in E2. rewrite E1, pbind_ok, E2, pbind_ok. reflexivity.
Qed.
Lemma each_forall {A} (P : A -> Prop) (f : node -> parse A) l r :
  (forall n a, f n = Ok (Some a) -> P a) -> each f l = Ok (Some r) -> Forall P r.
Proof. intros HP H. apply each_inv in H. induction H; constructor; eauto. Qed.

Lemma load_ball_inv fp n b : load_ball fp n = Ok (Some b) -> ball_ok fp b.
Proof.
  unfold load_ball. intros H. pgo H. subst. unfold ball_ok. cbn [b_x b_v b_m b_r fst snd].
  repeat split; eapply loose_scalar_inv; eassumption.
Qed.
Lemma load_drum_inv fp n d : load_drum fp n = Ok (Some d) -> loose fp (fst (fst d)) /\ loose fp (snd (fst d)) /\ loose fp (snd d).
Proof. unfold load_drum. intros H. pgo H. subst. cbn [fst snd]. repeat split; eapply loose_scalar_inv; eassumption. Qed.
Lemma pair_attr_inv fp n a p : pair_attr fp n a = Ok (Some p) -> decimal fp (fst p) /\ decimal fp (snd p).
Proof.
  unfold pair_attr. intros H. pgo H. pose proof (read_scalars_decimal fp (List.length a0) a0) as D.
  fold (read_scalars fp a0) in D. destruct (read_scalars fp a0) as [|x [|y [|]]]; pgo H. subst.
  inversion D as [|? ? D1 D2]; subst. inversion D2; subst. auto.
Qed.
Lemma load_plane_ball_inv fp n p : load_plane_ball fp n = Ok (Some p) -> plane2_ok fp p.
Proof.
  unfold load_plane_ball. intros H. pgo H. subst. apply pair_attr_inv in Ha, Ha0. destruct a, a0. cbn in *. tauto.
Qed.
Lemma load_gravity_inv fp n f : load_gravity_ball fp n = Ok (Some f) -> ball_force_ok fp f /\ is_gravity f = true.
Proof. unfold load_gravity_ball. intros H. pgo H. subst. cbn. apply loose_scalar_inv in Ha, Ha0. auto. Qed.
Lemma load_penalty_inv fp n f : load_penalty fp n = Ok (Some f) -> ball_force_ok fp f /\ is_gravity f = false.
Proof.
  unfold load_penalty. intros H. pgo H. subst. cbn. apply scalar_attr_inv in Ha, Ha1. apply qlt_not in Ha0.
  unfold tolerance. auto.
Qed.

(* ---------------------------------------------------------------- portals *)
Lemma flat_app a b : flat (a ++ b) = flat a ++ flat b.
Proof. unfold flat. rewrite map_app, concat_app. reflexivity. Qed.
Lemma taken_iff i used : taken i used = true <-> In i (flat used).
Proof.
  unfold taken, flat. induction used as [|[a b] used IH]; cbn [existsb map concat app In fst snd].
  - split; [discriminate|tauto].
  - rewrite orb_true_iff, IH, orb_true_iff, !Nat.eqb_eq. intuition congruence.
Qed.
Definition in_range (np : nat) (i : nat) : Prop := (i < np)%nat /\ (Z.of_nat i < 2 ^ 32)%Z.
Lemma plane_index_inv np n a i : plane_index np n a = Ok (Some i) -> in_range np i.
Proof. unfold plane_index, in_range. intros H. pgo H. subst. apply unsigned_attr_inv in Ha. lia. Qed.
Lemma NoDup_app_two {A} (l : list A) a b : NoDup l -> ~ In a l -> ~ In b l -> a <> b -> NoDup (l ++ [a; b]).
Proof.
  intros H Ha Hb N. apply (Permutation_NoDup (l := a :: b :: l)).
  - rewrite Permutation_app_comm. reflexivity.
  - constructor; [intros [E|E]; congruence|]. constructor; assumption.
Qed.
Lemma portal_indices_inv np used n a b : portal_indices np used n = Ok (Some (a, b)) ->
  in_range np a /\ in_range np b /\ a <> b /\ ~ In a (flat used) /\ ~ In b (flat used).
Proof.
  unfold portal_indices. intros H. pgo H. injection H as -> ->. apply plane_index_inv in Ha, Ha0.
  rewrite negb_orb in Ha2. apply andb_prop in Ha2 as [T1 T2].
  split; [exact Ha|]. split; [exact Ha0|].
  split; [intros ->; rewrite Nat.eqb_refl in Ha1; discriminate|].
  rewrite <- !taken_iff. split; intros K; rewrite K in *; discriminate.
Qed.
Lemma load_links_inv {E} (extra : node -> parse E) (P : E -> Prop) np :
  (forall n e, extra n = Ok (Some e) -> P e) ->
  forall l used r, NoDup (flat used) -> load_links extra np used l = Ok (Some r) ->
  NoDup (flat (used ++ map fst r)) /\ Forall (in_range np) (flat (map fst r)) /\ Forall (fun x => P (snd x)) r.
Proof.
  intros HP. induction l as [|n l IH]; intros used r ND; cbn [load_links]; intros H.
  - pgo H. subst. cbn [map]. rewrite app_nil_r. repeat split; try constructor. exact ND.
  - pgo H. subst. destruct a as [a b]. apply portal_indices_inv in Ha as (R1 & R2 & N & T1 & T2).
    apply IH in Ha1 as (I1 & I2 & I3).
    + rewrite <- app_assoc in I1. cbn [map fst app flat concat] in *. split; [exact I1|]. split.
      * constructor; [exact R1|]. constructor; [exact R2|exact I2].
      * constructor; [|exact I3]. eapply HP, Ha0.
    + rewrite flat_app. cbn. apply NoDup_app_two; assumption.
Qed.

(* erasing the planes, highest index first *)
Lemma forall_perm {A} (P : A -> Prop) (l l' : list A) : Permutation l l' -> Forall P l -> Forall P l'.
Proof. intros H. rewrite !Forall_forall. intros K x Hx. apply K. eapply Permutation_in; [symmetry; exact H|exact Hx]. Qed.
Lemma insert_perm x l : Permutation (insert x l) (x :: l).
Proof.
  induction l as [|y l IH]; cbn [insert]; [reflexivity|]. destruct (Nat.leb x y); [reflexivity|].
  rewrite IH. apply perm_swap.
Qed.
Lemma isort_perm l : Permutation (isort l) l.
Proof. induction l as [|x l IH]; [reflexivity|]. cbn. rewrite insert_perm. constructor. exact IH. Qed.
Lemma insert_sorted x l : StronglySorted le l -> StronglySorted le (insert x l).
Proof.
  induction 1 as [|y l Hl IH Hy]; cbn [insert]; [repeat constructor|].
  destruct (Nat.leb_spec x y).
  - constructor; [constructor; assumption|]. constructor; [assumption|]. eapply Forall_impl; [|exact Hy]. intros; lia.
  - constructor; [exact IH|]. apply (forall_perm _ (x :: l)); [symmetry; apply insert_perm|]. constructor; [lia|exact Hy].
Qed.
Lemma isort_sorted l : StronglySorted le (isort l).
Proof. induction l as [|x l IH]; [constructor|]. cbn. apply insert_sorted, IH. Qed.
Lemma keep_none {A} m (l : list A) k : (forall i, (k <= i < k + List.length l)%nat -> m i = false) -> State_Proofs.keep m k l = l.
Proof.
  revert k. induction l as [|x l IH]; intros k H; cbn [State_Proofs.keep]; [reflexivity|].
  rewrite H by (cbn [List.length]; lia). f_equal. apply IH. intros i Hi. apply H. cbn [List.length]. lia.
Qed.
Lemma keep_all {A} m (l : list A) k : (forall i, (k <= i < k + List.length l)%nat -> m i = true) -> State_Proofs.keep m k l = [].
Proof.
  revert k. induction l as [|x l IH]; intros k H; cbn [State_Proofs.keep]; [reflexivity|].
  rewrite H by (cbn [List.length]; lia). apply IH. intros i Hi. apply H. cbn [List.length]. lia.
Qed.
Lemma existsb_none ix : forall i, Forall (fun d => (d < i)%nat) ix -> existsb (Nat.eqb i) ix = false.
Proof.
  intros i H. induction H as [|d ix Hd _ IH]; [reflexivity|]. cbn [existsb]. rewrite IH.
  destruct (Nat.eqb_spec i d); [lia|reflexivity].
Qed.
Lemma erase_down {A} : forall ds (l : list A), StronglySorted gt ds -> Forall (fun d => (d < List.length l)%nat) ds ->
  ofold erase_at ds l = Ok (State_Proofs.keep (fun i => existsb (Nat.eqb i) ds) 0 l).
Proof.
  induction ds as [|d ds IH]; intros l HS HR.
  - cbn [ofold]. rewrite keep_none; [reflexivity|]. reflexivity.
  - inversion HS as [|? ? S1 S2]; subst. inversion HR as [|? ? R1 R2]; subst.
    cbn [ofold]. unfold erase_at at 1. destruct (Nat.ltb_spec d (List.length l)); [|lia]. cbn [obind].
    rewrite IH; [|exact S1|].
    2:{ eapply Forall_impl; [|exact S2]. intros i Hi. rewrite app_length, firstn_length, skipn_length. lia. }
    f_equal. destruct (nth_error l d) as [x|] eqn:Ex; [|apply nth_error_None in Ex; lia].
    assert (l = firstn d l ++ [x] ++ skipn (S d) l) as El.
    { rewrite <- (firstn_skipn d l) at 1. f_equal. clear -Ex. revert l Ex. induction d as [|d IHd]; intros [|y l] Ex; try discriminate.
      - cbn in *. congruence.
      - cbn [nth_error] in Ex. apply IHd in Ex. exact Ex. }
    rewrite El at 3. rewrite !State_Proofs.keep_app. cbn [plus]. rewrite firstn_length, Nat.min_l by lia.
    cbn [State_Proofs.keep app existsb]. rewrite Nat.eqb_refl. cbn [orb app].
    f_equal.
    + apply State_Proofs.keep_ext. intros i Hi. rewrite firstn_length in Hi. destruct (Nat.eqb_spec i d); [lia|reflexivity].
    + rewrite !keep_none; [reflexivity| |].
      * intros i Hi. cbn in Hi. destruct (Nat.eqb_spec i d); [lia|]. cbn [orb]. apply existsb_none.
        eapply Forall_impl; [|exact S2]. intros; cbn in *; lia.
      * intros i Hi. apply existsb_none. eapply Forall_impl; [|exact S2]. intros; cbn in *; lia.
Qed.
Lemma sorted_rev l : StronglySorted le l -> NoDup l -> StronglySorted gt (rev l).
Proof.
  intros HS ND. induction HS as [|x l Hl IH Hx]; cbn [rev]; [constructor|].
  inversion ND; subst. specialize (IH H2).
  assert (Forall (fun y => (x < y)%nat) l) as Hx'.
  { rewrite Forall_forall in *. intros y Hy. specialize (Hx y Hy). destruct (Nat.eq_dec x y); [subst; contradiction|lia]. }
  clear -IH Hx'. apply (forall_perm _ _ (rev l)) in Hx'; [|apply Permutation_rev].
  induction IH as [|y r Hr IHr Hy]; cbn [app]; [repeat constructor|]. inversion Hx'; subst.
  constructor; [apply IHr; assumption|]. apply Forall_app. split; [exact Hy|]. constructor; [lia|constructor].
Qed.
Lemma erase_all_without {A} (l : list A) ix : NoDup ix -> Forall (fun i => (i < List.length l)%nat) ix ->
  erase_all l ix = Ok (State_Spec.without ix l).
Proof.
  intros ND HR. unfold erase_all. rewrite erase_down.
  - f_equal. rewrite State_Proofs.without_keep. apply State_Proofs.keep_ext. intros i _. apply eq_true_iff_eq.
    rewrite !existsb_exists. split; intros (j & Hj & E); exists j; (split; [|exact E]).
    + apply in_rev in Hj. eapply Permutation_in; [apply isort_perm|exact Hj].
    + apply in_rev. rewrite rev_involutive. eapply Permutation_in; [symmetry; apply isort_perm|exact Hj].
  - apply sorted_rev; [apply isort_sorted|]. eapply Permutation_NoDup; [symmetry; apply isort_perm|exact ND].
  - eapply forall_perm; [|exact HR]. rewrite <- Permutation_rev. symmetry. apply isort_perm.
Qed.

(* the two planes of a link, picked from the list *)
Definition picked {P E} (planes : list P) (l : nat * nat * E) (p : P * P * E) : Prop :=
  nth_error planes (fst (fst l)) = Some (fst (fst p)) /\ nth_error planes (snd (fst l)) = Some (snd (fst p)) /\ snd l = snd p.
Lemma join_planes_iff {P E} (planes : list P) (l : nat * nat * E) p : join_planes planes l = Ok p <-> picked planes l p.
Proof.
  destruct l as [[i j] e], p as [[a b] e']. unfold join_planes, picked, plane_at. cbn [fst snd].
  destruct (nth_error planes i), (nth_error planes j); cbn [obind]; split; intros H; try discriminate;
    try (destruct H as (H1 & H2 & H3); discriminate).
  - injection H as -> -> ->. auto.
  - destruct H as (H1 & H2 & H3). congruence.
Qed.
Lemma omapM_iff {A B} (f : A -> outcome B) : forall l r, omapM f l = Ok r <-> Forall2 (fun a b => f a = Ok b) l r.
Proof.
  induction l as [|a l IH]; intros r; cbn [omapM]; split; intros H.
  - injection H as <-. constructor.
  - inversion H. reflexivity.
  - destruct (f a) eqn:E; try discriminate. cbn [obind] in H. destruct (omapM f l); try discriminate. cbn [obind] in H.
    injection H as <-. constructor; [exact E|]. apply IH. reflexivity.
  - inversion H as [|? b ? r' E1 E2]; subst. rewrite E1. cbn [obind]. apply IH in E2. rewrite E2. reflexivity.
Qed.
Lemma joined_total {P E} (planes : list P) (ls : list (nat * nat * E)) :
  Forall (fun i => (i < List.length planes)%nat) (flat (map fst ls)) -> exists ps, omapM (join_planes planes) ls = Ok ps.
Proof.
  induction ls as [|[[i j] e] ls IH]; intros H; [exists []; reflexivity|].
  cbn [map fst flat concat app snd] in H. inversion H as [|? ? H1 H2]; subst. inversion H2 as [|? ? H3 H4]; subst.
  destruct (IH H4) as [ps E1]. destruct (nth_error planes i) as [a|] eqn:Ea; [|apply nth_error_None in Ea; lia].
  destruct (nth_error planes j) as [b|] eqn:Eb; [|apply nth_error_None in Eb; lia].
  exists ((a, b, e) :: ps). cbn [omapM]. assert (join_planes planes (i, j, e) = Ok (a, b, e)) as -> by (apply join_planes_iff; repeat split; assumption).
  cbn [obind]. rewrite E1. reflexivity.
Qed.

(* what the portals of a scene are *)
Record portal_links {P} (fp : fpmode) (bounds_ok : Q -> bool) (planes rest : list P)
  (portals : list (P * P * (Q * Q))) (links : list (nat * nat * (Q * Q))) : Prop := {
  pl_range : Forall (in_range (List.length planes)) (flat (map fst links));
  pl_nodup : NoDup (flat (map fst links));
  pl_picked : Forall2 (picked planes) links portals;
  pl_rest : rest = State_Spec.without (flat (map fst links)) planes }.
Lemma load_lees_inv fp bok n e : load_lees_edwards fp bok n = Ok (Some e) ->
  decimal fp (fst e) /\ decimal fp (snd e) /\ bok (snd e) = true.
Proof. unfold load_lees_edwards. intros H. pgo H. subst. apply scalar_attr_inv in Ha, Ha0. auto. Qed.
Lemma still_inv (n : node) (e : Q * Q) : accept (0%Q, 0%Q) = Ok (Some e) -> e = (0%Q, 0%Q).
Proof. intros H. apply accept_inv in H. congruence. Qed.
Lemma load_portals_inv {P} fp bok root (planes rest : list P) portals :
  load_portals fp bok root planes = Ok (Some (rest, portals)) ->
  exists l1 l2, load_links (fun _ => accept (0%Q, 0%Q)) (List.length planes) [] (elements root "planar_portal") = Ok (Some l1) /\
    load_links (load_lees_edwards fp bok) (List.length planes) (map fst l1) (elements root "lees_edwards_portal") = Ok (Some l2) /\
    portal_links fp bok planes rest portals (l1 ++ l2) /\
    Forall (fun l => snd l = (0%Q, 0%Q)) l1 /\
    Forall (fun l => decimal fp (fst (snd l)) /\ decimal fp (snd (snd l)) /\ bok (snd (snd l)) = true) l2.
Proof.
  intros H. unfold load_portals in H.
  destruct (elements root "planar_portal") as [|p0 pl] eqn:E1; destruct (elements root "lees_edwards_portal") as [|e0 le] eqn:E2.
  { apply accept_inv in H. injection H as <- <-. exists [], []. cbn [load_links app map]. do 2 (split; [reflexivity|]). split.
    - constructor; cbn; try constructor. rewrite State_Proofs.without_keep, keep_none; reflexivity.
    - split; constructor. }
  all: repeat pstep H; pgo H; injection H as <- <-; cbv zeta in *; exists a0, a1; (split; [exact Ha0|]); (split; [exact Ha1|]);
    pose proof (load_links_inv _ (fun e => e = (0%Q, 0%Q)) _ still_inv _ [] _ (NoDup_nil _) Ha0) as (N1 & R1 & S1); cbn [app] in N1;
    pose proof (load_links_inv _ _ _ (load_lees_inv fp bok) _ _ _ N1 Ha1) as (N2 & R2 & S2).
  all: rewrite <- map_app in N2; assert (Forall (in_range (List.length planes)) (flat (map fst (a0 ++ a1)))) as R
    by (rewrite map_app, flat_app; apply Forall_app; split; assumption).
  all: assert (Forall (fun i => (i < List.length planes)%nat) (flat (map fst (a0 ++ a1)))) as R'
    by (eapply Forall_impl; [|exact R]; intros i [X _]; exact X).
  all: rewrite erase_all_without in Ha3 by assumption; injection Ha3 as <-; split; [|split; assumption].
  all: constructor; [exact R|exact N2| |reflexivity].
  all: apply omapM_iff in Ha2; eapply State_Proofs.forall2_impl; [|exact Ha2]; intros x y X; apply join_planes_iff; exact X.
Qed.

Lemma NoDup_bound (l : list nat) n : NoDup l -> Forall (fun i => (i < n)%nat) l -> (List.length l <= n)%nat.
Proof.
  intros ND H. rewrite <- (seq_length n 0). apply NoDup_incl_length; [exact ND|].
  intros i Hi. rewrite Forall_forall in H. apply in_seq. specialize (H i Hi). lia.
Qed.
Lemma flat_length ls : List.length (flat ls) = (2 * List.length ls)%nat.
Proof. unfold flat. induction ls as [|p ls IH]; [reflexivity|]. cbn [map concat app List.length]. rewrite IH. lia. Qed.
Lemma Forall2_len {A B} (R : A -> B -> Prop) l r : Forall2 R l r -> List.length l = List.length r.
Proof. induction 1; cbn; congruence. Qed.
Lemma without_forall {A} (P : A -> Prop) ix l : Forall P l -> Forall P (State_Spec.without ix l).
Proof. intros H. rewrite State_Proofs.without_keep. apply State_Proofs.keep_forall, H. Qed.
Lemma load_portals_ok {P} fp bok (pok : P -> Prop) (bprop : Q -> Prop) root planes rest portals :
  (forall b, bok b = true -> bprop b) ->
  Forall pok planes -> load_portals fp bok root planes = Ok (Some (rest, portals)) ->
  Forall pok rest /\ portals2_ok fp pok bprop portals.
Proof.
  intros HB HP H. apply load_portals_inv in H as (l1 & l2 & _ & _ & [R N K ->] & S1 & S2).
  split; [apply without_forall, HP|]. split; [|split].
  - clear -HP K. induction K as [|l p ls ps (H1 & H2 & _) _ IH]; [constructor|]. constructor; [|exact IH].
    rewrite Forall_forall in HP. split; eapply HP, nth_error_In; eassumption.
  - apply Forall2_len in K. rewrite <- K. apply NoDup_bound with (n := Z.to_nat (2 ^ 32)) in N.
    + rewrite flat_length, map_length in N. lia.
    + eapply Forall_impl; [|exact R]. intros i [_ X]. lia.
  - apply Forall2_app_inv_l in K as (p1 & p2 & K1 & K2 & ->). exists p1, p2. split; [reflexivity|]. split.
    + clear -K1 S1. induction K1 as [|l p ls ps (_ & _ & E) _ IH]; [constructor|]. inversion S1; subst. constructor; [congruence|auto].
    + clear -K2 S2 HB. induction K2 as [|l p ls ps (_ & _ & E) _ IH]; [constructor|]. inversion S2 as [|? ? (A1 & A2 & A3) S3]; subst.
      constructor; [rewrite E in *; auto|auto].
Qed.

(* ---------------------------------------------------------------- the whole scene *)
Lemma pack_flat_map {A} (f : A -> Q * Q) l : pack f l = flat_map (fun b => [fst (f b); snd (f b)]) l.
Proof. unfold pack. symmetry. apply flat_map_concat_map. Qed.
Lemma load_integrator_inv root k t d : load_integrator_ball root = Ok (Some (k, t, d)) ->
  parse_rational t = Ok (Some d) /\ (0 < num d)%Z.
Proof. unfold load_integrator_ball. intros H. pgo H. destruct a0 as [t' d']. injection H as -> -> ->. eapply load_dt_inv, Ha0. Qed.
Lemma optional_inv {A} o (f : node -> parse A) r : optional o f = Ok (Some r) ->
  match r with None => o = None | Some a => exists n, o = Some n /\ f n = Ok (Some a) end.
Proof. destruct o as [n|]; cbn [optional]; intros H; pgo H; subst; [exists n; auto|reflexivity]. Qed.

Lemma load_ball_scene_sound fp bd root sc : load_ball_scene fp bd root = Ok (Some sc) -> ball_scene_ok fp bd sc.
Proof.
  unfold load_ball_scene. intros H. pgo H. subst.
  destruct a3 as [[k t] d]. destruct a7 as [rest portals]. cbn [fst snd].
  apply load_integrator_inv in Ha3.
  apply (load_portals_ok fp _ (plane2_ok fp) (fun b => 0 < b)%Q) in Ha7 as [P1 P2];
    [|intros b; apply qle_not|eapply each_forall; [apply load_plane_ball_inv|exact Ha6]].
  constructor; cbn [bs_end bs_forces bs_dt bs_dt_text bs_response bs_drums bs_planes bs_portals bs_q bs_v bs_m bs_r bs_fixed].
  - apply optional_inv in Ha0. destruct a0; [|exact Logic.I]. destruct Ha0 as (n & _ & E). eapply load_end_time_inv, E.
  - apply (each_forall (fun f => ball_force_ok fp f /\ is_gravity f = true)) in Ha1; [|apply load_gravity_inv].
    apply (each_forall (fun f => ball_force_ok fp f /\ is_gravity f = false)) in Ha2; [|apply load_penalty_inv].
    split.
    + apply Forall_app. split; (eapply Forall_impl; [|eassumption]); intros ? []; assumption.
    + exists a1, a2. split; [reflexivity|]. split; (eapply Forall_impl; [|eassumption]); intros ? []; assumption.
  - exact Ha3.
  - eapply ball_response_inv, Ha4.
  - eapply each_forall; [apply load_drum_inv|exact Ha5].
  - exact P1.
  - exact P2.
  - exists a8. split; [eapply each_forall; [apply load_ball_inv|exact Ha8]|]. rewrite !pack_flat_map. cbn [fst snd]. repeat split.
Qed.
Lemma parse_ball_sound fp bd doc sc : parse_ball fp bd doc = Ok (Some sc) -> ball_scene_ok fp bd sc.
Proof. unfold parse_ball. intros H. pstep H. eapply load_ball_scene_sound, H. Qed.
