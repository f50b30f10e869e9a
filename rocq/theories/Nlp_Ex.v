(* Solvers that are honest, small problems, and problems on which the code goes wrong. *)
From Coq Require Import List Reals Arith Lra Lia Bool String ZArith.
From Verif Require Import Outcome Ccd_Model Lin_Model Lin_Proofs Rot_Alg Geom_Circle Quad_Model Quad_Proofs Sparse_Model Sparse_Spec Sparse_Proofs Resid_Model Resid_Spec Resid_Proofs
  Apgd_Model Apgd_Spec Apgd_Ex Nlp_Model Nlp_Spec Nlp_Proofs Nlp_Thms.
Import ListNotations.
Open Scope R_scope.

(* ---------- solvers that check a guess ---------- *)
Lemma below_dec : forall (P : nat -> Prop), (forall j, {P j} + {~ P j}) -> forall n, {forall j, (j < n)%nat -> P j} + {~ forall j, (j < n)%nat -> P j}.
Proof.
  intros P d. induction n as [|n [IH|IH]].
  - left. intros j Hj. lia.
  - destruct (d n) as [Y|N]; [left|right].
    + intros j Hj. destruct (Nat.eq_dec j n) as [->|]; [exact Y|apply IH; lia].
    + intros H. apply N, H. lia.
  - right. intros H. apply IH. intros j Hj. apply H. lia.
Defined.
Lemma and_dec : forall P Q : Prop, {P} + {~ P} -> {Q} + {~ Q} -> {P /\ Q} + {~ (P /\ Q)}.
Proof. intros P Q [] []; tauto. Defined.
Lemma or_dec : forall P Q : Prop, {P} + {~ P} -> {Q} + {~ Q} -> {P \/ Q} + {~ (P \/ Q)}.
Proof. intros P Q [] []; tauto. Defined.
Lemma imp_dec : forall P Q : Prop, {P} + {~ P} -> {Q} + {~ Q} -> {P -> Q} + {~ (P -> Q)}.
Proof. intros P Q [] []; tauto. Defined.
Definition bounded_dec (tol l u y ml mu : R) : {bounded tol l u y ml mu} + {~ bounded tol l u y ml mu}.
Proof. unfold bounded, no_lower, no_upper. repeat first [apply Rle_dec | apply Req_EM_T | apply and_dec | apply or_dec | apply imp_dec]. Defined.
Definition kkt_with (tol : R) (p : tnlp) (x zl zu ll lu : dvec) : Prop :=
  (forall j, (j < t_n p)%nat -> bounded tol (t_xl p j) (t_xu p j) (x j) (zl j) (zu j))
  /\ (forall i, (i < t_m p)%nat -> bounded tol (t_gl p i) (t_gu p i) (t_g p x i) (ll i) (lu i))
  /\ (forall j, (j < t_n p)%nat -> Rabs (lagrangian_gradient p 1 (fun i => lu i - ll i) x j - zl j + zu j) <= tol).
Definition kkt_with_dec (tol : R) (p : tnlp) (x zl zu ll lu : dvec) : {kkt_with tol p x zl zu ll lu} + {~ kkt_with tol p x zl zu ll lu}.
Proof. unfold kkt_with. repeat first [apply bounded_dec | apply Rle_dec | apply Req_EM_T | apply and_dec | apply below_dec; intros ?| apply bounded_dec | apply Rle_dec]. Defined.
(* claims success if its guess meets the conditions *)
Definition guess (x zl zu ll lu : dvec) : ipopt_run := fun _ p => if kkt_with_dec 0 p x zl zu ll lu then Some (SUCCESS, x) else Some (OTHER_FAILURE 0, x).
Lemma guess_honest : forall x zl zu ll lu, honest 0 (guess x zl zu ll lu) /\ always_reports (guess x zl zu ll lu).
Proof.
  intros x zl zu ll lu. split.
  - intros p s st y E H. unfold guess in E. destruct (kkt_with_dec 0 p x zl zu ll lu) as [K|K].
    + assert (y = x) by congruence. subst y. exists zl, zu, ll, lu. exact K.
    + exfalso. assert (st = OTHER_FAILURE 0) by congruence. destruct H; congruence.
  - intros s p. unfold guess. destruct (kkt_with_dec 0 p x zl zu ll lu); discriminate.
Qed.
Lemma guess_right : forall x zl zu ll lu s p, kkt_with 0 p x zl zu ll lu -> guess x zl zu ll lu s p = Some (SUCCESS, x).
Proof. intros x zl zu ll lu s p K. unfold guess. destruct (kkt_with_dec 0 p x zl zu ll lu); [reflexivity|contradiction]. Qed.
Definition ql_kkt_dec (p : qlp) (x u : dvec) : {ql_kkt p x u} + {~ ql_kkt p x u}.
Proof.
  unfold ql_kkt. cbv zeta. repeat first [apply Rle_dec | apply Req_EM_T | apply and_dec | apply below_dec; intros ? | apply Rle_dec | apply Req_EM_T].
  - destruct (ql_xl p j); [apply and_dec; [apply Rle_dec|apply Req_EM_T]|apply Req_EM_T].
  - destruct (ql_xu p j); [apply and_dec; [apply Rle_dec|apply Req_EM_T]|apply Req_EM_T].
Defined.
Definition ql_guess (x u : dvec) : ql_run := fun p _ => if ql_kkt_dec p x u then (0%Z, x, u) else (1%Z, x, u).
Lemma ql_guess_honest : forall x u, ql_honest (ql_guess x u).
Proof. intros x u p x0 y w E. unfold ql_guess in E. destruct (ql_kkt_dec p x u) as [K|K]; [|discriminate E]. assert (y = x) by congruence. assert (w = u) by congruence. subst. exact K. Qed.
Lemma ql_guess_right : forall x u p x0, ql_kkt p x u -> ql_guess x u p x0 = (0%Z, x, u).
Proof. intros x u p x0 K. unfold ql_guess. destruct (ql_kkt_dec p x u); [reflexivity|contradiction]. Qed.

(* ---------- unit matrices ---------- *)
Definition unit1 : csc := mkCsc 1 [0;1]%nat [0]%nat [1].
Definition unit2 : csc := mkCsc 2 [0;1;2]%nat [0;1]%nat [1;1].
Lemma unit1_dmd : is_DMD 1 1 eye eye unit1.
Proof. split; [reflexivity|]. intros [|i] [|j] Hi Hj; try lia. cbn [rsum]. unfold eye. cbn [Nat.eqb]. unfold coeff. cbn. ring. Qed.
Lemma unit2_dmd : is_DMD 2 2 eye eye unit2.
Proof. split; [reflexivity|]. intros i j Hi Hj. destruct i as [|[|i]], j as [|[|j]]; try lia; cbn [rsum]; unfold eye; cbn [Nat.eqb]; unfold coeff; cbn; ring. Qed.
Lemma unit2_valid : valid_csc unit2 /\ m_rows unit2 = m_cols unit2 /\ symmetric (m_cols unit2) (coeff unit2) /\ Nat.even (m_cols unit2) = true /\ forall i, (i < m_cols unit2)%nat -> exists v, stored unit2 i i v.
Proof.
  split; [|split; [reflexivity|split; [|split; [reflexivity|]]]].
  - unfold valid_csc. cbn. split; [lia|]. split; [reflexivity|]. split; [reflexivity|]. split; [reflexivity|]. split; [|split].
    + intros [|[|c]] Hc; cbn; lia.
    + intros [|[|k]] r E; cbn in E; [| |destruct k; discriminate]; assert (r = 0 \/ r = 1)%nat by (left + right; congruence); lia.
    + intros [|[|c]] k r1 r2 Hc H1 H2; cbn in H1, H2; lia.
  - intros i j Hi Hj. cbn in Hi, Hj. destruct i as [|[|i]], j as [|[|j]]; try lia; reflexivity.
  - intros i Hi. exists 1. destruct i as [|[|i]]; [| |cbn in Hi; lia]; apply stored_column; left; reflexivity.
Qed.
Lemma smv1 : forall x, smv unit1 x 0%nat = x 0%nat.
Proof. intros x. unfold smv, mv. cbn [m_cols unit1 m_outer List.length pred rsum]. unfold coeff. cbn. ring. Qed.
Lemma smv2 : forall x j, (j < 2)%nat -> smv unit2 x j = x j.
Proof. intros x j Hj. unfold smv, mv. cbn [m_cols unit2 m_outer List.length pred rsum]. destruct j as [|[|j]]; try lia; unfold coeff; cbn; ring. Qed.
Lemma big : 0 < 10 ^ 19. Proof. apply pow_lt. lra. Qed.
Lemma free_in : forall y, bounded 0 (- ip_inf) ip_inf y 0 0.
Proof.
  intros y. destruct ip_inf_none as [U L]. unfold bounded. split; [left; exact L|]. split; [left; exact U|]. split; [lra|]. split; [lra|]. split; [reflexivity|]. split; [reflexivity|]. split; left; assumption.
Qed.

(* ---------- a ball that is stopped by the floor ---------- *)
Definition zero_ : dvec := fun _ => 0.
Definition stop_run : ipopt_run := guess (fun _ => 1) zero_ zero_ zero_ zero_.
Lemma stopped : lcp_ipopt stop_run ["mumps"%string] 1 eye unit1 zero_ zero_ (fun _ => -1) (fun _ => -1) zero_ = Ok (fun _ => 1).
Proof.
  unfold lcp_ipopt. cbn [solver_loop]. unfold stop_run. rewrite guess_right; [reflexivity|]. split; [|split].
  - intros j Hj. cbn [qpnlp t_xl t_xu]. unfold zero_, bounded. destruct ip_inf_none as [U _]. split; [right; lra|]. split; [left; exact U|]. split; [lra|]. split; [lra|]. split; [reflexivity|]. split; [reflexivity|]. split; right; apply abs_in; lra.
  - intros j Hj. cbn in Hj. lia.
  - intros j Hj. cbn in Hj. assert (j = 0)%nat by lia. subst j. unfold lagrangian_gradient. cbn [qpnlp t_grad t_m rsum]. rewrite smv1. unfold lcp_b, mv, transpose, eye, zero_. cbn [rsum Nat.eqb]. apply abs_in. lra.
Qed.
(* ---------- a sliding disc that is slowed down ---------- *)
Definition slow_beta : dvec := fun k => match k with O => - / 2 | _ => 0 end.
Definition slide_v : dvec := fun k => match k with O => 2 | _ => 0 end.
Definition slow_run : ipopt_run := guess slow_beta zero_ zero_ zero_ (fun _ => 3 / 2).
Lemma slowed : smooth_ipopt slow_run ["ma27"; "mumps"]%string 2 eye unit2 zero_ (fun _ => / 2) (fun _ => 1) slide_v zero_
  = Ok (slow_beta, rescaled_lambda unit2 (fun j => mv 2 (transpose eye) slide_v j + zero_ j) slow_beta).
Proof.
  unfold smooth_ipopt. cbn [solver_loop]. unfold slow_run. rewrite guess_right; [reflexivity|]. split; [|split].
  - intros j Hj. apply free_in.
  - intros i Hi. cbn in Hi. assert (i = 0)%nat by lia. subst i. cbn [smoothnlp t_gl t_gu t_g Nat.mul Nat.add slow_beta]. unfold zero_, bounded. destruct ip_inf_none as [_ L]. pose proof big. pose proof (Rle_pow 10 1 19 ltac:(lra) ltac:(lia)) as P10. rewrite pow_1 in P10.
    assert (Nu : ~ no_upper (/ 2 * / 2 * 1 * 1)) by (unfold no_upper; lra).
    split; [left; exact L|]. split; [right; lra|]. split; [lra|]. split; [lra|]. split; [reflexivity|]. split; [intros F; contradiction|]. split; [left; exact L|right; apply abs_in; lra].
  - intros j Hj. rewrite (disc_lagrangian unit2 _ _ (eq_refl : Nat.even (m_cols unit2) = true)) by exact Hj. cbn in Hj. rewrite smv2 by exact Hj. unfold zero_, mv, transpose, eye. cbn [rsum]. destruct j as [|[|j]]; [| |lia]; cbn [Nat.eqb slow_beta slide_v]; apply abs_in; lra.
Qed.
(* ---------- the same with the disc replaced by an interval and by two directions ---------- *)
Definition bound_u : dvec := fun k => match k with O => 3 / 2 | _ => 0 end.
Lemma bound_slowed : bound_ql (ql_guess slow_beta bound_u) 1 eye unit1 zero_ (fun _ => / 2) (fun _ => 1) slide_v zero_ = Ok (slow_beta, fun i => Rmax (bound_u i) (bound_u (1 + i)%nat)).
Proof.
  unfold bound_ql. rewrite work_fits by (cbn; lia). cbn [obind]. rewrite ql_guess_right; [reflexivity|]. unfold ql_kkt. cbn [ql_n ql_m ql_xl ql_xu ql_C ql_c rsum Nat.add]. split; [intros i Hi; lia|]. split; [|split].
  - intros j Hj. cbn in Hj. assert (j = 0)%nat by lia. subst j. cbn [bound_u slow_beta]. lra.
  - intros j Hj. cbn in Hj. assert (j = 0)%nat by lia. subst j. cbn. lra.
  - intros j Hj. cbn in Hj. assert (j = 0)%nat by lia. subst j. fold (mv (m_cols unit1) (coeff unit1) slow_beta 0%nat). fold (smv unit1 slow_beta). rewrite smv1. unfold mv, transpose, eye, zero_. cbn. lra.
Qed.
(* one contact with the directions +x and -x *)
Definition pm_D : mat := fun k j => match j with O => 1 | _ => -1 end.
Definition pm_Q : csc := mkCsc 2 [0;2;4]%nat [0;1;0;1]%nat [1;-1;-1;1].
Definition pm_beta : dvec := fun k => match k with 1%nat => / 2 | _ => 0 end.
Definition pm_u : dvec := fun k => match k with O => 3 / 2 | 1%nat => 3 | _ => 0 end.
Lemma pm_dmd : is_DMD 1 2 pm_D eye pm_Q.
Proof. split; [reflexivity|]. intros i j Hi Hj. destruct i as [|[|i]], j as [|[|j]]; try lia; cbn [rsum]; unfold eye, pm_D; cbn [Nat.eqb]; unfold coeff; cbn; ring. Qed.
Lemma pm_slowed : linear_ql (ql_guess pm_beta pm_u) 2 1 1 pm_D pm_Q zero_ (fun _ => / 2) (fun _ => 1) slide_v zero_ = Ok (pm_beta, pm_u).
Proof.
  unfold linear_ql. rewrite work_linear_fits by (cbn; lia). cbn [obind]. rewrite ql_guess_right; [reflexivity|]. unfold ql_kkt. cbn [ql_n ql_m ql_xl ql_xu ql_C ql_c ql_A ql_b]. change (m_cols pm_Q) with (2 * 1)%nat. split; [|split; [|split]].
  - intros i Hi. rewrite disk_row_sum by exact Hi. assert (i = 0)%nat by lia. subst i. cbn [rsum Nat.mul Nat.add pm_beta pm_u]. lra.
  - intros j Hj. destruct j as [|[|j]]; [| |lia]; cbn; lra.
  - intros j Hj. destruct j as [|[|j]]; [| |lia]; cbn; lra.
  - intros j Hj. assert (Ds : forall f, rsum 1 (fun i => - coeff (disk_constraint 2 1) j i * f i) = - f 0%nat) by (intros f; replace j with (2 * 0 + j)%nat by lia; apply disk_col_sum; lia). rewrite Ds.
    destruct j as [|[|j]]; [| |lia]; unfold mv, transpose, zero_, pm_D; cbn [rsum Nat.mul Nat.add pm_beta pm_u slide_v]; unfold coeff; cbn; lra.
Qed.

(* ---------- where the code goes wrong ---------- *)
(* a sliding contact without a friction bound: no impulse is the answer, but there are no multipliers for it *)
Theorem no_multipliers : forall run solvers l beta0, honest 0 run -> always_reports run -> ipopt_operator solvers = Ok l ->
  best_in_disc 0 (0, 0) (slip 2 eye zero_ (after 2 2 eye eye slide_v zero_) 0%nat, slip 2 eye zero_ (after 2 2 eye eye slide_v zero_) 1%nat)
  /\ smooth_ipopt run l 2 eye unit2 zero_ (fun _ => / 2) zero_ slide_v beta0 = Exit.
Proof.
  intros run solvers l beta0 Hr Ha Ho. split.
  - split; [unfold in_friction_disc, vdot; cbn [fst snd]; lra|]. intros [z0 z1] [_ Hz]. unfold vdot, vsub in *. cbn [fst snd] in *. pose proof (sq_nn z0). pose proof (sq_nn z1).
    assert (z0 * z0 = 0) by lra. assert (z1 * z1 = 0) by lra. assert (z0 = 0) by (apply Rmult_integral in H1; tauto). assert (z1 = 0) by (apply Rmult_integral in H2; tauto). subst. lra.
  - apply operator_inv in Ho. destruct Ho as (-> & Ne & Nd). unfold smooth_ipopt.
    match goal with |- context [smoothnlp unit2 ?A ?C] => destruct (loop_flow run (smoothnlp unit2 A C) beta0 solvers SUCCESS beta0 Ne Nd (or_intror Ha)) as [(pre & s & post & st1 & x1 & _ & _ & Su & L)|[_ L]]; rewrite L; [exfalso|reflexivity]; set (A0 := A) in * end.
    apply (honest_success 0 run) in Su; [|exact Hr]. destruct Su as (zl & zu & ll & lu & B & G & S).
    specialize (G 0%nat ltac:(cbn; lia)). cbn [smoothnlp t_gl t_gu t_g Nat.mul Nat.add] in G. destruct G as (_ & G1 & _). unfold zero_, no_upper in G1. pose proof big. destruct G1 as [G1|G1]; [lra|].
    pose proof (sq_nn (x1 0%nat)). pose proof (sq_nn (x1 1%nat)). assert (X0 : x1 0%nat = 0) by (assert (Z : x1 0%nat * x1 0%nat = 0) by lra; apply Rmult_integral in Z; tauto).
    specialize (S 0%nat ltac:(cbn; lia)). specialize (B 0%nat ltac:(cbn; lia)). cbn [smoothnlp t_xl t_xu] in B. destruct B as (_ & _ & _ & _ & B5 & B6 & _). rewrite (B5 (proj2 ip_inf_none)), (B6 (proj1 ip_inf_none)) in S.
    rewrite (disc_lagrangian unit2 _ _ (eq_refl : Nat.even (m_cols unit2) = true)) in S by (cbn; lia). rewrite smv2, X0 in S by lia. unfold A0, mv, transpose, eye, zero_ in S. cbn [rsum Nat.eqb slide_v] in S. apply abs_inv in S. lra.
Qed.
(* a friction bound of 10^10 is no bound *)
Definition fast_v : dvec := fun k => match k with O => 2 * 10 ^ 10 | _ => 0 end.
Definition fast_beta : dvec := fun k => match k with O => - (2 * 10 ^ 10) | _ => 0 end.
Theorem bound_dropped : let run := guess fast_beta zero_ zero_ zero_ zero_ in
  honest 0 run /\ always_reports run /\ (exists lambda, smooth_ipopt run ["mumps"%string] 2 eye unit2 zero_ (fun _ => 1) (fun _ => 10 ^ 10) fast_v zero_ = Ok (fast_beta, lambda))
  /\ ~ in_friction_disc (1 * 10 ^ 10) (fast_beta 0%nat, fast_beta 1%nat).
Proof.
  intros run. split; [apply guess_honest|]. split; [apply guess_honest|]. split.
  - eexists. unfold smooth_ipopt. cbn [solver_loop]. unfold run. rewrite guess_right; [reflexivity|]. split; [|split].
    + intros j Hj. apply free_in.
    + intros i Hi. cbn [smoothnlp t_gl t_gu]. destruct ip_inf_none as [_ L]. assert (U : no_upper (1 * 1 * 10 ^ 10 * 10 ^ 10)). { unfold no_upper. rewrite !Rmult_1_l, <- pow_add. apply Rle_pow; [lra|lia]. }
      unfold bounded, zero_. split; [left; exact L|]. split; [left; exact U|]. split; [lra|]. split; [lra|]. split; [reflexivity|]. split; [reflexivity|]. split; left; assumption.
    + intros j Hj. rewrite (disc_lagrangian unit2 _ _ (eq_refl : Nat.even (m_cols unit2) = true)) by exact Hj. cbn in Hj. rewrite smv2 by exact Hj. unfold zero_, mv, transpose, eye. cbn [rsum]. destruct j as [|[|j]]; [| |lia]; cbn [Nat.eqb fast_beta fast_v]; apply abs_in; lra.
  - intros [_ H]. unfold vdot in H. cbn [fst snd fast_beta] in H. assert (P : 0 < 10 ^ 10) by (apply pow_lt; lra). assert (0 < 10 ^ 10 * 10 ^ 10) by (apply Rmult_lt_0_compat; exact P). lra.
Qed.
(* an entry that is not stored on the diagonal: the curvature of the constraint lands in another place *)
Definition gap2 : csc := mkCsc 2 [0;1;1]%nat [0]%nat [1].
Theorem gap_wrong : valid_csc gap2 /\ m_rows gap2 = m_cols gap2 /\ symmetric (m_cols gap2) (coeff gap2) /\ forall A C beta, ~ states_derivatives (smoothnlp gap2 A C beta).
Proof.
  split; [|split; [reflexivity|split]].
  - unfold valid_csc. cbn. split; [lia|]. split; [reflexivity|]. split; [reflexivity|]. split; [reflexivity|]. split; [|split].
    + intros [|[|c]] Hc; cbn; lia.
    + intros [|k] r E; cbn in E; [|destruct k; discriminate]. assert (r = 0)%nat by congruence. lia.
    + intros [|[|c]] k r1 r2 Hc H1 H2; cbn in H1, H2; lia.
  - intros i j Hi Hj. cbn in Hi, Hj. destruct i as [|[|i]], j as [|[|j]]; try lia; reflexivity.
  - intros A C beta (_ & _ & H & _). destruct (H (fun _ => 0) 1 (fun _ => 1)) as (values & E & Ln & D). specialize (D (fun k => match k with 1%nat => 1 | _ => 0 end) 1%nat ltac:(cbn; lia)).
    assert (D2 : derivable_pt_lim (fun t => lagrangian_gradient (smoothnlp gap2 A C beta) 1 (fun _ => 1) (along (fun _ => 0) (fun k => match k with 1%nat => 1 | _ => 0 end) t) 1%nat) 0 2).
    { apply (slope _ (A 1%nat) _ 0). intros t. rewrite (disc_lagrangian gap2 _ _ (eq_refl : Nat.even (m_cols gap2) = true)) by (cbn; lia). unfold smv, mv, along. cbn [m_cols gap2 m_outer List.length pred rsum]. unfold coeff. cbn. ring. }
    pose proof (uniqueness_limite _ _ _ _ D D2) as Q. cbn [t_n smoothnlp m_cols gap2 m_outer List.length pred rsum t_hess_pattern] in Q. cbn in Ln. destruct values as [|v [|w values]]; try discriminate Ln. cbn in Q. lra.
Qed.
