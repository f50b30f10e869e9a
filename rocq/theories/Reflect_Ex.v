(* Worked cases for the reflection operators: a ball of mass 2 in a corner, moving into both walls. *)
From Coq Require Import List Reals Arith Bool Lia Lra.
From Verif Require Import Outcome Ccd_Model Lin_Model Lin_Proofs ContactBall_Model ContactRb3_Model Reflect_Model Reflect_Spec Reflect_Proofs Reflect_Thms.
Import ListNotations.
Open Scope R_scope.

Definition all_ge0 (l : list R) : bool := forallb (fun x => if Rle_dec 0 x then true else false) l.
Lemma all_ge0_spec : forall l, all_ge0 l = true <-> Forall (fun x => 0 <= x) l.
Proof.
  intros l. unfold all_ge0. rewrite forallb_forall, Forall_forall. split; intros H x Hx; specialize (H x Hx); destruct (Rle_dec 0 x); auto; discriminate.
Qed.
(* an operator that solves each contact on its own and ends the program unless that solves the whole problem *)
Definition own_op (Minv : dvec -> dvec) : impact_op :=
  fun N v0 v0F nrel CoR _ =>
    let b := lcp_linear_term N nrel CoR v0 v0F in
    let a := map (fun p => Rmax 0 (- snd p / col_dot (fst p) (Minv (entry (fst p))))) (combine N b) in
    let z := ladd (Nt N (Minv (Nmul N a))) b in
    if (Nat.eqb (length a) (length N) && all_ge0 a && all_ge0 z && (if Req_EM_T (ldot a z) 0 then true else false))%bool then Ok a else Exit.
Lemma own_op_exact : forall Minv, exact_op Minv (own_op Minv).
Proof.
  intros Minv N v0 v0F nrel CoR a0 a _ _ _ H. unfold own_op in H.
  set (b := lcp_linear_term N nrel CoR v0 v0F) in *.
  set (c := map (fun p => Rmax 0 (- snd p / col_dot (fst p) (Minv (entry (fst p))))) (combine N b)) in *.
  destruct (Nat.eqb_spec (length c) (length N)) as [E1|]; [|discriminate].
  destruct (all_ge0 c) eqn:E2; [|discriminate]. destruct (all_ge0 (ladd _ b)) eqn:E3; [|discriminate].
  destruct (Req_EM_T _ 0) as [E4|]; [|discriminate]. cbn in H. injection H as <-.
  split; [exact E1|]. split; [apply all_ge0_spec; exact E2|]. split; [apply all_ge0_spec; exact E3|exact E4].
Qed.

Definition ex_m : dvec := fun _ => 2.
Definition ex_N : list col := [[(0%nat, 1)]; [(1%nat, 1)]].
Definition ex_v : dvec := fun k => match k with O => -1 | _ => -3 end.

Lemma ex_pair : mass_pair 2 (diag_mass ex_m) (diag_minv ex_m).
Proof. apply diag_pair. intros. unfold ex_m. lra. Qed.
Lemma ex_cols : cols_in 2 ex_N.
Proof. repeat constructor. Qed.

Lemma rmax_lcp : forall b, 0 <= 1 / 2 * Rmax 0 (- b / (1 / 2)) + b /\ Rmax 0 (- b / (1 / 2)) * (1 / 2 * Rmax 0 (- b / (1 / 2)) + b) = 0.
Proof.
  intros b. destruct (Rle_lt_dec 0 b) as [H|H].
  - rewrite Rmax_left by lra. split; lra.
  - rewrite Rmax_right by lra. split; [lra|]. field.
Qed.

Definition cx (i : nat) : col := [(i, 1)].
(* the diagonal operator answers every sub-problem of the corner *)
Lemma ex_single : forall i c v, (i < 2)%nat ->
  exists a, own_op (diag_minv ex_m) [nth i ex_N []] v v [0] [c] [0] = Ok a.
Proof.
  intros i c v Hi. unfold own_op. cbv zeta.
  set (u := v i).
  assert (EN : nth i ex_N [] = cx i) by (unfold cx; destruct i as [|[|i]]; [reflexivity|reflexivity|lia]). rewrite EN.
  assert (EB : lcp_linear_term [cx i] [0] [c] v v = [u * (1 + c)]).
  { unfold cx, lcp_linear_term, ladd, lmul, lmap2, Nt. cbn. f_equal. fold u. ring. }
  rewrite EB. cbn [combine map fst snd].
  assert (ED : col_dot (cx i) (diag_minv ex_m (entry (cx i))) = 1 / 2).
  { unfold cx, col_dot, diag_minv, ex_m, entry. cbn. rewrite Nat.eqb_refl. field. }
  rewrite ED. set (a := Rmax 0 (- (u * (1 + c)) / (1 / 2))).
  assert (EZ : ladd (Nt [cx i] (diag_minv ex_m (Nmul [cx i] [a]))) [u * (1 + c)] = [1 / 2 * a + u * (1 + c)]).
  { unfold cx, ladd, lmap2, Nt, Nmul, impulse, col_dot, diag_minv, ex_m, entry. cbn. rewrite Nat.eqb_refl. f_equal. field. }
  rewrite EZ. destruct (rmax_lcp (u * (1 + c))) as [H1 H2]. fold a in H1, H2.
  match goal with |- exists a, (if ?t then Ok ?x else _) = Ok a => exists x; replace t with true; [reflexivity|symmetry] end. rewrite !andb_true_iff. split; [split; [split|]|].
  - reflexivity.
  - apply all_ge0_spec. constructor; [apply Rmax_l|constructor].
  - apply all_ge0_spec. constructor; [exact H1|constructor].
  - destruct (Req_EM_T _ 0) as [|Hn]; [reflexivity|]. exfalso. apply Hn. unfold ldot, lmul, lmap2. cbn. lra.
Qed.
Lemma ex_both : forall i j c v, (i < 2)%nat -> (j < 2)%nat -> i <> j ->
  exists a, own_op (diag_minv ex_m) [nth i ex_N []; nth j ex_N []] v v [0; 0] [c; c] [0; 0] = Ok a.
Proof.
  intros i j c v Hi Hj Hij. unfold own_op. cbv zeta.
  assert (EN : forall i, (i < 2)%nat -> nth i ex_N [] = cx i) by (unfold cx; intros k Hk; destruct k as [|[|k]]; [reflexivity|reflexivity|lia]). rewrite !EN by assumption.
  assert (EB : lcp_linear_term [cx i; cx j] [0; 0] [c; c] v v = [v i * (1 + c); v j * (1 + c)]).
  { unfold cx, lcp_linear_term, ladd, lmul, lmap2, Nt. cbn. f_equal; [ring|]. f_equal. ring. }
  rewrite EB. cbn [combine map fst snd].
  assert (ED : forall i, col_dot (cx i) (diag_minv ex_m (entry (cx i))) = 1 / 2).
  { intros k. unfold cx, col_dot, diag_minv, ex_m, entry. cbn. rewrite Nat.eqb_refl. field. }
  rewrite !ED. set (a := Rmax 0 (- (v i * (1 + c)) / (1 / 2))). set (b := Rmax 0 (- (v j * (1 + c)) / (1 / 2))).
  assert (EZ : ladd (Nt [cx i; cx j] (diag_minv ex_m (Nmul [cx i; cx j] [a; b]))) [v i * (1 + c); v j * (1 + c)]
    = [1 / 2 * a + v i * (1 + c); 1 / 2 * b + v j * (1 + c)]).
  { unfold cx, ladd, lmap2, Nt, Nmul, impulse, col_dot, diag_minv, ex_m, entry. cbn. rewrite !Nat.eqb_refl.
    destruct (Nat.eqb_spec i j); [contradiction|]. destruct (Nat.eqb_spec j i); [subst; contradiction|]. f_equal; [field|]. f_equal. field. }
  rewrite EZ. destruct (rmax_lcp (v i * (1 + c))) as [H1 H2]. destruct (rmax_lcp (v j * (1 + c))) as [H3 H4]. fold a in H1, H2. fold b in H3, H4.
  match goal with |- exists a, (if ?t then Ok ?x else _) = Ok a => exists x; replace t with true; [reflexivity|symmetry] end. rewrite !andb_true_iff. split; [split; [split|]|].
  - reflexivity.
  - apply all_ge0_spec. constructor; [apply Rmax_l|constructor; [apply Rmax_l|constructor]].
  - apply all_ge0_spec. constructor; [exact H1|constructor; [exact H3|constructor]].
  - destruct (Req_EM_T _ 0) as [|Hn]; [reflexivity|]. exfalso. apply Hn. unfold ldot, lmul, lmap2. cbn. lra.
Qed.

Lemma ex_answers : forall c, answers (own_op (diag_minv ex_m)) ex_N [0; 0] [c; c].
Proof.
  intros c idx v HD HF.
  assert (NZ : forall i, (i < 2)%nat -> nth i [0; 0] 0 = 0) by (intros [|[|i]] Hi; [reflexivity|reflexivity|lia]).
  assert (NC : forall i, (i < 2)%nat -> nth i [c; c] 0 = c) by (intros [|[|i]] Hi; [reflexivity|reflexivity|lia]).
  destruct idx as [|i [|j [|k idx]]].
  - cbn. exists []. unfold own_op. cbn. destruct (Req_EM_T _ 0) as [|Hn]; [reflexivity|]. exfalso. apply Hn. unfold ldot. cbn. reflexivity.
  - inversion HF; subst. cbn [map repeat length]. rewrite NZ, NC by assumption. apply ex_single. assumption.
  - inversion HF as [|? ? Hi HF']; subst. inversion HF' as [|? ? Hj _]; subst. inversion HD as [|? ? Hni _]; subst. cbn [map repeat length].
    rewrite !NZ, !NC by assumption. apply ex_both; [assumption|assumption|]. intros ->. apply Hni. left. reflexivity.
  - exfalso. assert (L : (length (i :: j :: k :: idx) <= length [0%nat; 1%nat])%nat).
    { apply NoDup_incl_length; [exact HD|]. intros x Hx. rewrite Forall_forall in HF. specialize (HF x Hx). change (length ex_N) with 2%nat in HF.
      destruct x as [|[|x]]; [left; reflexivity|right; left; reflexivity|lia]. }
    cbn in L. lia.
Qed.
Definition ex_w : dvec := fun _ => 1.
Lemma ex_w_ok : satisfies ex_N [0; 0] 0 ex_w /\ Forall (fun x => 0 < x) (ladd (Nt ex_N ex_w) [0; 0]).
Proof. split; unfold satisfies, ex_w; cbn; repeat constructor; lra. Qed.
