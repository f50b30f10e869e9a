(* Results about the reflection operators, the mass matrices they are used with, and worked cases. *)
From Coq Require Import List Reals Arith Bool Lia Lra Psatz.
From Verif Require Import Outcome Ccd_Model Lin_Model Lin_Proofs ContactBall_Model ContactRb3_Model Contact_Spec Contact3_Proofs Impact_Model Impact_Spec Impact_Proofs Impact_Inst
  Reflect_Model Reflect_Spec Reflect_Proofs.
Import ListNotations.
Open Scope R_scope.

Lemma Nmul_zero : forall N m k, Nmul N (repeat 0 m) k = 0.
Proof. induction N as [|g N IH]; intros [|m] k; try reflexivity. cbn [repeat]. rewrite Nmul_cons, IH. lra. Qed.
Lemma start_ok : forall n M Minv N v0F m, mass_pair n M Minv -> forall k, (k < n)%nat -> v0F k = vplus v0F (Minv (Nmul N (repeat 0 m))) k.
Proof. intros n M Minv N v0F m MP k Hk. unfold vplus. rewrite (Minv_zero n M Minv MP) by (intros; apply Nmul_zero || exact Hk). lra. Qed.
Lemma zeros_nonneg : forall m, Forall (fun x => 0 <= x) (repeat 0 m).
Proof. intros m. apply Forall_forall. intros x Hx. apply repeat_spec in Hx. lra. Qed.

Lemma gr_sound : forall n M Minv tol op N nrel CoR v0F fuel al, mass_pair n M Minv -> cols_in n N -> length nrel = length N -> length CoR = length N ->
  gr_flow Minv tol op N nrel CoR v0F fuel = Some (Ok al) ->
  length al = length N /\ satisfies N nrel tol (vplus v0F (Minv (Nmul N al)))
  /\ (pushing_op op -> Forall (fun a => 0 <= a) al)
  /\ (exact_op Minv op -> 0 <= tol -> Forall (fun c => 0 <= c <= 1) CoR -> forall w, satisfies N nrel 0 w ->
        kinetic_rel n M w (vplus v0F (Minv (Nmul N al))) <= kinetic_rel n M w v0F).
Proof.
  intros n M Minv tol op N nrel CoR v0F fuel al MP HN Hn HC H. unfold gr_flow in H.
  destruct (single_cor CoR) as [c| |] eqn:EC; try discriminate. destruct (single_cor_Ok CoR c EC) as [Hc Hne].
  pose proof (start_ok n M Minv N v0F (length N) MP) as Hst.
  assert (Hl : length (repeat 0 (length N)) = length N) by apply repeat_length.
  destruct (gr_feasible n Minv tol op N nrel CoR v0F HN fuel _ _ al Hl Hst H) as [H1 H2].
  split; [exact H1|]. split; [exact H2|]. split.
  - intros HP. apply (gr_pushes Minv tol op N nrel CoR v0F HP fuel _ _ al Hl (zeros_nonneg _) H).
  - intros HX Ht HC01 w Hw.
    assert (Hc01 : 0 <= c <= 1).
    { destruct CoR as [|x l]; [contradiction|]. inversion Hc; subst. inversion HC01; subst. assumption. }
    refine (gr_energy n M Minv MP tol op N nrel CoR v0F c HN Hn HC Hc HX Hc01 Ht w _ fuel _ _ al Hl Hst H).
    unfold satisfies in Hw. eapply Forall_impl; [|exact Hw]. intros a Ha. cbv beta in Ha. lra.
Qed.

Lemma gr_returns : forall n M Minv tol op N nrel CoR v0F c w, mass_pair n M Minv -> cols_in n N -> length nrel = length N -> length CoR = length N ->
  N <> [] -> Forall (fun x => x = c) CoR -> 0 <= c <= 1 -> 0 < tol -> exact_op Minv op -> answers op N nrel CoR ->
  satisfies N nrel 0 w -> (c < 1 \/ Forall (fun x => 0 < x) (ladd (Nt N w) nrel)) ->
  exists fuel al, gr_flow Minv tol op N nrel CoR v0F fuel = Some (Ok al).
Proof.
  intros n M Minv tol op N nrel CoR v0F c w MP HN Hn HC Hne Hc Hc01 Ht HX HA Hw Hs.
  assert (E : single_cor CoR = Ok c).
  { destruct CoR as [|x l]; [destruct N; [contradiction|discriminate]|]. inversion Hc; subst. cbn [single_cor].
    replace (forallb _ l) with true; [reflexivity|]. symmetry. apply forallb_forall. intros y Hy. rewrite Forall_forall in H2. rewrite (H2 y Hy).
    destruct (Req_EM_T c c); [reflexivity|contradiction]. }
  destruct (gr_total n M Minv MP tol op N nrel CoR v0F c HN Hn HC Hc HX HA Hc01 Ht w) with (al := repeat 0 (length N)) (v1 := v0F) as (fuel & al & HF).
  - unfold satisfies in Hw. eapply Forall_impl; [|exact Hw]. intros a Ha. cbv beta in Ha. lra.
  - exact Hs.
  - apply repeat_length.
  - apply (start_ok n M Minv N v0F (length N) MP).
  - exists fuel, al. unfold gr_flow. rewrite E. exact HF.
Qed.

(* ---------- GRR ---------- *)
(* the GR operator as an impact operator; still running counts as no answer *)
Lemma lscale_length : forall s a, length (lscale s a) = length a.
Proof. intros. apply map_length. Qed.
Lemma Nmul_comb : forall N s t a b k, length a = length N -> length b = length N ->
  Nmul N (ladd (lscale s a) (lscale t b)) k = s * Nmul N a k + t * Nmul N b k.
Proof.
  induction N as [|g N IH]; intros s t [|x a] [|y b] k Ha Hb; try discriminate; [cbn; lra|].
  change (ladd (lscale s (x :: a)) (lscale t (y :: b))) with ((s * x + t * y) :: ladd (lscale s a) (lscale t b)).
  rewrite !Nmul_cons, IH by (cbn in *; lia). lra.
Qed.

Section Mix.
Variable n : nat.
Variable M Minv : dvec -> dvec.
Hypothesis MP : mass_pair n M Minv.

Lemma mix_vel : forall N v0F s a b k, length a = length N -> length b = length N -> (k < n)%nat ->
  vplus v0F (Minv (Nmul N (ladd (lscale (1 - s) a) (lscale s b)))) k
  = (1 - s) * vplus v0F (Minv (Nmul N a)) k + s * vplus v0F (Minv (Nmul N b)) k.
Proof.
  intros N v0F s a b k Ha Hb Hk. unfold vplus.
  rewrite (mp_Minv_local n M Minv MP _ (fun i => (Nmul N a i + - s * Nmul N a i) + s * Nmul N b i)); [| |exact Hk].
  - rewrite (mp_Minv_lin n M Minv MP s (fun i => Nmul N a i + - s * Nmul N a i) (Nmul N b) k Hk).
    rewrite (mp_Minv_lin n M Minv MP (- s) (Nmul N a) (Nmul N a) k Hk). ring.
  - intros i _. rewrite Nmul_comb by assumption. ring.
Qed.

Lemma mix_kinetic : forall w u v z s, 0 <= s <= 1 -> (forall k, (k < n)%nat -> z k = (1 - s) * u k + s * v k) ->
  kinetic_rel n M w z <= (1 - s) * kinetic_rel n M w u + s * kinetic_rel n M w v.
Proof.
  intros w u v z s Hs Hz. unfold kinetic_rel.
  set (a := fun i => u i - w i). set (b := fun i => v i - w i).
  assert (HMz : forall k, (k < n)%nat -> M (fun i => z i - w i) k = (1 - s) * M a k + s * M b k).
  { intros k Hk. rewrite (mp_M_local n M Minv MP _ (fun i => (a i + - s * a i) + s * b i)); [| |exact Hk].
    - rewrite (mp_M_lin n M Minv MP s (fun i => a i + - s * a i) b k Hk). rewrite (mp_M_lin n M Minv MP (- s) a a k Hk). ring.
    - intros i Hi. rewrite (Hz i Hi). unfold a, b. ring. }
  assert (HMd : forall k, (k < n)%nat -> M (fun i => a i + -1 * b i) k = M a k - M b k).
  { intros k Hk. rewrite (mp_M_lin n M Minv MP (-1) a b k Hk). ring. }
  pose proof (mp_pos n M Minv MP (fun i => a i + -1 * b i)) as HP. cbv beta in HP.
  rewrite (rsum_ext n _ (fun k => (a k * M a k + b k * M b k) + -1 * (a k * M b k + b k * M a k))) in HP
    by (intros k Hk; rewrite (HMd k Hk); ring).
  rewrite rsum_plus, rsum_scal, !rsum_plus in HP.
  rewrite (rsum_ext n (fun k => (z k - w k) * M (fun i => z i - w i) k)
    (fun k => (1 - s) * ((1 - s) * (a k * M a k)) + (s * (1 - s)) * (a k * M b k + b k * M a k) + s * (s * (b k * M b k)))).
  2:{ intros k Hk. rewrite (HMz k Hk), (Hz k Hk). unfold a, b. ring. }
  rewrite !rsum_plus, !rsum_scal, !rsum_plus.
  change (rsum n (fun k => (u k - w k) * M a k)) with (rsum n (fun k => a k * M a k)).
  change (rsum n (fun k => (v k - w k) * M b k)) with (rsum n (fun k => b k * M b k)).
  set (A := rsum n (fun k => a k * M a k)) in *. set (B := rsum n (fun k => b k * M b k)) in *.
  set (C := rsum n (fun k => a k * M b k)) in *. set (D := rsum n (fun k => b k * M a k)) in *.
  assert (0 <= s * (1 - s) * (A + B - (C + D))) by (apply Rmult_le_pos; [apply Rmult_le_pos; lra|lra]).
  replace ((1 - s) * (/ 2 * A) + s * (/ 2 * B)) with (/ 2 * ((1 - s) * A + s * B)) by ring.
  apply Rmult_le_compat_l; [lra|]. lra.
Qed.

Lemma mix_satisfies : forall N nrel tol u v z s, cols_in n N -> length nrel = length N -> 0 <= s <= 1 -> (forall k, (k < n)%nat -> z k = (1 - s) * u k + s * v k) ->
  satisfies N nrel tol u -> satisfies N nrel tol v -> satisfies N nrel tol z.
Proof.
  intros N nrel tol u v z s HN Hl Hs Hz Hu Hv. unfold satisfies in *. apply Forall_nth_R. intros i Hi.
  unfold ladd in Hi. rewrite lmap2_length, Nt_length in Hi.
  assert (Hi1 : (i < length N)%nat) by lia. assert (Hi2 : (i < length nrel)%nat) by lia.
  pose proof (nth_Forall_R _ _ i Hu ltac:(unfold ladd; rewrite lmap2_length, Nt_length; lia)) as Hui.
  pose proof (nth_Forall_R _ _ i Hv ltac:(unfold ladd; rewrite lmap2_length, Nt_length; lia)) as Hvi.
  cbv beta in Hui, Hvi. unfold ladd in *. rewrite lmap2_nth in Hui, Hvi |- * by (rewrite ?Nt_length; lia).
  rewrite Nt_nth in Hui, Hvi |- * by exact Hi1.
  assert (HD : col_dot (nth i N []) z = (1 - s) * col_dot (nth i N []) u + s * col_dot (nth i N []) v).
  { assert (Hg : Forall (fun e => (fst e < n)%nat) (nth i N [])).
    { unfold cols_in in HN. rewrite Forall_forall in HN. apply HN, nth_In, Hi1. }
    rewrite <- !(col_dot_rsum n _ _ Hg), <- !rsum_scal, <- rsum_plus. apply rsum_ext. intros k Hk. rewrite (Hz k Hk). ring. }
  rewrite HD.
  assert (H1 : (1 - s) * (- tol) <= (1 - s) * (col_dot (nth i N []) u + nth i nrel 0)) by (apply Rmult_le_compat_l; lra).
  assert (H2 : s * (- tol) <= s * (col_dot (nth i N []) v + nth i nrel 0)) by (apply Rmult_le_compat_l; lra). lra.
Qed.
End Mix.

Lemma mix_nonneg : forall s a b, 0 <= s <= 1 -> Forall (fun x => 0 <= x) a -> Forall (fun x => 0 <= x) b ->
  Forall (fun x => 0 <= x) (ladd (lscale (1 - s) a) (lscale s b)).
Proof.
  intros s a b Hs Ha. revert b. induction Ha as [|x a Hx Ha IH]; intros b Hb; [constructor|].
  destruct Hb as [|y b Hy Hb]; [constructor|].
  change (ladd (lscale (1 - s) (x :: a)) (lscale s (y :: b))) with (((1 - s) * x + s * y) :: ladd (lscale (1 - s) a) (lscale s b)).
  constructor; [|apply IH; exact Hb]. apply Rplus_le_le_0_compat; apply Rmult_le_pos; lra.
Qed.

Lemma exact_pushing : forall Minv op, exact_op Minv op -> pushing_op op.
Proof. intros Minv op H N v0 v0F nrel CoR a0 a H1 H2 H3 E. destruct (H N v0 v0F nrel CoR a0 a H1 H2 H3 E) as (A & B & _). split; assumption. Qed.

(* one exact solve with coefficients 0 *)
Lemma inelastic_sound : forall n M Minv op N v0 v0F nrel CoR a0 al, mass_pair n M Minv -> cols_in n N -> length nrel = length N ->
  length CoR = length N -> length a0 = length N -> Forall (fun x => x = 0) CoR -> exact_op Minv op -> op N v0 v0F nrel CoR a0 = Ok al ->
  length al = length N /\ Forall (fun a => 0 <= a) al /\ satisfies N nrel 0 (vplus v0F (Minv (Nmul N al)))
  /\ (forall w, satisfies N nrel 0 w -> kinetic_rel n M w (vplus v0F (Minv (Nmul N al))) <= kinetic_rel n M w v0F).
Proof.
  intros n M Minv op N v0 v0F nrel CoR a0 al MP HN Hn HC Ha HC0 HX E.
  pose proof (HX N v0 v0F nrel CoR a0 al Hn HC Ha E) as HS.
  assert (EB : lcp_linear_term N nrel CoR v0 v0F = lcp_linear_term N nrel CoR v0F v0F).
  { unfold lcp_linear_term. f_equal.
    assert (Z : forall c l l', Forall (fun x => x = 0) c -> length l = length l' -> lmul c l = lmul c l').
    { intros c l l' Hc. revert l l'. induction Hc as [|x c Hx Hc IH]; intros [|y l] [|z l'] Hl; try discriminate; try reflexivity.
      change (lmul (x :: c) (y :: l)) with ((x * y) :: lmul c l). change (lmul (x :: c) (z :: l')) with ((x * z) :: lmul c l').
      rewrite (IH l l') by (cbn in Hl; lia). subst x. f_equal. lra. }
    apply Z; [exact HC0|]. unfold ladd. rewrite !lmap2_length, !Nt_length. reflexivity. }
  rewrite EB in HS. pose proof HS as (H1 & H2 & H3 & _). split; [exact H1|]. split; [exact H2|]. split.
  - unfold satisfies. apply Forall_nth_R. intros i Hi. unfold ladd in Hi. rewrite lmap2_length, Nt_length in Hi.
    pose proof (nth_Forall_R _ _ i H3 ltac:(unfold lcp_linear_term, lmul, ladd; rewrite !lmap2_length, !Nt_length; lia)) as H0. cbv beta in H0.
    unfold lcp_linear_term, lmul, ladd in *. repeat rewrite lmap2_nth in H0 by (rewrite ?lmap2_length, ?Nt_length; lia).
    rewrite lmap2_nth by (rewrite ?Nt_length; lia). rewrite !Nt_nth in H0 |- * by lia.
    rewrite (nth_Forall_R _ CoR i HC0) in H0 by lia.
    assert (Hg : Forall (fun e => (fst e < n)%nat) (nth i N [])).
    { unfold cols_in in HN. rewrite Forall_forall in HN. apply HN, nth_In. lia. }
    assert (HD : col_dot (nth i N []) (vplus v0F (Minv (Nmul N al))) = col_dot (nth i N []) v0F + col_dot (nth i N []) (Minv (Nmul N al))).
    { rewrite <- !(col_dot_rsum n _ _ Hg), <- rsum_plus. apply rsum_ext. intros k _. unfold vplus. ring. }
    rewrite HD. rewrite Rmult_0_l, Nt_nth in H0 by lia. lra.
  - intros w Hw.
    assert (Hw' : Forall (fun x => 0 <= x) (ladd (Nt N w) nrel)) by (unfold satisfies in Hw; eapply Forall_impl; [|exact Hw]; intros a Ha'; cbv beta in Ha'; lra).
    destruct (lcp_step n M Minv MP N nrel CoR 0 v0F (vplus v0F (Minv (Nmul N al))) w al HN Hn HC HC0 ltac:(lra) HS ltac:(reflexivity) Hw') as (Hx & HE).
    rewrite HE. pose proof (ldot_nonneg al _ H2 Hw') as Hy. lra.
Qed.

Definition gr_op (Minv : dvec -> dvec) (tol : R) (op : impact_op) (fuel : nat) : impact_op :=
  fun N v0 v0F nrel CoR a0 => match gr_flow Minv tol op N nrel CoR v0F fuel with Some r => r | None => Exit end.

Lemma grr_sound : forall n M Minv tol op1 op2 fuel N v0 v0F nrel CoR a0 al, mass_pair n M Minv -> cols_in n N -> length nrel = length N ->
  length CoR = length N -> length a0 = length N -> 0 <= tol -> Forall (fun c => 0 <= c <= 1) CoR -> exact_op Minv op1 -> exact_op Minv op2 ->
  grr_flow op1 (gr_op Minv tol op2 fuel) N v0 v0F nrel CoR a0 = Ok al ->
  length al = length N /\ Forall (fun a => 0 <= a) al /\ satisfies N nrel tol (vplus v0F (Minv (Nmul N al)))
  /\ (forall w, satisfies N nrel 0 w -> kinetic_rel n M w (vplus v0F (Minv (Nmul N al))) <= kinetic_rel n M w v0F).
Proof.
  intros n M Minv tol op1 op2 fuel N v0 v0F nrel CoR a0 al MP HN Hn HC Ha Ht HC01 HX1 HX2 H. unfold grr_flow in H.
  apply obind_Ok_inv in H. destruct H as (c & EC & H). destruct (single_cor_Ok CoR c EC) as [Hc Hne].
  assert (Hc01 : 0 <= c <= 1).
  { destruct CoR as [|x l]; [contradiction|]. inversion Hc; subst. inversion HC01; subst. assumption. }
  assert (W : forall v, satisfies N nrel 0 v -> satisfies N nrel tol v).
  { intros v Hv. unfold satisfies in *. eapply Forall_impl; [|exact Hv]. intros y Hy. cbv beta in Hy. lra. }
  destruct (Req_EM_T c 0) as [E0|E0].
  - subst c. destruct (inelastic_sound n M Minv op1 N v0 v0F nrel CoR a0 al MP HN Hn HC Ha Hc HX1 H) as (H1 & H2 & H3 & H4).
    split; [exact H1|]. split; [exact H2|]. split; [apply W; exact H3|exact H4].
  - destruct (Req_EM_T c 1) as [E1|E1].
    + unfold gr_op in H. destruct (gr_flow _ _ _ _ _ _ _ _) as [r|] eqn:EG; [|discriminate]. subst r.
      destruct (gr_sound n M Minv tol op2 N nrel CoR v0F fuel al MP HN Hn HC EG) as (H1 & H2 & H3 & H4).
      split; [exact H1|]. split; [apply H3; apply (exact_pushing Minv); exact HX2|]. split; [exact H2|]. apply H4; assumption.
    + apply obind_Ok_inv in H. destruct H as (al0 & Ea & H). apply obind_Ok_inv in H. destruct H as (al1 & Eb & H). injection H as <-.
      destruct (inelastic_sound n M Minv op1 N v0 v0F nrel (repeat 0 (length CoR)) (repeat 0 (length a0)) al0 MP HN Hn) as (H1 & H2 & H3 & H4);
        [rewrite repeat_length; exact HC|rewrite repeat_length; exact Ha|apply Forall_forall; intros y Hy; apply repeat_spec in Hy; exact Hy|exact HX1|exact Ea|].
      unfold gr_op in Eb. destruct (gr_flow _ _ _ _ _ _ _ _) as [r|] eqn:EG; [|discriminate]. subst r.
      destruct (gr_sound n M Minv tol op2 N nrel (repeat 1 (length CoR)) v0F fuel al1 MP HN Hn ltac:(rewrite repeat_length; exact HC) EG) as (G1 & G2 & G3 & G4).
      assert (L : length (ladd (lscale (1 - c) al0) (lscale c al1)) = length N) by (unfold ladd; rewrite lmap2_length, !lscale_length; lia).
      split; [exact L|]. split; [apply mix_nonneg; [exact Hc01|exact H2|apply G3; apply (exact_pushing Minv); exact HX2]|].
      pose proof (fun k Hk => mix_vel n M Minv MP N v0F c al0 al1 k H1 G1 Hk) as HZ.
      split.
      * apply (mix_satisfies n N nrel tol _ _ _ c HN Hn Hc01 HZ); [apply W; exact H3|exact G2].
      * intros w Hw. eapply Rle_trans; [apply (mix_kinetic n M Minv MP w _ _ _ c Hc01 HZ)|].
        specialize (H4 w Hw). specialize (G4 HX2 Ht ltac:(apply Forall_forall; intros y Hy; apply repeat_spec in Hy; lra) w Hw).
        replace (kinetic_rel n M w v0F) with ((1 - c) * kinetic_rel n M w v0F + c * kinetic_rel n M w v0F) by ring.
        apply Rplus_le_compat; apply Rmult_le_compat_l; lra.
Qed.

(* ---------- the mass matrices of the three programs ---------- *)
Lemma diag_pair : forall n m, (forall k, (k < n)%nat -> 0 < m k) -> mass_pair n (diag_mass m) (diag_minv m).
Proof.
  intros n m Hm. unfold diag_mass, diag_minv. split.
  - intros u v H k Hk. rewrite (H k Hk). reflexivity.
  - intros. ring.
  - intros u v H k Hk. rewrite (H k Hk). reflexivity.
  - intros. unfold Rdiv. ring.
  - intros f k Hk. specialize (Hm k Hk). field. lra.
  - intros u v. apply rsum_ext. intros. ring.
  - intros v. apply rsum_nonneg. intros k Hk. specialize (Hm k Hk). replace (v k * (m k * v k)) with (m k * (v k * v k)) by ring.
    apply Rmult_le_pos; [lra|]. apply Rle_0_sqr.
Qed.

Lemma rsum3 : forall k f, rsum (3 * k) f = rsum k (fun i => f (3 * i)%nat + f (3 * i + 1)%nat + f (3 * i + 2)%nat).
Proof.
  induction k as [|k IH]; intros f; [reflexivity|]. replace (3 * S k)%nat with (S (S (S (3 * k)))) by lia. cbn [rsum]. rewrite IH.
  replace (3 * k + 1)%nat with (S (3 * k)) by lia. replace (3 * k + 2)%nat with (S (S (3 * k))) by lia. ring.
Qed.
Lemma rb3_mass_lin : forall nb m I v k, (k < 3 * nb)%nat -> rb3_mass nb m I v k = m k * v k.
Proof. intros nb m I v k Hk. unfold rb3_mass. destruct (Nat.ltb_spec k (3 * nb)); [reflexivity|lia]. Qed.
Lemma rb3_mass_ang : forall nb m I f i d, (d < 3)%nat ->
  rb3_mass nb m I f (3 * (nb + i) + d)%nat = comp d (mul3 (I i) (seg3 f (3 * (nb + i)))).
Proof.
  intros nb m I f i d Hd. unfold rb3_mass.
  destruct (Nat.ltb_spec (3 * (nb + i) + d) (3 * nb)) as [H|_]; [lia|].
  replace (3 * (nb + i) + d - 3 * nb)%nat with (3 * i + d)%nat by lia.
  assert (E1 : ((3 * i + d) / 3 = i)%nat) by (symmetry; apply (Nat.div_unique _ 3 i d); lia).
  assert (E2 : ((3 * i + d) mod 3 = d)%nat) by (symmetry; apply (Nat.mod_unique _ 3 i d); lia).
  rewrite E1, E2. d3 d Hd; reflexivity.
Qed.
Lemma rb3_dot : forall nb m I u v, rsum (6 * nb) (fun k => u k * rb3_mass nb m I v k)
  = rsum (3 * nb) (fun k => u k * (m k * v k)) + rsum nb (fun i => dot3 (seg3 u (3 * (nb + i))) (mul3 (I i) (seg3 v (3 * (nb + i))))).
Proof.
  intros nb m I u v. replace (6 * nb)%nat with (3 * nb + 3 * nb)%nat by lia. rewrite rsum_split. f_equal.
  - apply rsum_ext. intros k Hk. rewrite rb3_mass_lin by exact Hk. reflexivity.
  - rewrite rsum3. apply rsum_ext. intros i Hi.
    replace (3 * nb + 3 * i)%nat with (3 * (nb + i) + 0)%nat by lia. replace (3 * nb + (3 * i + 1))%nat with (3 * (nb + i) + 1)%nat by lia.
    replace (3 * nb + (3 * i + 2))%nat with (3 * (nb + i) + 2)%nat by lia. rewrite !rb3_mass_ang by lia.
    unfold seg3 at 4. unfold dot3 at 1. cbn [comp c0 c1 c2]. replace (3 * (nb + i) + 0)%nat with (3 * (nb + i))%nat by lia. reflexivity.
Qed.
Lemma rb3_index : forall nb (P : nat -> Prop), (forall k, (k < 3 * nb)%nat -> P k) ->
  (forall i d, (i < nb)%nat -> (d < 3)%nat -> P (3 * (nb + i) + d)%nat) -> forall k, (k < 6 * nb)%nat -> P k.
Proof.
  intros nb P H1 H2 k Hk. destruct (Nat.lt_ge_cases k (3 * nb)) as [H|H]; [apply H1; exact H|].
  pose proof (Nat.div_mod (k - 3 * nb) 3 ltac:(lia)) as E. pose proof (Nat.mod_upper_bound (k - 3 * nb) 3 ltac:(lia)) as E2.
  replace k with (3 * (nb + (k - 3 * nb) / 3) + (k - 3 * nb) mod 3)%nat by lia. apply H2; [|exact E2].
  apply Nat.div_lt_upper_bound; lia.
Qed.
Lemma seg3_ext : forall u v k, u (k + 0)%nat = v (k + 0)%nat -> u (k + 1)%nat = v (k + 1)%nat -> u (k + 2)%nat = v (k + 2)%nat -> seg3 u k = seg3 v k.
Proof. intros u v k H0 H1 H2. unfold seg3. rewrite H0, H1, H2. reflexivity. Qed.

Lemma rb3_pair : forall nb m I Iinv, body_masses nb m -> inertia_ok nb I -> (forall i x, (i < nb)%nat -> mul3 (I i) (mul3 (Iinv i) x) = x) ->
  mass_pair (6 * nb) (rb3_mass nb m I) (rb3_minv nb m Iinv).
Proof.
  intros nb m I Iinv Hm HI HV.
  assert (Hpos : forall k, (k < 3 * nb)%nat -> 0 < m k) by (intros k Hk; apply (body_diag_pos nb m k Hm Hk)).
  assert (Hinvlin : forall f k, (k < 3 * nb)%nat -> rb3_minv nb m Iinv f k = 1 / m k * f k).
  { intros f k Hk. unfold rb3_minv. destruct (Nat.ltb_spec k (3 * nb)); [reflexivity|lia]. }
  split.
  - intros u v H. apply rb3_index.
    + intros k Hk. rewrite !rb3_mass_lin by exact Hk. rewrite (H k) by lia. reflexivity.
    + intros i d Hi Hd. rewrite !rb3_mass_ang by exact Hd. rewrite (seg3_ext u v) by (apply H; lia). reflexivity.
  - intros a u v k Hk. revert k Hk. apply rb3_index.
    + intros k Hk. rewrite !rb3_mass_lin by exact Hk. ring.
    + intros i d Hi Hd. rewrite !rb3_mass_ang by exact Hd. d3 d Hd; unfold mul3, dot3, seg3; cbn [comp c0 c1 c2]; ring.
  - intros u v H. apply rb3_index.
    + intros k Hk. rewrite !Hinvlin by exact Hk. rewrite (H k) by lia. reflexivity.
    + intros i d Hi Hd. rewrite !rb3_minv_ang by exact Hd. rewrite (seg3_ext u v) by (apply H; lia). reflexivity.
  - intros a u v k Hk. revert k Hk. apply rb3_index.
    + intros k Hk. rewrite !Hinvlin by exact Hk. ring.
    + intros i d Hi Hd. rewrite !rb3_minv_ang by exact Hd. d3 d Hd; unfold mul3, dot3, seg3; cbn [comp c0 c1 c2]; ring.
  - intros f k Hk. revert k Hk. apply rb3_index.
    + intros k Hk. rewrite rb3_mass_lin, Hinvlin by exact Hk. specialize (Hpos k Hk). field. lra.
    + intros i d Hi Hd. rewrite rb3_mass_ang by exact Hd.
      assert (E : seg3 (rb3_minv nb m Iinv f) (3 * (nb + i)) = mul3 (Iinv i) (seg3 f (3 * (nb + i)))).
      { unfold seg3 at 1. rewrite !rb3_minv_ang by lia. destruct (mul3 (Iinv i) (seg3 f (3 * (nb + i)))). reflexivity. }
      rewrite E, (HV i _ Hi). d3 d Hd; unfold seg3; cbn [comp c0 c1 c2]; reflexivity.
  - intros u v. rewrite !rb3_dot. f_equal; apply rsum_ext.
    + intros. ring.
    + intros i Hi. apply (proj1 (HI i Hi)).
  - intros v. rewrite rb3_dot. apply Rplus_le_le_0_compat; apply rsum_nonneg.
    + intros k Hk. specialize (Hpos k Hk). replace (v k * (m k * v k)) with (m k * (v k * v k)) by ring. apply Rmult_le_pos; [lra|apply Rle_0_sqr].
    + intros i Hi. apply (proj2 (HI i Hi)).
Qed.

(* ---------- small facts ---------- *)
Lemma grr_blend : forall inner1 inner2 N v0 v0F nrel c k alpha0 a b,
  inner1 N v0 v0F nrel (repeat 0 (S k)) (repeat 0 (length alpha0)) = Ok a ->
  inner2 N v0 v0F nrel (repeat 1 (S k)) (repeat 0 (length alpha0)) = Ok b ->
  c <> 0 -> c <> 1 ->
  grr_flow inner1 inner2 N v0 v0F nrel (repeat c (S k)) alpha0 = Ok (ladd (lscale (1 - c) a) (lscale c b)).
Proof.
  intros inner1 inner2 N v0 v0F nrel c k alpha0 a b H1 H2 Hc0 Hc1. unfold grr_flow. rewrite single_cor_const. cbn [obind].
  destruct (Req_EM_T c 0); [contradiction|]. destruct (Req_EM_T c 1); [contradiction|].
  rewrite repeat_length, H1. cbn [obind]. rewrite H2. reflexivity.
Qed.
Lemma one_coefficient : forall Minv tol op N nrel CoR v0 fuel x y, In x CoR -> In y CoR -> x <> y ->
  gr_flow Minv tol op N nrel CoR v0 fuel = Some Exit
  /\ forall inner1 inner2 v0F a, grr_flow inner1 inner2 N v0 v0F nrel CoR a = Exit.
Proof.
  intros Minv tol op N nrel CoR v0 fuel x y Hx Hy Hne. pose proof (single_cor_Exit CoR x y Hx Hy Hne) as E. split.
  - unfold gr_flow. rewrite E. reflexivity.
  - intros. unfold grr_flow. rewrite E. reflexivity.
Qed.
Lemma ball_pair_mass : forall n m, ball_masses n m -> mass_pair (2 * n) (diag_mass m) (diag_minv m).
Proof. intros n m H. apply diag_pair. intros k Hk. apply (ball_diag_pos n m k H Hk). Qed.
Lemma rb2_pair_mass : forall n m, (forall k, (k < 3 * n)%nat -> 0 < m k) -> mass_pair (3 * n) (diag_mass m) (diag_minv m).
Proof. intros n m H. apply diag_pair. exact H. Qed.

Lemma ldot_zero_entry : forall a z i, length z = length a -> Forall (fun x => 0 <= x) a -> Forall (fun x => 0 <= x) z -> ldot a z = 0 ->
  (i < length a)%nat -> 0 < nth i a 0 -> nth i z 0 = 0.
Proof.
  induction a as [|x a IH]; intros [|y z] i Hl Ha Hz H Hi Hp; cbn [length] in *; try lia.
  inversion Ha; subst. inversion Hz; subst. rewrite ldot_cons in H.
  pose proof (Rmult_le_pos x y H2 H4). pose proof (ldot_nonneg a z H3 H5).
  destruct i as [|i]; cbn [nth] in *.
  - assert (x * y = 0) by lra. apply Rmult_integral in H6. destruct H6; [lra|assumption].
  - apply IH; try assumption; try lia. lra.
Qed.
Lemma lcp_one : forall n M Minv op N nrel CoR c v a0 a,
  mass_pair n M Minv -> cols_in n N -> length nrel = length N -> length CoR = length N -> length a0 = length N ->
  Forall (fun x => x = c) CoR -> 0 <= c <= 1 -> exact_op Minv op -> op N v v nrel CoR a0 = Ok a ->
  let v' := vplus v (Minv (Nmul N a)) in
  (forall i, (i < length N)%nat ->
     - c * (col_dot (nth i N []) v + nth i nrel 0) <= col_dot (nth i N []) v' + nth i nrel 0
     /\ (0 < nth i a 0 -> col_dot (nth i N []) v' + nth i nrel 0 = - c * (col_dot (nth i N []) v + nth i nrel 0)))
  /\ (forall w, satisfies N nrel 0 w -> kinetic_rel n M w v' <= kinetic_rel n M w v)
  /\ (c = 1 -> Forall (fun x => x = 0) nrel -> kinetic_rel n M (fun _ => 0) v' = kinetic_rel n M (fun _ => 0) v).
Proof.
  intros n M Minv op N nrel CoR c v a0 a MP HN Hn HC Ha Hc Hc01 HX E v'.
  pose proof (HX N v v nrel CoR a0 a Hn HC Ha E) as HS. pose proof HS as (H1 & H2 & H3 & H4).
  set (z := ladd (Nt N (Minv (Nmul N a))) (lcp_linear_term N nrel CoR v v)) in *.
  assert (Lz : length z = length N) by (unfold z, lcp_linear_term, lmul, ladd; rewrite !lmap2_length, !Nt_length; lia).
  assert (HZ : forall i, (i < length N)%nat -> nth i z 0 = col_dot (nth i N []) v' + nth i nrel 0 + c * (col_dot (nth i N []) v + nth i nrel 0)).
  { intros i Hi. unfold z, lcp_linear_term, lmul, ladd. repeat rewrite lmap2_nth by (rewrite ?lmap2_length, ?Nt_length; lia).
    rewrite !Nt_nth by lia. rewrite (nth_Forall_R _ CoR i Hc) by lia.
    assert (Hg : Forall (fun e => (fst e < n)%nat) (nth i N [])).
    { unfold cols_in in HN. rewrite Forall_forall in HN. apply HN, nth_In. lia. }
    assert (HD : col_dot (nth i N []) v' = col_dot (nth i N []) v + col_dot (nth i N []) (Minv (Nmul N a))).
    { unfold v'. rewrite <- !(col_dot_rsum n _ _ Hg), <- rsum_plus. apply rsum_ext. intros k _. unfold vplus. ring. }
    rewrite HD. ring. }
  split; [|split].
  - intros i Hi. pose proof (nth_Forall_R _ z i H3 ltac:(lia)) as Hp. cbv beta in Hp. rewrite (HZ i Hi) in Hp. split; [lra|].
    intros Hai. pose proof (ldot_zero_entry a z i ltac:(lia) H2 H3 H4 ltac:(lia) Hai) as H0. rewrite (HZ i Hi) in H0. lra.
  - intros w Hw.
    assert (Hw' : Forall (fun x => 0 <= x) (ladd (Nt N w) nrel)) by (unfold satisfies in Hw; eapply Forall_impl; [|exact Hw]; intros y Hy; cbv beta in Hy; lra).
    destruct (lcp_step n M Minv MP N nrel CoR c v v' w a HN Hn HC Hc Hc01 HS ltac:(reflexivity) Hw') as (Hx & HE).
    rewrite HE. pose proof (ldot_nonneg a _ H2 Hw') as Hy.
    set (x := ldot a (ladd (Nt N v) nrel)) in *. assert (0 <= (1 - c) / 2 * (- x)) by (apply Rmult_le_pos; lra). lra.
  - intros -> Hr.
    assert (Z : ladd (Nt N (fun _ => 0)) nrel = repeat 0 (length N)).
    { clear -Hn Hr. revert nrel Hn Hr. induction N as [|g N IH]; intros [|y nrel] Hn Hr; try discriminate; [reflexivity|].
      inversion Hr; subst. change (Nt (g :: N) (fun _ => 0)) with (col_dot g (fun _ => 0) :: Nt N (fun _ => 0)).
      change (ladd (?p :: ?q) (0 :: nrel)) with ((p + 0) :: ladd q nrel). rewrite IH by (cbn in Hn; auto; lia). cbn [length repeat]. f_equal.
      rewrite Rplus_0_r. clear. induction g as [|e g IHg]; [reflexivity|]. unfold col_dot in *. cbn [fold_right]. rewrite IHg. ring. }
    destruct (lcp_step n M Minv MP N nrel CoR 1 v v' (fun _ => 0) a HN Hn HC Hc Hc01 HS ltac:(reflexivity)) as (Hx & HE).
    + rewrite Z. apply zeros_nonneg.
    + rewrite HE, Z.
      assert (L0 : forall l m, ldot l (repeat 0 m) = 0).
      { clear. induction l as [|x l IH]; intros [|m]; try reflexivity. cbn [repeat]. rewrite ldot_cons, IH. lra. }
      rewrite L0. lra.
Qed.
