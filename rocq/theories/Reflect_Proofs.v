(* Lemmas about the reflection operators. *)
From Coq Require Import List Reals Arith Bool Lia Lra Psatz ZArith.
From Verif Require Import Outcome Ccd_Model Lin_Model Lin_Proofs ContactBall_Model ContactRb3_Model Contact_Spec Impact_Model Impact_Proofs
  Reflect_Model Reflect_Spec.
Import ListNotations.
Open Scope R_scope.

(* ---------- lists ---------- *)
Lemma lmap2_length : forall f a b, length (lmap2 f a b) = Nat.min (length a) (length b).
Proof. intros. unfold lmap2. rewrite map_length, combine_length. reflexivity. Qed.
Lemma lmap2_nth : forall f a b i, (i < length a)%nat -> (i < length b)%nat -> nth i (lmap2 f a b) 0 = f (nth i a 0) (nth i b 0).
Proof.
  intros f. induction a as [|x a IH]; intros [|y b] i Ha Hb; cbn [length] in *; try lia.
  unfold lmap2. cbn [combine map]. destruct i as [|i]; [reflexivity|]. cbn [nth fst snd]. apply IH; lia.
Qed.
Lemma Nt_length : forall N v, length (Nt N v) = length N.
Proof. intros. apply map_length. Qed.
Lemma Nt_nth : forall N v i, (i < length N)%nat -> nth i (Nt N v) 0 = col_dot (nth i N []) v.
Proof.
  intros N v i Hi. unfold Nt. rewrite (nth_indep _ 0 (col_dot [] v)) by (rewrite map_length; exact Hi).
  rewrite (map_nth (fun g => col_dot g v)). reflexivity.
Qed.
Lemma ldot_cons : forall x y a b, ldot (x :: a) (y :: b) = x * y + ldot a b.
Proof. reflexivity. Qed.
Lemma ldot_nil_r : forall a, ldot a [] = 0.
Proof. intros [|x a]; reflexivity. Qed.
Lemma ldot_add : forall a b c, length b = length a -> length c = length a -> ldot a (ladd b c) = ldot a b + ldot a c.
Proof.
  induction a as [|x a IH]; intros [|y b] [|z c] Hb Hc; try discriminate; [unfold ldot; cbn; lra|].
  change (ladd (y :: b) (z :: c)) with ((y + z) :: ladd b c). rewrite !ldot_cons, IH by (cbn in *; lia). lra.
Qed.
Lemma ldot_mul_const : forall k a b c, length b = length a -> length c = length a -> Forall (fun x => x = k) b -> ldot a (lmul b c) = k * ldot a c.
Proof.
  induction a as [|x a IH]; intros [|y b] [|z c] Hb Hc HF; try discriminate; [unfold ldot; cbn; lra|].
  inversion HF; subst. change (lmul (k :: b) (z :: c)) with ((k * z) :: lmul b c). rewrite !ldot_cons, IH by (cbn in *; auto; lia). lra.
Qed.
Lemma ldot_nonneg : forall a b, Forall (fun x => 0 <= x) a -> Forall (fun x => 0 <= x) b -> 0 <= ldot a b.
Proof.
  induction a as [|x a IH]; intros [|y b] Ha Hb; try (unfold ldot; cbn; lra).
  inversion Ha; subst. inversion Hb; subst. rewrite ldot_cons. specialize (IH b H2 H4). pose proof (Rmult_le_pos x y H1 H3). lra.
Qed.
Definition suml (a : list R) : R := fold_right Rplus 0 a.
Lemma ldot_lower : forall d a b, length b = length a -> Forall (fun x => 0 <= x) a -> Forall (fun x => d <= x) b -> d * suml a <= ldot a b.
Proof.
  intros d. induction a as [|x a IH]; intros [|y b] Hl Ha Hb; try discriminate; [unfold ldot; cbn; lra|].
  inversion Ha; subst. inversion Hb; subst. rewrite ldot_cons. cbn [suml fold_right]. fold (suml a).
  specialize (IH b ltac:(cbn in Hl; lia) H2 H4). pose proof (Rmult_le_compat_l x d y H1 H3). lra.
Qed.
Lemma ldot_upper : forall d a b, length b = length a -> Forall (fun x => 0 <= x) a -> Forall (fun x => x <= d) b -> ldot a b <= d * suml a.
Proof.
  intros d. induction a as [|x a IH]; intros [|y b] Hl Ha Hb; try discriminate; [unfold ldot; cbn; lra|].
  inversion Ha; subst. inversion Hb; subst. rewrite ldot_cons. cbn [suml fold_right]. fold (suml a).
  specialize (IH b ltac:(cbn in Hl; lia) H2 H4). pose proof (Rmult_le_compat_l x y d H1 H3). lra.
Qed.
Lemma suml_nonneg : forall a, Forall (fun x => 0 <= x) a -> 0 <= suml a.
Proof. intros a H. induction H; cbn; [lra|]. fold (suml l). lra. Qed.
Lemma Forall_nth_R : forall (P : R -> Prop) l, (forall i, (i < length l)%nat -> P (nth i l 0)) -> Forall P l.
Proof.
  intros P. induction l as [|x l IH]; intros H; constructor; [apply (H 0%nat); cbn; lia|].
  apply IH. intros i Hi. apply (H (S i)). cbn. lia.
Qed.
Lemma nth_Forall_R : forall (P : R -> Prop) l i, Forall P l -> (i < length l)%nat -> P (nth i l 0).
Proof. intros P l i H Hi. rewrite Forall_forall in H. apply H. apply nth_In. exact Hi. Qed.

(* ---------- scatter ---------- *)
Lemma add_at_length : forall i x al, length (add_at i x al) = length al.
Proof. induction i as [|i IH]; intros x [|a al]; cbn; try reflexivity. rewrite IH. reflexivity. Qed.
Lemma scatter_length : forall idx loc al, length (scatter idx loc al) = length al.
Proof.
  unfold scatter. induction idx as [|i idx IH]; intros [|x loc] al; cbn [combine fold_left]; try reflexivity.
  rewrite IH. apply add_at_length.
Qed.
Lemma Nmul_cons : forall g N a al k, Nmul (g :: N) (a :: al) k = entry g k * a + Nmul N al k.
Proof. reflexivity. Qed.
Lemma Nmul_nil_r : forall N k, Nmul N [] k = 0.
Proof. intros [|g N] k; reflexivity. Qed.
Lemma Nmul_add_at : forall N i x al k, length al = length N -> (i < length N)%nat ->
  Nmul N (add_at i x al) k = Nmul N al k + entry (nth i N []) k * x.
Proof.
  induction N as [|g N IH]; intros i x [|a al] k Hl Hi; cbn [length] in *; try lia.
  destruct i as [|i]; cbn [add_at nth]; rewrite !Nmul_cons; [lra|]. rewrite IH by lia. lra.
Qed.
Lemma Nmul_scatter : forall N idx loc al k, length al = length N -> Forall (fun i => (i < length N)%nat) idx ->
  Nmul N (scatter idx loc al) k = Nmul N al k + Nmul (map (fun i => nth i N []) idx) loc k.
Proof.
  intros N. unfold scatter. induction idx as [|i idx IH]; intros loc al k Hl HF.
  - cbn [combine fold_left map]. unfold Nmul, impulse. cbn. lra.
  - destruct loc as [|x loc]. { cbn [combine fold_left]. rewrite Nmul_nil_r. lra. }
    inversion HF; subst. cbn [combine fold_left map fst snd]. rewrite IH by (rewrite ?add_at_length; assumption).
    rewrite Nmul_add_at by assumption. rewrite Nmul_cons. lra.
Qed.
Lemma add_at_nonneg : forall i x al, 0 <= x -> Forall (fun a => 0 <= a) al -> Forall (fun a => 0 <= a) (add_at i x al).
Proof.
  induction i as [|i IH]; intros x al Hx H; destruct H as [|a al Ha H]; cbn; constructor; try assumption; try lra. apply IH; assumption.
Qed.
Lemma scatter_nonneg : forall idx loc al, Forall (fun a => 0 <= a) loc -> Forall (fun a => 0 <= a) al -> Forall (fun a => 0 <= a) (scatter idx loc al).
Proof.
  unfold scatter. induction idx as [|i idx IH]; intros loc al Hl Ha; [assumption|]. destruct Hl as [|x loc Hx Hl]; [assumption|].
  cbn [combine fold_left fst snd]. apply IH; [assumption|]. apply add_at_nonneg; assumption.
Qed.

(* ---------- single coefficient of restitution ---------- *)
Lemma single_cor_Ok : forall CoR c, single_cor CoR = Ok c -> Forall (fun x => x = c) CoR /\ CoR <> [].
Proof.
  intros [|x l] c H; cbn in H; [discriminate|].
  destruct (forallb _ l) eqn:E; [|discriminate]. injection H as ->. split; [|discriminate].
  constructor; [reflexivity|]. rewrite forallb_forall in E. apply Forall_forall. intros y Hy. specialize (E y Hy).
  destruct (Req_EM_T y c); [assumption|discriminate].
Qed.
Lemma single_cor_const : forall c k, single_cor (repeat c (S k)) = Ok c.
Proof.
  intros c k. cbn [repeat single_cor]. replace (forallb _ _) with true; [reflexivity|]. symmetry. apply forallb_forall.
  intros x Hx. apply repeat_spec in Hx. subst. destruct (Req_EM_T c c); [reflexivity|contradiction].
Qed.
Lemma single_cor_Exit : forall CoR x y, In x CoR -> In y CoR -> x <> y -> single_cor CoR = Exit.
Proof.
  intros CoR x y Hx Hy Hne. destruct (single_cor CoR) eqn:E; [|reflexivity|].
  - destruct (single_cor_Ok _ _ E) as [HF _]. rewrite Forall_forall in HF. exfalso. apply Hne. rewrite (HF x Hx), (HF y Hy). reflexivity.
  - destruct CoR; [destruct Hx|]. cbn in E. destruct (forallb _ _) in E; discriminate.
Qed.

(* ---------- violated contacts ---------- *)
Lemma violated_spec : forall tol vrel i, In i (violated tol vrel) <-> (i < length vrel)%nat /\ nth i vrel 0 < - tol.
Proof.
  intros tol vrel i. unfold violated. rewrite filter_In, in_seq.
  destruct (Rlt_dec (nth i vrel 0) (- tol)) as [H|H]; split; intros [H1 H2]; split; try lia; try assumption; try reflexivity; try discriminate; contradiction.
Qed.
Lemma violated_nil : forall tol vrel, violated tol vrel = [] -> Forall (fun x => - tol <= x) vrel.
Proof.
  intros tol vrel H. apply Forall_nth_R. intros i Hi. apply Rnot_lt_le. intros Hlt.
  assert (In i (violated tol vrel)) by (apply violated_spec; split; assumption). rewrite H in H0. destruct H0.
Qed.

(* ---------- mechanics ---------- *)
Section Mech.
Variable n : nat.
Variable M Minv : dvec -> dvec.
Hypothesis MP : mass_pair n M Minv.

Definition ip (f g : dvec) : R := rsum n (fun k => Minv f k * g k).

Lemma ip_sym : forall f g, ip f g = ip g f.
Proof.
  intros f g. unfold ip.
  rewrite (rsum_ext n (fun k => Minv f k * g k) (fun k => Minv f k * M (Minv g) k)) by (intros k Hk; rewrite (mp_inv n M Minv MP g k Hk); reflexivity).
  rewrite (mp_sym n M Minv MP). apply rsum_ext. intros k Hk. rewrite (mp_inv n M Minv MP f k Hk). reflexivity.
Qed.
Lemma ip_pos : forall f, 0 <= ip f f.
Proof.
  intros f. unfold ip.
  rewrite (rsum_ext n (fun k => Minv f k * f k) (fun k => Minv f k * M (Minv f) k)) by (intros k Hk; rewrite (mp_inv n M Minv MP f k Hk); reflexivity).
  apply (mp_pos n M Minv MP).
Qed.
Lemma Nmul_dot : forall N al v, cols_in n N -> rsum n (fun k => Nmul N al k * v k) = ldot al (Nt N v).
Proof.
  induction N as [|g N IH]; intros [|a al] v HN.
  - apply rsum_zero. intros. cbn. lra.
  - apply rsum_zero. intros. cbn. lra.
  - rewrite (rsum_ext n _ (fun _ => 0)) by (intros; rewrite Nmul_nil_r; lra). apply rsum_zero. reflexivity.
  - inversion HN as [|? ? Hg HN']; subst. change (Nt (g :: N) v) with (col_dot g v :: Nt N v). rewrite ldot_cons.
    rewrite (rsum_ext n _ (fun k => a * (entry g k * v k) + Nmul N al k * v k)) by (intros; rewrite Nmul_cons; lra).
    rewrite rsum_plus, rsum_scal, IH by assumption. rewrite (col_dot_rsum n g v Hg). reflexivity.
Qed.

Lemma M_sub_lin : forall u v k, (k < n)%nat -> M (fun i => u i - v i) k = M u k - M v k.
Proof.
  intros u v k Hk. rewrite (mp_M_local n M Minv MP (fun i => u i - v i) (fun i => u i + (-1) * v i)) by (exact Hk || (intros; cbv beta; ring)).
  rewrite (mp_M_lin n M Minv MP (-1) u v k Hk). lra.
Qed.

Lemma kinetic_step : forall w v v' f, (forall k, (k < n)%nat -> v' k = v k + Minv f k) ->
  kinetic_rel n M w v' = kinetic_rel n M w v + rsum n (fun k => f k * v k) - rsum n (fun k => f k * w k) + / 2 * ip f f.
Proof.
  intros w v v' f H. unfold kinetic_rel. set (d := fun i => v i - w i).
  assert (E : forall k, (k < n)%nat -> M (fun i => v' i - w i) k = M d k + f k).
  { intros k Hk.
    rewrite (mp_M_local n M Minv MP (fun i => v' i - w i) (fun i => d i + 1 * Minv f i)).
    - rewrite (mp_M_lin n M Minv MP 1 d (Minv f) k Hk), (mp_inv n M Minv MP f k Hk). lra.
    - intros i Hi. rewrite (H i Hi). unfold d. lra.
    - exact Hk. }
  rewrite (rsum_ext n (fun k => (v' k - w k) * M (fun i => v' i - w i) k)
    (fun k => d k * M d k + d k * f k + Minv f k * M d k + Minv f k * f k)).
  2:{ intros k Hk. rewrite (E k Hk), (H k Hk). unfold d. ring. }
  rewrite !rsum_plus.
  replace (rsum n (fun k => Minv f k * M d k)) with (rsum n (fun k => d k * f k)).
  2:{ rewrite (mp_sym n M Minv MP (Minv f) d). apply rsum_ext. intros k Hk. rewrite (mp_inv n M Minv MP f k Hk). reflexivity. }
  fold (ip f f).
  assert (D : rsum n (fun k => d k * f k) = rsum n (fun k => f k * v k) - rsum n (fun k => f k * w k)).
  { rewrite (rsum_ext n _ (fun k => f k * v k + (-1) * (f k * w k))) by (intros; unfold d; ring). rewrite rsum_plus, rsum_scal. lra. }
  rewrite D. change (rsum n (fun i => d i * M d i)) with (rsum n (fun k => (v k - w k) * M d k)). lra.
Qed.

Lemma kinetic_nonneg : forall w v, 0 <= kinetic_rel n M w v.
Proof. intros w v. unfold kinetic_rel. pose proof (mp_pos n M Minv MP (fun i => v i - w i)) as H. cbv beta in H. lra. Qed.

Lemma Minv_add : forall f g k, (k < n)%nat -> Minv (fun i => f i + g i) k = Minv f k + Minv g k.
Proof.
  intros f g k Hk. rewrite (mp_Minv_local n M Minv MP (fun i => f i + g i) (fun i => f i + 1 * g i)) by (exact Hk || (intros; cbv beta; ring)).
  rewrite (mp_Minv_lin n M Minv MP 1 f g k Hk). lra.
Qed.
Lemma Minv_zero : forall f k, (forall i, (i < n)%nat -> f i = 0) -> (k < n)%nat -> Minv f k = 0.
Proof.
  intros f k Hf Hk. pose proof (mp_Minv_lin n M Minv MP (-1) f f k Hk) as H.
  rewrite (mp_Minv_local n M Minv MP (fun i => f i + -1 * f i) f) in H; [lra| |exact Hk].
  intros i Hi. rewrite (Hf i Hi). lra.
Qed.
Lemma Nt_ext : forall N v w, cols_in n N -> (forall k, (k < n)%nat -> v k = w k) -> Nt N v = Nt N w.
Proof.
  intros N v w HN H. unfold Nt. apply map_ext_in. intros g Hg. unfold cols_in in HN. rewrite Forall_forall in HN.
  apply (col_dot_ext n); [apply HN; exact Hg|exact H].
Qed.

(* one solved local problem *)
Lemma lcp_step : forall N nrel CoR c v v' w a, cols_in n N -> length nrel = length N -> length CoR = length N ->
  Forall (fun x => x = c) CoR -> 0 <= c <= 1 ->
  solves_lcp Minv N (lcp_linear_term N nrel CoR v v) a ->
  (forall k, (k < n)%nat -> v' k = v k + Minv (Nmul N a) k) ->
  Forall (fun x => 0 <= x) (ladd (Nt N w) nrel) ->
  let x := ldot a (ladd (Nt N v) nrel) in
  x <= 0 /\ kinetic_rel n M w v' = kinetic_rel n M w v + (1 - c) / 2 * x - ldot a (ladd (Nt N w) nrel).
Proof.
  intros N nrel CoR c v v' w a HN Ln LC HC Hc (La & Ha & Hz & Hcomp) Hv Hw x.
  rewrite (kinetic_step w v v' (Nmul N a) Hv). rewrite !Nmul_dot by exact HN.
  assert (S : ip (Nmul N a) (Nmul N a) = ldot a (Nt N (Minv (Nmul N a)))).
  { unfold ip. rewrite <- (Nmul_dot N a _ HN). apply rsum_ext. intros i Hi. ring. }
  pose proof (ip_pos (Nmul N a)) as HS. rewrite S in *.
  set (s := ldot a (Nt N (Minv (Nmul N a)))) in *.
  assert (HB : ldot a (lcp_linear_term N nrel CoR v v) = (1 + c) * x).
  { unfold lcp_linear_term. rewrite ldot_add.
    - rewrite (ldot_mul_const c) by (try exact HC; unfold ladd; rewrite ?lmap2_length, ?Nt_length; lia). unfold x. lra.
    - unfold ladd. rewrite lmap2_length, Nt_length. lia.
    - unfold lmul, ladd. rewrite !lmap2_length, Nt_length. lia. }
  rewrite ldot_add in Hcomp.
  2:{ rewrite Nt_length. lia. }
  2:{ unfold lcp_linear_term, lmul, ladd. rewrite !lmap2_length, Nt_length. lia. }
  fold s in Hcomp. rewrite HB in Hcomp.
  assert (Hx : x = - s / (1 + c)) by (apply Rmult_eq_reg_l with (r := 1 + c); [field_simplify; lra|lra]).
  split.
  - rewrite Hx. unfold Rdiv. rewrite <- Ropp_mult_distr_l. pose proof (Rmult_le_pos s (/ (1 + c)) HS ltac:(left; apply Rinv_0_lt_compat; lra)). lra.
  - assert (X1 : x = ldot a (Nt N v) + ldot a nrel) by (unfold x; apply ldot_add; rewrite ?Nt_length; lia).
    rewrite (ldot_add a (Nt N w) nrel) by (rewrite ?Nt_length; lia).
    assert (Hs : s = - (1 + c) * x) by lra. rewrite Hs. lra.
Qed.

(* ---------- the loop ---------- *)
Section Loop.
Variable tol : R.
Variable op : impact_op.
Variable N : list col.
Variable nrel CoR : list R.
Variable v0F : dvec.
Variable c : R.
Hypothesis HN : cols_in n N.
Hypothesis Hnrel : length nrel = length N.
Hypothesis HCoR : length CoR = length N.
Hypothesis Hc : Forall (fun x => x = c) CoR.

Notation vel alpha := (vplus v0F (Minv (Nmul N alpha))).

Lemma gr_feasible : forall fuel al v1 al', length al = length N -> (forall k, (k < n)%nat -> v1 k = vel al k) ->
  gr_loop Minv tol op N nrel CoR v0F fuel al v1 = Some (Ok al') ->
  length al' = length N /\ satisfies N nrel tol (vel al').
Proof.
  induction fuel as [|k IH]; intros al v1 al' Hl Hv H; [discriminate|]. cbn [gr_loop] in H.
  destruct (violated tol (ladd (Nt N v1) nrel)) as [|i0 idx] eqn:EV.
  - injection H as <-. split; [exact Hl|]. unfold satisfies. rewrite <- (Nt_ext N v1 _ HN Hv). apply violated_nil. exact EV.
  - destruct (op _ _ _ _ _ _) as [loc| |] eqn:EO; try discriminate.
    apply (IH _ _ _ ltac:(rewrite scatter_length; exact Hl) ltac:(reflexivity) H).
Qed.

Lemma local_range : forall v1 i, In i (violated tol (ladd (Nt N v1) nrel)) -> (i < length N)%nat.
Proof.
  intros v1 i Hi. apply violated_spec in Hi. destruct Hi as [Hi _]. unfold ladd in Hi. rewrite lmap2_length, Nt_length in Hi. lia.
Qed.

Lemma gr_pushes : pushing_op op -> forall fuel al v1 al', length al = length N -> Forall (fun x => 0 <= x) al ->
  gr_loop Minv tol op N nrel CoR v0F fuel al v1 = Some (Ok al') -> Forall (fun x => 0 <= x) al'.
Proof.
  intros HP. induction fuel as [|k IH]; intros al v1 al' Hl Ha H; [discriminate|]. cbn [gr_loop] in H.
  destruct (violated tol (ladd (Nt N v1) nrel)) as [|i0 idx] eqn:EV; [injection H as <-; exact Ha|].
  destruct (op _ _ _ _ _ _) as [loc| |] eqn:EO; try discriminate.
  apply HP in EO; [|rewrite !map_length; reflexivity|rewrite !map_length; reflexivity|rewrite repeat_length, map_length; reflexivity].
  apply (IH _ _ _ ltac:(rewrite scatter_length; exact Hl) ltac:(apply scatter_nonneg; [apply EO|exact Ha]) H).
Qed.

(* the local problem of the violated contacts *)
Lemma local_lists : forall idx v, Forall (fun i => (i < length N)%nat) idx ->
  ladd (Nt (map (fun i => nth i N []) idx) v) (map (fun i => nth i nrel 0) idx) = map (fun i => nth i (ladd (Nt N v) nrel) 0) idx.
Proof.
  intros idx v H. induction H as [|i idx Hi _ IH]; [reflexivity|]. cbn [map]. change (Nt (nth i N [] :: map (fun i => nth i N []) idx) v)
    with (col_dot (nth i N []) v :: Nt (map (fun i => nth i N []) idx) v).
  change (ladd (?x :: ?a) (?y :: ?b)) with ((x + y) :: ladd a b). rewrite IH. f_equal.
  unfold ladd. rewrite lmap2_nth by (rewrite ?Nt_length; lia). rewrite Nt_nth by exact Hi. reflexivity.
Qed.

Lemma gr_step : exact_op Minv op -> 0 <= c <= 1 -> 0 <= tol -> forall w, Forall (fun x => 0 <= x) (ladd (Nt N w) nrel) ->
  forall al v1 idx loc, length al = length N -> (forall k, (k < n)%nat -> v1 k = vel al k) ->
  violated tol (ladd (Nt N v1) nrel) = idx ->
  op (map (fun i => nth i N []) idx) v1 v1 (map (fun i => nth i nrel 0) idx) (map (fun i => nth i CoR 0) idx) (repeat 0 (length idx)) = Ok loc ->
  let N_l := map (fun i => nth i N []) idx in
  let x := ldot loc (map (fun i => nth i (ladd (Nt N v1) nrel) 0) idx) in
  (forall k, (k < n)%nat -> vel (scatter idx loc al) k = v1 k + Minv (Nmul N_l loc) k)
  /\ solves_lcp Minv N_l (lcp_linear_term N_l (map (fun i => nth i nrel 0) idx) (map (fun i => nth i CoR 0) idx) v1 v1) loc
  /\ x <= 0
  /\ kinetic_rel n M w (vel (scatter idx loc al)) = kinetic_rel n M w v1 + (1 - c) / 2 * x - ldot loc (map (fun i => nth i (ladd (Nt N w) nrel) 0) idx).
Proof.
  intros HX Hc01 Ht w Hw al v1 idx loc Hl Hv EV EO N_l x.
  assert (HR : Forall (fun i => (i < length N)%nat) idx) by (apply Forall_forall; intros i Hi; rewrite <- EV in Hi; apply (local_range v1 i Hi)).
  assert (HS : solves_lcp Minv N_l (lcp_linear_term N_l (map (fun i => nth i nrel 0) idx) (map (fun i => nth i CoR 0) idx) v1 v1) loc).
  { eapply HX; [| | |exact EO]; unfold N_l; rewrite ?map_length, ?repeat_length; reflexivity. }
  assert (HNl : cols_in n N_l).
  { unfold cols_in, N_l. apply Forall_forall. intros g Hg. apply in_map_iff in Hg. destruct Hg as (i & <- & Hi).
    unfold cols_in in HN. rewrite Forall_forall in HN, HR. apply HN. apply nth_In. apply HR. exact Hi. }
  assert (HV : forall k, (k < n)%nat -> vel (scatter idx loc al) k = v1 k + Minv (Nmul N_l loc) k).
  { intros k Hk. rewrite (Hv k Hk). unfold vplus.
    rewrite (mp_Minv_local n M Minv MP (Nmul N (scatter idx loc al)) (fun i => Nmul N al i + Nmul N_l loc i)).
    - rewrite Minv_add by exact Hk. ring.
    - intros i _. apply Nmul_scatter; assumption.
    - exact Hk. }
  split; [exact HV|]. split; [exact HS|].
  pose proof (lcp_step N_l (map (fun i => nth i nrel 0) idx) (map (fun i => nth i CoR 0) idx) c v1 (vel (scatter idx loc al)) w loc HNl) as HL.
  specialize (HL ltac:(unfold N_l; rewrite !map_length; reflexivity) ltac:(unfold N_l; rewrite !map_length; reflexivity)).
  specialize (HL ltac:(apply Forall_forall; intros y Hy; apply in_map_iff in Hy; destruct Hy as (i & <- & Hi);
      rewrite Forall_forall in Hc; apply Hc; apply nth_In; rewrite HCoR; rewrite Forall_forall in HR; apply HR; exact Hi) Hc01 HS HV).
  unfold N_l in HL. rewrite !local_lists in HL by exact HR.
  apply HL. apply Forall_forall. intros y Hy. apply in_map_iff in Hy. destruct Hy as (i & <- & Hi).
  apply (nth_Forall_R (fun y => 0 <= y)); [exact Hw|]. unfold ladd. rewrite lmap2_length, Nt_length. rewrite Forall_forall in HR. specialize (HR i Hi). lia.
Qed.

Lemma map_feasible_nonneg : forall idx w, Forall (fun x => 0 <= x) (ladd (Nt N w) nrel) -> Forall (fun i => (i < length N)%nat) idx ->
  Forall (fun x => 0 <= x) (map (fun i => nth i (ladd (Nt N w) nrel) 0) idx).
Proof.
  intros idx w Hw HR. apply Forall_forall. intros y Hy. apply in_map_iff in Hy. destruct Hy as (i & <- & Hi).
  apply (nth_Forall_R (fun y => 0 <= y)); [exact Hw|]. unfold ladd. rewrite lmap2_length, Nt_length. rewrite Forall_forall in HR. specialize (HR i Hi). lia.
Qed.

Lemma gr_energy : exact_op Minv op -> 0 <= c <= 1 -> 0 <= tol -> forall w, Forall (fun x => 0 <= x) (ladd (Nt N w) nrel) ->
  forall fuel al v1 al', length al = length N -> (forall k, (k < n)%nat -> v1 k = vel al k) ->
  gr_loop Minv tol op N nrel CoR v0F fuel al v1 = Some (Ok al') -> kinetic_rel n M w (vel al') <= kinetic_rel n M w v1.
Proof.
  intros HX Hc01 Ht w Hw. induction fuel as [|k IH]; intros al v1 al' Hl Hv H; [discriminate|]. cbn [gr_loop] in H.
  destruct (violated tol (ladd (Nt N v1) nrel)) as [|i0 idx] eqn:EV.
  - injection H as <-. apply Req_le. unfold kinetic_rel. f_equal. apply rsum_ext. intros i Hi. rewrite (Hv i Hi). f_equal.
    apply (mp_M_local n M Minv MP); [|exact Hi]. intros j Hj. rewrite (Hv j Hj). reflexivity.
  - destruct (op _ _ _ _ _ _) as [loc| |] eqn:EO; try discriminate.
    assert (HR : Forall (fun i => (i < length N)%nat) (i0 :: idx)) by (apply Forall_forall; intros i Hi; rewrite <- EV in Hi; apply (local_range v1 i Hi)).
    destruct (gr_step HX Hc01 Ht w Hw al v1 (i0 :: idx) loc Hl Hv EV EO) as (_ & (_ & Hpos & _) & Hx & HE).
    specialize (IH _ _ _ ltac:(rewrite scatter_length; exact Hl) ltac:(reflexivity) H).
    eapply Rle_trans; [exact IH|]. rewrite HE.
    pose proof (ldot_nonneg loc _ Hpos (map_feasible_nonneg (i0 :: idx) w Hw HR)) as Hy.
    set (xx := ldot loc (map (fun i => nth i (ladd (Nt N v1) nrel) 0) (i0 :: idx))) in *.
    assert (0 <= (1 - c) / 2 * (- xx)) by (apply Rmult_le_pos; lra). lra.
Qed.

(* ---------- termination ---------- *)
Lemma gram_bound : exists B, 0 < B /\ forall g h, In g N -> In h N -> col_dot g (Minv (entry h)) <= B.
Proof.
  assert (K : forall l : list (col * col), exists B, 0 < B /\ forall p, In p l -> col_dot (fst p) (Minv (entry (snd p))) <= B).
  { induction l as [|p l (B & HB & HF)].
    - exists 1. split; [lra|]. intros p [].
    - exists (Rmax B (col_dot (fst p) (Minv (entry (snd p))))). split.
      + eapply Rlt_le_trans; [exact HB|apply Rmax_l].
      + intros p' [<-|Hin]; [apply Rmax_r|]. eapply Rle_trans; [apply HF; exact Hin|apply Rmax_l]. }
  destruct (K (list_prod N N)) as (B & HB & HF). exists B. split; [exact HB|].
  intros g h Hg Hh. apply (HF (g, h)). apply in_prod; assumption.
Qed.

Lemma Nt_Minv_upper : forall B idx loc, (forall g h, In g N -> In h N -> col_dot g (Minv (entry h)) <= B) ->
  Forall (fun i => (i < length N)%nat) idx -> length loc = length idx -> Forall (fun x => 0 <= x) loc ->
  let N_l := map (fun i => nth i N []) idx in
  forall i, In i idx -> col_dot (nth i N []) (Minv (Nmul N_l loc)) <= B * suml loc.
Proof.
  intros B idx loc HB HR Hl Ha N_l i Hi.
  assert (HNl : cols_in n N_l).
  { unfold cols_in, N_l. apply Forall_forall. intros g Hg. apply in_map_iff in Hg. destruct Hg as (j & <- & Hj).
    unfold cols_in in HN. rewrite Forall_forall in HN, HR. apply HN. apply nth_In. apply HR. exact Hj. }
  assert (Hgi : In (nth i N []) N) by (apply nth_In; rewrite Forall_forall in HR; apply HR; exact Hi).
  assert (HgN : Forall (fun e => (fst e < n)%nat) (nth i N [])) by (unfold cols_in in HN; rewrite Forall_forall in HN; apply HN; exact Hgi).
  rewrite <- (col_dot_rsum n _ _ HgN).
  rewrite (rsum_ext n _ (fun k => Minv (Nmul N_l loc) k * entry (nth i N []) k)) by (intros; ring).
  change (rsum n (fun k => Minv (Nmul N_l loc) k * entry (nth i N []) k)) with (ip (Nmul N_l loc) (entry (nth i N []))).
  rewrite ip_sym. unfold ip.
  rewrite (rsum_ext n _ (fun k => Nmul N_l loc k * Minv (entry (nth i N [])) k)) by (intros; ring).
  rewrite (Nmul_dot N_l loc _ HNl). apply ldot_upper.
  - rewrite Nt_length. unfold N_l. rewrite map_length. lia.
  - exact Ha.
  - unfold Nt, N_l. rewrite map_map. apply Forall_forall. intros y Hy. apply in_map_iff in Hy. destruct Hy as (j & <- & Hj).
    apply HB; [|exact Hgi]. apply nth_In. rewrite Forall_forall in HR. apply HR. exact Hj.
Qed.

Lemma gr_total : exact_op Minv op -> answers op N nrel CoR -> 0 <= c <= 1 -> 0 < tol -> forall w,
  Forall (fun x => 0 <= x) (ladd (Nt N w) nrel) -> (c < 1 \/ Forall (fun x => 0 < x) (ladd (Nt N w) nrel)) ->
  forall al v1, length al = length N -> (forall k, (k < n)%nat -> v1 k = vel al k) ->
  exists fuel al', gr_loop Minv tol op N nrel CoR v0F fuel al v1 = Some (Ok al').
Proof.
  intros HX HT Hc01 Ht w Hw Hs.
  destruct gram_bound as (B & HB & HBB).
  (* a common lower bound of the strict part *)
  assert (HD : exists dl, 0 <= dl /\ Forall (fun x => dl <= x) (ladd (Nt N w) nrel) /\ (c < 1 \/ 0 < dl)).
  { destruct Hs as [Hs|Hs]; [exists 0; split; [lra|]; split; [exact Hw|left; exact Hs]|].
    assert (X : forall l, Forall (fun x => 0 < x) l -> exists dl, 0 < dl /\ Forall (fun x => dl <= x) l).
    { intros l Hl. induction Hl as [|x l Hx _ (dl & H1 & H2)]; [exists 1; split; [lra|constructor]|].
      exists (Rmin x dl). split; [apply Rmin_glb_lt; assumption|]. constructor; [apply Rmin_l|].
      eapply Forall_impl; [|exact H2]. intros y Hy. eapply Rle_trans; [apply Rmin_r|exact Hy]. }
    destruct (X _ Hs) as (dl & H1 & H2). exists dl. split; [lra|]. split; [exact H2|right; exact H1]. }
  destruct HD as (dl & Hdl & HdlF & Hdls).
  set (d := (((1 - c) / 2) * tol + dl) * ((1 + c) * tol / B)).
  assert (Hd : 0 < d).
  { unfold d. apply Rmult_lt_0_compat.
    - destruct Hdls as [H|H].
      + apply Rplus_lt_le_0_compat; [|exact Hdl]. apply Rmult_lt_0_compat; lra.
      + apply Rplus_le_lt_0_compat; [|exact H]. apply Rmult_le_pos; lra.
    - unfold Rdiv. apply Rmult_lt_0_compat; [|apply Rinv_0_lt_compat; exact HB]. apply Rmult_lt_0_compat; lra. }
  assert (K : forall m al v1, length al = length N -> (forall k, (k < n)%nat -> v1 k = vel al k) ->
     kinetic_rel n M w v1 < INR m * d -> exists fuel al', gr_loop Minv tol op N nrel CoR v0F fuel al v1 = Some (Ok al')).
  { induction m as [|m IH]; intros al v1 Hl Hv He.
    - exfalso. cbn [INR] in He. pose proof (kinetic_nonneg w v1). lra.
    - destruct (violated tol (ladd (Nt N v1) nrel)) as [|i0 idx] eqn:EV.
      + exists 1%nat, al. cbn [gr_loop]. rewrite EV. reflexivity.
      + assert (HND : NoDup (i0 :: idx)) by (rewrite <- EV; unfold violated; apply NoDup_filter, seq_NoDup).
        assert (HR0 : Forall (fun i => (i < length N)%nat) (i0 :: idx)) by (apply Forall_forall; intros i Hi; rewrite <- EV in Hi; apply (local_range v1 i Hi)).
        destruct (HT (i0 :: idx) v1 HND HR0) as (loc & EO).
        assert (HR : Forall (fun i => (i < length N)%nat) (i0 :: idx)) by (apply Forall_forall; intros i Hi; rewrite <- EV in Hi; apply (local_range v1 i Hi)).
        destruct (gr_step HX Hc01 (Rlt_le _ _ Ht) w Hw al v1 (i0 :: idx) loc Hl Hv EV EO) as (_ & (Hll & Hpos & Hz & _) & Hx & HE).
        destruct (IH (scatter (i0 :: idx) loc al) (vel (scatter (i0 :: idx) loc al))) as (fuel & al' & HF).
        * rewrite scatter_length. exact Hl.
        * reflexivity.
        * rewrite HE. rewrite map_length in Hll.
          (* the impulses have a minimum size *)
          assert (Hsum : (1 + c) * tol / B <= suml loc).
          { assert (Hup : col_dot (nth i0 N []) (Minv (Nmul (map (fun i => nth i N []) (i0 :: idx)) loc)) <= B * suml loc).
            { apply (Nt_Minv_upper B (i0 :: idx) loc HBB HR Hll Hpos). left. reflexivity. }
            assert (Hv0 : nth i0 (ladd (Nt N v1) nrel) 0 < - tol) by (apply (violated_spec tol _ i0); rewrite EV; left; reflexivity).
            assert (H0 : 0 <= nth 0 (ladd (Nt (map (fun i => nth i N []) (i0 :: idx)) (Minv (Nmul (map (fun i => nth i N []) (i0 :: idx)) loc)))
               (lcp_linear_term (map (fun i => nth i N []) (i0 :: idx)) (map (fun i => nth i nrel 0) (i0 :: idx)) (map (fun i => nth i CoR 0) (i0 :: idx)) v1 v1)) 0).
            { apply (nth_Forall_R (fun y => 0 <= y)); [exact Hz|]. unfold lcp_linear_term, ladd, lmul. rewrite !lmap2_length, !Nt_length, !map_length. cbn. lia. }
            unfold lcp_linear_term in H0. rewrite !local_lists in H0 by exact HR. cbn [map] in H0.
            change (Nt (?g :: ?l) ?v) with (col_dot g v :: Nt l v) in H0.
            change (ladd (?x :: ?a) (?y :: ?b)) with ((x + y) :: ladd a b) in H0. change (lmul (?x :: ?a) (?y :: ?b)) with ((x * y) :: lmul a b) in H0.
            change (ladd (?x :: ?a) (?y :: ?b)) with ((x + y) :: ladd a b) in H0. change (ladd (?x :: ?a) (?y :: ?b)) with ((x + y) :: ladd a b) in H0.
            cbn [nth] in H0.
            assert (HC0 : nth i0 CoR 0 = c).
            { rewrite Forall_forall in Hc. apply Hc. apply nth_In. rewrite HCoR. inversion HR; assumption. }
            rewrite HC0 in H0. cbn [map] in Hup. set (u := nth i0 (ladd (Nt N v1) nrel) 0) in *.
            set (z := col_dot (nth i0 N []) _) in *.
            assert (0 <= c * (- tol - u)) by (apply Rmult_le_pos; lra).
            apply Rmult_le_reg_l with (r := B); [exact HB|].
            replace (B * ((1 + c) * tol / B)) with ((1 + c) * tol) by (field; lra). lra. }
          assert (H1 : ldot loc (map (fun i => nth i (ladd (Nt N v1) nrel) 0) (i0 :: idx)) <= (- tol) * suml loc).
          { apply ldot_upper; [rewrite map_length; lia|exact Hpos|]. apply Forall_forall. intros y Hy. apply in_map_iff in Hy.
            destruct Hy as (i & <- & Hi). rewrite <- EV in Hi. apply violated_spec in Hi. lra. }
          assert (H2 : dl * suml loc <= ldot loc (map (fun i => nth i (ladd (Nt N w) nrel) 0) (i0 :: idx))).
          { apply ldot_lower; [rewrite map_length; lia|exact Hpos|]. apply Forall_forall. intros y Hy. apply in_map_iff in Hy.
            destruct Hy as (i & <- & Hi). apply (nth_Forall_R (fun y => dl <= y)); [exact HdlF|].
            unfold ladd. rewrite lmap2_length, Nt_length. rewrite Forall_forall in HR. specialize (HR i Hi). lia. }
          set (x := ldot loc (map (fun i => nth i (ladd (Nt N v1) nrel) 0) (i0 :: idx))) in *.
          set (y := ldot loc (map (fun i => nth i (ladd (Nt N w) nrel) 0) (i0 :: idx))) in *.
          assert (H3 : (1 - c) / 2 * x <= (1 - c) / 2 * (- tol * suml loc)) by (apply Rmult_le_compat_l; lra).
          assert (H4 : d <= ((1 - c) / 2 * tol + dl) * suml loc).
          { unfold d. apply Rmult_le_compat_l; [|exact Hsum]. apply Rplus_le_le_0_compat; [|exact Hdl]. apply Rmult_le_pos; lra. }
          rewrite S_INR in He. lra.
        * exists (S fuel), al'. cbn [gr_loop]. rewrite EV, EO. exact HF. }
  intros al v1 Hl Hv.
  destruct (archimed (kinetic_rel n M w v1 / d)) as [Hup _].
  assert (Hz : (0 <= up (kinetic_rel n M w v1 / d))%Z).
  { apply le_IZR. pose proof (kinetic_nonneg w v1).
    assert (0 <= kinetic_rel n M w v1 / d) by (apply Rmult_le_pos; [assumption|left; apply Rinv_0_lt_compat; exact Hd]). lra. }
  apply (K (Z.to_nat (up (kinetic_rel n M w v1 / d))) al v1 Hl Hv).
  rewrite INR_IZR_INZ, Z2Nat.id by exact Hz.
  apply Rmult_lt_reg_r with (r := / d); [apply Rinv_0_lt_compat; exact Hd|].
  replace (IZR (up (kinetic_rel n M w v1 / d)) * d * / d) with (IZR (up (kinetic_rel n M w v1 / d))) by (field; lra). exact Hup.
Qed.
End Loop.
End Mech.
