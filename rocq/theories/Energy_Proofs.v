(* An energy that neither the free steps nor the impacts increase does not grow over a run. *)
From Coq Require Import List Reals Arith NArith Bool Lia Lra.
From Verif Require Import Outcome Ccd_Model Flow_Model Flow_Spec Flow_Proofs Quad_Model Quad_Proofs Integr_Model Integr_Spec Lin_Model Lin_Proofs Sob_Model Sob_Spec
  World_Model World_Spec World_Proofs World_Thms Energy_Spec.
Import ListNotations.
Open Scope R_scope.

(* ---------- the energy of an impact ---------- *)
Lemma rsum_swap_ : forall n m f, rsum n (fun i => rsum m (fun j => f i j)) = rsum m (fun j => rsum n (fun i => f i j)).
Proof.
  induction n as [|n IH]; intros m f; cbn [rsum]; [induction m; cbn [rsum]; lra|]. rewrite IH. clear IH. induction m as [|m IH]; cbn [rsum]; [lra|]. rewrite <- IH. lra.
Qed.
Section Impact.
Context (nv : nat) (T : dvec -> R) (minv : dvec -> dvec).
Hypothesis work : forall v p, T (vplus v (minv p)) = T v + / 2 * rsum nv (fun k => p k * (v k + vplus v (minv p) k)).
Hypothesis pos : forall p, 0 <= rsum nv (fun k => p k * minv p k).

Lemma impact_dissipates : forall nc (n : nat -> dvec) alpha v c, 0 <= c <= 1 ->
  let p := fun k => rsum nc (fun i => n i k * alpha i) in let v' := vplus v (minv p) in
  (forall i, (i < nc)%nat -> alpha i * (rsum nv (fun k => n i k * v' k) + c * rsum nv (fun k => n i k * v k)) = 0) ->
  T v' <= T v.
Proof.
  intros nc n alpha v c Hc p v' H. unfold v'. rewrite work. fold v'.
  assert (W : forall w, rsum nv (fun k => p k * w k) = rsum nc (fun i => alpha i * rsum nv (fun k => n i k * w k))).
  { intros w. unfold p. rewrite (rsum_ext nv _ (fun k => rsum nc (fun i => n i k * alpha i * w k))) by (intros; rewrite Rmult_comm, <- rsum_scal; apply rsum_ext; intros; ring).
    rewrite rsum_swap_. apply rsum_ext. intros i _. rewrite <- rsum_scal. apply rsum_ext. intros; ring. }
  assert (Z : rsum nv (fun k => p k * v' k) + c * rsum nv (fun k => p k * v k) = 0).
  { rewrite !W, <- rsum_scal, <- rsum_plus. apply rsum_zero. intros i Hi. rewrite <- (H i Hi). ring. }
  assert (D : rsum nv (fun k => p k * v' k) = rsum nv (fun k => p k * v k) + rsum nv (fun k => p k * minv p k)).
  { rewrite <- rsum_plus. apply rsum_ext. intros; unfold v', vplus; ring. }
  assert (Q : rsum nv (fun k => p k * (v k + v' k)) = rsum nv (fun k => p k * v k) + rsum nv (fun k => p k * v' k)) by (rewrite <- rsum_plus; apply rsum_ext; intros; ring).
  rewrite Q. pose proof (pos p). nra.
Qed.
End Impact.

Lemma nth_repeat_lt : forall (c d : R) i n, (i < n)%nat -> nth i (repeat c n) d = c.
Proof. intros c d i n. revert i. induction n as [|n IH]; intros [|i] H; cbn [repeat nth]; [lia|lia|reflexivity|apply IH; lia]. Qed.

(* ---------- runs ---------- *)
Section Decay.
Context {C S K Mem : Type} (U : simulator C S) (G : settings C S K) (planar : bool) (m : method) (sc : script (S * K) C Mem)
  (Inv : S -> dvec -> Prop) (E : S -> dvec -> R) (loss : R).
Record decays : Prop := {
  de_step : forall s v q1 v1, Inv s v -> u_step U s (u_q U s) v = Some (q1, v1) -> Inv (next U planar s q1 v1) v1 /\ E (next U planar s q1 v1) v1 <= E s v - loss;
  de_impact : forall s k0 q1 cs cor a a' v2 lv lv', Inv s (u_v U s) -> u_active U s (u_q U s) q1 (u_v U s) = Ok cs ->
    restitutionCoefficient sc cs (repeat (g_CoR G) (length cs)) lv = Ok (cor, lv') ->
    impact_part U G (s, k0) (u_q U s) (u_v U s) cs cor a = Ok (a', v2) -> Inv s v2 /\ E s v2 <= E s (u_v U s);
  de_v : forall s q v, u_v U (next U planar s q v) = v;
  de_boundary : forall s s', u_boundary U s = Ok s' -> s' = s }.
Hypothesis H : decays.
Hypothesis Hm : frictionless m.
Hypothesis off : hands_off sc.

Lemma map_decays : forall it w f lv q1 v1 w' f' lv', Inv (fst w) (u_v U (fst w)) ->
  map_flow (world_engine U G) sc m it w f lv = Ok (q1, v1, w', f', lv') ->
  fst w' = fst w /\ Inv (next U planar (fst w) q1 v1) v1 /\ E (next U planar (fst w) q1 v1) v1 <= E (fst w) (u_v U (fst w)) - loss.
Proof.
  intros it [s k0] f lv q1 v1 w' f' lv' Hs HF. cbn [fst] in *. unfold map_flow in HF. destruct Hm as [-> | ->].
  - step_let HF. destruct x as [q v]. apply ok_eq in HF. injection HF as <- <- <- _ _. apply umap_inv in E0. cbn [world_engine e_q e_v fst] in E0.
    split; [reflexivity|]. now apply (de_step H).
  - step_let HF. destruct x as [[[q v] w1] lv1]. apply ok_eq in HF. injection HF as <- <- <- _ _. unfold impact_flow in E0.
    step_let E0. destruct x as [q2 v2]. step_let E0. destruct x as [|c cs].
    + apply ok_eq in E0. injection E0 as <- <- <- _. apply umap_inv in E1. cbn [world_engine e_q e_v e_clear fst] in *.
      split; [reflexivity|]. now apply (de_step H).
    + step_let E0. step_let E0. destruct x0 as [cor lv2]. step_let E0. destruct x0 as [al v3']. step_let E0. step_let E0. destruct x1 as [q4 v4].
      apply ok_eq in E0. injection E0 as <- <- <- _. apply umap_inv in E7.
      cbn [world_engine e_q e_v e_clear e_impact e_active e_ncache e_CoR fst snd] in *.
      assert (W : fst x0 = s).
      { destruct (g_warm G); cbn [world_engine e_warm] in E6; destruct (g_warm G); try (apply ok_eq in E6; now rewrite <- E6).
        all: try (step_let E6; apply ok_eq in E6; now rewrite <- E6). }
      rewrite W in E7. destruct (de_impact H s (g_clear G k0) q2 (c :: cs) cor x al v3' _ _ Hs E2 E4 E5) as [I1 D1].
      destruct (de_step H s v3' q4 v4 I1 E7) as [I2 D2]. split; [exact W|]. split; [exact I2|]. lra.
Qed.

Lemma step_decays : forall it w f lv w' f' lv', Inv (fst w) (u_v U (fst w)) -> sim_flow (world_engine U G) sc planar m it w f lv = Ok (w', f', lv') ->
  Inv (fst w') (u_v U (fst w')) /\ E (fst w') (u_v U (fst w')) <= E (fst w) (u_v U (fst w)) - loss.
Proof.
  intros it w f lv w' f' lv' Hs HF. destruct off as [O1 O2]. unfold sim_flow in HF. step_let HF. destruct x as [w1 lv1].
  apply state_hook_log in E0. destruct E0 as [_ E0]. specialize (E0 O1). subst w1.
  step_let HF. assert (X : x = w) by (destruct planar; [cbn [world_engine e_start] in E0|]; apply ok_eq in E0; congruence). subst x.
  step_let HF. destruct x as [[[[q1 v1] w2] f2] lv2]. destruct (map_decays it w f lv1 q1 v1 w2 f2 lv2 Hs E1) as [W [I Q]].
  step_let HF. cbn [world_engine e_periodic e_set e_mass e_boundary] in E2, HF. apply ok_eq in E2. subst x. step_let HF.
  assert (X : fst x = next U planar (fst w) q1 v1).
  { rewrite <- W. unfold next. destruct planar; [apply ok_eq in E2; now subst x|]. step_let E2. apply ok_eq in E2. subst x. cbn [fst] in *. now apply (de_boundary H). }
  step_let HF. destruct x0 as [w4 lv4]. apply state_hook_log in E3. destruct E3 as [_ E3]. specialize (E3 O2). subst w4. apply ok_eq in HF. injection HF as <- _ _.
  rewrite X. rewrite (de_v H). now split.
Qed.

Theorem run_decays : forall steps it w f lv w' f' lv', Inv (fst w) (u_v U (fst w)) -> run U G sc planar m steps it (w, f, lv) = Ok (w', f', lv') ->
  Inv (fst w') (u_v U (fst w')) /\ E (fst w') (u_v U (fst w')) <= E (fst w) (u_v U (fst w)) - INR steps * loss.
Proof.
  induction steps as [|n IH]; intros it w f lv w' f' lv' Hs HR; cbn [run] in HR.
  - apply ok_eq in HR. injection HR as <- _ _. split; [exact Hs|]. cbn [INR]. lra.
  - step_let HR. destruct x as [[w1 f1] lv1]. destruct (step_decays it w f lv w1 f1 lv1 Hs E0) as [I Q].
    destruct (IH _ w1 f1 lv1 w' f' lv' I HR) as [I' Q']. split; [exact I'|]. rewrite S_INR. lra.
Qed.
End Decay.

(* an operator that solves the complementarity problem, one coefficient of restitution, obstacles at rest *)
Lemma scene_coefficients : forall {W C Mem} (sc : script W C Mem) cs cor lv r, scene_restitution sc -> restitutionCoefficient sc cs cor lv = Ok r -> r = (cor, lv).
Proof.
  intros W C Mem sc cs cor lv r H E. unfold restitutionCoefficient in E. unfold scene_restitution, runs in H.
  destruct (sc_named sc); [|now apply ok_eq in E]. destruct (sc_restitution sc); [discriminate|now apply ok_eq in E].
Qed.

Section Lcp.
Context {C S K : Type} (U : simulator C S) (G : settings C S K) (s : S) (E : dvec -> R).
Hypothesis solves : resolves_impacts U G.
Hypothesis cor1 : 0 <= g_CoR G <= 1.
Hypothesis work : forall v p, E (vplus v (u_minv U s p)) = E v + / 2 * rsum (u_nv U) (fun k => p k * (v k + vplus v (u_minv U s p) k)).
Hypothesis pos : forall p, 0 <= rsum (u_nv U) (fun k => p k * u_minv U s p k).
Lemma lcp_dissipates : forall k0 cs a a' v2, (forall c x, In c cs -> u_gdotN U (u_q U s) c = Ok x -> x = 0) ->
  impact_part U G (s, k0) (u_q U s) (u_v U s) cs (repeat (g_CoR G) (length cs)) a = Ok (a', v2) -> E v2 <= E (u_v U s).
Proof.
  intros k0 cs a a' v2 Hz HI. unfold impact_part in HI. cbn [fst] in HI. step_let HI. step_let HI. step_let HI. apply ok_eq in HI. injection HI as _ <-.
  pose proof (solves s cs x x0 _ _ x1 E0 E1 E2) as R. pose proof (omapM_length _ _ _ E0) as L.
  rewrite <- L. change (mv (length x) (cols_mat x) x1) with (fun k => rsum (length x) (fun i => entry (nth i x []) k * x1 i)).
  apply (impact_dissipates (u_nv U) E (u_minv U s) work pos (length x) (fun i => entry (nth i x [])) x1 (u_v U s) (g_CoR G) cor1).
  intros i Hi. rewrite L in Hi. destruct (R i Hi) as (_ & _ & Q). unfold opening in Q.
  assert (Z : nth i x0 0 = 0).
  { pose proof (omapM_length _ _ _ E1) as L1. assert (Ix : In (nth i x0 0) x0) by (apply nth_In; lia).
    destruct (omapM_in _ _ _ _ E1 Ix) as [c [Ic Ec]]. exact (Hz c _ Ic Ec). }
  rewrite Z, (nth_repeat_lt _ _ _ _ Hi), !Rplus_0_r in Q. exact Q.
Qed.
End Lcp.
