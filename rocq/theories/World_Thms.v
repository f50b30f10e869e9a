(* A quantity that contact impulses cannot change follows its own law over every run. *)
From Coq Require Import List Reals Arith NArith Bool Lia Lra.
From Verif Require Import Outcome Ccd_Model Flow_Model Flow_Spec Flow_Proofs Quad_Model Stagger_Model Integr_Model Integr_Spec Lin_Model Lin_Proofs Sob_Model Sob_Spec Sob_Thms
  World_Model World_Spec World_Proofs.
Import ListNotations.
Open Scope R_scope.

Definition with_friction (m : method) : bool := match m with MFree | MImpact => false | _ => true end.
Definition moves_linearly (m : method) : bool := match m with MStabilized | MSymplectic => true | _ => false end.

Lemma iter_r : forall {T} (f : T -> T) n x, Nat.iter n f (f x) = Nat.iter (S n) f x.
Proof. intros T f n x. induction n as [|n IH]; [reflexivity|]. change (f (Nat.iter n f (f x)) = f (Nat.iter (S n) f x)). now rewrite IH. Qed.

Section Conserve.
Context {C S K T Mem : Type} (U : simulator C S) (G : settings C S K) (planar : bool) (m : method) (Inv : S -> Prop) (P : S -> dvec -> T) (kick : T -> T).
Definition next (s : S) (q v : dvec) : S := let s := u_set U s q v in if planar then s else u_update U s.

Record follows : Prop := {
  fo_sound : sound U Inv;
  fo_mass : with_friction m = true -> forall s, Inv s -> inverts_masses U G (u_M U s);
  fo_ext : forall s v v', Inv s -> (forall k, (k < u_nv U)%nat -> v k = v' k) -> P s v = P s v';
  fo_push : forall s q1 v vb cs imps v0, Inv s -> u_active U s (u_q U s) q1 v = Ok cs -> pushed U (with_friction m) (u_q U s) vb cs imps ->
    P s (vplus v0 (u_minv U s (impulse imps))) = P s v0;
  fo_v : forall s q v, u_v U (next s q v) = v;
  fo_boundary : forall s s', u_boundary U s = Ok s' -> s' = s;
  fo_step : moves_linearly m = false \/ m = MStabilized -> forall s v q1 v1, Inv s -> u_step U s (u_q U s) v = Some (q1, v1) ->
    Inv (next s q1 v1) /\ P (next s q1 v1) v1 = kick (P s v) /\ (m = MStabilized -> P s v1 = kick (P s v));
  fo_drift : moves_linearly m = true -> forall s v, Inv s ->
    Inv (next s (u_linear U s (u_q U s) v) v) /\ P (next s (u_linear U s (u_q U s) v) v) v = P s v;
  fo_force : m = MSymplectic -> forall s v0 F v, Inv s -> u_force U s (u_q U s) v0 = Ok F ->
    P s (vplus v (fun k => g_dt G * u_minv U s F k)) = kick (P s v) }.
Hypothesis H : follows.
Variable sc : script (S * K) C Mem.
Hypothesis off : hands_off sc.

Lemma umap_inv : forall it w q v q1 v1, e_umap (world_engine U G) it w q v = Ok (q1, v1) -> u_step U (fst w) q v = Some (q1, v1).
Proof. intros it w q v q1 v1 E. cbn [world_engine e_umap] in E. destruct (u_step U (fst w) q v) as [p|]; [|discriminate]. apply ok_eq in E. now subst p. Qed.

Lemma solve_keeps : forall it s k0 cor mu q1 v v0 vb cs bases extra f a a' v2 f', Inv s -> with_friction m = true ->
  u_active U s (u_q U s) q1 v = Ok cs -> omapM (u_basis U (u_q U s) vb) cs = Ok bases ->
  solve U G it (s, k0) cor mu (u_q U s) v0 cs bases extra f a = Ok (a', v2, f') -> P s v2 = P s v0.
Proof.
  intros it s k0 cor mu q1 v v0 vb cs bases extra f a a' v2 f' Hs Hm HA HB HS.
  destruct (solve_pushes U G Inv (fo_sound H) it s k0 cor mu (u_q U s) q1 v v0 vb cs bases extra f a a' v2 f' Hs (fo_mass H Hm s Hs) HA HB HS) as [imps [Hp Hv]].
  rewrite (fo_ext H s v2 (vplus v0 (u_minv U s (impulse imps))) Hs Hv). rewrite <- Hm in Hp. now apply (fo_push H s q1 v vb cs).
Qed.

Lemma map_follows : forall it w f lv q1 v1 w' f' lv', Inv (fst w) ->
  map_flow (world_engine U G) sc m it w f lv = Ok (q1, v1, w', f', lv') ->
  fst w' = fst w /\ Inv (next (fst w) q1 v1) /\ P (next (fst w) q1 v1) v1 = kick (P (fst w) (u_v U (fst w))).
Proof.
  intros it [s k0] f lv q1 v1 w' f' lv' Hs HF. cbn [fst] in *. unfold map_flow in HF.
  destruct H as [So Hmass Hext Hpush Hv Hbd Hstep Hdrift Hforce]. clear Hmass Hpush Hv Hbd.
  destruct m eqn:Em.
  - (* free *) step_let HF. destruct x as [q v]. apply ok_eq in HF. injection HF as <- <- <- _ _. apply umap_inv in E. cbn [world_engine e_q e_v fst] in E.
    destruct (Hstep (or_introl eq_refl) s _ q v Hs E) as [I [Q _]]. now split.
  - (* impact *) step_let HF. destruct x as [[[q v] w1] lv1]. apply ok_eq in HF. injection HF as <- <- <- _ _. unfold impact_flow in E.
    step_let E. destruct x as [q2 v2]. step_let E. destruct x as [|c cs].
    + apply ok_eq in E. injection E as <- <- <- _. apply umap_inv in E0. cbn [world_engine e_q e_v e_clear fst] in *.
      destruct (Hstep (or_introl eq_refl) s _ q2 v2 Hs E0) as [I [Q _]]. now split.
    + step_let E. step_let E. destruct x0 as [cor lv2]. step_let E. destruct x0 as [al v3']. step_let E. step_let E. destruct x1 as [q4 v4].
      apply ok_eq in E. injection E as <- <- <- _. apply umap_inv in E6.
      cbn [world_engine e_q e_v e_clear e_impact e_active e_ncache fst snd] in *.
      assert (W : fst x0 = s).
      { destruct (g_warm G); cbn [world_engine e_warm] in E5; destruct (g_warm G); try (apply ok_eq in E5; now rewrite <- E5).
        all: try (step_let E5; apply ok_eq in E5; now rewrite <- E5). }
      rewrite W in E6. destruct (Hstep (or_introl eq_refl) s _ q4 v4 Hs E6) as [I [Q _]]. split; [exact W|]. split; [exact I|]. rewrite Q. f_equal.
      destruct (impact_pushes U G Inv So s (g_clear G k0) (u_q U s) (u_v U s) (u_v U s) (c :: cs) cor x al v3' Hs E4) as [imps [Hp Hk]].
      rewrite (Hext s v3' (vplus (u_v U s) (u_minv U s (impulse imps))) Hs Hk). rewrite <- Em in *. now apply (fo_push H s q2 (u_v U s) (u_v U s) (c :: cs)); [..|rewrite Em].
  - (* geometric *) unfold geometric_flow in HF.
    step_let HF. destruct x as [q2 v2]. step_let HF. destruct x as [|c cs].
    + apply ok_eq in HF. injection HF as <- <- <- _ _. apply umap_inv in E. cbn [world_engine e_q e_v e_clear fst] in *.
      destruct (Hstep (or_introl eq_refl) s _ q2 v2 Hs E) as [I [Q _]]. now split.
    + step_let HF. step_let HF. destruct x0 as [mu lv2]. step_let HF. destruct x0 as [cor lv3]. step_let HF. step_let HF. destruct x1 as [[a v3'] f3]. step_let HF. step_let HF. destruct x2 as [q4 v4].
      apply ok_eq in HF. injection HF as <- <- <- _ _. apply umap_inv in E7.
      cbn [world_engine e_q e_v e_solve e_active e_bases e_cache fst snd] in *.
      assert (W : fst x1 = s) by (step_let E6; apply ok_eq in E6; now rewrite <- E6).
      rewrite W in E7. destruct (Hstep (or_introl eq_refl) s _ q4 v4 Hs E7) as [I [Q _]]. split; [exact W|]. split; [exact I|]. rewrite Q. f_equal.
      rewrite <- Em in *. eapply (solve_keeps it s k0); [exact Hs|now rewrite Em|exact E0|exact E1|exact E5].
  - (* stabilized *) unfold stabilized_flow in HF.
    step_let HF. destruct x as [q2 v2]. step_let HF. apply umap_inv in E. cbn [world_engine e_q e_v e_active fst] in E, E0.
    destruct (Hstep (or_intror eq_refl) s _ q2 v2 Hs E) as [I [Q Q2]]. destruct x as [|c cs].
    + apply ok_eq in HF. injection HF as <- <- <- _ _. now split.
    + step_let HF. step_let HF. destruct x0 as [mu lv2]. step_let HF. destruct x0 as [cor lv3]. step_let HF. destruct x0 as [[a v3'] f3].
      apply ok_eq in HF. injection HF as <- <- <- _ _. cbn [world_engine e_q e_v e_solve e_active e_bases e_linear fst snd] in *.
      destruct (Hdrift eq_refl s v3' Hs) as [I2 Q3]. split; [reflexivity|]. split; [exact I2|]. rewrite Q3, <- (Q2 eq_refl).
      rewrite <- Em in *. eapply (solve_keeps it s k0); [exact Hs|now rewrite Em|exact E0|exact E1|exact E4].
  - (* symplectic *) unfold symplectic_flow in HF. step_let HF. step_let HF.
    cbn [world_engine e_q e_v e_vdelta e_plus e_linear e_active fst snd] in E, E0. step_let E. apply ok_eq in E. subst x.
    destruct x0 as [|c cs].
    + apply ok_eq in HF. injection HF as <- <- <- _ _. cbn [world_engine e_q e_v e_linear e_plus e_clear fst snd].
      destruct (Hdrift eq_refl s (vplus (u_v U s) (fun k => g_dt G * u_minv U s x1 k)) Hs) as [I2 Q3]. split; [reflexivity|]. split; [exact I2|]. rewrite Q3.
      now apply (Hforce eq_refl s (u_v U s)).
    + step_let HF. destruct x as [mu lv2]. step_let HF. destruct x as [cor lv3]. step_let HF. step_let HF. step_let HF. destruct x2 as [[a v3'] f3]. step_let HF.
      apply ok_eq in HF. injection HF as <- <- <- _ _. cbn [world_engine e_q e_v e_solve e_active e_bases e_linear e_plus e_cache fst snd] in *.
      assert (W : fst x2 = s) by (step_let E6; apply ok_eq in E6; now rewrite <- E6). rewrite W.
      destruct (Hdrift eq_refl s (vplus v3' (fun k => g_dt G * u_minv U s x1 k)) Hs) as [I2 Q3]. split; [reflexivity|]. split; [exact I2|]. rewrite Q3.
      rewrite (Hforce eq_refl s (u_v U s) x1 v3' Hs E1). f_equal.
      rewrite <- Em in *. eapply (solve_keeps it s k0); [exact Hs|now rewrite Em|exact E0|exact E4|exact E5].
Qed.

Lemma step_follows : forall it w f lv w' f' lv', Inv (fst w) -> sim_flow (world_engine U G) sc planar m it w f lv = Ok (w', f', lv') ->
  Inv (fst w') /\ P (fst w') (u_v U (fst w')) = kick (P (fst w) (u_v U (fst w))).
Proof.
  intros it w f lv w' f' lv' Hs HF. destruct off as [O1 O2]. unfold sim_flow in HF. step_let HF. destruct x as [w1 lv1].
  apply state_hook_log in E. destruct E as [_ E]. specialize (E O1). subst w1.
  step_let HF. assert (X : x = w) by (destruct planar; [cbn [world_engine e_start] in E|]; apply ok_eq in E; congruence). subst x.
  step_let HF. destruct x as [[[[q1 v1] w2] f2] lv2]. destruct (map_follows it w f lv1 q1 v1 w2 f2 lv2 Hs E0) as [W [I Q]].
  step_let HF. cbn [world_engine e_periodic e_set e_mass e_boundary] in E1, HF. apply ok_eq in E1. subst x. step_let HF.
  assert (X : fst x = next (fst w) q1 v1).
  { rewrite <- W. unfold next. destruct planar; [apply ok_eq in E1; now subst x|]. step_let E1. apply ok_eq in E1. subst x. cbn [fst] in *. now apply (fo_boundary H). }
  step_let HF. destruct x0 as [w4 lv4]. apply state_hook_log in E2. destruct E2 as [_ E2]. specialize (E2 O2). subst w4. apply ok_eq in HF. injection HF as <- _ _.
  rewrite X. split; [exact I|]. now rewrite (fo_v H).
Qed.

Theorem run_follows : forall steps it w f lv w' f' lv', Inv (fst w) -> run U G sc planar m steps it (w, f, lv) = Ok (w', f', lv') ->
  Inv (fst w') /\ P (fst w') (u_v U (fst w')) = Nat.iter steps kick (P (fst w) (u_v U (fst w))).
Proof.
  induction steps as [|n IH]; intros it w f lv w' f' lv' Hs HR; cbn [run] in HR.
  - apply ok_eq in HR. injection HR as <- _ _. now split.
  - step_let HR. destruct x as [[w1 f1] lv1]. destruct (step_follows it w f lv w1 f1 lv1 Hs E) as [I Q].
    destruct (IH _ w1 f1 lv1 w' f' lv' I HR) as [I' Q']. split; [exact I'|]. rewrite Q', Q. apply iter_r.
Qed.
End Conserve.
