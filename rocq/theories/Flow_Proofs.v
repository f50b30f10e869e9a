From Coq Require Import List Reals NArith Bool Lia.
From Verif Require Import Outcome Flow_Model Flow_Spec.
Import ListNotations.

Lemma let_ok : forall {X Y} (o : outcome X) (k : X -> outcome Y) y, obind o k = Ok y -> exists x, o = Ok x /\ k x = Ok y.
Proof. intros X Y [x| |] k y H; cbn [obind] in H; try discriminate. exists x. split; [reflexivity|exact H]. Qed.
Ltac step_let H := let x := fresh "x" in let E := fresh "E" in apply let_ok in H; destruct H as (x & E & H).
Lemma ok_eq : forall {X} (x y : X), Ok x = Ok y -> x = y.
Proof. intros X x y H. congruence. Qed.

Section Proofs.
  Context {W Q V C B A F X Mem : Type}.
  Notation script := (script W C Mem).
  Notation live := (live W C Mem).
  Notation engine := (engine W Q V C B A F X).

  (* ---------- hooks ---------- *)
  Lemma interp_keeps : forall (p : prog W C Mem) s s' m, interp p s = Ok (s', m) ->
    (st_state s <> None -> st_state s' <> None) /\ (st_mu s <> None -> st_mu s' <> None) /\ (st_cor s <> None -> st_cor s' <> None).
  Proof.
    induction p as [m0| |f k IH|k IH|f k IH|f k IH|k IH]; intros s s' m H; cbn [interp] in H.
    - apply ok_eq in H. inversion H; subst. auto.
    - discriminate.
    - destruct (st_state s) as [w|]; [|discriminate]. step_let H. apply IH in H. cbn [set_state st_state st_mu st_cor] in H. destruct H as (A1 & A2 & A3).
      split; [intros _; apply A1; discriminate|]. split; assumption.
    - destruct (st_active s); [|discriminate]. apply IH in H. exact H.
    - destruct (st_mu s) as [u|]; [|discriminate]. apply IH in H. cbn [set_mu st_state st_mu st_cor] in H. destruct H as (A1 & A2 & A3). split; [exact A1|]. split; [intros _; apply A2; discriminate|exact A3].
    - destruct (st_cor s) as [u|]; [|discriminate]. apply IH in H. cbn [set_cor st_state st_mu st_cor] in H. destruct H as (A1 & A2 & A3). split; [exact A1|]. split; [exact A2|intros _; apply A3; discriminate].
    - apply IH in H. exact H.
  Qed.
  Lemma state_hook_log : forall named p it tag w (lv : live) w' lv', state_hook named p it tag w lv = Ok (w', lv') ->
    l_log lv' = l_log lv ++ when (named && defined p) (tag w w') /\ ((named && defined p)%bool = false -> w' = w).
  Proof.
    intros named p it tag w lv w' lv' H. unfold state_hook in H. destruct named; [|apply ok_eq in H; inversion H; subst; cbn [andb when]; rewrite app_nil_r; auto].
    destruct p as [body|]; [|apply ok_eq in H; inversion H; subst; cbn [andb when defined]; rewrite app_nil_r; auto].
    step_let H. destruct x as [s m]. destruct (st_state s) as [u|] eqn:Es; [|discriminate]. apply ok_eq in H. inversion H; subst. cbn [andb defined when l_log]. split; [reflexivity|discriminate].
  Qed.
  Lemma friction_log : forall (sc : script) active mu lv mu' lv', frictionCoefficient sc active mu lv = Ok (mu', lv') ->
    l_log lv' = l_log lv ++ when (runs sc (sc_friction sc)) (CFriction active mu mu') /\ (runs sc (sc_friction sc) = false -> mu' = mu).
  Proof.
    intros sc active mu lv mu' lv' H. unfold frictionCoefficient in H. unfold runs. destruct (sc_named sc); [|apply ok_eq in H; inversion H; subst; cbn [andb when]; rewrite app_nil_r; auto].
    destruct (sc_friction sc) as [body|]; [|apply ok_eq in H; inversion H; subst; cbn [andb when defined]; rewrite app_nil_r; auto].
    step_let H. destruct x as [s m]. destruct (st_mu s) as [u|] eqn:Es; [|discriminate]. apply ok_eq in H. inversion H; subst. cbn [andb defined when l_log]. split; [reflexivity|discriminate].
  Qed.
  Lemma restitution_log : forall (sc : script) active c lv c' lv', restitutionCoefficient sc active c lv = Ok (c', lv') ->
    l_log lv' = l_log lv ++ when (runs sc (sc_restitution sc)) (CRestitution active c c') /\ (runs sc (sc_restitution sc) = false -> c' = c).
  Proof.
    intros sc active mu lv mu' lv' H. unfold restitutionCoefficient in H. unfold runs. destruct (sc_named sc); [|apply ok_eq in H; inversion H; subst; cbn [andb when]; rewrite app_nil_r; auto].
    destruct (sc_restitution sc) as [body|]; [|apply ok_eq in H; inversion H; subst; cbn [andb when defined]; rewrite app_nil_r; auto].
    step_let H. destruct x as [s m]. destruct (st_cor s) as [u|] eqn:Es; [|discriminate]. apply ok_eq in H. inversion H; subst. cbn [andb defined when l_log]. split; [reflexivity|discriminate].
  Qed.

  (* ---------- the maps ---------- *)
  Definition has_contacts (m : method) : bool := match m with MFree => false | _ => true end.
  Definition has_friction (m : method) : bool := match m with MFree | MImpact => false | _ => true end.
  Definition mid_ok (e : engine) (sc : script) (m : method) (mid : list (call W C)) : Prop :=
    if has_contacts m then coefficient_calls sc (has_friction m) (e_mu e) (e_CoR e) mid else mid = [].
  Lemma map_log : forall (e : engine) (sc : script) m it w f lv q v w' f' lv', map_flow e sc m it w f lv = Ok (q, v, w', f', lv') ->
    exists mid, l_log lv' = l_log lv ++ mid /\ mid_ok e sc m mid.
  Proof.
    intros e sc m it w f lv q v w' f' lv' H. destruct m; cbn [map_flow] in H; unfold mid_ok; cbn [has_contacts has_friction].
    - step_let H. destruct x as [q1 v1]. apply ok_eq in H. inversion H; subst. exists []. rewrite app_nil_r. auto.
    - step_let H. destruct x as [[[q1 v1] w1] lv1]. apply ok_eq in H. inversion H; subst. clear H. unfold impact_flow in E. step_let E. destruct x as [q1 v1]. step_let E. destruct x as [|c l].
      + apply ok_eq in E. inversion E; subst. exists []. rewrite app_nil_r. split; [reflexivity|constructor].
      + set (active := c :: l) in *. step_let E. step_let E. destruct x0 as [cor lv1]. step_let E. destruct x0 as [al v2]. step_let E. step_let E. destruct x1 as [q2 v3]. apply ok_eq in E. inversion E; subst.
        apply restitution_log in E3. destruct E3 as [L _]. exists (when (runs sc (sc_restitution sc)) (CRestitution active (repeat (e_CoR e) (length active)) cor)). split; [exact L|].
        exact (contacts sc false (e_mu e) (e_CoR e) active [] cor ltac:(discriminate)).
    - unfold geometric_flow in H. step_let H. destruct x as [q1 v1]. step_let H. destruct x as [|c l].
      + apply ok_eq in H. inversion H; subst. exists []. rewrite app_nil_r. split; [reflexivity|constructor].
      + set (active := c :: l) in *. step_let H. step_let H. destruct x0 as [mu lv1]. step_let H. destruct x0 as [cor lv2]. step_let H. step_let H. destruct x1 as [[al v2] f2]. step_let H. step_let H. destruct x2 as [q2 v3]. apply ok_eq in H. inversion H; subst.
        apply friction_log in E2. apply restitution_log in E3. destruct E2 as [L1 _]. destruct E3 as [L2 _]. rewrite L1, <- app_assoc in L2. eexists. split; [exact L2|].
        exact (contacts sc true (e_mu e) (e_CoR e) active mu cor ltac:(discriminate)).
    - unfold stabilized_flow in H. step_let H. destruct x as [q1 v1]. step_let H. destruct x as [|c l].
      + apply ok_eq in H. inversion H; subst. exists []. rewrite app_nil_r. split; [reflexivity|constructor].
      + set (active := c :: l) in *. step_let H. step_let H. destruct x0 as [mu lv1]. step_let H. destruct x0 as [cor lv2]. step_let H. destruct x0 as [[al v2] f2]. apply ok_eq in H. inversion H; subst.
        apply friction_log in E2. apply restitution_log in E3. destruct E2 as [L1 _]. destruct E3 as [L2 _]. rewrite L1, <- app_assoc in L2. eexists. split; [exact L2|].
        exact (contacts sc true (e_mu e) (e_CoR e) active mu cor ltac:(discriminate)).
    - unfold symplectic_flow in H. step_let H. step_let H. destruct x0 as [|c l].
      + apply ok_eq in H. inversion H; subst. exists []. rewrite app_nil_r. split; [reflexivity|constructor].
      + set (active := c :: l) in *. step_let H. destruct x0 as [mu lv1]. step_let H. destruct x0 as [cor lv2]. step_let H. step_let H. step_let H. destruct x2 as [[al v2] f2]. step_let H. apply ok_eq in H. inversion H; subst.
        apply friction_log in E1. apply restitution_log in E2. destruct E1 as [L1 _]. destruct E2 as [L2 _]. rewrite L1, <- app_assoc in L2. eexists. split; [exact L2|].
        exact (contacts sc true (e_mu e) (e_CoR e) active mu cor ltac:(discriminate)).
  Qed.
  Theorem sim_flow_calls : forall (e : engine) (sc : script) planar m it w f lv w' f' lv', sim_flow e sc planar m it w f lv = Ok (w', f', lv') ->
    exists s, l_log lv' = l_log lv ++ s /\ step_calls sc (has_contacts m) (has_friction m) (e_mu e) (e_CoR e) it w w' s.
  Proof.
    intros e sc planar m it w f lv w' f' lv' H. unfold sim_flow in H. step_let H. destruct x as [wa la]. step_let H. step_let H. destruct x0 as [[[[q1 v1] wb] fb] lb]. step_let H. step_let H. step_let H. destruct x2 as [wc lc].
    apply ok_eq in H. inversion H; subst. unfold startOfStep, endOfStep in *. apply state_hook_log in E, E4. apply map_log in E1. destruct E as [L1 K1]. destruct E4 as [L2 K2]. destruct E1 as (mid & L3 & K3).
    rewrite L2, L3, L1, <- !app_assoc. eexists. split; [reflexivity|]. exists wa, x1, mid. split; [reflexivity|]. split; [exact K3|]. split; [intro Z; symmetry; apply K2; exact Z|exact K1].
  Qed.

  (* ---------- what holds after a step in space ---------- *)
  Lemma interp_state : forall (P : W -> Prop) (p : Flow_Model.prog W C Mem) s s' m, keeps P p -> (forall w, st_state s = Some w -> P w) -> interp p s = Ok (s', m) -> forall w, st_state s' = Some w -> P w.
  Proof.
    intros P p. induction p as [m|  |f k IH|k IH|f k IH|f k IH|k IH]; intros s s' m' K H E; cbn [interp keeps] in *.
    - apply ok_eq in E. inversion E; subst. exact H.
    - discriminate.
    - destruct (st_state s) as [w|] eqn:Es; [|discriminate]. step_let E. destruct K as [K1 K2]. eapply (IH x); [apply K2| |exact E]. cbn [set_state st_state]. intros w' Ew. inversion Ew; subst.
      eapply K1; [|exact E0]. apply H. reflexivity.
    - destruct (st_active s); [|discriminate]. eapply IH; [apply K|exact H|exact E].
    - destruct (st_mu s); [|discriminate]. eapply IH; [apply K| |exact E]. exact H.
    - destruct (st_cor s); [|discriminate]. eapply IH; [apply K| |exact E]. exact H.
    - eapply IH; [apply K|exact H|exact E].
  Qed.
  Lemma state_hook_keeps : forall (P : W -> Prop) named p it tag w (lv : live) w' lv', hook_keeps P p -> P w -> state_hook named p it tag w lv = Ok (w', lv') -> P w'.
  Proof.
    intros P named p it tag w lv w' lv' K H E. unfold state_hook in E. destruct named; [|apply ok_eq in E; inversion E; subst; exact H].
    destruct p as [body|]; [|apply ok_eq in E; inversion E; subst; exact H].
    step_let E. destruct x as [s m]. destruct (st_state s) as [u|] eqn:Es; [|discriminate]. apply ok_eq in E. inversion E; subst.
    eapply (interp_state P _ _ _ _ (K (l_mem lv))); [|exact E0|exact Es]. cbn [st_state]. intros y Ey. inversion Ey; subst. exact H.
  Qed.
  Theorem sim_flow_mass : forall (P : W -> Prop) (e : engine) (sc : script) m it w f lv w' f' lv',
    (forall w, P (e_mass e w)) -> (forall w w', P w -> e_periodic e w = Ok w' -> P w') -> (forall w w', P w -> e_boundary e w = Ok w' -> P w') ->
    hook_keeps P (sc_end_step sc) -> sim_flow e sc false m it w f lv = Ok (w', f', lv') -> P w'.
  Proof.
    intros P e sc m it w f lv w' f' lv' HM HP HB HS H. unfold sim_flow in H. step_let H. destruct x as [wa la]. step_let H. step_let H. destruct x0 as [[[[q1 v1] wb] fb] lb]. step_let H. step_let H. step_let H. destruct x2 as [wc lc].
    apply ok_eq in H. inversion H; subst. eapply state_hook_keeps; [exact HS| |exact E4]. eapply HB; [|exact E3]. eapply HP; [|exact E2]. apply HM.
  Qed.

  (* ---------- histories ---------- *)
  Lemma step_starts : forall (sc : script) c fr mu cor it w w' s, step_calls sc c fr mu cor it w w' s ->
    starts s = (if runs sc (sc_start_step sc) then [it] else []) /\ ends s = (if runs sc (sc_end_step sc) then [it] else []).
  Proof.
    intros sc c fr mu cor it w w' s (a & b & mid & -> & M & _). assert (Z : starts mid = [] /\ ends mid = []).
    { destruct c; [|subst mid; auto]. destruct M as [|active mu' cor' Na]; [auto|]. unfold starts, ends. rewrite !flat_map_app. destruct (fr && _)%bool, (runs sc (sc_restitution sc)); auto. }
    destruct Z as [Z1 Z2]. unfold starts, ends in *. rewrite !flat_map_app, Z1, Z2. destruct (runs sc (sc_start_step sc)), (runs sc (sc_end_step sc)); auto.
  Qed.
  Theorem history_numbers : forall (sc : script) c fr mu cor n0 w0 n w l, history sc c fr mu cor n0 w0 n w l -> (n0 < 2 ^ 32)%N ->
    exists k, n = ((n0 + N.of_nat k) mod 2 ^ 32)%N
      /\ (runs sc (sc_start_step sc) = true -> starts l = map (fun i => ((n0 + 1 + N.of_nat i) mod 2 ^ 32)%N) (seq 0 k))
      /\ (runs sc (sc_end_step sc) = true -> ends l = map (fun i => ((n0 + 1 + N.of_nat i) mod 2 ^ 32)%N) (seq 0 k)).
  Proof.
    intros sc c fr mu cor n0 w0 n w l H Hn. induction H as [|n w l w' s H IH S].
    - exists 0. split; [rewrite N.add_0_r, N.mod_small by exact Hn; reflexivity|]. split; intros _; reflexivity.
    - destruct IH as (k & -> & I1 & I2). exists (Datatypes.S k).
      assert (T : (((n0 + N.of_nat k) mod 2 ^ 32 + 1) mod 2 ^ 32 = (n0 + 1 + N.of_nat k) mod 2 ^ 32)%N).
      { rewrite N.add_mod_idemp_l by discriminate. f_equal. lia. }
      destruct (step_starts _ _ _ _ _ _ _ _ _ S) as [S1 S2]. rewrite T in *. split; [f_equal; lia|]. rewrite seq_S, map_app. cbn [map Nat.add].
      split; intro Hr; unfold starts, ends in *; rewrite flat_map_app; [rewrite (I1 Hr), S1, Hr|rewrite (I2 Hr), S2, Hr]; reflexivity.
  Qed.

  (* ---------- the coefficients the solvers are given ---------- *)
  Theorem friction_coefficients : forall (e : engine) (sc : script) m it w f lv q v w' f' lv', has_friction m = true -> map_flow e sc m it w f lv = Ok (q, v, w', f', lv') ->
    lv' = lv \/ exists active mu cor v0 b x f0 a0 a1 v1, active <> [] /\ e_solve e it w cor mu (e_q e w) v0 active b x f0 a0 = Ok (a1, v1, f')
      /\ l_log lv' = l_log lv ++ when (runs sc (sc_friction sc)) (CFriction active (repeat (e_mu e) (length active)) mu)
                               ++ when (runs sc (sc_restitution sc)) (CRestitution active (repeat (e_CoR e) (length active)) cor)
      /\ (runs sc (sc_friction sc) = false -> mu = repeat (e_mu e) (length active)) /\ (runs sc (sc_restitution sc) = false -> cor = repeat (e_CoR e) (length active)).
  Proof.
    intros e sc m it w f lv q v w' f' lv' Hm H. destruct m; try discriminate Hm; cbn [map_flow] in H.
    - unfold geometric_flow in H. step_let H. destruct x as [q1 v1]. step_let H. destruct x as [|c l]; [apply ok_eq in H; inversion H; left; reflexivity|]. right.
      set (active := c :: l) in *. step_let H. step_let H. destruct x0 as [mu lv1]. step_let H. destruct x0 as [cor lv2]. step_let H. step_let H. destruct x1 as [[al v2] f2]. step_let H. step_let H. destruct x2 as [q2 v3]. apply ok_eq in H. inversion H; subst.
      apply friction_log in E2. apply restitution_log in E3. destruct E2 as [L1 K1]. destruct E3 as [L2 K2]. exists active, mu, cor. do 7 eexists. split; [discriminate|]. split; [exact E5|]. rewrite L1, <- app_assoc in L2. split; [exact L2|]. split; assumption.
    - unfold stabilized_flow in H. step_let H. destruct x as [q1 v1]. step_let H. destruct x as [|c l]; [apply ok_eq in H; inversion H; left; reflexivity|]. right.
      set (active := c :: l) in *. step_let H. step_let H. destruct x0 as [mu lv1]. step_let H. destruct x0 as [cor lv2]. step_let H. destruct x0 as [[al v2] f2]. apply ok_eq in H. inversion H; subst.
      apply friction_log in E2. apply restitution_log in E3. destruct E2 as [L1 K1]. destruct E3 as [L2 K2]. exists active, mu, cor. do 7 eexists. split; [discriminate|]. split; [exact E4|]. rewrite L1, <- app_assoc in L2. split; [exact L2|]. split; assumption.
    - unfold symplectic_flow in H. step_let H. step_let H. destruct x0 as [|c l]; [apply ok_eq in H; inversion H; left; reflexivity|]. right.
      set (active := c :: l) in *. step_let H. destruct x0 as [mu lv1]. step_let H. destruct x0 as [cor lv2]. step_let H. step_let H. step_let H. destruct x2 as [[al v2] f2]. step_let H. apply ok_eq in H. inversion H; subst.
      apply friction_log in E1. apply restitution_log in E2. destruct E1 as [L1 K1]. destruct E2 as [L2 K2]. exists active, mu, cor. do 7 eexists. split; [discriminate|]. split; [exact E5|]. rewrite L1, <- app_assoc in L2. split; [exact L2|]. split; assumption.
  Qed.
  Theorem impact_coefficients : forall (e : engine) (sc : script) it w f lv q v w' f' lv', map_flow e sc MImpact it w f lv = Ok (q, v, w', f', lv') ->
    lv' = lv \/ exists active cor a0 a1 v1, active <> [] /\ e_impact e (e_clear e w) (e_q e w) (e_v e w) active cor a0 = Ok (a1, v1) /\ (exists w2, e_umap e it w2 (e_q e w) v1 = Ok (q, v))
      /\ l_log lv' = l_log lv ++ when (runs sc (sc_restitution sc)) (CRestitution active (repeat (e_CoR e) (length active)) cor)
      /\ (runs sc (sc_restitution sc) = false -> cor = repeat (e_CoR e) (length active)).
  Proof.
    intros e sc it w f lv q v w' f' lv' H. cbn [map_flow] in H. step_let H. destruct x as [[[q1 v1] w1] lv1]. apply ok_eq in H. inversion H; subst. clear H. unfold impact_flow in E. step_let E. destruct x as [q1 v1]. step_let E. destruct x as [|c l].
    - apply ok_eq in E. inversion E; left; reflexivity.
    - right. set (active := c :: l) in *. step_let E. step_let E. destruct x0 as [cor lv1]. step_let E. destruct x0 as [al v2]. step_let E. step_let E. destruct x1 as [q2 v3]. apply ok_eq in E. inversion E; subst.
      apply restitution_log in E3. destruct E3 as [L K]. exists active, cor. do 3 eexists. split; [discriminate|]. split; [exact E4|]. split; [eexists; exact E6|]. split; assumption.
  Qed.

  (* ---------- no contacts ---------- *)
  Theorem no_contacts_free : forall (e : engine) (sc : script) m it w f lv q1 v1, m = MImpact \/ m = MGeometric ->
    e_umap e it w (e_q e w) (e_v e w) = Ok (q1, v1) -> e_active e w (e_q e w) q1 (e_v e w) = Ok [] ->
    exists f', map_flow e sc m it w f lv = Ok (q1, v1, e_clear e w, f', lv).
  Proof.
    intros e sc m it w f lv q1 v1 [-> | ->] U Ac; cbn [map_flow]; unfold impact_flow, geometric_flow; rewrite U; cbn [obind]; rewrite Ac; cbn [obind]; eexists; reflexivity.
  Qed.
  Theorem no_contacts_stabilized : forall (e : engine) (sc : script) it w f lv q1 v1,
    e_umap e it w (e_q e w) (e_v e w) = Ok (q1, v1) -> e_active e w (e_q e w) q1 v1 = Ok [] ->
    exists f', map_flow e sc MStabilized it w f lv = Ok (q1, v1, w, f', lv).
  Proof.
    intros e sc it w f lv q1 v1 U Ac; cbn [map_flow]; unfold stabilized_flow; rewrite U; cbn [obind]; rewrite Ac; cbn [obind]; eexists; reflexivity.
  Qed.
  Theorem no_contacts_symplectic : forall (e : engine) (sc : script) it w f lv vd, e_vdelta e w (e_q e w) (e_v e w) = Ok vd ->
    e_active e w (e_q e w) (e_linear e w (e_q e w) (e_plus e (e_v e w) vd)) (e_v e w) = Ok [] ->
    exists f', map_flow e sc MSymplectic it w f lv = Ok (e_linear e w (e_q e w) (e_plus e (e_v e w) vd), e_plus e (e_v e w) vd, e_clear e w, f', lv).
  Proof.
    intros e sc it w f lv vd U Ac; cbn [map_flow]; unfold symplectic_flow; rewrite U; cbn [obind]; rewrite Ac; cbn [obind]; eexists; reflexivity.
  Qed.

  (* ---------- a script that only uses what it is given ---------- *)
  Definition keeps {T} (a b : option T) : Prop := a <> None -> b <> None.
  Lemma interp_defined : forall s0 c0 m0 r0 (p : prog W C Mem) s, uses s0 c0 m0 r0 p ->
    (s0 = true -> st_state s <> None) -> (c0 = true -> st_active s <> None) -> (m0 = true -> st_mu s <> None) -> (r0 = true -> st_cor s <> None) -> interp p s <> UB.
  Proof.
    intros s0 c0 m0 r0. induction p as [m| |f k IH|k IH|f k IH|f k IH|k IH]; intros s U A1 A2 A3 A4; cbn [interp uses] in *.
    - discriminate.
    - discriminate.
    - destruct U as [-> U]. destruct (st_state s) as [w|] eqn:Es; [|destruct (A1 eq_refl); reflexivity]. destruct (U w) as [N U']. destruct (f w) as [w'| |]; cbn [obind]; [|discriminate|congruence].
      apply IH; cbn [set_state st_state st_active st_mu st_cor]; auto. intros _; discriminate.
    - destruct U as [-> U]. destruct (st_active s) as [l|] eqn:Es; [|destruct (A2 eq_refl); reflexivity]. apply IH; try rewrite Es; auto.
    - destruct U as [-> U]. destruct (st_mu s) as [l|] eqn:Es; [|destruct (A3 eq_refl); reflexivity]. apply IH; cbn [set_mu st_state st_active st_mu st_cor]; auto. intros _; discriminate.
    - destruct U as [-> U]. destruct (st_cor s) as [l|] eqn:Es; [|destruct (A4 eq_refl); reflexivity]. apply IH; cbn [set_cor st_state st_active st_mu st_cor]; auto. intros _; discriminate.
    - apply IH; auto.
  Qed.
  Lemma bind_defined : forall {T U} (o : outcome T) (k : T -> outcome U), o <> UB -> (forall x, o = Ok x -> k x <> UB) -> obind o k <> UB.
  Proof. intros T U [x| |] k H K; cbn [obind]; [apply K; reflexivity|discriminate|congruence]. Qed.
  Lemma state_hook_defined : forall named p it tag w (lv : live), hook_uses true false false false p -> state_hook named p it tag w lv <> UB.
  Proof.
    intros named p it tag w lv U. unfold state_hook. destruct named; [|discriminate]. destruct p as [body|]; [|discriminate]. apply bind_defined.
    - apply (interp_defined true false false false); [apply U|intros _; discriminate|discriminate|discriminate|discriminate].
    - intros [s m] Hi. apply interp_keeps in Hi. destruct (st_state s) eqn:Es; [discriminate|]. destruct Hi as [K _]. exfalso. apply K; [discriminate|reflexivity].
  Qed.
  Lemma friction_defined : forall (sc : script) active mu lv, hook_uses false true true false (sc_friction sc) -> frictionCoefficient sc active mu lv <> UB.
  Proof.
    intros sc active mu lv U. unfold frictionCoefficient. destruct (sc_named sc); [|discriminate]. destruct (sc_friction sc) as [body|]; [|discriminate]. apply bind_defined.
    - apply (interp_defined false true true false); [apply U|discriminate|intros _; discriminate|intros _; discriminate|discriminate].
    - intros [s m] Hi. apply interp_keeps in Hi. destruct (st_mu s) eqn:Es; [discriminate|]. destruct Hi as (_ & K & _). exfalso. apply K; [discriminate|reflexivity].
  Qed.
  Lemma restitution_defined : forall (sc : script) active c lv, hook_uses false true false true (sc_restitution sc) -> restitutionCoefficient sc active c lv <> UB.
  Proof.
    intros sc active mu lv U. unfold restitutionCoefficient. destruct (sc_named sc); [|discriminate]. destruct (sc_restitution sc) as [body|]; [|discriminate]. apply bind_defined.
    - apply (interp_defined false true false true); [apply U|discriminate|intros _; discriminate|discriminate|intros _; discriminate].
    - intros [s m] Hi. apply interp_keeps in Hi. destruct (st_cor s) eqn:Es; [discriminate|]. destruct Hi as (_ & _ & K). exfalso. apply K; [discriminate|reflexivity].
  Qed.
  Ltac dstep := apply bind_defined; [|let x := fresh "x" in let Hx := fresh "Hx" in intros x Hx; try (destruct x as [? ?])].
  Theorem sim_flow_defined : forall (e : engine) (sc : script) planar m it w f lv, defined_engine e -> polite sc -> sim_flow e sc planar m it w f lv <> UB.
  Proof.
    intros e sc planar m it w f lv (D1 & D2 & D3 & D4 & D5 & D6 & D7 & D8 & D9 & D10 & D11 & D12 & D13) (P1 & P2 & P3 & P4).
    assert (M : forall it w f lv, map_flow e sc m it w f lv <> UB).
    { clear it w f lv. intros it w f lv. destruct m; cbn [map_flow].
      - dstep; [apply D1|discriminate].
      - dstep; [|destruct p as [[? ?] ?]; discriminate]. unfold impact_flow. dstep; [apply D1|]. apply bind_defined; [apply D2|]. intros [|c0 l0] _; [discriminate|].
        apply bind_defined; [destruct (e_warm e); [apply D6|discriminate]|intros al _]. dstep; [apply restitution_defined; exact P4|]. dstep; [apply D8|]. apply bind_defined; [destruct (e_warm e); [apply D7|discriminate]|intros w2 _]. dstep; [apply D1|discriminate].
      - unfold geometric_flow. dstep; [apply D1|]. apply bind_defined; [apply D2|]. intros [|c0 l0] _; [discriminate|]. apply bind_defined; [apply D3|intros b _]. dstep; [apply friction_defined; exact P3|].
        dstep; [apply restitution_defined; exact P4|]. apply bind_defined; [apply D4|intros a _]. apply bind_defined; [apply D9|intros [[? ?] ?] _]. apply bind_defined; [apply D5|intros w2 _]. dstep; [apply D1|discriminate].
      - unfold stabilized_flow. dstep; [apply D1|]. apply bind_defined; [apply D2|]. intros [|c0 l0] _; [discriminate|]. apply bind_defined; [apply D3|intros b _]. dstep; [apply friction_defined; exact P3|].
        dstep; [apply restitution_defined; exact P4|]. apply bind_defined; [apply D9|intros [[? ?] ?] _]. discriminate.
      - unfold symplectic_flow. apply bind_defined; [apply D10|intros vd _]. apply bind_defined; [apply D2|]. intros [|c0 l0] _; [discriminate|]. dstep; [apply friction_defined; exact P3|].
        dstep; [apply restitution_defined; exact P4|]. apply bind_defined; [apply D4|intros a _]. apply bind_defined; [apply D3|intros b _]. apply bind_defined; [apply D9|intros [[? ?] ?] _]. apply bind_defined; [apply D5|intros w2 _]. discriminate. }
    unfold sim_flow, startOfStep, endOfStep. dstep; [apply state_hook_defined; exact P1|]. apply bind_defined; [destruct planar; [apply D11|discriminate]|intros wz _].
    apply bind_defined; [apply M|intros [[[[? ?] ?] ?] ?] _]. apply bind_defined; [apply D12|intros wx _]. apply bind_defined; [destruct planar; [discriminate|apply D13]|intros wy _]. dstep; [apply state_hook_defined; exact P2|discriminate].
  Qed.
End Proofs.
