From Coq Require Import Reals Arith Bool Lra Lia.
From Verif Require Import Ccd_Model Lin_Model Lin_Proofs Rot_Alg Geom_Circle Quad_Model Quad_Proofs Apgd_Spec Stagger_Model Stagger_Spec.
Open Scope R_scope.

Section Sp.
Variables (nd nc nb : nat) (N D Minv : mat) (v0 : dvec) (tol : R) (wa wb : bool)
  (impact : nat -> dvec -> dvec -> dvec) (friction : nat -> dvec -> dvec -> dvec -> dvec) (residual : dvec -> R) (dim ns : nat) (bases : mat).
Notation pass := (sp_pass nd nc nb N D Minv v0 wa wb impact friction).
Notation loop := (sp_loop nd nc nb N D Minv v0 tol wa wb impact friction residual dim ns bases).
Notation solve := (sp_solve nd nc nb N D Minv v0 tol wa wb impact friction residual dim ns bases).
Notation errof := (sp_error_of residual dim ns bases).

(* the state after k passes *)
Fixpoint sp_trace (k : nat) (s : sp_state) : sp_state := match k with O => s | S j => pass j (sp_trace j s) end.

Lemma loop_trace : forall left itr s0 err best s1 best1 ok,
  let s := sp_trace itr s0 in
  (err = None <-> itr = 0%nat) ->
  (forall e, err = Some e -> tol < e /\ (exists k, (k < itr)%nat /\ best = (s_alpha (sp_trace (S k) s0), s_beta (sp_trace (S k) s0)) /\ e = errof (fst best) (snd best))
      /\ (forall j, (j < itr)%nat -> e <= errof (s_alpha (sp_trace (S j) s0)) (s_beta (sp_trace (S j) s0)))) ->
  loop left itr s err best = (s1, best1, ok) ->
  if ok then exists k, (itr <= k < itr + left)%nat /\ s1 = sp_trace (S k) s0 /\ best1 = (s_alpha s1, s_beta s1) /\ errof (s_alpha s1) (s_beta s1) <= tol
               /\ (forall j, (j < k)%nat -> tol < errof (s_alpha (sp_trace (S j) s0)) (s_beta (sp_trace (S j) s0)))
  else (forall j, (j < itr + left)%nat -> tol < errof (s_alpha (sp_trace (S j) s0)) (s_beta (sp_trace (S j) s0)))
       /\ ((itr + left = 0)%nat -> best1 = best)
       /\ ((itr + left <> 0)%nat -> exists k, (k < itr + left)%nat /\ best1 = (s_alpha (sp_trace (S k) s0), s_beta (sp_trace (S k) s0))
             /\ forall j, (j < itr + left)%nat -> errof (fst best1) (snd best1) <= errof (s_alpha (sp_trace (S j) s0)) (s_beta (sp_trace (S j) s0))).
Proof.
  induction left as [|left IH]; intros itr s0 err best s1 best1 ok s He Hb E.
  - cbn [sp_loop] in E. inversion E; subst s1 best1 ok. rewrite Nat.add_0_r. split.
    + intros j Hj. destruct err as [e|]; [|assert (itr = 0%nat) by (apply He; reflexivity); lia]. destruct (Hb e eq_refl) as (T & _ & L). specialize (L j Hj). lra.
    + split; [reflexivity|]. intros Nz. destruct err as [e|]; [|exfalso; apply Nz, He; reflexivity]. destruct (Hb e eq_refl) as (_ & (k & K1 & K2 & K3) & L).
      exists k. split; [exact K1|]. split; [exact K2|]. intros j Hj. rewrite <- K3. apply L. exact Hj.
  - cbn [sp_loop] in E. cbv zeta in E. change (pass itr s) with (sp_trace (S itr) s0) in E. set (s' := sp_trace (S itr) s0) in *.
    set (e := errof (s_alpha s') (s_beta s')) in *. destruct (Rltb_spec tol e) as [T|T].
    + replace (itr + S left)%nat with (S itr + left)%nat by lia.
      assert (G : if ok then exists k, (S itr <= k < S itr + left)%nat /\ s1 = sp_trace (S k) s0 /\ best1 = (s_alpha s1, s_beta s1) /\ errof (s_alpha s1) (s_beta s1) <= tol
               /\ (forall j, (j < k)%nat -> tol < errof (s_alpha (sp_trace (S j) s0)) (s_beta (sp_trace (S j) s0)))
            else (forall j, (j < S itr + left)%nat -> tol < errof (s_alpha (sp_trace (S j) s0)) (s_beta (sp_trace (S j) s0)))
               /\ ((S itr + left = 0)%nat -> best1 = (if match err with None => true | Some b => Rltb e b end then (s_alpha s', s_beta s') else best))
               /\ ((S itr + left <> 0)%nat -> exists k, (k < S itr + left)%nat /\ best1 = (s_alpha (sp_trace (S k) s0), s_beta (sp_trace (S k) s0))
                    /\ forall j, (j < S itr + left)%nat -> errof (fst best1) (snd best1) <= errof (s_alpha (sp_trace (S j) s0)) (s_beta (sp_trace (S j) s0)))).
      { apply (IH (S itr) s0 _ _ s1 best1 ok) in E; [exact E| |].
        - destruct err as [b|]; [destruct (Rltb e b)|]; split; intros; try discriminate.
        - intros e1 Ee1. destruct err as [b|].
          + destruct (Hb b eq_refl) as (Tb & (k & K1 & K2 & K3) & L). destruct (Rltb_spec e b) as [B|B].
            * assert (e1 = e) by congruence. subst e1. split; [exact T|]. split; [exists itr; split; [lia|]; split; reflexivity|].
              intros j Hj. destruct (Nat.eq_dec j itr) as [->|Nj]; [apply Rle_refl|]. specialize (L j ltac:(lia)). lra.
            * assert (e1 = b) by congruence. subst e1. split; [exact Tb|]. split; [exists k; split; [lia|]; split; assumption|].
              intros j Hj. destruct (Nat.eq_dec j itr) as [->|Nj]; [apply Rnot_lt_le; exact B|]. apply L. lia.
          + assert (e1 = e) by congruence. subst e1. assert (itr = 0%nat) by (apply He; reflexivity). split; [exact T|]. split; [exists itr; split; [lia|]; split; reflexivity|].
            intros j Hj. assert (j = itr) by lia. subst j. apply Rle_refl. }
      destruct ok.
      * destruct G as (k & K1 & K). exists k. split; [lia|exact K].
      * destruct G as (G1 & _ & G3). split; [exact G1|]. split; [lia|exact G3].
    + inversion E; subst s1 best1 ok. exists itr. split; [lia|]. split; [reflexivity|]. split.
      * destruct err as [b|]; [|reflexivity]. destruct (Hb b eq_refl) as (Tb & _). destruct (Rltb_spec e b) as [B|B]; [reflexivity|exfalso; lra].
      * split; [apply Rnot_lt_le; exact T|]. intros j Hj. destruct err as [b|]; [|assert (itr = 0%nat) by (apply He; reflexivity); lia]. destruct (Hb b eq_refl) as (Tb & _ & L). specialize (L j Hj). lra.
Qed.
Lemma trace_f : forall k s0, s_f (sp_trace (S k) s0) = mv nb D (s_beta (sp_trace (S k) s0)).
Proof. reflexivity. Qed.
Lemma loop_start : forall max_iters s0 s1 best1 ok, loop max_iters 0 s0 None (s_alpha s0, s_beta s0) = (s1, best1, ok) ->
  if ok then exists k, (k < max_iters)%nat /\ s1 = sp_trace (S k) s0 /\ errof (s_alpha s1) (s_beta s1) <= tol
               /\ (forall j, (j < k)%nat -> tol < errof (s_alpha (sp_trace (S j) s0)) (s_beta (sp_trace (S j) s0)))
  else (forall j, (j < max_iters)%nat -> tol < errof (s_alpha (sp_trace (S j) s0)) (s_beta (sp_trace (S j) s0)))
       /\ (max_iters = 0%nat -> best1 = (s_alpha s0, s_beta s0))
       /\ (max_iters <> 0%nat -> exists k, (k < max_iters)%nat /\ best1 = (s_alpha (sp_trace (S k) s0), s_beta (sp_trace (S k) s0))
             /\ forall j, (j < max_iters)%nat -> errof (fst best1) (snd best1) <= errof (s_alpha (sp_trace (S j) s0)) (s_beta (sp_trace (S j) s0))).
Proof.
  intros mx s0 s1 best1 ok E. pose proof (loop_trace mx 0 s0 None (s_alpha s0, s_beta s0) s1 best1 ok ltac:(split; reflexivity) ltac:(discriminate) E) as H.
  destruct ok; [|exact H]. destruct H as (k & K1 & K2 & _ & K3 & K4). exists k. split; [lia|]. split; [exact K2|]. split; assumption.
Qed.

(* everything about the answer *)
Theorem solve_answer : forall max_iters f0 alpha0 beta0, let r := solve max_iters f0 alpha0 beta0 in
  (forall k, (k < nd)%nat -> r_f r k = rsum nb (fun j => D k j * r_beta r j))
  /\ (forall k, r_v r k = velocity_after nd nc nb N D Minv v0 (r_alpha r) (r_beta r) k)
  /\ r_error r = errof (r_alpha r) (r_beta r) /\ (r_ok r = true <-> r_error r <= tol)
  /\ (exists guess, r_alpha r = impact max_iters (fun k => v0 k + rsum nd (fun l => Minv k l * rsum nb (fun j => D l j * r_beta r j))) guess)
  /\ (max_iters <> 0%nat ->
      exists k, (k < max_iters)%nat /\ r_beta r = s_beta (sp_trace (S k) (mkSp alpha0 beta0 f0))
        /\ (errof (s_alpha (sp_trace (S k) (mkSp alpha0 beta0 f0))) (r_beta r) <= tol
            \/ forall j, (j < max_iters)%nat -> errof (s_alpha (sp_trace (S k) (mkSp alpha0 beta0 f0))) (r_beta r)
                 <= errof (s_alpha (sp_trace (S j) (mkSp alpha0 beta0 f0))) (s_beta (sp_trace (S j) (mkSp alpha0 beta0 f0))))).
Proof.
  intros mx f0 alpha0 beta0 r. unfold sp_solve in r.
  destruct (loop mx 0 (mkSp alpha0 beta0 f0) None (alpha0, beta0)) as [[s1 best1] ok] eqn:E.
  pose proof (loop_start mx (mkSp alpha0 beta0 f0) s1 best1 ok E) as L. cbv zeta in r.
  set (s2 := if ok then s1 else mkSp (fst best1) (snd best1) (mv nb D (snd best1))) in r.
  assert (F : s_f s2 = mv nb D (s_beta s2)). { unfold s2. destruct ok; [|reflexivity]. destruct L as (k & _ & -> & _). reflexivity. }
  unfold r. cbn [r_f r_alpha r_beta r_v r_ok r_error]. rewrite F. split; [reflexivity|]. split; [reflexivity|]. split; [reflexivity|]. split.
  { match goal with |- context [Rltb tol ?e] => destruct (Rltb_spec tol e) end; cbn [negb]; split; intros; try discriminate; try lra; reflexivity. }
  split; [eexists; reflexivity|]. intros Nz. unfold s2. destruct ok.
  - destruct L as (k & K1 & K2 & K3 & _). exists k. split; [exact K1|]. rewrite <- K2. split; [reflexivity|]. left. exact K3.
  - destruct L as (_ & _ & L). destruct (L Nz) as (k & K1 & K2 & K3). exists k. split; [exact K1|]. rewrite K2. cbn [s_beta fst snd]. split; [reflexivity|]. right.
    intros j Hj. specialize (K3 j Hj). rewrite K2 in K3. cbn [fst snd] in K3. exact K3.
Qed.

(* the last impact solve makes the velocity non-penetrating, whatever friction was settled on *)
Theorem solve_non_penetrating : forall max_iters f0 alpha0 beta0 nrel CoR tolN, let r := solve max_iters f0 alpha0 beta0 in
  (forall call vF guess, resolves_impact nd nc N Minv nrel CoR v0 tolN vF (impact call vF guess)) ->
  forall i, (i < nc)%nat -> nearly_complementary tolN (r_alpha r i) (normal_velocity nd N nrel (r_v r) i + CoR i * normal_velocity nd N nrel v0 i).
Proof.
  intros mx f0 alpha0 beta0 nrel CoR tolN r Himp i Hi. destruct (solve_answer mx f0 alpha0 beta0) as (_ & V & _ & _ & (guess & A) & _). fold r in V, A.
  pose proof (Himp mx (fun k => v0 k + rsum nd (fun l => Minv k l * rsum nb (fun j => D l j * r_beta r j))) guess i Hi) as H. rewrite <- A in H.
  replace (normal_velocity nd N nrel (r_v r) i) with
    (normal_velocity nd N nrel (fun k => v0 k + rsum nd (fun l => Minv k l * rsum nb (fun j => D l j * r_beta r j)) + rsum nd (fun l => Minv k l * rsum nc (fun j => N l j * r_alpha r j))) i); [exact H|].
  unfold normal_velocity. f_equal. apply rsum_same. intros k Hk. rewrite V. unfold velocity_after. f_equal.
  rewrite Rplus_assoc, <- rsum_plus. f_equal. apply rsum_same. intros l _. ring.
Qed.
(* friction within the bound of the impact impulses of the pass it comes from *)
Theorem solve_friction_bound : forall max_iters f0 alpha0 beta0 (ok : dvec -> dvec -> Prop), let r := solve max_iters f0 alpha0 beta0 in
  max_iters <> 0%nat -> (forall call v alpha guess, ok alpha (friction call v alpha guess)) ->
  exists call vF guess, ok (impact call vF guess) (r_beta r).
Proof.
  intros mx f0 alpha0 beta0 P r Nz Hf. destruct (solve_answer mx f0 alpha0 beta0) as (_ & _ & _ & _ & _ & Tr). destruct (Tr Nz) as (k & K1 & K2 & _). fold r in K2. rewrite K2.
  cbn [sp_trace]. unfold sp_pass. cbv zeta. cbn [s_beta]. unfold sp_friction, sp_impact. do 3 eexists. apply Hf.
Qed.
End Sp.

(* ---------- impulses are recovered from the contact forces ---------- *)
Theorem contact_force_recovers : forall dim bases alpha beta c, (0 < dim)%nat -> orthonormal_block dim bases c ->
  rsum dim (fun r => bases r (dim * c)%nat * contact_force dim (dim - 1) bases alpha beta (dim * c + r)%nat) = alpha c
  /\ forall s, (s < dim - 1)%nat ->
     rsum dim (fun r => bases r (dim * c + S s)%nat * contact_force dim (dim - 1) bases alpha beta (dim * c + r)%nat) = beta ((dim - 1) * c + s)%nat.
Proof.
  intros dim bases alpha beta c Hd On.
  assert (F : forall r, (r < dim)%nat -> contact_force dim (dim - 1) bases alpha beta (dim * c + r)%nat
      = alpha c * bases r (dim * c + 0)%nat + rsum (dim - 1) (fun s => beta ((dim - 1) * c + s)%nat * bases r (dim * c + S s)%nat)).
  { intros r Hr. unfold contact_force. cbv zeta. rewrite (Nat.mul_comm dim c), Nat.div_add_l, Nat.div_small, Nat.add_0_r by lia.
    rewrite (Nat.add_comm (c * dim) r), Nat.mod_add, Nat.mod_small by lia. replace ((dim - 1 + 1) * c)%nat with (c * dim + 0)%nat by (rewrite Nat.sub_add by lia; lia).
    f_equal. apply rsum_same. intros s _. f_equal. f_equal. lia. }
  assert (G : forall j, (j < dim)%nat -> rsum dim (fun r => bases r (dim * c + j)%nat * contact_force dim (dim - 1) bases alpha beta (dim * c + r)%nat)
     = alpha c * (if Nat.eqb j 0 then 1 else 0) + rsum (dim - 1) (fun s => beta ((dim - 1) * c + s)%nat * (if Nat.eqb j (S s) then 1 else 0))).
  { intros j Hj. rewrite (rsum_same dim _ (fun r => alpha c * (bases r (dim * c + j)%nat * bases r (dim * c + 0)%nat)
        + rsum (dim - 1) (fun s => beta ((dim - 1) * c + s)%nat * (bases r (dim * c + j)%nat * bases r (dim * c + S s)%nat)))).
    - rewrite rsum_plus, rsum_scale, On by lia. f_equal. rewrite rsum_swap. apply rsum_same. intros s Hs. rewrite rsum_scale, On by lia. reflexivity.
    - intros r Hr. rewrite F by exact Hr. rewrite Rmult_plus_distr_l. f_equal; [ring|]. rewrite <- rsum_scale. apply rsum_same. intros. ring. }
  split.
  - pose proof (G 0%nat Hd) as G0. rewrite Nat.add_0_r in G0. rewrite G0. cbn [Nat.eqb]. rewrite (rsum_zero (dim - 1)); [ring|]. intros; ring.
  - intros s Hs. rewrite (G (S s)) by lia. cbn [Nat.eqb]. rewrite (rsum_one (dim - 1) _ s Hs); [rewrite Nat.eqb_refl; ring|].
    intros j Hj Nj. destruct (Nat.eqb_spec s j); [congruence|ring].
Qed.
