(* Movie frame rates. *)
From Coq Require Import Reals ZArith NArith QArith String List Bool Lia Lra.
From Verif Require Import Outcome Codec_Model Config_Model Str_Model Rational_Model Rational_Spec Rational_Proofs Cli_Model Cli_Spec
  Gui_Model Gui_Spec Gui_Proofs Gui_Proofs2 Gui_Movie.
Import ListNotations.
Open Scope N_scope.

Lemma inj_pos z : (0 < z)%Z -> (0 < inject_Z z)%Q.
Proof. intros H. change 0%Q with (inject_Z 0). rewrite <- Zlt_Qlt. exact H. Qed.

Lemma spf_exact dt fps n : lowest_terms dt -> (0 < num dt)%Z -> 1 <= fps -> steps_per_frame dt fps = Ok n ->
  (forall m, 0 < m < 2 ^ 32 -> (inject_Z (Z.of_N m) * (rval dt * inject_Z (Z.of_N fps)) == 1)%Q -> n = m) /\
  ((forall z, ~ (inject_Z z * (rval dt * inject_Z (Z.of_N fps)) == 1)%Q) -> n = 1).
Proof.
  intros L P F H. unfold steps_per_frame in H. apply obind_Ok_inv in H. destruct H as (x & H1 & H).
  apply (rmul_int_ok _ _ _ L) in H1. destruct H1 as [Lx Vx].
  assert (Pd : (0 < den dt)%Z) by (destruct L; assumption).
  assert (Px : (0 < den x)%Z) by (destruct Lx; assumption).
  assert (Vp : (0 < rval x)%Q).
  { rewrite Vx. apply Qmult_lt_0_compat.
    - unfold rval. apply Qlt_shift_div_l; [apply inj_pos; exact Pd|]. rewrite Qmult_0_l. apply inj_pos. exact P.
    - apply inj_pos. lia. }
  destruct (den x <? num x)%Z eqn:B.
  - assert (A : n = 1) by congruence. split; [|auto]. intros m Hm Q. exfalso. rewrite <- Vx in Q. apply Z.ltb_lt in B.
    assert (V1 : (1 < rval x)%Q) by (unfold rval; apply Qlt_shift_div_l; [apply inj_pos; exact Px|]; rewrite Qmult_1_l, <- Zlt_Qlt; exact B).
    assert (M1 : (1 <= inject_Z (Z.of_N m))%Q) by (change 1%Q with (inject_Z 1); rewrite <- Zle_Qle; lia).
    assert (C : (1 * rval x <= inject_Z (Z.of_N m) * rval x)%Q) by (apply Qmult_le_compat_r; [exact M1|apply Qlt_le_weak; exact Vp]).
    rewrite Q, Qmult_1_l in C. exact (Qlt_not_le _ _ V1 C).
  - assert (Nx : num x <> 0%Z).
    { intros Z. unfold rval in Vp. rewrite Z in Vp. unfold Qdiv in Vp. rewrite Qmult_0_l in Vp. revert Vp. apply Qlt_irrefl. }
    apply obind_Ok_inv in H. destruct H as (p & H2 & H). apply (int_rdiv_ok _ _ _ Lx Nx) in H2. destruct H2 as [Lp Vpp].
    assert (NZ : ~ (rval x == 0)%Q) by (intros Z; rewrite Z in Vp; revert Vp; apply Qlt_irrefl).
    destruct (isInteger p) eqn:I.
    + assert (A : n = Z.to_N (num p mod 2 ^ 32)) by congruence.
      assert (D : den p = 1%Z) by (unfold isInteger in I; apply Z.eqb_eq in I; exact I).
      assert (Vi : (rval p == inject_Z (num p))%Q) by (unfold rval; rewrite D; unfold Qdiv; cbn; field).
      split.
      * intros m Hm Q. rewrite <- Vx in Q.
        assert (Q2 : (inject_Z (Z.of_N m) == inject_Z (num p))%Q).
        { rewrite <- Vi, Vpp. apply Qmult_inj_r with (z := rval x); [exact NZ|]. rewrite Q. change (inject_Z 1) with 1%Q. field. exact NZ. }
        apply (proj1 (inject_Z_injective _ _)) in Q2. rewrite A, <- Q2, Z.mod_small by lia. lia.
      * intros Q. exfalso. apply (Q (num p)). rewrite <- Vx, <- Vi, Vpp. change (inject_Z 1) with 1%Q. field. exact NZ.
    + assert (A : n = 1) by congruence. split; [|auto]. intros m Hm Q. exfalso. rewrite <- Vx in Q.
      assert (T : isInteger p = true).
      { apply (isInteger_iff p Lp). exists (Z.of_N m). rewrite Vpp. apply Qmult_inj_r with (z := rval x); [exact NZ|].
        rewrite Q. change (inject_Z 1) with 1%Q. field. exact NZ. }
      congruence.
Qed.

Section Rate.
  Context {St Ca W Co G : Type}.
  Variable K : kind.
  Variable E : env St Ca W Co G.
  Notation ses := (session St Ca W Co G).

  Definition rate (g : ses) : Prop := steps_per_frame (g_dt g) (g_fps g) = Ok (g_spf g).
  Definition rated (g : ses) := (g_dt g, g_fps g, g_spf g).
  Lemma rate_of g g' : rated g' = rated g -> rate g -> rate g'.
  Proof.
    unfold rated, rate. intros H. apply pair_equal_spec in H. destruct H as [H H3]. apply pair_equal_spec in H. destruct H as [H1 H2].
    rewrite H1, H2, H3. auto.
  Qed.
  Lemma rated_paint g g' : paint K E g = Ok g' -> rated g' = rated g.
  Proof. unfold paint. destruct (drawable _ _ _ _ _); [|discriminate]. intros H. assert (A : g' = with_painted g (Some (fst (g_sim g), g_iter g))) by congruence. rewrite A. reflexivity. Qed.
  Lemma rated_export_off g : rated (snd (export_off g)) = rated g.
  Proof. unfold export_off. destruct (g_export g); reflexivity. Qed.
  Lemma rated_export_on g a : rated (snd (export_on g a)) = rated g.
  Proof. unfold export_on. destruct a; reflexivity. Qed.
  Lemma rate_set_spin g v g' : rate g -> set_spin g v = Ok g' -> rate g'.
  Proof.
    unfold set_spin. destruct (_ =? _); intros R H; [congruence|]. unfold set_fps in H.
    apply obind_Ok_inv in H. destruct H as (n & H1 & H2).
    apply (f_equal (fun o => match o with Ok z => z | _ => g end)) in H2. rewrite <- H2. exact H1.
  Qed.
  Lemma rated_refresh g g' : refresh K E g = Ok g' -> rated g' = rated g.
  Proof.
    unfold refresh. destruct K.
    - destruct (adjust_colours _ _ _ _) as [cs ge]. intros H. assert (A : g' = with_show g (g_m0 g) (g_dev g) cs ge (g_renderers g)) by congruence.
      rewrite A. reflexivity.
    - destruct (if (List.length (g_colours g) =? e_bodies E (fst (g_sim g)))%nat then (g_colours g, g_gen g) else all_colours E (fst (g_sim g))) as [cs ge].
      intros H. apply obind_Ok_inv in H. destruct H as (rs & _ & H).
      assert (A : g' = with_show g (g_m0 g) (g_dev g) cs ge rs) by congruence. rewrite A. reflexivity.
    - intros H. congruence.
  Qed.
  Lemma rate_step g e g' : rate g -> gl_step K E g = (e, Ok g') -> rate g'.
  Proof.
    intros R0 H. apply gl_step_inv in H. destruct H as [_ [(_ & -> & _)|(w & x & f & g3 & g4 & F & R & P & C)]]; [exact R0|].
    cbv zeta in *.
    assert (A : rated g3 = rated g) by exact (rated_refresh _ _ R).
    assert (B : rated g4 = rated g3) by (destruct (negb _ || _)%bool in P; [exact (rated_paint _ _ P)|congruence]).
    apply (rate_of g); [|exact R0]. destruct C as [(_ & _ & ->)|(_ & _ & ->)]; [transitivity (rated g4); [reflexivity|]|]; congruence.
  Qed.
  Lemma rate_open g sc r g' : gl_open K E g sc r = Ok g' -> rate g'.
  Proof.
    unfold gl_open. intros H. apply obind_Ok_inv in H. destruct H as (w0 & H1 & H). cbv zeta in H.
    apply obind_Ok_inv in H. destruct H as (spf & HS & H).
    destruct (all_colours E (sc_state sc)) as [cs ge] eqn:A.
    apply obind_Ok_inv in H. destruct H as (g2 & H2 & H).
    apply run_start_inv in H2. destruct H2 as (w & s & H2 & ->).
    destruct r; [apply rated_paint in H; apply (rate_of _ _ H); exact HS|].
    apply (f_equal (fun o => match o with Ok z => z | _ => g end)) in H. rewrite <- H. exact HS.
  Qed.
  Lemma rate_reset g g' : rate g -> gl_reset K E g = Ok g' -> rate g'.
  Proof.
    unfold gl_reset. cbv zeta. intros R H.
    destruct (match K with KBody3 => (g_colours g, g_gen g, g_renderers g)
              | _ => (all_colours E (fst (g_sim0 g)), all_renderers K E (fst (g_sim0 g))) end) as [[cs ge] rs] eqn:A.
    apply obind_Ok_inv in H. destruct H as (g4 & H1 & H2).
    apply run_start_inv in H1. destruct H1 as (w & s & H1 & ->).
    apply rated_paint in H2. apply (rate_of _ _ H2). destruct K; exact R.
  Qed.
  Lemma rate_act g u e g' : rate g -> act K E g u = (e, Ok g') -> rate g'.
  Proof.
    intros R H. destruct u as [[sc|] b| | | | |a|a|v|b|b| | |n]; cbn [act] in H.
    - destruct (gl_open K E g sc b) as [g1| |] eqn:O; [|discriminate|discriminate]. apply rate_open in O.
      destruct (set_spin _ _) as [g2| |] eqn:S; [|discriminate|discriminate].
      apply rate_set_spin in S; [|exact O]. pose proof (rated_export_off g2) as C. destruct (export_off g2) as [e3 g3].
      assert (A : g' = g3) by congruence. subst g3. exact (rate_of _ _ C S).
    - congruence.
    - destruct (g_running g); [exact (rate_step _ _ _ R H)|congruence].
    - exact (rate_step _ _ _ R H).
    - destruct (gl_reset K E g) as [g1| |] eqn:O; [|discriminate|discriminate]. apply (rate_reset _ _ R) in O.
      pose proof (rated_export_off g1) as C. destruct (export_off g1) as [e3 g3]. cbn [snd] in C.
      destruct K; (assert (A : g' = g3) by congruence; subst g3; exact (rate_of _ _ C O)) || congruence.
    - injection H as <- <-. exact R.
    - pose proof (rated_export_off g) as C. pose proof (rated_export_on g a) as D.
      destruct (g_export g); [destruct (export_off g) as [e1 g1]|destruct (export_on g a) as [e1 g1]]; cbn [snd] in *;
      (assert (A : g' = g1) by congruence); subst g1; eapply rate_of; eauto.
    - pose proof (rated_export_off g) as C. destruct (export_off g) as [e1 g1]. pose proof (rated_export_on g1 a) as D.
      destruct (export_on g1 a) as [e2 g2]. cbn [snd] in *. assert (A : g' = g2) by congruence. subst g2. apply (rate_of g1 g' D). exact (rate_of g g1 C R).
    - unfold no_seen in H. assert (A : set_spin g v = Ok g') by congruence. exact (rate_set_spin _ _ _ R A).
    - injection H as <- <-. exact R.
    - injection H as <- <-. exact R.
    - unfold no_seen in H.
      assert (A : paint K E (with_boxes g (g_at_fps g) (g_lock g) (g_running g) (g_export g) (g_spin g) (negb (g_hud g))) = Ok g') by congruence.
      apply rated_paint in A. apply (rate_of _ _ A). exact R.
    - unfold no_seen in H. assert (A : paint K E g = Ok g') by congruence. apply rated_paint in A. exact (rate_of _ _ A R).
    - congruence.
  Qed.
  Lemma rate_play us : forall g e g', rate g -> play K E g us = (e, Ok g') -> rate g'.
  Proof.
    induction us as [|u us IH]; intros g e g' R H.
    - cbn in H. congruence.
    - apply play_cons in H. destruct H as (e1 & g1 & e2 & H1 & H2 & _). apply (IH g1 e2); auto. exact (rate_act _ _ _ _ R H1).
  Qed.
  Lemma rate_fresh w0 s0 g : fresh K E w0 s0 = Ok g -> rate g.
  Proof.
    unfold fresh. cbv zeta. intros H. apply obind_Ok_inv in H. destruct H as (spf & HS & H).
    apply (f_equal (fun o => match o with Ok z => z | _ => g end)) in H. rewrite <- H. exact HS.
  Qed.
End Rate.
