From Coq Require Import Reals ZArith NArith String List Bool Lia Lra.
From Verif Require Import Outcome Codec_Model Config_Model Str_Model Names_Model Names_Proofs Rational_Model Cli_Model Cli_Spec
  Gui_Model Gui_Spec Gui_Proofs Gui_Proofs2.
Import ListNotations.
Open Scope N_scope.

Section Movie.
  Context {St Ca W Co G : Type}.
  Variable K : kind.
  Variable E : env St Ca W Co G.
  Notation ses := (session St Ca W Co G).

  Lemma refresh_movie g g' : refresh K E g = Ok g' ->
    g_dir g' = g_dir g /\ g_spf g' = g_spf g /\ g_frame g' = g_frame g /\ g_at_fps g' = g_at_fps g.
  Proof.
    unfold refresh. destruct K.
    - destruct (adjust_colours _ _ _ _) as [cs ge]. intros H. assert (A : g' = with_show g (g_m0 g) (g_dev g) cs ge (g_renderers g)) by congruence.
      rewrite A. repeat split.
    - destruct (if (List.length (g_colours g) =? e_bodies E (fst (g_sim g)))%nat then (g_colours g, g_gen g) else all_colours E (fst (g_sim g))) as [cs ge].
      intros H. apply obind_Ok_inv in H. destruct H as (rs & _ & H).
      assert (A : g' = with_show g (g_m0 g) (g_dev g) cs ge rs) by congruence. rewrite A. repeat split.
    - intros H. assert (A : g' = g) by congruence. rewrite A. repeat split.
  Qed.

  (* one step while a movie is exported *)
  Lemma step_movie g e g' : g_dir g <> [] -> g_umap g <> UNull -> g_iter g + 1 < 2 ^ 32 -> g_frame g + 1 < 2 ^ 32 ->
    gl_step K E g = (e, Ok g') ->
    g_umap g' = g_umap g /\ g_dir g' = g_dir g /\ g_spf g' = g_spf g /\ g_iter g' = g_iter g + 1 /\ g_at_fps g' = g_at_fps g /\
    ((g_iter g + 1) mod g_spf g = 0 /\ g_frame g' = g_frame g + 1 /\
       e = [SShot (frame_name (g_dir g) (g_frame g)) (Some (fst (g_sim g'), g_iter g'))] \/
     (g_iter g + 1) mod g_spf g <> 0 /\ g_frame g' = g_frame g /\ e = []).
  Proof.
    intros Hd Hu Hi Hf H. apply gl_step_inv in H. destruct H as [_ H].
    destruct H as [(H & _)|(w & x & f & g3 & g4 & F & R & P & C)]; [apply flow_some in H; [destruct H|exact Hu]|].
    pose proof (core_refresh _ _ _ _ R) as CR. apply refresh_movie in R. destruct R as (R1 & R2 & R3 & R4).
    unfold stepped in *. cbv zeta in *. cbn [with_run with_show g_dir g_spf g_frame g_at_fps] in *.
    unfold core in CR. repeat (apply pair_equal_spec in CR; let a := fresh "Q" in destruct CR as [CR a]).
    repeat match goal with Q : (_, _) = (_, _) |- _ => apply pair_equal_spec in Q; let a := fresh "Q" in destruct Q as [Q a] end.
    cbn [with_run with_show g_umap g_iter g_sim] in *.
    assert (Z3 : g_iter g3 = g_iter g + 1).
    { assert (Z : g_iter g3 = (g_iter g + 1) mod 2 ^ 32) by assumption. rewrite Z. apply N.mod_small. exact Hi. }
    assert (Hm : match g_dir g3 with [] => false | _ => true end = true) by (rewrite R1; destruct (g_dir g); [congruence|reflexivity]).
    rewrite Hm, Z3, R2 in C. cbn [andb] in C.
    assert (P4 : g_umap g4 = g_umap g3 /\ g_dir g4 = g_dir g3 /\ g_spf g4 = g_spf g3 /\ g_iter g4 = g_iter g3 /\ g_frame g4 = g_frame g3 /\
                 g_sim g4 = g_sim g3 /\ g_at_fps g4 = g_at_fps g3 /\ ((g_iter g + 1) mod g_spf g = 0 -> g_painted g4 = Some (fst (g_sim g3), g_iter g3))).
    { rewrite Z3, R2 in P. destruct ((g_iter g + 1) mod g_spf g =? 0) eqn:D.
      - rewrite orb_true_r in P. unfold paint in P. destruct (drawable _ _ _ _ _); [|discriminate].
        assert (A : g4 = with_painted g3 (Some (fst (g_sim g3), g_iter g3))) by congruence. rewrite A. cbn. repeat split; auto.
      - apply N.eqb_neq in D. destruct (negb (g_at_fps g3) || false)%bool.
        + unfold paint in P. destruct (drawable _ _ _ _ _); [|discriminate].
          assert (A : g4 = with_painted g3 (Some (fst (g_sim g3), g_iter g3))) by congruence. rewrite A. cbn. repeat split; auto.
        + assert (A : g4 = g3) by congruence. rewrite A. repeat split; auto. intros. congruence. }
    destruct P4 as (A1 & A2 & A3 & A4 & A5 & A6 & A7 & A8).
    assert (U3 : g_umap g3 = g_umap g) by assumption.
    destruct C as [(D & -> & ->)|(D & -> & ->)].
    - apply N.eqb_eq in D. cbn [with_movie g_umap g_dir g_spf g_iter g_frame g_sim g_at_fps].
      split; [congruence|]. split; [congruence|]. split; [congruence|]. split; [congruence|]. split; [congruence|].
      left. split; [exact D|]. split; [rewrite A5, R3; apply N.mod_small; exact Hf|].
      rewrite (A8 D), A2, R1, A5, R3, A6, A4. reflexivity.
    - apply N.eqb_neq in D.
      split; [congruence|]. split; [congruence|]. split; [congruence|]. split; [congruence|]. split; [congruence|].
      right. split; [exact D|]. split; [congruence|reflexivity].
  Qed.

  Lemma play_app us : forall (g : ses) vs e g', play K E g (us ++ vs) = (e, Ok g') ->
    exists e1 g1 e2, play K E g us = (e1, Ok g1) /\ play K E g1 vs = (e2, Ok g') /\ e = e1 ++ e2.
  Proof.
    induction us as [|u us IH]; intros g vs e g' H.
    - exists [], g, e. split; [reflexivity|]. split; [exact H|reflexivity].
    - cbn [app] in H. apply play_cons in H. destruct H as (e1 & g1 & e2 & H1 & H2 & ->).
      apply IH in H2. destruct H2 as (f1 & g2 & f2 & H2 & H3 & ->).
      exists (e1 ++ f1), g2, f2. cbn [play]. rewrite H1, H2. split; [reflexivity|]. split; [exact H3|]. apply app_assoc.
  Qed.
  Lemma repeat_snoc {A} (x : A) n : repeat x (S n) = repeat x n ++ [x].
  Proof. induction n as [|n IH]; [reflexivity|]. cbn [repeat app] in *. rewrite <- IH. reflexivity. Qed.

  Lemma div_succ (m s : nat) : (0 < s)%nat -> (S m / s = m / s + (if (S m mod s =? 0)%nat then 1 else 0))%nat.
  Proof.
    intros Hs. pose proof (Nat.div_mod m s ltac:(lia)) as A. pose proof (Nat.div_mod (S m) s ltac:(lia)) as B.
    pose proof (Nat.mod_upper_bound m s ltac:(lia)). pose proof (Nat.mod_upper_bound (S m) s ltac:(lia)).
    destruct (S m mod s =? 0)%nat eqn:D.
    - apply Nat.eqb_eq in D. nia.
    - apply Nat.eqb_neq in D. nia.
  Qed.

  Lemma movie_steps n : forall (g : ses) evs g', g_dir g <> [] -> g_spf g <> 0 -> g_umap g <> UNull ->
    g_iter g + N.of_nat n < 2 ^ 32 -> g_frame g + N.of_nat n < 2 ^ 32 -> play K E g (repeat UStep n) = (evs, Ok g') ->
    let i0 := N.to_nat (g_iter g) in let sp := N.to_nat (g_spf g) in let cnt := ((i0 + n) / sp - i0 / sp)%nat in
    evs = map (fun k => SShot (frame_name (g_dir g) (g_frame g + N.of_nat k)) (shown_after K E g ((i0 / sp + 1 + k) * sp - i0))) (seq 0 cnt) /\
    g_dir g' = g_dir g /\ g_spf g' = g_spf g /\ g_umap g' <> UNull /\ g_iter g' = g_iter g + N.of_nat n /\ g_frame g' = g_frame g + N.of_nat cnt.
  Proof.
    induction n as [|n IH]; intros g evs g' Hd Hs Hu Hi Hf H i0 sp cnt; subst i0 sp cnt.
    - cbn in H. assert (A : evs = []) by congruence. assert (B : g' = g) by congruence. subst. rewrite Nat.add_0_r, Nat.sub_diag. cbn.
      repeat split; auto; lia.
    - pose proof H as HH. rewrite repeat_snoc in H. apply play_app in H. destruct H as (e1 & g1 & e2 & H1 & H2 & ->).
      assert (CB : forall m, (N.to_nat (g_spf g) > 0)%nat -> ((N.to_nat (g_iter g) + m) / N.to_nat (g_spf g) - N.to_nat (g_iter g) / N.to_nat (g_spf g) <= m)%nat).
      { intros m Hp. induction m as [|m IHm]; [rewrite Nat.add_0_r; lia|]. rewrite <- plus_n_Sm, div_succ by lia. destruct (_ =? _)%nat; lia. }
      specialize (CB n ltac:(lia)).
      destruct (IH g e1 g1 Hd Hs Hu ltac:(lia) ltac:(lia) H1) as (I1 & I2 & I3 & I4 & I5 & I6).
      apply play_cons in H2. destruct H2 as (f1 & g2 & f2 & H2 & H3 & ->). cbn in H3.
      assert (A : f2 = []) by congruence. assert (B : g2 = g') by congruence. subst f2 g2. rewrite app_nil_r. clear H3.
      cbn [act] in H2.
      destruct (step_movie g1 f1 g') as (S1 & S2 & S3 & S4 & _ & S5); auto; try congruence; try lia.
      set (i0 := N.to_nat (g_iter g)) in *. set (sp := N.to_nat (g_spf g)) in *.
      assert (Hp : (0 < sp)%nat) by (subst sp; lia).
      assert (Mono : (i0 / sp <= (i0 + n) / sp)%nat) by (apply Nat.div_le_mono; lia).
      assert (DE : ((g_iter g1 + 1) mod g_spf g1 = 0 <-> (S (i0 + n) mod sp = 0)%nat)).
      { rewrite I5, I3. replace (g_iter g + N.of_nat n + 1) with (N.of_nat (S (i0 + n))) by (subst i0; lia).
        replace (g_spf g) with (N.of_nat sp) by (subst sp; lia).
        rewrite <- Nat2N.inj_mod. split; intros Z; [apply Nat2N.inj; exact Z|rewrite Z; reflexivity]. }
      assert (SH : shown_after K E g (S n) = Some (fst (g_sim g'), g_iter g')).
      { unfold shown_after. rewrite HH. reflexivity. }
      replace (i0 + S n)%nat with (S (i0 + n)) by lia. rewrite (div_succ (i0 + n) sp Hp).
      split; [|repeat split; try congruence; try lia].
      + destruct S5 as [(D & Fr & ->)|(D & Fr & ->)].
        * apply DE in D. rewrite (proj2 (Nat.eqb_eq _ _) D).
          replace ((i0 + n) / sp + 1 - i0 / sp)%nat with (S ((i0 + n) / sp - i0 / sp)) by lia.
          rewrite seq_S, map_app, <- I1. cbn [map plus]. f_equal. f_equal. f_equal.
          { rewrite I2, I6. reflexivity. }
          rewrite <- SH. f_equal.
          assert (Z : (i0 / sp + 1 + ((i0 + n) / sp - i0 / sp) = S (i0 + n) / sp)%nat).
          { rewrite (div_succ (i0 + n) sp Hp), (proj2 (Nat.eqb_eq _ _) D). lia. }
          rewrite Z. pose proof (Nat.div_mod (S (i0 + n)) sp ltac:(lia)). nia.
        * assert (D' : (S (i0 + n) mod sp =? 0)%nat = false).
          { apply Nat.eqb_neq. intros Z. apply D. apply DE. exact Z. }
          rewrite D', Nat.add_0_r, app_nil_r. exact I1.
      + destruct S5 as [(D & Fr & _)|(D & Fr & _)]; rewrite Fr, I6.
        * apply DE in D. rewrite (proj2 (Nat.eqb_eq _ _) D). lia.
        * assert (D' : (S (i0 + n) mod sp =? 0)%nat = false).
          { apply Nat.eqb_neq. intros Z. apply D. apply DE. exact Z. }
          rewrite D'. lia.
  Qed.

  Lemma frame_name_inj d f f' : frame_name d f = frame_name d f' -> f = f'.
  Proof.
    unfold frame_name. intros H. apply app_inv_head in H. apply app_inv_head in H. apply app_inv_tail in H.
    exact (frame_digits_inj 10 10 f f' H).
  Qed.
End Movie.
