(* What one step does to a quantity that contacts cannot change. *)
From Coq Require Import List Reals Arith NArith Bool Lia Lra.
From Verif Require Import Outcome Ccd_Model Flow_Model Flow_Spec Flow_Proofs Quad_Model Stagger_Model Stagger_Spec Stagger_Props Integr_Model Integr_Spec Lin_Model Lin_Proofs Sob_Model Sob_Spec Sob_Proofs Sob_Thms Sob_Final
  World_Model World_Spec World_Sob.
Import ListNotations.
Open Scope R_scope.

Lemma omapM_pairs : forall {A B} (f : A -> outcome B) l r, omapM f l = Ok r -> Forall2 (fun x y => f x = Ok y) l r.
Proof.
  intros A B f. induction l as [|a l IH]; intros r H; cbn [omapM] in H.
  - apply ok_eq in H. subst r. constructor.
  - step_let H. step_let H. apply ok_eq in H. subst r. constructor; [exact E|]. apply IH. exact E0.
Qed.
Lemma omapM_in : forall {A B} (f : A -> outcome B) l r y, omapM f l = Ok r -> In y r -> exists x, In x l /\ f x = Ok y.
Proof.
  intros A B f l r y H I. apply omapM_pairs in H. induction H as [|a b l r E H IH]; [destruct I|].
  destruct I as [<-|I]; [exists a; split; [now left|exact E]|]. destruct (IH I) as [x [J F]]. exists x. split; [now right|exact F].
Qed.
Lemma omapM_length : forall {A B} (f : A -> outcome B) l r, omapM f l = Ok r -> length r = length l.
Proof. intros A B f l r H. apply omapM_pairs in H. induction H; cbn; congruence. Qed.

Lemma impulse_app : forall a b k, impulse (a ++ b) k = impulse a k + impulse b k.
Proof. intros a b k. unfold impulse. induction a as [|x a IH]; cbn [app fold_right]; [lra|]. rewrite IH. ring. Qed.

Lemma rsum_shift : forall n f, rsum (S n) f = f 0%nat + rsum n (fun i => f (S i)).
Proof. induction n as [|n IH]; intros f; [cbn; ring|]. change (rsum (S n) f + f (S n) = f 0%nat + (rsum n (fun i => f (S i)) + f (S n))). rewrite IH. ring. Qed.

Lemma mv_cols : forall cols x i, mv (length cols) (cols_mat cols) x i = impulse (combine cols (map x (seq 0 (length cols)))) i.
Proof.
  assert (G : forall cols x a i, rsum (length cols) (fun j => entry (nth j cols []) i * x (a + j)%nat) = impulse (combine cols (map x (seq a (length cols)))) i).
  { induction cols as [|c cols IH]; intros x a i; [reflexivity|]. cbn [length]. rewrite rsum_shift. cbn [seq map combine].
    change (entry (nth 0 (c :: cols) []) i * x (a + 0)%nat + rsum (length cols) (fun j => entry (nth (S j) (c :: cols) []) i * x (a + S j)%nat)
      = entry c i * x a + impulse (combine cols (map x (seq (S a) (length cols)))) i). rewrite <- IH.
    rewrite Nat.add_0_r. f_equal. apply rsum_ext. intros j _. rewrite Nat.add_succ_r. reflexivity. }
  intros cols x i. unfold mv, cols_mat. exact (G cols x 0%nat i).
Qed.

(* ---------- the solvers only push ---------- *)
Record sound {C S} (U : simulator C S) (Inv : S -> Prop) : Prop := {
  so_laws : sim_laws (u_sim U);
  so_size : (k_s (u_sim U) * u_n U)%nat = u_nv U;
  so_minv : forall s x i, Inv s -> (i < u_nv U)%nat -> mv (u_nv U) (minv_mat U s) x i = u_minv U s x i;
  so_mass : forall s x b o, Inv s -> (b < u_n U)%nat -> (o < k_s (u_sim U))%nat ->
    rsum (k_s (u_sim U)) (fun r => k_mass (u_sim U) (u_n U) (u_M U s) b o r * u_minv U s x (k_vslot (u_sim U) (u_n U) b r)) = x (k_vslot (u_sim U) (u_n U) b o);
  so_placed : forall s q0 q1 v cs c, Inv s -> u_active U s q0 q1 v = Ok cs -> In c cs -> placed (u_sim U) (u_n U) c;
  so_basis : forall q v c E, u_basis U q v c = Ok E -> shaped (k_d (u_sim U)) (k_d (u_sim U)) E }.

Section Step.
Context {C S K : Type} (U : simulator C S) (G : settings C S K) (Inv : S -> Prop) (So : sound U Inv).

Lemma minv_ext : forall s x y i, Inv s -> (i < u_nv U)%nat -> (forall k, (k < u_nv U)%nat -> x k = y k) -> u_minv U s x i = u_minv U s y i.
Proof.
  intros s x y i Hs Hi H. rewrite <- !(so_minv U Inv So) by assumption. apply rsum_ext. intros j Hj. now rewrite H.
Qed.

Lemma form_N_pushes : forall friction q v cs N x, form_N U q cs = Ok N -> pushed U friction q v cs (combine N x).
Proof.
  intros friction q v cs N x H. apply Forall_forall. intros [g a] I. cbn [fst]. apply in_combine_l in I.
  destruct (omapM_in _ _ _ _ H I) as [c [Ic Ec]]. exists c. split; [exact Ic|]. now constructor.
Qed.
Lemma form_D_pushes : forall q v cs bases D x, form_D U q cs bases = Ok D -> pushed U true q v cs (combine D x).
Proof.
  intros q v cs bases D x H. unfold form_D in H. step_let H. apply ok_eq in H. subst D. apply Forall_forall. intros [g a] I. cbn [fst].
  apply in_combine_l in I. apply in_concat in I. destruct I as [l [Il Ig]].
  destruct (omapM_in _ _ _ _ E Il) as [[c b] [Ic Ec]]. cbn [fst snd] in Ec. destruct (omapM_in _ _ _ _ Ec Ig) as [t [_ Et]].
  exists c. split; [now apply in_combine_l in Ic|]. now apply (push_tangent U true q v c t).
Qed.
Lemma sampled_D_pushes : forall dirs q v vb cs D x, sampled_D U dirs q v cs = Ok D -> pushed U true q vb cs (combine D x).
Proof.
  intros dirs q v vb cs D x H. unfold sampled_D in H. step_let H. apply ok_eq in H. subst D. apply Forall_forall. intros [g a] I. cbn [fst].
  apply in_combine_l in I. apply in_concat in I. destruct I as [l [Il Ig]].
  destruct (omapM_in _ _ _ _ E Il) as [c [Ic Ec]]. step_let Ec. destruct (omapM_in _ _ _ _ Ec Ig) as [t [_ Et]].
  exists c. split; [exact Ic|]. now apply (push_tangent U true q vb c t).
Qed.

(* velocity_after with columns *)
Lemma after_columns : forall s N D v0 alpha beta k, Inv s -> (k < u_nv U)%nat ->
  velocity_after (u_nv U) (length N) (length D) (cols_mat N) (cols_mat D) (minv_mat U s) v0 alpha beta k
  = v0 k + u_minv U s (impulse (combine N (map alpha (seq 0 (length N))) ++ combine D (map beta (seq 0 (length D))))) k.
Proof.
  intros s N D v0 alpha beta k Hs Hk. unfold velocity_after. f_equal. rewrite <- (so_minv U Inv So) by assumption. apply rsum_ext. intros j Hj. f_equal.
  rewrite impulse_app, <- !mv_cols. reflexivity.
Qed.

Definition cols_of (q : dvec) (it : item C) : list col :=
  match k_bodies (u_sim U) (it_c it), k_H0 (u_sim U) q (it_c it) (it_E it), k_H1 (u_sim U) q (it_c it) (it_E it) with
  | Ok ij, Ok h0, Ok h1 => hcols (u_sim U) (k_vslot (u_sim U) (u_n U)) ij h0 h1
  | _, _, _ => []
  end.

Lemma items_in : forall cs bases cor mu extra a it, length bases = length cs -> In it (items U cs bases cor mu extra a) ->
  In (it_c it, it_E it) (combine cs bases).
Proof.
  intros cs bases cor mu extra a it L I. unfold items in I. apply in_map_iff in I. destruct I as [[i c] [<- I]]. cbn [fst snd it_c it_E].
  assert (GG : forall (l : list C) (bs : list (list (list R))) n, length bs = length l -> In (i, c) (combine (seq n (length l)) l) -> In (c, nth (i - n) bs []) (combine l bs) /\ (n <= i)%nat).
  { induction l as [|y l IH]; intros [|b bs] n Hl H; try discriminate; [destruct H|]. cbn [length seq combine] in *. destruct H as [H|H].
    - injection H as -> ->. rewrite Nat.sub_diag. split; [now left|lia].
    - destruct (IH bs (Datatypes.S n) ltac:(congruence) H) as [H1 H2]. split; [|lia]. right. replace (i - n)%nat with (Datatypes.S (i - Datatypes.S n)) by lia. exact H1. }
  destruct (GG cs bases 0%nat L I) as [H _]. now rewrite Nat.sub_0_r in H.
Qed.

Lemma solve_pushes : forall it s k0 cor mu q0 q1 v v0 vb cs bases extra f a a' v2 f', Inv s ->
  inverts_masses U G (u_M U s) -> u_active U s q0 q1 v = Ok cs -> omapM (u_basis U q0 vb) cs = Ok bases ->
  solve U G it (s, k0) cor mu q0 v0 cs bases extra f a = Ok (a', v2, f') ->
  exists imps, pushed U true q0 vb cs imps /\ forall k, (k < u_nv U)%nat -> v2 k = v0 k + u_minv U s (impulse imps) k.
Proof.
  intros it s k0 cor mu q0 q1 v v0 vb cs bases extra f a a' v2 f' Hs HI HA HB HS. unfold solve in HS. cbn [fst] in HS. cbv zeta in HS.
  step_let HS. clear E. unfold inverts_masses in HI. destruct (g_solver G) as [wa wb tol iters imp fri res|imp fri samp|inv gs tol].
  - destruct x as [x|]; [discriminate|]. step_let HS. step_let HS. step_let HS.
    match type of HS with Ok (_, r_v ?r, _) = _ => set (rr := r) in * end.
    assert (Hv : v2 = r_v rr) by (apply ok_eq in HS; congruence). subst v2.
    exists (combine x0 (map (r_alpha rr) (seq 0 (length x0))) ++ combine x (map (r_beta rr) (seq 0 (length x)))). split.
    + apply Forall_app. split; [apply form_N_pushes with (1 := E0)|apply form_D_pushes with (1 := E)].
    + intros k Hk. rewrite <- after_columns by assumption. pose proof (omapM_length _ _ _ E0) as L.
      destruct (C41_honest (u_nv U) (length cs) (length x) (cols_mat x0) (cols_mat x) (minv_mat U s) v0 tol wa wb (imp it s cs cor) (fri it s cs mu) (res it s cs) (k_d (u_sim U)) (k_d (u_sim U) - 1) (bases_mat U bases) iters (snd f) (fst a) (snd a)) as [HV _].
      fold rr in HV. rewrite L. apply HV.
  - destruct x as [x|]; [discriminate|]. step_let HS. step_let HS. step_let HS.
    match type of HS with Ok (_, r_v ?r, _) = _ => set (rr := r) in * end.
    assert (Hv : v2 = r_v rr) by (apply ok_eq in HS; congruence). subst v2.
    exists (combine x (map (r_alpha rr) (seq 0 (length x))) ++ combine x1 (map (r_beta rr) (seq 0 (length x1)))). split.
    + apply Forall_app. split; [apply form_N_pushes with (1 := E)|]. destruct samp; [now apply sampled_D_pushes with (1 := E1)|now apply form_D_pushes with (1 := E1)].
    + intros k Hk. rewrite <- after_columns by assumption. pose proof (omapM_length _ _ _ E) as L. rewrite L. reflexivity.
  - step_let HS. assert (Hv : v2 = sb_v x0) by (apply ok_eq in HS; congruence). subst v2. clear HS.
    pose proof (omapM_length _ _ _ HB) as LB. pose proof (omapM_pairs _ _ _ HB) as PB.
    assert (Hin : forall j, In j (items U cs bases cor mu x a) -> In (it_c j) cs /\ u_basis U q0 vb (it_c j) = Ok (it_E j)).
    { intros j Hj. apply items_in in Hj; [|exact LB]. split; [now apply in_combine_l in Hj|]. clear - PB Hj.
      induction PB as [|c b cs bases E PB IH]; [destruct Hj|]. destruct Hj as [Hj|Hj]; [injection Hj as <- <-; exact E|now apply IH]. }
    destruct (sob_impulse (u_sim U) (so_laws U Inv So) inv gs tol (u_n U) (u_M U s) q0 v0 (items U cs bases cor mu x a) (u_minv U s) (cols_of q0) x0) as [y Hy]; [exact HI| | |exact E|].
    + apply (minv_blocks (u_sim U) inv (u_n U) (u_M U s) (u_minv U s) HI). intros z b o Hb Ho. now apply (so_mass U Inv So).
    + intros j Hj. destruct (Hin j Hj) as [Hc Hb]. pose proof (so_basis U Inv So _ _ _ _ Hb) as SE.
      pose proof (so_placed U Inv So _ _ _ _ _ _ Hs HA Hc) as PL. split; [exact PL|]. split; [exact SE|].
      destruct PL as [i [oj [B _]]]. destruct (law_shape (u_sim U) (so_laws U Inv So) (it_c j) i oj q0 (it_E j) B SE) as [h0 [h1 [kin [H0 [H1 _]]]]].
      unfold user_cols, cols_of. rewrite B, H0, H1. exists (i, oj), h0, h1. repeat split; reflexivity.
    + exists (combine (flat_map (cols_of q0) (items U cs bases cor mu x a)) y). split; [|intros k Hk; apply Hy; rewrite (so_size U Inv So); exact Hk].
      apply Forall_forall. intros [g z] I. cbn [fst]. apply in_combine_l in I. apply in_flat_map in I. destruct I as [j [Ij Ig]].
      destruct (Hin j Ij) as [Hc Hb]. exists (it_c j). split; [exact Hc|]. unfold cols_of in Ig.
      destruct (k_bodies (u_sim U) (it_c j)) as [ij| |] eqn:B; [|destruct Ig..]. destruct (k_H0 (u_sim U) q0 (it_c j) (it_E j)) as [h0| |] eqn:H0; [|destruct Ig..].
      destruct (k_H1 (u_sim U) q0 (it_c j) (it_E j)) as [h1| |] eqn:H1; [|destruct Ig..]. now apply (push_h U true q0 vb (it_c j) (it_E j) ij h0 h1 g).
Qed.

Lemma impact_pushes : forall s k0 q0 v0 vb cs cor a a' v2, Inv s -> impact_part U G (s, k0) q0 v0 cs cor a = Ok (a', v2) ->
  exists imps, pushed U false q0 vb cs imps /\ forall k, (k < u_nv U)%nat -> v2 k = v0 k + u_minv U s (impulse imps) k.
Proof.
  intros s k0 q0 v0 vb cs cor a a' v2 Hs H. unfold impact_part in H. cbn [fst] in H. step_let H. step_let H. step_let H. apply ok_eq in H.
  injection H as _ <-. exists (combine x (map x1 (seq 0 (length x)))). split; [apply form_N_pushes with (1 := E)|]. intros k Hk. unfold vplus. f_equal.
  apply minv_ext; [exact Hs|exact Hk|]. intros j _. rewrite <- (omapM_length _ _ _ E). apply mv_cols.
Qed.
End Step.
