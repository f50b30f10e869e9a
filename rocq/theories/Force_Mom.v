(* The forces of a file account for the change of the velocities. *)
From Coq Require Import String Ascii List Reals Arith Bool ZArith Lia Lra.
Import ListNotations.
From Verif Require Import Outcome Ccd_Model Lin_Model Lin_Proofs ContactBall_Model ContactRb2_Model ContactRb3_Model Contact_Spec Contact_Proofs Contact3_Proofs Sob_Model Sob_Spec Sob_Proofs Sob_Thms.
From Verif Require Import Hdf_Model Hdf_Spec Out_Model Force_Model Force_Spec Force_Proofs Force_Thms.
Local Open Scope list_scope. Local Open Scope R_scope.
Local Notation entry := Lin_Model.entry.
Arguments impulse _ _%nat.
Arguments Lin_Model.entry _ _%nat.

Lemma impulse_app a b k : impulse (a ++ b) k = impulse a k + impulse b k.
Proof. unfold impulse. induction a as [|x a IH]; cbn [app fold_right]; [lra|]. rewrite IH. lra. Qed.
Lemma impulse_total {X Y} (f : X -> list (col * R)) (g : Y -> R) k l rs :
  Forall2 (fun a r => impulse (f a) k = g r) l rs -> impulse (flat_map f l) k = total_R (map g rs).
Proof. induction 1 as [|a r l rs E _ IH]; [reflexivity|]. cbn [flat_map map total_R fold_right]. rewrite impulse_app, E. unfold total_R in IH. rewrite IH. reflexivity. Qed.

(* ---------- entries of columns ---------- *)
Definition comp2 (e : nat) (x : vec) : R := match e with O => fst x | _ => snd x end.
Ltac nats := repeat match goal with |- context [Nat.eqb ?a ?b] => destruct (Nat.eqb_spec a b); try lia end.
Lemma entry_ball i b e x : (e < 2)%nat -> entry (ins2 (2 * i) x) (2 * b + e) = if Nat.eqb i b then comp2 e x else 0.
Proof. intros H. destruct e as [|[|e]]; [| |lia]; unfold entry, ins2; cbn [fold_right fst snd comp2]; nats; lra. Qed.
Lemma entry2_lin i b e x : (e < 2)%nat -> entry (ins2 (3 * i) x) (3 * b + e) = if Nat.eqb i b then comp2 e x else 0.
Proof. intros H. destruct e as [|[|e]]; [| |lia]; unfold entry, ins2; cbn [fold_right fst snd comp2]; nats; lra. Qed.
Lemma entry2_lin_ang i b x : entry (ins2 (3 * i) x) (3 * b + 2) = 0.
Proof. unfold entry, ins2; cbn [fold_right fst snd]; nats; lra. Qed.
Lemma entry2_ang_lin i b e x : (e < 2)%nat -> entry (ins1 (3 * i + 2) x) (3 * b + e) = 0.
Proof. intros H. unfold entry, ins1; cbn [fold_right fst snd]; nats; lra. Qed.
Lemma entry2_ang i b x : entry (ins1 (3 * i + 2) x) (3 * b + 2) = if Nat.eqb i b then x else 0.
Proof. unfold entry, ins1; cbn [fold_right fst snd]; nats; lra. Qed.
Lemma entry3_lin i b e x : (e < 3)%nat -> entry (ins3 (3 * i) x) (3 * b + e) = if Nat.eqb i b then comp e x else 0.
Proof. intros H. destruct e as [|[|[|e]]]; [| | |lia]; unfold entry, ins3; cbn [fold_right fst snd comp]; nats; lra. Qed.
Lemma entry3_ang i b nb e x : (e < 3)%nat -> entry (ins3 (3 * (i + nb)) x) (3 * (nb + b) + e) = if Nat.eqb i b then comp e x else 0.
Proof. intros H. destruct e as [|[|[|e]]]; [| | |lia]; unfold entry, ins3; cbn [fold_right fst snd comp]; nats; lra. Qed.
Lemma entry3_lin_ang i b nb e x : (e < 3)%nat -> (i < nb)%nat -> entry (ins3 (3 * i) x) (3 * (nb + b) + e) = 0.
Proof. intros H L. unfold entry, ins3; cbn [fold_right fst snd]; nats; lra. Qed.
Lemma entry3_ang_lin i b nb e x : (e < 3)%nat -> (b < nb)%nat -> entry (ins3 (3 * (i + nb)) x) (3 * b + e) = 0.
Proof. intros H L. unfold entry, ins3; cbn [fold_right fst snd]; nats; lra. Qed.

(* the force of a report, from the impulses of its contact *)
Lemma force_framed {C} d parties point (a : acting C) r e : reports d parties point a r -> (e < d)%nat ->
  at_ (rp_force r) e = rsum d (fun k => at_ (ac_imp a) k * at_ (nth k (ac_E a) []) e).
Proof. intros (_ & _ & _ & _ & F) H. apply F. exact H. Qed.

(* ---------- balls ---------- *)
Definition gives_ball (c : ball_contact) (dir : vec) (g : col) : Prop :=
  forall b e, (e < 2)%nat -> entry g (2 * b + e) = (if Nat.eqb (fst (b_bodies c)) b then comp2 e dir else 0) - match snd (b_bodies c) with Some j => if Nat.eqb j b then comp2 e dir else 0 | None => 0 end.
Lemma comp2_neg e x : comp2 e (vneg x) = - comp2 e x.
Proof. destruct e; reflexivity. Qed.
Ltac one_ball := intros b e He; cbn [b_bodies fst snd]; rewrite ?entry_app, ?entry_ball by exact He; rewrite ?comp2_neg; nats; lra.
Lemma b_hcols_gives c n t : gives_ball c n (fst (b_hcols c (n, t))) /\ gives_ball c t (snd (b_hcols c (n, t))).
Proof. unfold gives_ball, b_hcols. destruct c; cbn [b_bodies b_H0 b_H1 fst snd]; split; one_ball. Qed.
Lemma b_gradg_gives c : gives_ball c (fst (b_basis c)) (b_gradg c).
Proof. unfold gives_ball. destruct c; cbn [b_gradg b_bodies b_basis fst snd]; one_ball. Qed.
Lemma signed_ball (a : acting (ball_contact * N)) d point r b x : reports d ball_parties point a r ->
  signed b r x = (if Nat.eqb (fst (b_bodies (fst (ac_c a)))) b then x else 0) - match snd (b_bodies (fst (ac_c a))) with Some j => if Nat.eqb j b then x else 0 | None => 0 end.
Proof.
  intros (P & _). unfold ball_parties, one_or_obstacle in P. injection P as P1 P2. unfold signed. rewrite <- P1, <- P2.
  destruct (snd (b_bodies (fst (ac_c a)))); reflexivity.
Qed.
Lemma at_to2 l e : (e < 2)%nat -> at_ l e = comp2 e (to2 l).
Proof. intros H. destruct e as [|[|e]]; [| |lia]; reflexivity. Qed.
Lemma ball_one a point r b e : reports 2 ball_parties point a r -> length (ac_imp a) = 2%nat -> (e < 2)%nat ->
  impulse (combine (ball_framed a) (ac_imp a)) (2 * b + e) = signed b r (at_ (rp_force r) e).
Proof.
  intros Rp L He. rewrite (signed_ball _ _ _ _ b _ Rp), (force_framed _ _ _ _ _ e Rp He). unfold ball_framed.
  destruct (b_hcols_gives (fst (ac_c a)) (to2 (nth 0 (ac_E a) [])) (to2 (nth 1 (ac_E a) []))) as (G1 & G2).
  destruct (b_hcols _ _) as [n t]. cbn [fst snd] in G1, G2. destruct (ac_imp a) as [|x [|y [|z l]]]; try discriminate.
  unfold impulse. cbn [combine fold_right fst snd rsum]. rewrite G1, G2 by exact He. change (at_ [x; y] 0) with x. change (at_ [x; y] 1) with y. rewrite !(at_to2 _ e) by exact He.
  destruct (snd (b_bodies (fst (ac_c a)))); nats; lra.
Qed.
Lemma ball_one_normal a point r b e : reports 2 ball_parties point a r -> length (ac_imp a) = 1%nat -> to2 (nth 0 (ac_E a) []) = fst (b_basis (fst (ac_c a))) -> (e < 2)%nat ->
  impulse (combine [b_gradg (fst (ac_c a))] (ac_imp a)) (2 * b + e) = signed b r (at_ (rp_force r) e).
Proof.
  intros Rp L N He. rewrite (signed_ball _ _ _ _ b _ Rp), (force_framed _ _ _ _ _ e Rp He).
  pose proof (b_gradg_gives (fst (ac_c a))) as G1. destruct (ac_imp a) as [|x [|y l]]; try discriminate.
  unfold impulse. cbn [combine fold_right fst snd rsum]. rewrite G1 by exact He. change (at_ [x] 0) with x. change (at_ [x] 1) with 0. rewrite !(at_to2 _ e) by exact He. rewrite N.
  destruct (snd (b_bodies (fst (ac_c a)))); nats; lra.
Qed.

Lemma ball_momentum ng M cols point acts rs v0 v1 b e :
  mass2_ok ng M -> moved (2 * ng) (diag_minv M) cols acts v0 v1 ->
  Forall2 (fun a r => impulse (combine (cols a) (ac_imp a)) (2 * b + e) = signed b r (at_ (rp_force r) e)) acts rs ->
  Forall2 (reports 2 ball_parties point) acts rs -> (b < ng)%nat -> (e < 2)%nat ->
  M (2 * b)%nat * (v1 (2 * b + e)%nat - v0 (2 * b + e)%nat) = force_on b e rs.
Proof.
  intros Mo Mv F _ Hb He. rewrite (Mv (2 * b + e)%nat) by lia. unfold diag_minv. rewrite (impulse_total _ _ _ _ _ F). fold (force_on b e rs).
  destruct (Mo b Hb) as (M0 & M1). assert (E : M (2 * b + e)%nat = M (2 * b)%nat) by (destruct e as [|[|e]]; [f_equal; lia|exact M1|lia]). rewrite E.
  unfold force_on. field. exact M0.
Qed.

(* ---------- rigid bodies in the plane ---------- *)
Definition split_on (bodies : nat * option nat) (b : nat) (x : R) : R :=
  (if Nat.eqb (fst bodies) b then x else 0) - match snd bodies with Some j => if Nat.eqb j b then x else 0 | None => 0 end.
Definition gives2 (q : dvec) (b : nat) (c : rb2_contact) (p dir : vec) (g : col) : Prop :=
  (forall e, (e < 2)%nat -> entry g (3 * b + e) = split_on (rb2_bodies c) b (comp2 e dir)) /\
  (not_through_portal2 b c -> entry g (3 * b + 2) = split_on (rb2_bodies c) b (vcross (vsub p (seg2 q (3 * b))) dir)).
Lemma hrow2_lin i w b e : (e < 2)%nat -> entry (hrow2 i w) (3 * b + e) = if Nat.eqb i b then comp2 e (fst w) else 0.
Proof. intros H. unfold hrow2. rewrite entry_app, entry2_lin, entry2_ang_lin by exact H. lra. Qed.
Lemma hrow2_ang i w b : entry (hrow2 i w) (3 * b + 2) = if Nat.eqb i b then snd w else 0.
Proof. unfold hrow2. rewrite entry_app, entry2_lin_ang, entry2_ang. lra. Qed.
Lemma one2 q b i p dir w : (i = b -> w = vcross (vsub p (seg2 q (3 * i))) dir) ->
  (forall e, (e < 2)%nat -> entry (hrow2 i (dir, w)) (3 * b + e) = split_on (i, None) b (comp2 e dir)) /\
  entry (hrow2 i (dir, w)) (3 * b + 2) = split_on (i, None) b (vcross (vsub p (seg2 q (3 * b))) dir).
Proof.
  intros H. unfold split_on. cbn [fst snd]. split; [intros e He; rewrite hrow2_lin by exact He; cbn [fst]; lra|]. rewrite hrow2_ang. cbn [snd].
  destruct (Nat.eqb_spec i b) as [->|]; [rewrite H by reflexivity|]; lra.
Qed.
Lemma two2_lin b i j dir w0 w1 e : (e < 2)%nat -> entry (hrow2 i (dir, w0) ++ hrow2 j (neg_row2 (dir, w1))) (3 * b + e) = split_on (i, Some j) b (comp2 e dir).
Proof. intros He. rewrite entry_app, !hrow2_lin by exact He. unfold split_on. cbn [fst snd neg_row2]. rewrite comp2_neg. nats; lra. Qed.
Lemma two2_ang q b i j p dir w0 w1 : (i = b -> w0 = vcross (vsub p (seg2 q (3 * i))) dir) -> (j = b -> w1 = vcross (vsub p (seg2 q (3 * j))) dir) ->
  entry (hrow2 i (dir, w0) ++ hrow2 j (neg_row2 (dir, w1))) (3 * b + 2) = split_on (i, Some j) b (vcross (vsub p (seg2 q (3 * b))) dir).
Proof.
  intros H0 H1. rewrite entry_app, !hrow2_ang. unfold split_on. cbn [fst snd neg_row2].
  destruct (Nat.eqb_spec i b) as [E0|]; destruct (Nat.eqb_spec j b) as [E1|]; try rewrite (H0 E0); try rewrite (H1 E1); try subst i; try subst j; lra.
Qed.
Ltac flat2 := unfold vcross, vsub, vadd, vscale; cbn [fst snd]; ring.
Lemma rb2_hcols_gives q b c n t : rb2_made_at q c -> n = rb2_normal c ->
  gives2 q b c (rb2_contact_point q c) n (fst (rb2_hcols q c (n, t))) /\ gives2 q b c (rb2_contact_point q c) t (snd (rb2_hcols q c (n, t))).
Proof.
  intros Hm ->. unfold gives2. destruct Hm; unfold mk_circle_circle, mk_body_body2, mk_tele_circle_circle, mk_kick_circle_circle; cbn [rb2_hcols rb2_bodies rb2_H0 rb2_H1 rb2_normal rb2_contact_point fst snd not_through_portal2].
  - destruct (vnormalized_par (vsub (seg2 q (3 * i)) (seg2 q (3 * j)))) as (k & ->).
    repeat split; try (intros; apply two2_lin; assumption); intros _; apply two2_ang; intros _; flat2.
  - repeat split; try (intros; apply two2_lin; assumption); intros _; apply two2_ang; intros _; flat2.
  - destruct (vnormalized_par (vsub x0 x1)) as (k & ->).
    repeat split; try (intros; apply two2_lin; assumption); intros X; apply two2_ang; try (intros; contradiction); intros _; flat2.
  - destruct (vnormalized_par (vsub x0 x1)) as (k' & ->).
    repeat split; try (intros; apply two2_lin; assumption); intros X; apply two2_ang; try (intros; contradiction); intros _; flat2.
  - split; (match goal with |- context [hrow2 ?i (?d, ?w)] => destruct (one2 q b i (kin_contact_point q i r n) d w) as (L & A) end; [intros _; unfold kin_contact_point; flat2|split; [exact L|intros _; exact A]]).
  - split; (match goal with |- context [hrow2 ?i (?d, ?w)] => destruct (one2 q b i (vadd (seg2 q (3 * i)) (rot2 (q (3 * i + 2)%nat) a)) d w) as (L & A) end; [intros _; flat2|split; [exact L|intros _; exact A]]).
  - split; (match goal with |- context [hrow2 ?i (?d, ?w)] => destruct (one2 q b i (kin_contact_point q i r (rp_n p)) d w) as (L & A) end; [intros _; unfold kin_contact_point; flat2|split; [exact L|intros _; exact A]]).
Qed.
Lemma ins_hrow2 i n b k : entry (ins2 (3 * i) n) (3 * b + k) = entry (hrow2 i (n, 0)) (3 * b + k).
Proof. unfold hrow2. rewrite entry_app. unfold ins1. cbn [snd fst]. unfold Lin_Model.entry at 3. cbn [fold_right fst snd]. nats; lra. Qed.
Lemma rb2_gradg_gives q b c g : rb2_made_at q c -> rb2_gradg c = Ok g -> gives2 q b c (rb2_contact_point q c) (rb2_normal c) g.
Proof.
  intros Hm E. destruct (rb2_hcols_gives q b c (rb2_normal c) (0, 0) Hm eq_refl) as (G & _). unfold gives2 in *.
  destruct c; cbn [rb2_gradg] in E; try discriminate; (match type of E with Ok ?x = Ok _ => assert (Eg : g = x) by congruence; clear E; subst g end); cbn [rb2_hcols rb2_bodies rb2_H0 rb2_H1 rb2_normal rb2_contact_point fst snd not_through_portal2] in *;
  rewrite ?entry_app in G; rewrite ?entry_app; rewrite ?ins_hrow2;
  (split; [intros e He; rewrite ?entry_app, ?ins_hrow2; destruct G as (G & _); specialize (G e He); rewrite ?entry_app in G|intros X; destruct G as (_ & G); specialize (G X)];
   rewrite <- G; unfold neg_row2; cbn [fst snd]; rewrite ?Ropp_0; reflexivity).
Qed.
Lemma signed_rb2 (a : acting (rb2_contact * N)) point r b x : reports 2 rb2_parties point a r -> not_scripted2 b (fst (ac_c a)) ->
  signed b r x = split_on (rb2_bodies (fst (ac_c a))) b x.
Proof.
  intros (P & _) Ns. unfold signed, split_on.
  assert (P1 : rp_first r = fst (rb2_parties (ac_c a))) by (rewrite P; reflexivity). assert (P2 : rp_second r = snd (rb2_parties (ac_c a))) by (rewrite P; reflexivity).
  rewrite P1, P2. unfold rb2_parties, one_or_obstacle. destruct (fst (ac_c a)); cbn [rb2_bodies fst snd names not_scripted2] in *; try reflexivity. nats; congruence.
Qed.
Lemma to2_of2 p : to2 (of2 p) = p.
Proof. destruct p; reflexivity. Qed.
Lemma rb2_point q a r : reports 2 rb2_parties (a_point rb2_asked q) a r -> to2 (rp_point r) = rb2_contact_point q (fst (ac_c a)).
Proof. intros (_ & P & _). cbn [rb2_asked a_point] in P. assert (E : rp_point r = of2 (rb2_contact_point q (fst (ac_c a)))) by congruence. rewrite E. apply to2_of2. Qed.
Lemma split_on_plus s b x y : split_on s b (x + y) = split_on s b x + split_on s b y.
Proof. unfold split_on. destruct (snd s); nats; lra. Qed.
Lemma split_on_scale s b k x : split_on s b (k * x) = k * split_on s b x.
Proof. unfold split_on. destruct (snd s); nats; lra. Qed.
Lemma to2_eq l n t x y : (forall e, (e < 2)%nat -> at_ l e = x * comp2 e n + y * comp2 e t) -> to2 l = vadd (vscale x n) (vscale y t).
Proof. intros H. pose proof (H 0%nat ltac:(lia)) as H0. pose proof (H 1%nat ltac:(lia)) as H1. unfold to2, vadd, vscale. cbn [comp2 fst snd] in *. rewrite H0, H1. reflexivity. Qed.
Lemma vcross_lin a n t x y : vcross a (vadd (vscale x n) (vscale y t)) = x * vcross a n + y * vcross a t.
Proof. unfold vcross, vadd, vscale. cbn [fst snd]. ring. Qed.
Section Rb2.
Variables (q : dvec) (b : nat).
Lemma rb2_one a r : reports 2 rb2_parties (a_point rb2_asked q) a r -> length (ac_imp a) = 2%nat -> rb2_made_at q (fst (ac_c a)) ->
  to2 (nth 0 (ac_E a) []) = rb2_normal (fst (ac_c a)) -> not_scripted2 b (fst (ac_c a)) ->
  (forall e, (e < 2)%nat -> impulse (combine (rb2_framed q a) (ac_imp a)) (3 * b + e) = signed b r (at_ (rp_force r) e)) /\
  (not_through_portal2 b (fst (ac_c a)) -> impulse (combine (rb2_framed q a) (ac_imp a)) (3 * b + 2) = signed b r (vcross (vsub (to2 (rp_point r)) (seg2 q (3 * b))) (to2 (rp_force r)))).
Proof.
  intros Rp L Hm N Ns. unfold rb2_framed.
  destruct (rb2_hcols_gives q b (fst (ac_c a)) (to2 (nth 0 (ac_E a) [])) (to2 (nth 1 (ac_E a) [])) Hm N) as ((G1 & A1) & (G2 & A2)).
  destruct (rb2_hcols _ _ _) as [n t]. cbn [fst snd] in G1, G2, A1, A2.
  assert (Fo : forall e, (e < 2)%nat -> at_ (rp_force r) e = at_ (ac_imp a) 0 * comp2 e (to2 (nth 0 (ac_E a) [])) + at_ (ac_imp a) 1 * comp2 e (to2 (nth 1 (ac_E a) []))).
  { intros e He. rewrite (force_framed _ _ _ _ _ e Rp He). cbn [rsum]. rewrite !(at_to2 _ e) by exact He. lra. }
  pose proof (to2_eq _ _ _ _ _ Fo) as Fv.
  destruct (ac_imp a) as [|x [|y [|z l]]]; try discriminate. unfold impulse. cbn [combine fold_right fst snd]. change (at_ [x; y] 0) with x in *. change (at_ [x; y] 1) with y in *. split.
  - intros e He. rewrite G1, G2, (signed_rb2 _ _ _ b _ Rp Ns), (Fo e He) by exact He. rewrite split_on_plus, !split_on_scale. lra.
  - intros Np. rewrite (A1 Np), (A2 Np), (signed_rb2 _ _ _ b _ Rp Ns), Fv, vcross_lin, split_on_plus, !split_on_scale, (rb2_point q a r Rp). lra.
Qed.
Lemma rb2_one_normal a r : reports 2 rb2_parties (a_point rb2_asked q) a r -> length (ac_imp a) = 1%nat -> rb2_made_at q (fst (ac_c a)) ->
  to2 (nth 0 (ac_E a) []) = rb2_normal (fst (ac_c a)) -> not_scripted2 b (fst (ac_c a)) -> (exists g, rb2_gradg (fst (ac_c a)) = Ok g) ->
  (forall e, (e < 2)%nat -> impulse (combine (only_ok (rb2_gradg (fst (ac_c a)))) (ac_imp a)) (3 * b + e) = signed b r (at_ (rp_force r) e)) /\
  (not_through_portal2 b (fst (ac_c a)) -> impulse (combine (only_ok (rb2_gradg (fst (ac_c a)))) (ac_imp a)) (3 * b + 2) = signed b r (vcross (vsub (to2 (rp_point r)) (seg2 q (3 * b))) (to2 (rp_force r)))).
Proof.
  intros Rp L Hm N Ns (g & Eg). rewrite Eg.
  destruct (rb2_gradg_gives q b _ g Hm Eg) as (G1 & A1).
  assert (Fo : forall e, (e < 2)%nat -> at_ (rp_force r) e = at_ (ac_imp a) 0 * comp2 e (to2 (nth 0 (ac_E a) [])) + at_ (ac_imp a) 1 * comp2 e (to2 (nth 1 (ac_E a) []))).
  { intros e He. rewrite (force_framed _ _ _ _ _ e Rp He). cbn [rsum]. rewrite !(at_to2 _ e) by exact He. lra. }
  pose proof (to2_eq _ _ _ _ _ Fo) as Fv. rewrite N in *.
  destruct (ac_imp a) as [|x [|y l]]; try discriminate. unfold impulse. cbn [only_ok combine fold_right fst snd]. change (at_ [x] 0) with x in *. change (at_ [x] 1) with 0 in *. split.
  - intros e He. rewrite G1, (signed_rb2 _ _ _ b _ Rp Ns), (Fo e He) by exact He. rewrite split_on_plus, !split_on_scale. lra.
  - intros Np. rewrite (A1 Np), (signed_rb2 _ _ _ b _ Rp Ns), Fv, vcross_lin, split_on_plus, !split_on_scale, (rb2_point q a r Rp). lra.
Qed.
End Rb2.
Lemma rb2_momentum ng M cols acts rs v0 v1 b :
  mass_rb2_ok ng M -> moved (3 * ng) (diag_minv M) cols acts v0 v1 -> (b < ng)%nat ->
  (forall e, (e < 2)%nat -> Forall2 (fun a r => impulse (combine (cols a) (ac_imp a)) (3 * b + e) = signed b r (at_ (rp_force r) e)) acts rs ->
     M (3 * b)%nat * (v1 (3 * b + e)%nat - v0 (3 * b + e)%nat) = force_on b e rs) /\
  (forall x, Forall2 (fun a r => impulse (combine (cols a) (ac_imp a)) (3 * b + 2) = signed b r (vcross (vsub (to2 (rp_point r)) x) (to2 (rp_force r)))) (acts : list (acting (rb2_contact * N))) rs ->
     M (3 * b + 2)%nat * (v1 (3 * b + 2)%nat - v0 (3 * b + 2)%nat) = torque_on2 b x rs).
Proof.
  intros Mo Mv Hb. destruct (Mo b Hb) as (M0 & M1 & M2). split.
  - intros e He F. rewrite (Mv (3 * b + e)%nat) by lia. unfold diag_minv. rewrite (impulse_total _ _ _ _ _ F).
    assert (E : M (3 * b + e)%nat = M (3 * b)%nat) by (destruct e as [|[|e]]; [f_equal; lia|exact M1|lia]). rewrite E. unfold force_on. field. exact M0.
  - intros x F. rewrite (Mv (3 * b + 2)%nat) by lia. unfold diag_minv. rewrite (impulse_total _ _ _ _ _ F). unfold torque_on2. field. exact M2.
Qed.

(* ---------- rigid bodies in space ---------- *)
Definition gives3 (nb : nat) (q : dvec) (b : nat) (c : rb3_contact) (p dir : v3) (g : col) : Prop :=
  (forall e, (e < 3)%nat -> entry g (3 * b + e) = split_on (rb3_bodies c) b (comp e dir)) /\
  (not_through_portal3 b c -> forall e, (e < 3)%nat -> entry g (3 * (nb + b) + e) = split_on (rb3_bodies c) b (comp e (cross3 (sub3 p (seg3 q (3 * b))) dir))).
Section Rb3.
Variables (nb : nat) (q : dvec) (b : nat).
Hypothesis Hb : (b < nb)%nat.
Lemma hrow3_lin i w e : (e < 3)%nat -> entry (hrow3 nb i w) (3 * b + e) = if Nat.eqb i b then comp e (fst w) else 0.
Proof. intros H. unfold hrow3. rewrite entry_app, (Nat.add_comm nb i), entry3_lin, entry3_ang_lin by assumption. lra. Qed.
Lemma hrow3_ang i w e : (e < 3)%nat -> (i < nb)%nat -> entry (hrow3 nb i w) (3 * (nb + b) + e) = if Nat.eqb i b then comp e (snd w) else 0.
Proof. intros H Hi. unfold hrow3. rewrite entry_app, (Nat.add_comm nb i), entry3_ang, entry3_lin_ang by assumption. lra. Qed.
Lemma one3 i p dir w : (i < nb)%nat -> w = cross3 (sub3 p (seg3 q (3 * i))) dir ->
  (forall e, (e < 3)%nat -> entry (hrow3 nb i (dir, w)) (3 * b + e) = split_on (i, None) b (comp e dir)) /\
  (forall e, (e < 3)%nat -> entry (hrow3 nb i (dir, w)) (3 * (nb + b) + e) = split_on (i, None) b (comp e (cross3 (sub3 p (seg3 q (3 * b))) dir))).
Proof.
  intros Hi ->. unfold split_on. cbn [fst snd]. split; intros e He; [rewrite hrow3_lin by assumption|rewrite hrow3_ang by assumption]; cbn [fst snd].
  - lra.
  - destruct (Nat.eqb_spec i b) as [->|]; lra.
Qed.
Lemma two3_lin i j dir w0 w1 e : (e < 3)%nat -> entry (hrow3 nb i (dir, w0) ++ hrow3 nb j (neg_row3 (dir, w1))) (3 * b + e) = split_on (i, Some j) b (comp e dir).
Proof. intros He. rewrite entry_app, !hrow3_lin by exact He. unfold split_on. cbn [fst snd neg_row3]. rewrite comp_neg. nats; lra. Qed.
Lemma two3_ang i j p dir w0 w1 : (i < nb)%nat -> (j < nb)%nat -> (i = b -> w0 = cross3 (sub3 p (seg3 q (3 * i))) dir) -> (j = b -> w1 = cross3 (sub3 p (seg3 q (3 * j))) dir) ->
  forall e, (e < 3)%nat -> entry (hrow3 nb i (dir, w0) ++ hrow3 nb j (neg_row3 (dir, w1))) (3 * (nb + b) + e) = split_on (i, Some j) b (comp e (cross3 (sub3 p (seg3 q (3 * b))) dir)).
Proof.
  intros Hi Hj H0 H1 e He. rewrite entry_app, !hrow3_ang by assumption. unfold split_on. cbn [fst snd neg_row3]. rewrite comp_neg.
  destruct (Nat.eqb_spec i b) as [E0|]; destruct (Nat.eqb_spec j b) as [E1|]; try rewrite (H0 E0); try rewrite (H1 E1); try subst i; try subst j; lra.
Qed.
Ltac flat3 := apply v3_eq; unfold cross3, sub3, add3, scale3, neg3, zero3; cbn [c0 c1 c2]; ring.
Ltac two := repeat split; try (intros; apply two3_lin; assumption); intros X; apply two3_ang; try assumption; try (intros; contradiction); intros _; flat3.
Ltac one p0 := repeat match goal with |- _ /\ _ => split end;
  match goal with |- context [hrow3 nb ?i (?d, ?w)] => destruct (one3 i p0 d w) as (L & A); [assumption|flat3|first [exact L|intros _; exact A]] end.
Lemma rb3_hcols_gives c p n s t : rb3_made_at q c -> in_range nb (rb3_bodies c) -> n = rb3_normal q c -> rb3_contact_point q c = Ok p ->
  exists g0 g1 g2, rb3_hcols nb q c n s t = Ok [g0; g1; g2] /\ gives3 nb q b c p n g0 /\ gives3 nb q b c p s g1 /\ gives3 nb q b c p t g2.
Proof.
  intros Hm (R0 & R1) -> Ep. unfold gives3.
  destruct Hm; unfold mk_sphere_sphere, mk_tele_sphere_sphere, mk_body_body3, mk_sphere_body, mk_kin_body, mk_plane_body3, mk_cyl_body in *;
  unfold rb3_hcols; cbn [rb3_bodies rb3_H0 rb3_H1 rb3_normal rb3_contact_point fst snd not_through_portal3 obind sphere_rows arm_rows combine map] in *;
  try discriminate; do 3 eexists; (split; [reflexivity|]).
  all: match type of Ep with Ok ?x = Ok _ => assert (Eq : p = x) by congruence || assert (Eq : p0 = x) by congruence; clear Ep; subst end.
  - destruct (normalized3_par (sub3 (seg3 q (3 * i)) (seg3 q (3 * j)))) as (k & ->). two.
  - destruct (normalized3_par (sub3 x0 x1)) as (k & ->). two.
  - two.
  - one (add3 (seg3 q (3 * i)) (sub3 p0 (seg3 q (3 * i)))).
  - one (sub3 (seg3 q (3 * i)) (scale3 r n)).
  - one (add3 (seg3 q (3 * i)) (sub3 p0 (seg3 q (3 * i)))).
  - one (sub3 (seg3 q (3 * i)) (scale3 r (tp_n p0))).
  - one (sub3 (seg3 q (3 * i)) (scale3 r (cyl_n q i cy))).
Qed.
Lemma ins_hrow3_lin i n e : (e < 3)%nat -> entry (ins3 (3 * i) n) (3 * b + e) = entry (hrow3 nb i (n, zero3)) (3 * b + e).
Proof. intros He. rewrite hrow3_lin, entry3_lin by assumption. reflexivity. Qed.
Lemma ins_hrow3_ang i n e : (e < 3)%nat -> (i < nb)%nat -> entry (ins3 (3 * i) n) (3 * (nb + b) + e) = entry (hrow3 nb i (n, zero3)) (3 * (nb + b) + e).
Proof. intros He Hi. rewrite hrow3_ang, entry3_lin_ang by assumption. cbn [snd]. rewrite comp_zero. nats; lra. Qed.
Lemma neg_row3_zero n : neg_row3 (n, zero3) = (neg3 n, zero3).
Proof. unfold neg_row3. cbn [fst snd]. f_equal. apply v3_eq; unfold neg3, zero3; cbn [c0 c1 c2]; lra. Qed.
Lemma rb3_gradg_gives c p g : rb3_made_at q c -> in_range nb (rb3_bodies c) -> rb3_contact_point q c = Ok p -> rb3_gradg nb q c = Ok g -> gives3 nb q b c p (rb3_normal q c) g.
Proof.
  intros Hm R Ep E. destruct (rb3_hcols_gives c p (rb3_normal q c) zero3 zero3 Hm R eq_refl Ep) as (g0 & g1 & g2 & Eh & G & _). destruct R as (R0 & R1).
  destruct c; unfold rb3_hcols in Eh; cbn [rb3_bodies rb3_H0 rb3_H1 rb3_normal rb3_contact_point rb3_gradg fst snd not_through_portal3 obind sphere_rows arm_rows combine map] in *; try discriminate;
  (match type of E with Ok ?x = Ok _ => assert (Eg : g = x) by congruence; clear E; subst g end);
  (match type of Eh with Ok (?x :: _) = Ok _ => assert (Eg : g0 = x) by congruence; clear Eh; subst g0 end);
  unfold gives3 in *; cbn [rb3_bodies not_through_portal3] in *; destruct G as (GL & GA);
  try (split; [intros e He; rewrite <- (GL e He)|intros X e He; rewrite <- (GA X e He)];
       rewrite ?hcols_eq; unfold hrow3; cbn [fst snd]; rewrite ?(Nat.add_comm nb); reflexivity);
  (split; [intros e He; rewrite <- (GL e He)|intros X e He; rewrite <- (GA X e He)]; rewrite ?entry_app, ?neg_row3_zero, ?ins_hrow3_lin, ?ins_hrow3_ang by assumption; reflexivity).
Qed.

Lemma signed_rb3 (a : acting (rb3_contact * N)) point r x : reports 3 rb3_parties point a r -> not_scripted3 b (fst (ac_c a)) ->
  signed b r x = split_on (rb3_bodies (fst (ac_c a))) b x.
Proof.
  intros (P & _) Ns. unfold signed, split_on.
  assert (P1 : rp_first r = fst (rb3_parties (ac_c a))) by (rewrite P; reflexivity). assert (P2 : rp_second r = snd (rb3_parties (ac_c a))) by (rewrite P; reflexivity).
  rewrite P1, P2. unfold rb3_parties, one_or_obstacle. destruct (fst (ac_c a)); cbn [rb3_bodies fst snd names not_scripted3] in *; try reflexivity; nats; congruence.
Qed.
Lemma to3_of3 p : to3 (of3 p) = p.
Proof. destruct p; reflexivity. Qed.
Lemma rb3_point a r : reports 3 rb3_parties (a_point rb3_asked q) a r -> rb3_contact_point q (fst (ac_c a)) = Ok (to3 (rp_point r)).
Proof.
  intros (_ & P & _). cbn [rb3_asked a_point] in P. destruct (rb3_contact_point q (fst (ac_c a))) as [p| |]; cbn [obind] in P; try discriminate.
  assert (E : rp_point r = of3 p) by congruence. rewrite E, to3_of3. reflexivity.
Qed.
Lemma at_to3 l e : (e < 3)%nat -> at_ l e = comp e (to3 l).
Proof. intros H. destruct e as [|[|[|e]]]; [| | |lia]; reflexivity. Qed.
Lemma to3_eq l n s t x y z : (forall e, (e < 3)%nat -> at_ l e = x * comp e n + y * comp e s + z * comp e t) -> to3 l = add3 (add3 (scale3 x n) (scale3 y s)) (scale3 z t).
Proof.
  intros H. pose proof (H 0%nat ltac:(lia)) as H0. pose proof (H 1%nat ltac:(lia)) as H1. pose proof (H 2%nat ltac:(lia)) as H2.
  unfold to3, add3, scale3. cbn [comp c0 c1 c2] in *. rewrite H0, H1, H2. reflexivity.
Qed.
Lemma cross3_lin a n s t x y z e : comp e (cross3 a (add3 (add3 (scale3 x n) (scale3 y s)) (scale3 z t))) = x * comp e (cross3 a n) + y * comp e (cross3 a s) + z * comp e (cross3 a t).
Proof. destruct e as [|[|e]]; unfold cross3, add3, scale3; cbn [comp c0 c1 c2]; ring. Qed.
Section One.
Variables (a : acting (rb3_contact * N)) (r : report).
Hypotheses (Rp : reports 3 rb3_parties (a_point rb3_asked q) a r) (Hm : rb3_made_at q (fst (ac_c a))) (Rg : in_range nb (rb3_bodies (fst (ac_c a))))
  (No : to3 (nth 0 (ac_E a) []) = rb3_normal q (fst (ac_c a))) (Ns : not_scripted3 b (fst (ac_c a))).
Lemma force3 : forall e, (e < 3)%nat -> at_ (rp_force r) e = at_ (ac_imp a) 0 * comp e (to3 (nth 0 (ac_E a) [])) + at_ (ac_imp a) 1 * comp e (to3 (nth 1 (ac_E a) [])) + at_ (ac_imp a) 2 * comp e (to3 (nth 2 (ac_E a) [])).
Proof. intros e He. rewrite (force_framed _ _ _ _ _ e Rp He). cbn [rsum]. rewrite !(at_to3 _ e) by exact He. lra. Qed.
Lemma rb3_one : length (ac_imp a) = 3%nat ->
  (forall e, (e < 3)%nat -> impulse (combine (rb3_framed nb q a) (ac_imp a)) (3 * b + e) = signed b r (at_ (rp_force r) e)) /\
  (not_through_portal3 b (fst (ac_c a)) -> forall e, (e < 3)%nat -> impulse (combine (rb3_framed nb q a) (ac_imp a)) (3 * (nb + b) + e) = signed b r (comp e (moment3 (seg3 q (3 * b)) r))).
Proof.
  intros L. unfold rb3_framed.
  destruct (rb3_hcols_gives (fst (ac_c a)) (to3 (rp_point r)) (to3 (nth 0 (ac_E a) [])) (to3 (nth 1 (ac_E a) [])) (to3 (nth 2 (ac_E a) [])) Hm Rg No (rb3_point a r Rp)) as (g0 & g1 & g2 & Eh & (G0 & A0) & (G1 & A1) & (G2 & A2)).
  rewrite Eh. pose proof force3 as Fo. pose proof (to3_eq _ _ _ _ _ _ _ Fo) as Fv.
  destruct (ac_imp a) as [|x [|y [|z [|w l]]]]; try discriminate. unfold impulse. cbn [only_ok concat app combine fold_right fst snd].
  change (at_ [x; y; z] 0) with x in *. change (at_ [x; y; z] 1) with y in *. change (at_ [x; y; z] 2) with z in *. split.
  - intros e He. rewrite G0, G1, G2, (signed_rb3 _ _ _ _ Rp Ns), (Fo e He) by exact He. rewrite !split_on_plus, !split_on_scale. lra.
  - intros Np e He. rewrite (A0 Np e He), (A1 Np e He), (A2 Np e He), (signed_rb3 _ _ _ _ Rp Ns). unfold moment3. rewrite Fv, cross3_lin, !split_on_plus, !split_on_scale. lra.
Qed.
Lemma rb3_one_normal : length (ac_imp a) = 1%nat -> (exists g, rb3_gradg nb q (fst (ac_c a)) = Ok g) ->
  (forall e, (e < 3)%nat -> impulse (combine (only_ok (rb3_gradg nb q (fst (ac_c a)))) (ac_imp a)) (3 * b + e) = signed b r (at_ (rp_force r) e)) /\
  (not_through_portal3 b (fst (ac_c a)) -> forall e, (e < 3)%nat -> impulse (combine (only_ok (rb3_gradg nb q (fst (ac_c a)))) (ac_imp a)) (3 * (nb + b) + e) = signed b r (comp e (moment3 (seg3 q (3 * b)) r))).
Proof.
  intros L (g & Eg). rewrite Eg.
  destruct (rb3_gradg_gives (fst (ac_c a)) (to3 (rp_point r)) g Hm Rg (rb3_point a r Rp) Eg) as (G0 & A0).
  pose proof force3 as Fo. pose proof (to3_eq _ _ _ _ _ _ _ Fo) as Fv. rewrite No in *.
  destruct (ac_imp a) as [|x [|y l]]; try discriminate. unfold impulse. cbn [only_ok combine fold_right fst snd].
  change (at_ [x] 0) with x in *. change (at_ [x] 1) with 0 in *. change (at_ [x] 2) with 0 in *. split.
  - intros e He. rewrite G0, (signed_rb3 _ _ _ _ Rp Ns), (Fo e He) by exact He. rewrite !split_on_plus, !split_on_scale. lra.
  - intros Np e He. rewrite (A0 Np e He), (signed_rb3 _ _ _ _ Rp Ns). unfold moment3. rewrite Fv, cross3_lin, !split_on_plus, !split_on_scale. lra.
Qed.
End One.
End Rb3.
Lemma rb3_momentum ng M I Iinv cols acts rs v0 v1 b :
  mass_rb3_ok ng M I Iinv -> moved (6 * ng) (rb3_minv ng M Iinv) cols (acts : list (acting (rb3_contact * N))) v0 v1 -> (b < ng)%nat ->
  (forall e, (e < 3)%nat -> Forall2 (fun a r => impulse (combine (cols a) (ac_imp a)) (3 * b + e) = signed b r (at_ (rp_force r) e)) acts rs ->
     M (3 * b)%nat * (v1 (3 * b + e)%nat - v0 (3 * b + e)%nat) = force_on b e rs) /\
  (forall x, (forall e, (e < 3)%nat -> Forall2 (fun a r => impulse (combine (cols a) (ac_imp a)) (3 * (ng + b) + e) = signed b r (comp e (moment3 x r))) acts rs) ->
     mul3 (I b) (sub3 (seg3 v1 (3 * (ng + b))) (seg3 v0 (3 * (ng + b)))) = torque_on3 b x rs).
Proof.
  intros Mo Mv Hb. destruct (Mo b Hb) as (M0 & M1 & M2 & MI). split.
  - intros e He F. rewrite (Mv (3 * b + e)%nat) by lia. rewrite rb3_minv_lin by assumption. unfold diag_minv. rewrite (impulse_total _ _ _ _ _ F).
    assert (E : M (3 * b + e)%nat = M (3 * b)%nat) by (destruct e as [|[|[|e]]]; [f_equal; lia|exact M1|exact M2|lia]). rewrite E. unfold force_on. field. exact M0.
  - intros x F. set (f := impulse (flat_map (fun a => combine (cols a) (ac_imp a)) acts)) in *.
    assert (D : sub3 (seg3 v1 (3 * (ng + b))) (seg3 v0 (3 * (ng + b))) = mul3 (Iinv b) (seg3 f (3 * (ng + b)))).
    { set (w := mul3 (Iinv b) (seg3 f (3 * (ng + b)))). apply v3_eq; unfold sub3, seg3; cbn [c0 c1 c2]; rewrite Mv by lia.
      - pose proof (rb3_minv_ang ng M Iinv f b 0 ltac:(lia)) as X. fold w in X. cbn [comp] in X. fold f. rewrite X. lra.
      - pose proof (rb3_minv_ang ng M Iinv f b 1 ltac:(lia)) as X. fold w in X. cbn [comp] in X. fold f. rewrite X. lra.
      - pose proof (rb3_minv_ang ng M Iinv f b 2 ltac:(lia)) as X. fold w in X. cbn [comp] in X. fold f. rewrite X. lra. }
    rewrite D, MI. unfold torque_on3.
    pose proof (impulse_total _ _ _ _ _ (F 0%nat ltac:(lia))) as F0. pose proof (impulse_total _ _ _ _ _ (F 1%nat ltac:(lia))) as F1. pose proof (impulse_total _ _ _ _ _ (F 2%nat ltac:(lia))) as F2.
    apply v3_eq; unfold seg3; cbn [c0 c1 c2]; [exact F0|exact F1|exact F2].
Qed.
