From Coq Require Import ZArith List Reals Arith Bool Lia Lra.
From Verif Require Import Outcome Ccd_Model Lin_Model State_Model State_Spec State_Proofs Script_Model Script_Spec.
Import ListNotations.
Open Scope R_scope.
Open Scope outcome_scope.

Lemma parse_small : forall i, (0 <= i < 2 ^ 32)%Z -> parse_unsigned i = Z.to_nat i.
Proof. intros. unfold parse_unsigned. rewrite Z.mod_small by assumption. reflexivity. Qed.

Lemma parse_wrap : forall i, parse_unsigned (i + 2 ^ 32) = parse_unsigned i.
Proof. intros. unfold parse_unsigned. rewrite <- (Z.mul_1_l (2 ^ 32)) at 1. rewrite Z_mod_plus_full. reflexivity. Qed.

Lemma parse_range : forall i, (Z.of_nat (parse_unsigned i) < 2 ^ 32)%Z.
Proof. intros. unfold parse_unsigned. pose proof (Z.mod_pos_bound i (2 ^ 32) ltac:(lia)). lia. Qed.

Lemma split_at : forall {A} (l : list A) k, (k < length l)%nat -> exists a x b, l = a ++ x :: b /\ length a = k /\ nth_error l k = Some x.
Proof.
  intros A l k H. destruct (nth_error l k) as [x|] eqn:E; [|apply nth_error_None in E; lia].
  destruct (nth_error_split l k E) as (a & b & -> & L). exists a, x, b. repeat split; assumption.
Qed.

Lemma set_nth_app : forall {A} (a : list A) x y b, set_nth (a ++ x :: b) (length a) y = a ++ y :: b.
Proof. intros A a x y b. induction a as [|z a IH]; [reflexivity|]. cbn [app length set_nth]. rewrite IH. reflexivity. Qed.
Lemma erase_app : forall {A} (a : list A) x b, erase_at (a ++ x :: b) (length a) = a ++ b.
Proof. intros A a x b. induction a as [|z a IH]; [reflexivity|]. cbn [app length erase_at]. rewrite IH. reflexivity. Qed.

Lemma checked_valid : forall {A B} (l : list A) i (f : A -> outcome B), (0 <= i < Z.of_nat (length l))%Z -> (Z.of_nat (length l) < 2 ^ 32)%Z ->
  exists x, nth_error l (Z.to_nat i) = Some x /\ checked l i f = f x.
Proof.
  intros A B l i f Hi Hs. destruct (split_at l (Z.to_nat i) ltac:(lia)) as (a & x & b & _ & _ & E). exists x. split; [exact E|].
  unfold checked. rewrite parse_small by lia. destruct (Nat.ltb_spec (length l) (Z.to_nat i)); [lia|]. rewrite (oget_ok _ _ _ E). reflexivity.
Qed.

Lemma change_valid : forall {A} (l : list A) i (f : A -> A), (0 <= i < Z.of_nat (length l))%Z -> (Z.of_nat (length l) < 2 ^ 32)%Z ->
  exists x l', change l i f = Ok l' /\ only_changes l l' (Z.to_nat i) x (f x).
Proof.
  intros A l i f Hi Hs. destruct (split_at l (Z.to_nat i) ltac:(lia)) as (a & x & b & E & L & N). exists x, (a ++ f x :: b).
  unfold change. destruct (checked_valid l i (fun x => oset l (parse_unsigned i) (f x)) Hi Hs) as (y & Ny & ->).
  rewrite N in Ny. injection Ny as <-. rewrite parse_small by lia. rewrite oset_ok by lia. split.
  - rewrite E, <- L, set_nth_app. reflexivity.
  - exists a, b. repeat split; assumption.
Qed.

Lemma erase_valid : forall {A} (l : list A) i, (0 <= i < Z.of_nat (length l))%Z -> (Z.of_nat (length l) < 2 ^ 32)%Z ->
  exists l', erase l i = Ok l' /\ drops l l' (Z.to_nat i).
Proof.
  intros A l i Hi Hs. destruct (split_at l (Z.to_nat i) ltac:(lia)) as (a & x & b & E & L & N). exists (a ++ b).
  unfold erase. destruct (checked_valid l i (fun _ => Ok (erase_at l (parse_unsigned i))) Hi Hs) as (y & Ny & ->).
  rewrite parse_small by lia. split.
  - rewrite E, <- L, erase_app. reflexivity.
  - exists a, x, b. repeat split; assumption.
Qed.

Lemma checked_beyond : forall {A B} (l : list A) i (f : A -> outcome B), (length l < parse_unsigned i)%nat -> checked l i f = Exit.
Proof. intros. unfold checked. destruct (Nat.ltb_spec (length l) (parse_unsigned i)); [reflexivity|lia]. Qed.
Lemma checked_end : forall {A B} (l : list A) i (f : A -> outcome B), parse_unsigned i = length l -> checked l i f = UB.
Proof.
  intros A B l i f H. unfold checked. rewrite H, Nat.ltb_irrefl. unfold oget.
  destruct (nth_error l (length l)) eqn:E; [|reflexivity]. exfalso. assert (length l < length l)%nat by (apply nth_error_Some; congruence). lia.
Qed.

Lemma script_valid : forall w c, small w -> exists_in w c -> axis_ok c -> exists w' r, script w c = Ok (w', r) /\ does c w w' r.
Proof.
  intros w c (S1 & S2 & S3 & S4 & S5 & S6) He Ha. unfold exists_in in He. destruct c as [i x|i x|i|i x|i x|i x|i x|i|i x|i x|i a t|i x|i|i|i|i x]; cbn [index count] in He; cbn [script does index].
  1-2: match goal with |- context [change ?l ?i ?f] => destruct (change_valid l i f He ltac:(assumption)) as (p & l' & E & O) end; rewrite E; cbn [obind]; eexists; eexists; split; [reflexivity|]; split; [reflexivity|]; exists p; split; [exact O|reflexivity].
  1: { destruct (erase_valid (w_bp w) i He S1) as (l' & E & O). rewrite E. cbn [obind]. eexists. eexists. split; [reflexivity|]. split; [reflexivity|]. split; [exact O|reflexivity]. }
  1-4: match goal with |- context [change ?l ?i ?f] => destruct (change_valid l i f He ltac:(assumption)) as (p & l' & E & O) end; rewrite E; cbn [obind]; eexists; eexists; split; [reflexivity|]; split; [reflexivity|]; exists p; split; [exact O|reflexivity].
  1: { destruct (erase_valid (w_rp w) i He S2) as (l' & E & O). rewrite E. cbn [obind]. eexists. eexists. split; [reflexivity|]. split; [reflexivity|]. split; [exact O|reflexivity]. }
  1-2: match goal with |- context [change ?l ?i ?f] => destruct (change_valid l i f He ltac:(assumption)) as (p & l' & E & O) end; rewrite E; cbn [obind]; eexists; eexists; split; [reflexivity|]; split; [reflexivity|]; exists p; split; [exact O|reflexivity].
  - rewrite parse_small by lia. destruct (Nat.ltb_spec (length (w_cy w)) (Z.to_nat i)); [lia|].
    cbn [axis_ok] in Ha. destruct (Rlt_dec (1 / 1000000) (Rabs (sqrt (dot3 a a) - 1))); [lra|].
    match goal with |- context [change ?l ?i ?f] => destruct (change_valid l i f He ltac:(assumption)) as (p & l' & E & O) end; rewrite E; cbn [obind]; eexists; eexists; split; [reflexivity|]; split; [reflexivity|]; exists p; split; [exact O|reflexivity].
  - match goal with |- context [change ?l ?i ?f] => destruct (change_valid l i f He ltac:(assumption)) as (p & l' & E & O) end; rewrite E; cbn [obind]; eexists; eexists; split; [reflexivity|]; split; [reflexivity|]; exists p; split; [exact O|reflexivity].
  - match goal with |- context [checked ?l ?i ?f] => destruct (checked_valid l i f He ltac:(assumption)) as (p & N & E) end; rewrite E. eexists. eexists. split; [reflexivity|]. split; [reflexivity|]. exists p. split; [exact N|reflexivity].
  - match goal with |- context [checked ?l ?i ?f] => destruct (checked_valid l i f He ltac:(assumption)) as (p & N & E) end; rewrite E. eexists. eexists. split; [reflexivity|]. split; [reflexivity|]. exists p. split; [exact N|reflexivity].
  - match goal with |- context [checked ?l ?i ?f] => destruct (checked_valid l i f He ltac:(assumption)) as (p & N & E) end; rewrite E. eexists. eexists. split; [reflexivity|]. split; reflexivity.
  - match goal with |- context [change ?l ?i ?f] => destruct (change_valid l i f He ltac:(assumption)) as (p & l' & E & O) end; rewrite E; cbn [obind]; eexists; eexists; split; [reflexivity|]; split; [reflexivity|]; exists p; split; [exact O|reflexivity].
Qed.

Lemma script_beyond : forall w c, (count w c < parse_unsigned (index c))%nat -> script w c = Exit.
Proof.
  intros w c H. destruct c as [i x|i x|i|i x|i x|i x|i x|i|i x|i x|i a t|i x|i|i|i|i x]; cbn [index count] in H; cbn [script]; unfold change, erase;
  try (rewrite checked_beyond by exact H; reflexivity).
  destruct (Nat.ltb_spec (length (w_cy w)) (parse_unsigned i)); [reflexivity|lia].
Qed.

Lemma script_end : forall w c, parse_unsigned (index c) = count w c -> axis_ok c -> script w c = UB.
Proof.
  intros w c H Ha. destruct c as [i x|i x|i|i x|i x|i x|i x|i|i x|i x|i a t|i x|i|i|i|i x]; cbn [index count] in H; cbn [script]; unfold change, erase;
  try (rewrite checked_end by exact H; reflexivity).
  rewrite H, Nat.ltb_irrefl. cbn [axis_ok] in Ha. destruct (Rlt_dec (1 / 1000000) (Rabs (sqrt (dot3 a a) - 1))); [lra|].
  rewrite checked_end by exact H. reflexivity.
Qed.

Lemma script_bad_axis : forall w c, ~ axis_ok c -> script w c = Exit.
Proof.
  intros w c H. destruct c as [i x|i x|i|i x|i x|i x|i x|i|i x|i x|i a t|i x|i|i|i|i x]; cbn [axis_ok] in H; try (exfalso; apply H; exact I). cbn [script].
  destruct (Nat.ltb (length (w_cy w)) (parse_unsigned i)); [reflexivity|].
  destruct (Rlt_dec (1 / 1000000) (Rabs (sqrt (dot3 a a) - 1))); [reflexivity|lra].
Qed.

Lemma script_wrap : forall w c, script w (with_index c (index c + 2 ^ 32)) = script w c.
Proof.
  intros w c. destruct c as [i x|i x|i|i x|i x|i x|i x|i|i x|i x|i a t|i x|i|i|i|i x]; cbn [index with_index script]; unfold change, erase, checked; rewrite parse_wrap; reflexivity.
Qed.

(* the lists never grow, so they stay small *)
Lemma script_small : forall w c w' r, script w c = Ok (w', r) -> small w -> small w'.
Proof.
  assert (forall A (l l' : list A) i f, change l i f = Ok l' -> length l' = length l) as HC.
  { intros A l l' i f. unfold change, checked, oset. destruct (Nat.ltb _ _); [discriminate|]. destruct (oget l (parse_unsigned i)); cbn [obind]; try discriminate.
    destruct (Nat.ltb _ _); intros E; [injection E as <-; apply set_nth_length|discriminate]. }
  assert (forall A (l l' : list A) i, erase l i = Ok l' -> (length l' <= length l)%nat) as HE.
  { intros A l l' i. unfold erase, checked. destruct (Nat.ltb _ _); [discriminate|]. destruct (oget l (parse_unsigned i)); cbn [obind]; try discriminate.
    intros E; injection E as <-. generalize (parse_unsigned i). clear. induction l as [|x l IH]; intros [|k]; cbn [erase_at length]; try lia. specialize (IH k). lia. }
  assert (forall A (l : list A) i (B : Type) (f : A -> outcome B) y, checked l i f = Ok y -> exists x, f x = Ok y) as HK.
  { intros A l i B f y. unfold checked. destruct (Nat.ltb _ _); [discriminate|]. destruct (oget l (parse_unsigned i)) as [x| |]; cbn [obind]; try discriminate. intros; exists x; assumption. }
  intros w c w' r E (S1 & S2 & S3 & S4 & S5 & S6). unfold small.
  destruct c as [i x|i x|i|i x|i x|i x|i x|i|i x|i x|i a t|i x|i|i|i|i x]; cbn [script] in E;
  try (apply HK in E; destruct E as [p E]; injection E as <- _; repeat split; assumption);
  try (destruct (Nat.ltb (length (w_cy w)) (parse_unsigned i)); [discriminate|]; destruct (Rlt_dec _ _); [discriminate|]);
  (destruct (change _ _ _) as [l| |] eqn:El in E || destruct (erase _ _) as [l| |] eqn:El in E); cbn [obind] in E; try discriminate; injection E as <- _;
  (apply HC in El || apply HE in El); cbn [w_bp w_rp w_p3 w_cy w_con w_grav set_bp set_rp set_p3 set_cy set_grav]; rewrite ?El; repeat split; try assumption; lia.
Qed.

Lemma script_no_ub : forall w c, (index c mod 2 ^ 32)%Z <> Z.of_nat (count w c) -> script w c <> UB.
Proof.
  intros w c H0. assert (parse_unsigned (index c) <> count w c) as H.
  { unfold parse_unsigned. pose proof (Z.mod_pos_bound (index c) (2 ^ 32) ltac:(lia)). lia. }
  clear H0. destruct (Nat.lt_ge_cases (count w c) (parse_unsigned (index c))) as [Hlt|Hge]; [rewrite script_beyond by exact Hlt; discriminate|].
  assert (forall A (l : list A) i f, (parse_unsigned i < length l)%nat -> exists l', change l i f = Ok l') as HC.
  { intros A l i f Hl. unfold change, checked. destruct (Nat.ltb_spec (length l) (parse_unsigned i)); [lia|].
    destruct (split_at l (parse_unsigned i) Hl) as (a & x & b & _ & _ & E). rewrite (oget_ok _ _ _ E). cbn [obind]. rewrite oset_ok by exact Hl. eexists. reflexivity. }
  assert (forall A (l : list A) i B (f : A -> outcome B), (parse_unsigned i < length l)%nat -> exists x, checked l i f = f x) as HK.
  { intros A l i B f Hl. unfold checked. destruct (Nat.ltb_spec (length l) (parse_unsigned i)); [lia|].
    destruct (split_at l (parse_unsigned i) Hl) as (a & x & b & _ & _ & E). rewrite (oget_ok _ _ _ E). exists x. reflexivity. }
  destruct c as [i x|i x|i|i x|i x|i x|i x|i|i x|i x|i a t|i x|i|i|i|i x]; cbn [index count] in H, Hge; cbn [script]; unfold erase;
  try (match goal with |- context [change ?l ?i ?f] => destruct (HC _ l i f ltac:(lia)) as [l' ->] end; cbn [obind]; discriminate);
  try (match goal with |- context [checked ?l ?i ?f] => destruct (HK _ l i _ f ltac:(lia)) as [p ->] end; cbn [obind]; discriminate).
  destruct (Nat.ltb_spec (length (w_cy w)) (parse_unsigned i)); [lia|]. destruct (Rlt_dec _ _); [discriminate|].
  match goal with |- context [change ?l ?i ?f] => destruct (HC _ l i f ltac:(lia)) as [l' ->] end. discriminate.
Qed.

Lemma scripts_no_ub : forall cs w, never_at_end w cs -> scripts w cs <> UB.
Proof.
  induction cs as [|c cs IH]; intros w H; unfold scripts; cbn [ofold]; [discriminate|]. destruct H as [H1 H2].
  pose proof (script_no_ub w c H1) as N. destruct (script w c) as [[w' a]| |] eqn:E; cbn [obind fst]; [|discriminate|contradiction].
  apply IH. apply (H2 w' a). reflexivity.
Qed.

Lemma script_invalid : forall w c, small w -> (- (2 ^ 32 - 1 - Z.of_nat (count w c)) <= index c < 2 ^ 32)%Z ->
  ~ exists_in w c -> index c <> Z.of_nat (count w c) -> script w c = Exit.
Proof.
  intros w c HS Hr He Hn. apply script_beyond. unfold exists_in in He. unfold parse_unsigned.
  destruct (Z.lt_ge_cases (index c) 0) as [Hneg|Hpos].
  - replace (index c mod 2 ^ 32)%Z with (index c + 2 ^ 32)%Z; [lia|]. rewrite <- (Z_mod_plus_full (index c) 1). rewrite Z.mod_small; lia.
  - rewrite Z.mod_small by lia. lia.
Qed.

Lemma script_end_z : forall w c, small w -> index c = Z.of_nat (count w c) -> axis_ok c -> script w c = UB.
Proof.
  intros w c HS Hi Ha. apply script_end; [|exact Ha]. rewrite Hi. rewrite parse_small; [lia|].
  destruct HS as (S1 & S2 & S3 & S4 & S5 & S6). destruct c; cbn [count]; lia.
Qed.
