(* The search common to both simulators: boxes and views, the loop over the candidates, the set of contacts across portals. *)
From Coq Require Import List Arith NArith Bool Lia Sorting.Sorted.
From Verif Require Import Outcome Portal_Model Portal_Spec Portal_Thms Wall_Model Wall_Thms Tele_Model Tele_Spec.
Import ListNotations.
Local Open Scope nat_scope.

Lemma combine_seq_In : forall {A} (l : list A) a k x, In (k, x) (combine (seq a (length l)) l) <-> a <= k /\ nth_error l (k - a) = Some x.
Proof.
  intros A l. induction l as [|y l IH]; intros a k x; cbn [length seq combine In].
  - split; [intros []|]. intros [_ H]. destruct (k - a); discriminate.
  - rewrite IH. split.
    + intros [E|[L H]]; [injection E as <- <-; rewrite Nat.sub_diag; split; [lia|reflexivity]|]. split; [lia|]. replace (k - a) with (S (k - S a)) by lia. exact H.
    + intros [L H]. destruct (Nat.eq_dec k a) as [->|N]; [left; rewrite Nat.sub_diag in H; injection H as ->; reflexivity|]. right. split; [lia|].
      replace (k - a) with (S (k - S a)) in H by lia. exact H.
Qed.
Lemma gather_length : forall {A} (l : list (outcome (list A))) s n, gather l = Ok s -> (forall a, In (Ok a) l -> length a <= n) -> length s <= length l * n.
Proof.
  intros A l. induction l as [|x l IH]; intros s n E H; cbn [gather] in E; [injection E as <-; cbn; lia|].
  apply obind_Ok_inv in E as (a & -> & E). apply obind_Ok_inv in E as (b & Eb & E). injection E as <-. rewrite app_length. cbn [length Nat.mul].
  pose proof (H a (or_introl eq_refl)). assert (length b <= length l * n) by (apply IH; [exact Eb|intros c Hc; apply H; right; exact Hc]). lia.
Qed.
Lemma flat_map_length : forall {A B} (f : A -> list B) l n, (forall a, In a l -> length (f a) = n) -> length (flat_map f l) = length l * n.
Proof.
  intros A B f l n. induction l as [|a l IH]; intros H; cbn [flat_map length]; [reflexivity|]. rewrite app_length, (H a (or_introl eq_refl)), IH; [reflexivity|].
  intros b Hb. apply H. right. exact Hb.
Qed.

Section Search.
  Context {Po Pt Bx C : Type} (touches : Po -> Bx -> option bool) (through : Po -> bool -> Pt -> outcome Pt) (box : nat -> Pt -> Bx)
    (grid : list Bx -> outcome (list (N * N))) (nb : nat) (fixed : nat -> bool) (ps : list Po) (at1 : nat -> Pt)
    (direct : nat -> nat -> outcome (list C)) (in_place : nat -> nat -> outcome bool) (happens : tcoll -> outcome bool) (make : tcoll -> outcome (list C)).
  Context (meet : Bx -> Bx -> Prop) (good : Bx -> Prop).
  Hypothesis Grid_sound : forall bs out i j, (N.of_nat (length bs) <= 4294967296)%N -> grid bs = Ok out -> In (i, j) out ->
    (i <= j)%N /\ exists a b, nth_error bs (N.to_nat i) = Some a /\ nth_error bs (N.to_nat j) = Some b /\ meet a b.
  Hypothesis Grid_complete : forall bs out i j a b, (N.of_nat (length bs) <= 4294967296)%N -> Forall good bs -> grid bs = Ok out -> (i < j)%N ->
    nth_error bs (N.to_nat i) = Some a -> nth_error bs (N.to_nat j) = Some b -> meet a b -> In (i, j) out.
  Hypothesis Good : forall i x, i < nb -> good (box i x).
  Hypothesis Few : (N.of_nat nb * (1 + N.of_nat (length ps)) <= 4294967296)%N.
  Hypothesis Meet_sym : forall a b, meet a b -> meet b a.

  Definition near_box (p : Po) (s : bool) (i : nat) : Prop := touches p (box i (at1 i)) = Some s.
  Notation seen := (view near_box through nb ps at1).
  Notation images := (body_images touches through box nb ps at1).

  Section Images.
  Variable ims : list (shown * Bx).
  Hypothesis Eims : images = Ok ims.
  Let boxes := map (fun i => box i (at1 i)) (seq 0 nb) ++ map snd ims.
  Notation owner := (behind nb ims).

  Lemma images_In : forall sh B, In (sh, B) ims <-> exists y p, sh_body sh < nb /\ nth_error ps (sh_portal sh) = Some p
    /\ near_box p (sh_plane sh) (sh_body sh) /\ through p (sh_plane sh) (at1 (sh_body sh)) = Ok y /\ B = box (sh_body sh) y.
  Proof.
    intros sh B. unfold body_images in Eims. rewrite (gather_ok _ _ Eims). split.
    - intros (a & I & H). apply in_flat_map in I as ((k & p) & Ik & I). apply combine_seq_In in Ik as [_ Ik]. rewrite Nat.sub_0_r in Ik.
      cbn [fst snd] in I. apply in_map_iff in I as (i & E & Hi). apply in_seq in Hi. unfold body_image in E.
      destruct (touches p (box i (at1 i))) as [s|] eqn:T; [|injection E as <-; destruct H].
      apply obind_Ok_inv in E as (y & Ey & E). injection E as <-. destruct H as [H|[]]. injection H as <- <-. cbn [sh_body sh_portal sh_plane].
      exists y, p. repeat split; auto. lia.
    - intros (y & p & L & Ep & T & Ey & ->). exists [(sh, box (sh_body sh) y)]. split; [|left; reflexivity]. apply in_flat_map.
      exists (sh_portal sh, p). split; [apply combine_seq_In; rewrite Nat.sub_0_r; split; [lia|exact Ep]|]. cbn [fst snd]. apply in_map_iff.
      exists (sh_body sh). split; [|apply in_seq; lia]. unfold body_image. unfold near_box in T. rewrite T, Ey. cbn [obind]. destruct sh. reflexivity.
  Qed.
  Lemma images_few : length ims <= length ps * nb.
  Proof.
    unfold body_images in Eims. eapply Nat.le_trans; [apply (gather_length _ _ 1 Eims)|].
    - intros a I. apply in_flat_map in I as ((k & p) & _ & I). apply in_map_iff in I as (i & E & _). unfold body_image in E.
      destruct (touches _ _) as [s|]; [apply obind_Ok_inv in E as (y & _ & E)|]; injection E as <-; cbn [length]; lia.
    - rewrite (flat_map_length _ _ nb).
      + rewrite combine_length, seq_length. lia.
      + intros a _. rewrite map_length, seq_length. reflexivity.
  Qed.
  Lemma boxes_few : (N.of_nat (length boxes) <= 4294967296)%N.
  Proof. unfold boxes. rewrite app_length, !map_length, seq_length. pose proof images_few. assert (N.of_nat (length ims) <= N.of_nat (length ps) * N.of_nat nb)%N by lia. lia. Qed.
  Lemma boxes_low : forall i, i < nb -> nth_error boxes i = Some (box i (at1 i)).
  Proof.
    intros i L. unfold boxes. rewrite nth_error_app1 by (rewrite map_length, seq_length; exact L).
    erewrite map_nth_error; [reflexivity|]. rewrite (nth_error_nth' _ 0) by (rewrite seq_length; exact L). rewrite seq_nth by exact L. reflexivity.
  Qed.
  Lemma boxes_high : forall i, nb <= i -> nth_error boxes i = option_map snd (nth_error ims (i - nb)).
  Proof.
    intros i L. unfold boxes. rewrite nth_error_app2 by (rewrite map_length, seq_length; exact L). rewrite map_length, seq_length. apply nth_error_map.
  Qed.
  (* every box shows a view *)
  Lemma box_view : forall i B, nth_error boxes (N.to_nat i) = Some B -> exists b k s y, owner i = Some (b, k, s) /\ seen b k s y /\ B = box b y
    /\ (k = None <-> (i < N.of_nat nb)%N).
  Proof.
    intros i B H. unfold behind. destruct (N.ltb_spec i (N.of_nat nb)) as [L|L].
    - rewrite boxes_low in H by lia. injection H as <-. exists (N.to_nat i), None, false, (at1 (N.to_nat i)). split; [reflexivity|]. split; [apply View_in_place; lia|].
      split; [reflexivity|]. tauto.
    - rewrite boxes_high in H by lia. destruct (nth_error ims (N.to_nat i - nb)) as [[sh B']|] eqn:E; [|discriminate]. cbn in H. injection H as ->.
      apply nth_error_In in E. apply images_In in E as (y & p & L' & Ep & T & Ey & ->).
      exists (sh_body sh), (Some (N.of_nat (sh_portal sh))), (sh_plane sh), y. split; [reflexivity|]. split.
      + apply (View_through _ _ _ _ _ _ _ p); auto. rewrite Nnat.Nat2N.id. exact Ep.
      + split; [reflexivity|]. split; [discriminate|lia].
  Qed.
  (* every view has a box *)
  Lemma view_box : forall b k s y, seen b k s y -> exists i, owner i = Some (b, k, s) /\ nth_error boxes (N.to_nat i) = Some (box b y).
  Proof.
    intros b k s y V. destruct V as [L|k p s y L Ep T Ey].
    - exists (N.of_nat b). unfold behind. destruct (N.ltb_spec (N.of_nat b) (N.of_nat nb)); [|lia]. rewrite Nnat.Nat2N.id. split; [reflexivity|]. apply boxes_low, L.
    - assert (I : In (Shown b (N.to_nat k) s, box b y) ims). { apply images_In. cbn [sh_body sh_portal sh_plane]. exists y, p. auto. }
      apply In_nth_error in I as (n & En). exists (N.of_nat (nb + n)). unfold behind. destruct (N.ltb_spec (N.of_nat (nb + n)) (N.of_nat nb)); [lia|].
      rewrite Nnat.Nat2N.id. replace (nb + n - nb) with n by lia. rewrite En. cbn [sh_body sh_portal sh_plane]. rewrite Nnat.N2Nat.id. split; [reflexivity|].
      rewrite boxes_high by lia. replace (nb + n - nb) with n by lia. rewrite En. reflexivity.
  Qed.
  Lemma boxes_good : Forall good boxes.
  Proof.
    apply Forall_forall. intros B H. apply In_nth_error in H as (n & H).
    destruct (box_view (N.of_nat n) B) as (b & k & s & y & _ & V & -> & _); [rewrite Nnat.Nat2N.id; exact H|]. apply Good. destruct V; assumption.
  Qed.
  Lemma view_unique : forall b k s y y', seen b k s y -> seen b k s y' -> y = y'.
  Proof. intros b k s y y' V V'. destruct V as [L|k p s y L Ep T Ey]; inversion V' as [|k' p' s' y2 L' Ep' T' Ey']; subst; [reflexivity|]. congruence. Qed.

  (* ---------- the loop ---------- *)
  Definition proper (pr : N * N) : Prop := exists a b, nth_error boxes (N.to_nat (fst pr)) = Some a /\ nth_error boxes (N.to_nat (snd pr)) = Some b.
  Definition low (i : N) : Prop := (i < N.of_nat nb)%N.
  (* what a candidate pair adds to the contacts in place, and to the set *)
  Definition adds (pr : N * N) (cs : list C) : Prop := low (fst pr) /\ low (snd pr) /\ direct (N.to_nat (fst pr)) (N.to_nat (snd pr)) = Ok cs.
  Definition across (pr : N * N) (c : tcoll) : Prop := exists b0 k0 s0 y0 b1 k1 s1 y1,
    owner (fst pr) = Some (b0, k0, s0) /\ owner (snd pr) = Some (b1, k1, s1) /\ seen b0 k0 s0 y0 /\ seen b1 k1 s1 y1 /\ (k0 <> None \/ k1 <> None)
    /\ (k0 <> None -> k1 <> None -> in_place b0 b1 = Ok false) /\ fixed b0 && fixed b1 = false
    /\ c = rb_tcoll (N.of_nat b0) (N.of_nat b1) k0 k1 s0 s1 /\ happens c = Ok true.
  (* what the answers were when the loop went past a pair *)
  Definition answered (pr : N * N) : Prop := (exists cs, adds pr cs) \/ exists b0 k0 s0 b1 k1 s1,
    owner (fst pr) = Some (b0, k0, s0) /\ owner (snd pr) = Some (b1, k1, s1) /\ (k0 <> None \/ k1 <> None)
    /\ (k0 <> None -> k1 <> None -> exists w, in_place b0 b1 = Ok w)
    /\ ((k0 <> None /\ k1 <> None /\ in_place b0 b1 = Ok true) \/ fixed b0 && fixed b1 = true
        \/ exists w, happens (rb_tcoll (N.of_nat b0) (N.of_nat b1) k0 k1 s0 s1) = Ok w).

  Lemma consider_step : forall found set pr found' set', proper pr ->
    consider nb fixed direct in_place happens ims (found, set) pr = Ok (found', set') ->
    answered pr
    /\ ((exists cs, adds pr cs /\ found' = found ++ cs /\ set' = set /\ forall c, ~ across pr c)
        \/ (~ (low (fst pr) /\ low (snd pr)) /\ found' = found /\ set' = set /\ forall c, ~ across pr c)
        \/ (~ (low (fst pr) /\ low (snd pr)) /\ exists c, found' = found /\ set' = tinsert c set /\ across pr c /\ forall d, across pr d -> d = c)).
  Proof.
    intros found set [i j] found' set' (A & B & HA & HB) E. cbn [fst snd] in *.
    destruct (box_view i A HA) as (b0 & k0 & s0 & y0 & O0 & V0 & _ & L0). destruct (box_view j B HB) as (b1 & k1 & s1 & y1 & O1 & V1 & _ & L1).
    unfold consider in E. cbn [fst snd] in E. rewrite !negb_involutive in E.
    assert (U : forall c, across (i, j) c -> (k0 <> None \/ k1 <> None) /\ (k0 <> None -> k1 <> None -> in_place b0 b1 = Ok false) /\ fixed b0 && fixed b1 = false
        /\ c = rb_tcoll (N.of_nat b0) (N.of_nat b1) k0 k1 s0 s1 /\ happens c = Ok true).
    { intros c (b0' & k0' & s0' & y0' & b1' & k1' & s1' & y1' & O0' & O1' & _ & _ & X). cbn [fst snd] in O0', O1'. rewrite O0 in O0'. rewrite O1 in O1'.
      injection O0' as <- <- <-. injection O1' as <- <- <-. exact X. }
    destruct (N.ltb_spec i (N.of_nat nb)) as [Li|Li]; destruct (N.ltb_spec j (N.of_nat nb)) as [Lj|Lj]; cbn [andb] in E.
    1: { apply obind_Ok_inv in E as (cs & Ed & E). injection E as <- <-. assert (Ad : adds (i, j) cs) by (repeat split; assumption).
         split; [left; exists cs; exact Ad|]. left. exists cs. split; [exact Ad|]. split; [reflexivity|]. split; [reflexivity|]. intros c X. apply U in X as ([X|X] & _); tauto. }
    all: assert (NP : k0 <> None \/ k1 <> None) by (destruct k0; [left; discriminate|]; destruct k1; [right; discriminate|]; pose proof (proj1 L0 eq_refl); pose proof (proj1 L1 eq_refl); lia).
    all: assert (NL : ~ (low i /\ low j)) by (unfold low; lia).
    all: rewrite O0, O1 in E; cbn [negb andb] in E.
    1, 2: cbn [obind] in E; assert (NB : ~ (k0 <> None /\ k1 <> None)) by tauto.
    3: apply obind_Ok_inv in E as (w & Ew & E).
    all: assert (Ans : (k0 <> None -> k1 <> None -> exists w, in_place b0 b1 = Ok w)) by (intros X Y; first [exfalso; apply NB; split; assumption | exists w; exact Ew]).
    3: destruct w.
    3: { injection E as <- <-. split.
         - right. exists b0, k0, s0, b1, k1, s1. cbn [fst snd]. repeat (split; [assumption|]). left. split; [rewrite L0; lia|]. split; [rewrite L1; lia|exact Ew].
         - right. left. split; [exact NL|]. split; [reflexivity|]. split; [reflexivity|]. intros c X. apply U in X as (_ & X & _). rewrite X in Ew; [discriminate|rewrite L0; lia|rewrite L1; lia]. }
    all: assert (Pl : k0 <> None -> k1 <> None -> in_place b0 b1 = Ok false) by (intros X Y; first [exfalso; apply NB; split; assumption | exact Ew]).
    all: destruct (fixed b0 && fixed b1) eqn:F;
      [injection E as <- <-; split;
        [right; exists b0, k0, s0, b1, k1, s1; cbn [fst snd]; repeat (split; [assumption|]); right; left; exact F
        |right; left; split; [exact NL|]; split; [reflexivity|]; split; [reflexivity|]; intros c X; apply U in X as (_ & _ & X & _); discriminate]|].
    all: apply obind_Ok_inv in E as (yes & Eh & E); injection E as <- <-; split;
        [right; exists b0, k0, s0, b1, k1, s1; cbn [fst snd]; repeat (split; [assumption|]); right; right; exists yes; exact Eh|].
    all: destruct yes; right; [right; split; [exact NL|]; eexists; split; [reflexivity|]; split; [reflexivity|]; split
       |left; split; [exact NL|]; split; [reflexivity|]; split; [reflexivity|]; intros c X; apply U in X as (_ & _ & _ & -> & X); congruence].
    1, 3, 5: exists b0, k0, s0, y0, b1, k1, s1, y1; cbn [fst snd]; repeat (split; [assumption||reflexivity|]); exact Eh.
    all: intros d X; apply U in X as (_ & _ & _ & X & _); exact X.
  Qed.

  Lemma consider_all : forall prs found set found' set', Forall proper prs ->
    ofold (consider nb fixed direct in_place happens ims) prs (found, set) = Ok (found', set') ->
    Forall answered prs
    /\ exists cs ts, found' = found ++ cs /\ set' = fold_left (fun s c => tinsert c s) ts set
       /\ (forall c, In c cs <-> exists pr l, In pr prs /\ adds pr l /\ In c l)
       /\ (forall t, In t ts <-> exists pr, In pr prs /\ across pr t).
  Proof.
    induction prs as [|pr prs IH]; intros found set found' set' F E.
    - cbn [ofold] in E. injection E as <- <-. split; [constructor|]. exists [], []. rewrite app_nil_r. split; [reflexivity|]. split; [reflexivity|]. split.
      + intros c. split; [intros []|]. intros (pr & l & [] & _).
      + intros t. split; [intros []|]. intros (pr & [] & _).
    - cbn [ofold] in E. apply obind_Ok_inv in E as ([f1 s1] & E1 & E). inversion F as [|? ? P F']; subst.
      destruct (consider_step _ _ _ _ _ P E1) as [A Cs]. destruct (IH _ _ _ _ F' E) as (As & cs & ts & -> & -> & Hc & Ht). split; [constructor; assumption|].
      destruct Cs as [(l & Ad & -> & -> & Nx)|[(Nl & -> & -> & Nx)|(Nl & t & -> & -> & X & Ux)]].
      + exists (l ++ cs), ts. rewrite app_assoc. split; [reflexivity|]. split; [reflexivity|]. split.
        * intros c. rewrite in_app_iff, Hc. split.
          -- intros [H|(q & l' & Q & R)]; [exists pr, l; split; [left; reflexivity|split; assumption]|exists q, l'; split; [right; exact Q|exact R]].
          -- intros (q & l' & [<-|Q] & R & H); [left; destruct R as (_ & _ & R), Ad as (_ & _ & Ad); rewrite Ad in R; assert (l = l') by congruence; subst; exact H|right; exists q, l'; auto].
        * intros t. rewrite Ht. split; [intros (q & Q & R); exists q; split; [right; exact Q|exact R]|]. intros (q & [<-|Q] & R); [exfalso; exact (Nx _ R)|exists q; auto].
      + exists cs, ts. split; [reflexivity|]. split; [reflexivity|]. split.
        * intros c. rewrite Hc. split; [intros (q & l' & Q & R); exists q, l'; split; [right; exact Q|exact R]|].
          intros (q & l' & [<-|Q] & R & H); [exfalso; destruct R as (R0 & R1 & _); apply Nl; split; assumption|exists q, l'; auto].
        * intros t. rewrite Ht. split; [intros (q & Q & R); exists q; split; [right; exact Q|exact R]|]. intros (q & [<-|Q] & R); [exfalso; exact (Nx _ R)|exists q; auto].
      + exists cs, (t :: ts). split; [reflexivity|]. split; [reflexivity|]. split.
        * intros c. rewrite Hc. split; [intros (q & l' & Q & R); exists q, l'; split; [right; exact Q|exact R]|].
          intros (q & l' & [<-|Q] & R & H); [exfalso; destruct R as (R0 & R1 & _); apply Nl; split; assumption|exists q, l'; auto].
        * intros d. cbn [In]. rewrite Ht. split.
          -- intros [<-|(q & Q & R)]; [exists pr; split; [left; reflexivity|exact X]|exists q; split; [right; exact Q|exact R]].
          -- intros (q & [<-|Q] & R); [left; symmetry; apply Ux, R|right; exists q; auto].
  Qed.
  End Images.

  Definition pair_of (t : tcoll) : nat * nat := (N.to_nat (t_b0 t), N.to_nat (t_b1 t)).
  Lemma rb_tcoll_pair : forall b0 b1 k0 k1 s0 s1, pair_of (rb_tcoll (N.of_nat b0) (N.of_nat b1) k0 k1 s0 s1) = (Nat.min b0 b1, Nat.max b0 b1).
  Proof. intros b0 b1 k0 k1 s0 s1. unfold pair_of, rb_tcoll. cbn [t_b0 t_b1]. destruct (N.ltb_spec (N.of_nat b0) (N.of_nat b1)); rewrite !Nnat.Nat2N.id; f_equal; lia. Qed.

  (* a contact across portals in the set *)
  Definition crossing (t : tcoll) : Prop := exists b0 k0 s0 y0 b1 k1 s1 y1, seen b0 k0 s0 y0 /\ seen b1 k1 s1 y1 /\ (k0 <> None \/ k1 <> None)
    /\ fixed b0 && fixed b1 = false /\ t = rb_tcoll (N.of_nat b0) (N.of_nat b1) k0 k1 s0 s1 /\ happens t = Ok true.

  Theorem search_spec : forall set, search touches through box grid nb fixed ps at1 direct in_place happens make = Ok set ->
    exists found ts tele, set = found ++ tele /\ gather (map make ts) = Ok tele /\ NoDup (map pair_of ts)
    /\ (forall c, In c found -> exists i j l, i <= j /\ j < nb /\ meet (box i (at1 i)) (box j (at1 j)) /\ direct i j = Ok l /\ In c l)
    /\ (forall i j, i < j -> j < nb -> meet (box i (at1 i)) (box j (at1 j)) -> exists l, direct i j = Ok l /\ forall c, In c l -> In c found)
    /\ (forall t, In t ts -> crossing t)
    /\ (forall b0 k0 s0 y0 b1 k1 s1 y1, seen b0 k0 s0 y0 -> seen b1 k1 s1 y1 -> (b0, k0, s0) <> (b1, k1, s1) -> (k0 <> None \/ k1 <> None) ->
          meet (box b0 y0) (box b1 y1) -> exists a ka sa b kb sb, ((a, ka, sa, b, kb, sb) = (b0, k0, s0, b1, k1, s1) \/ (a, ka, sa, b, kb, sb) = (b1, k1, s1, b0, k0, s0))
          /\ (ka <> None -> kb <> None -> exists w, in_place a b = Ok w)
          /\ ((ka <> None /\ kb <> None /\ in_place a b = Ok true) \/ fixed a && fixed b = true
              \/ exists w, happens (rb_tcoll (N.of_nat a) (N.of_nat b) ka kb sa sb) = Ok w
                 /\ (w = true -> In (Nat.min a b, Nat.max a b) (map pair_of ts)))).
  Proof.
    intros set E. unfold search in E. apply obind_Ok_inv in E as (ims & Eims & E). apply obind_Ok_inv in E as (possible & Ep & E).
    apply obind_Ok_inv in E as ([found s] & Ef & E). apply obind_Ok_inv in E as (tele & Et & E). cbn [fst snd] in *. injection E as <-.
    pose proof (boxes_few ims Eims) as Fw. pose proof (boxes_good ims Eims) as Gd.
    assert (Pr : Forall (proper ims) possible).
    { apply Forall_forall. intros [i j] H. destruct (Grid_sound _ _ _ _ Fw Ep H) as (_ & a & b & Ha & Hb & _). exists a, b. split; assumption. }
    destruct (consider_all ims Eims _ _ _ _ _ Pr Ef) as (An & cs & ts & -> & -> & Hc & Ht). cbn [app] in *. fold (tset ts) in *. destruct (tset_spec ts) as [Sd Sp].
    exists cs, (tset ts), tele. split; [reflexivity|]. split; [exact Et|]. split; [|split; [|split; [|split]]].
    - clear - Sd. induction Sd as [|x l Sd IH F]; cbn [map]; constructor; [|exact IH]. intros H. apply in_map_iff in H as (y & E & Hy). rewrite Forall_forall in F.
      apply (tcoll_lt_not_same x y (F y Hy)). unfold pair_of in E. injection E as E0 E1. unfold same_bodies. split; apply Nnat.N2Nat.inj; congruence.
    - intros c H. apply Hc in H as ([i j] & l & I & (L0 & L1 & D) & H). cbn [fst snd] in *. destruct (Grid_sound _ _ _ _ Fw Ep I) as (Lij & a & b & Ha & Hb & M).
      unfold low in *. rewrite boxes_low in Ha by lia. rewrite boxes_low in Hb by lia. injection Ha as <-. injection Hb as <-.
      exists (N.to_nat i), (N.to_nat j), l. repeat split; auto; lia.
    - intros i j Hij Hj M. assert (I : In (N.of_nat i, N.of_nat j) possible).
      { apply (Grid_complete _ _ _ _ (box i (at1 i)) (box j (at1 j)) Fw Gd Ep); [lia| | |exact M]; rewrite Nnat.Nat2N.id; apply boxes_low; lia. }
      rewrite Forall_forall in An. destruct (An _ I) as [(l & Ad)|(b0 & k0 & s0 & b1 & k1 & s1 & O0 & O1 & NP & _)].
      + exists l. split; [destruct Ad as (_ & _ & D); cbn [fst snd] in D; rewrite !Nnat.Nat2N.id in D; exact D|]. intros c H. apply Hc. exists (N.of_nat i, N.of_nat j), l. auto.
      + exfalso. cbn [fst snd] in *. unfold behind in O0, O1. destruct (N.ltb_spec (N.of_nat i) (N.of_nat nb)); [|lia]. destruct (N.ltb_spec (N.of_nat j) (N.of_nat nb)); [|lia].
        injection O0 as <- <- <-. injection O1 as <- <- <-. destruct NP as [X|X]; apply X; reflexivity.
    - intros t H. apply Sp, first_In, Ht in H as (pr & _ & (b0 & k0 & s0 & y0 & b1 & k1 & s1 & y1 & _ & _ & V0 & V1 & NP & _ & F & X & Y)).
      exists b0, k0, s0, y0, b1, k1, s1, y1. repeat (split; [assumption|]). exact Y.
    - assert (Half : forall i j b0 k0 s0 y0 b1 k1 s1 y1, seen b0 k0 s0 y0 -> seen b1 k1 s1 y1 -> (k0 <> None \/ k1 <> None) -> (i < j)%N ->
          behind nb ims i = Some (b0, k0, s0) -> behind nb ims j = Some (b1, k1, s1) ->
          nth_error (map (fun i => box i (at1 i)) (seq 0 nb) ++ map snd ims) (N.to_nat i) = Some (box b0 y0) ->
          nth_error (map (fun i => box i (at1 i)) (seq 0 nb) ++ map snd ims) (N.to_nat j) = Some (box b1 y1) -> meet (box b0 y0) (box b1 y1) ->
          (k0 <> None -> k1 <> None -> exists w, in_place b0 b1 = Ok w) /\ ((k0 <> None /\ k1 <> None /\ in_place b0 b1 = Ok true) \/ fixed b0 && fixed b1 = true
              \/ exists w, happens (rb_tcoll (N.of_nat b0) (N.of_nat b1) k0 k1 s0 s1) = Ok w /\ (w = true -> In (Nat.min b0 b1, Nat.max b0 b1) (map pair_of (tset ts))))).
      { intros i j b0 k0 s0 y0 b1 k1 s1 y1 V0 V1 NP L O0 O1 B0 B1 M.
        assert (I : In (i, j) possible) by (apply (Grid_complete _ _ _ _ _ _ Fw Gd Ep L B0 B1 M)).
        assert (Ai := An). rewrite Forall_forall in Ai. destruct (Ai _ I) as [(l & (L0 & L1 & _))|(b0' & k0' & s0' & b1' & k1' & s1' & O0' & O1' & _ & A & Cs)].
        - exfalso. cbn [fst snd] in *. unfold low in *. unfold behind in O0, O1. destruct (N.ltb_spec i (N.of_nat nb)); [|lia]. destruct (N.ltb_spec j (N.of_nat nb)); [|lia].
          injection O0 as <- <- <-. injection O1 as <- <- <-. destruct NP as [X|X]; apply X; reflexivity.
        - cbn [fst snd] in *. rewrite O0 in O0'. rewrite O1 in O1'. injection O0' as <- <- <-. injection O1' as <- <- <-. split; [exact A|].
          destruct Cs as [Cs|[Cs|(w & Eh)]]; [left; exact Cs|right; left; exact Cs|].
          destruct (fixed b0 && fixed b1) eqn:F; [right; left; reflexivity|].
          assert (Dec : (k0 <> None /\ k1 <> None /\ in_place b0 b1 = Ok true) \/ (k0 <> None -> k1 <> None -> in_place b0 b1 = Ok false)).
          { destruct k0 as [k0|]; [|right; intros X _; exfalso; apply X; reflexivity]. destruct k1 as [k1|]; [|right; intros _ X; exfalso; apply X; reflexivity].
            destruct (A ltac:(discriminate) ltac:(discriminate)) as ([|] & Ew); [left; repeat split; try discriminate; exact Ew|right; intros _ _; exact Ew]. }
          destruct Dec as [Dec|Dec]; [left; exact Dec|]. right. right. exists w. split; [exact Eh|]. intros ->.
          assert (It : In (rb_tcoll (N.of_nat b0) (N.of_nat b1) k0 k1 s0 s1) ts).
          { apply Ht. exists (i, j). split; [exact I|]. exists b0, k0, s0, y0, b1, k1, s1, y1. cbn [fst snd]. repeat (split; [assumption||reflexivity|]). exact Eh. }
          destruct (first_exists ts _ It) as (d & Fd & Sm). apply in_map_iff. exists d. split; [|apply Sp; exact Fd].
          rewrite <- (rb_tcoll_pair b0 b1 k0 k1 s0 s1). unfold pair_of. destruct Sm as [E0 E1]. congruence. }
      intros b0 k0 s0 y0 b1 k1 s1 y1 V0 V1 Ne NP M. destruct (view_box ims Eims _ _ _ _ V0) as (i & O0 & B0). destruct (view_box ims Eims _ _ _ _ V1) as (j & O1 & B1).
      destruct (N.lt_total i j) as [L|[L|L]].
      + exists b0, k0, s0, b1, k1, s1. split; [left; reflexivity|]. exact (Half i j _ _ _ _ _ _ _ _ V0 V1 NP L O0 O1 B0 B1 M).
      + exfalso. subst j. rewrite O0 in O1. apply Ne. congruence.
      + exists b1, k1, s1, b0, k0, s0. split; [right; reflexivity|]. apply (Half j i _ _ _ _ _ _ _ _ V1 V0 ltac:(tauto) L O1 O0 B1 B0 (Meet_sym _ _ M)).
  Qed.

  (* ---------- the search comes to an end ---------- *)
  (* two views, at least one through a portal, as the loop meets them *)
  Definition met (t : tcoll) : Prop := exists b0 k0 s0 y0 b1 k1 s1 y1, seen b0 k0 s0 y0 /\ seen b1 k1 s1 y1
    /\ fixed b0 && fixed b1 = false /\ t = rb_tcoll (N.of_nat b0) (N.of_nat b1) k0 k1 s0 s1.
  Lemma tinsert_sub : forall c d s, In c (tinsert d s) -> c = d \/ In c s.
  Proof.
    intros c d s. induction s as [|x s IH]; cbn [tinsert]; [intros [->|[]]; left; reflexivity|].
    destruct (tcoll_ltb d x); [intros [->|H]; [left; reflexivity|right; exact H]|]. destruct (tcoll_ltb x d); [|intros H; right; exact H].
    intros [->|H]; [right; left; reflexivity|]. destruct (IH H) as [->|H']; [left; reflexivity|right; right; exact H'].
  Qed.
  Theorem search_runs : (forall i p s, i < nb -> In p ps -> exists y, through p s (at1 i) = Ok y) ->
    (forall bs, (0 < nb -> bs <> []) -> (forall b, In b bs -> exists i k s y, seen i k s y /\ b = box i y) -> exists out, grid bs = Ok out) ->
    (forall i j, i < nb -> j < nb -> exists cs, direct i j = Ok cs) -> (forall i j, i < nb -> j < nb -> exists w, in_place i j = Ok w) ->
    (forall t, met t -> exists w, happens t = Ok w) -> (forall t, met t -> exists cs, make t = Ok cs) ->
    exists set, search touches through box grid nb fixed ps at1 direct in_place happens make = Ok set.
  Proof.
    intros Th Gr Di Ip Ha Ma. unfold search.
    assert (Im : exists ims, images = Ok ims).
    { apply gather_total. intros o H. apply in_flat_map in H as ((k & p) & Ik & I). apply in_map_iff in I as (i & <- & Hi). apply in_seq in Hi. cbn [fst snd].
      unfold body_image. destruct (touches p (box i (at1 i))) as [s|]; [|eexists; reflexivity]. apply in_combine_r in Ik.
      destruct (Th i p s ltac:(lia) Ik) as (y & ->). eexists. reflexivity. }
    destruct Im as (ims & Eims). rewrite Eims. cbn [obind].
    destruct (Gr (map (fun i => box i (at1 i)) (seq 0 nb) ++ map snd ims)) as (possible & Ep).
    { intros L N. destruct nb; [lia|discriminate N]. }
    { intros b H. apply In_nth_error in H as (n & H). destruct (box_view ims Eims (N.of_nat n) b) as (i & k & s & y & _ & V & E & _); [rewrite Nnat.Nat2N.id; exact H|].
      exists i, k, s, y. split; assumption. }
    rewrite Ep. cbn [obind].
    assert (Pr : forall pr, In pr possible -> proper ims pr).
    { intros [i j] H. destruct (Grid_sound _ _ _ _ (boxes_few ims Eims) Ep H) as (_ & a & b & Ha' & Hb & _). exists a, b. split; assumption. }
    assert (Lp : forall l found set, (forall pr, In pr l -> proper ims pr) -> (forall t, In t set -> met t) ->
      exists found' set', ofold (consider nb fixed direct in_place happens ims) l (found, set) = Ok (found', set') /\ forall t, In t set' -> met t).
    { induction l as [|pr l IH]; intros found set Hp Hs; cbn [ofold]; [exists found, set; split; [reflexivity|exact Hs]|].
      assert (One : exists found' set', consider nb fixed direct in_place happens ims (found, set) pr = Ok (found', set') /\ forall t, In t set' -> met t).
      { destruct (Hp pr (or_introl eq_refl)) as (a & b & Na & Nb). destruct (box_view ims Eims _ _ Na) as (b0 & k0 & s0 & y0 & O0 & V0 & _ & C0).
        destruct (box_view ims Eims _ _ Nb) as (b1 & k1 & s1 & y1 & O1 & V1 & _ & C1). unfold consider.
        assert (L0 : b0 < nb) by (destruct V0; assumption). assert (L1 : b1 < nb) by (destruct V1; assumption).
        destruct (negb (negb (fst pr <? N.of_nat nb)%N) && negb (negb (snd pr <? N.of_nat nb)%N)) eqn:Lo.
        - apply andb_true_iff in Lo as [A B]. rewrite negb_involutive in A, B. apply N.ltb_lt in A, B.
          destruct (Di (N.to_nat (fst pr)) (N.to_nat (snd pr)) ltac:(lia) ltac:(lia)) as (cs & ->). cbn [obind]. exists (found ++ cs), set. split; [reflexivity|exact Hs].
        - rewrite O0, O1.
          assert (Tw : exists w, (if negb (fst pr <? N.of_nat nb)%N && negb (snd pr <? N.of_nat nb)%N then in_place b0 b1 else Ok false) = Ok w).
          { destruct (negb (fst pr <? N.of_nat nb)%N && negb (snd pr <? N.of_nat nb)%N); [apply Ip; assumption|eexists; reflexivity]. }
          destruct Tw as (w & ->). cbn [obind]. destruct w; [exists found, set; split; [reflexivity|exact Hs]|].
          destruct (fixed b0 && fixed b1) eqn:Fx; [exists found, set; split; [reflexivity|exact Hs]|]. clear Lo.
          assert (Mt : met (rb_tcoll (N.of_nat b0) (N.of_nat b1) k0 k1 s0 s1)). { exists b0, k0, s0, y0, b1, k1, s1, y1. auto. }
          destruct (Ha _ Mt) as (w & ->). cbn [obind]. eexists found, _. split; [reflexivity|]. destruct w; [|exact Hs].
          intros t H. apply tinsert_sub in H as [->|H]; [exact Mt|apply Hs; exact H]. }
      destruct One as (f' & s' & E & Hs'). rewrite E. cbn [obind]. apply IH; [intros q Hq; apply Hp; right; exact Hq|exact Hs']. }
    destruct (Lp possible [] [] Pr ltac:(intros t [])) as (found & set & -> & Hs). cbn [obind fst snd].
    destruct (gather_total (map make set)) as (tele & Et). { intros o H. apply in_map_iff in H as (t & <- & H). apply Ma, Hs, H. }
    rewrite Et. eexists. reflexivity.
  Qed.
End Search.
