(* Clipping the quadrilateral against the rectangle keeps exactly the common part, up to the boundary. *)
From Coq Require Import List Reals Arith Bool Lra Lia.
From Verif Require Import Ccd_Model Lin_Model ContactRb3_Model Rot_Model Boxes_Model.
Import ListNotations.
Local Open Scope R_scope.

(* affine functions of the plane, and the points that satisfy every inequality a list of points satisfies *)
Record aff := Aff { fa : R; fb : R; fc : R }.
Definition ev (f : aff) (p : vec) : R := fa f * fst p + fb f * snd p + fc f.
Definition hull2 (q : list vec) (y : vec) : Prop := forall f, (forall p, In p q -> 0 <= ev f p) -> 0 <= ev f y.
Definition neg (f : aff) (p : vec) : bool := if Rlt_dec (ev f p) 0 then true else false.

(* ---------- changes of sign around a cycle ---------- *)
Local Open Scope nat_scope.
Definition dif (a b : bool) : nat := if xorb a b then 1 else 0.
Fixpoint ch (b : bool) (l : list bool) : nat := match l with [] => 0 | x :: l => dif b x + ch x l end.
Definition cyc (l : list bool) : nat := match l with [] => 0 | x :: t => ch x (t ++ [x]) end.

Lemma dif_same : forall a, dif a a = 0.
Proof. intros []; reflexivity. Qed.
Lemma dif_tri : forall a b c, dif a c <= dif a b + dif b c.
Proof. intros [] [] []; cbn; lia. Qed.
Lemma dif_sym : forall a b, dif a b = dif b a.
Proof. intros [] []; reflexivity. Qed.
Lemma ch_app : forall l b x m, ch b (l ++ x :: m) = ch b (l ++ [x]) + ch x m.
Proof. induction l as [|a l IH]; intros b x m; cbn [app ch]; [lia|]. rewrite IH. lia. Qed.
Lemma ch_start : forall l a b, ch a l <= dif a b + ch b l.
Proof. intros [|x l] a b; cbn [ch]; [lia|]. pose proof (dif_tri a b x). lia. Qed.
Lemma ch_end : forall l a b x, ch a (l ++ [x]) <= ch a (l ++ [b]) + dif b x.
Proof. induction l as [|y l IH]; intros a b x; cbn [app ch]; [pose proof (dif_tri a b x); lia|]. specialize (IH y b x). lia. Qed.
Lemma ch_drop : forall l b x m, ch b (l ++ m) <= ch b (l ++ x :: m).
Proof. induction l as [|a l IH]; intros b x m; cbn [app ch]; [apply ch_start|]. specialize (IH a x m). lia. Qed.
Lemma cyc_drop : forall l x m, cyc (l ++ m) <= cyc (l ++ x :: m).
Proof.
  intros [|a l] x m; cbn [app cyc].
  - destruct m as [|y m]; cbn [cyc app ch]; [lia|].
    pose proof (ch_end m y x y) as K. rewrite (dif_sym x y). pose proof (dif_sym x y). lia.
  - rewrite <- !app_assoc. cbn [app]. apply ch_drop.
Qed.
Lemma cyc_filter : forall {T} (f : T -> bool) (g : T -> bool) l acc, cyc (map g (acc ++ filter f l)) <= cyc (map g (acc ++ l)).
Proof.
  intros T f g. induction l as [|x l IH]; intros acc; cbn [filter]; [lia|].
  destruct (f x).
  - specialize (IH (acc ++ [x])). rewrite <- !app_assoc in IH. exact IH.
  - specialize (IH acc). rewrite !map_app in *. cbn [map] in *. pose proof (cyc_drop (map g acc) (g x) (map g l)). lia.
Qed.
Lemma cyc_rot : forall l m, cyc (l ++ m) = cyc (m ++ l).
Proof.
  intros [|a l] m; [rewrite app_nil_r; reflexivity|]. destruct m as [|b m]; [rewrite app_nil_r; reflexivity|].
  cbn [app cyc]. rewrite <- !app_assoc. cbn [app]. rewrite (ch_app l a b (m ++ [a])), (ch_app m b a (l ++ [b])). lia.
Qed.

(* ---------- the chop without its bound ---------- *)
Section Chop.
Variables (dir : bool) (sg h : R).
Local Notation ins := (inside dir sg h).
Local Notation crs := (crossing dir sg h).

Definition nxt (first : vec) (rest : list vec) : vec := match rest with n :: _ => n | [] => first end.
(* the polygon with the points of the line put in: true for those *)
Fixpoint full (first : vec) (q : list vec) : list (bool * vec) :=
  match q with
  | [] => []
  | p :: rest => (false, p) :: (if xorb (ins p) (ins (nxt first rest)) then [(true, crs p (nxt first rest))] else []) ++ full first rest
  end.
Definition kept (x : bool * vec) : bool := fst x || ins (snd x).
Definition out (first : vec) (q : list vec) : list vec := map snd (filter kept (full first q)).

Lemma chop_loop_out : forall first q r, length (r ++ out first q) <= 7 -> chop_loop dir sg h first q r = (r ++ out first q, false).
Proof.
  intros first. induction q as [|p q IH]; intros r Hl; [unfold out; cbn; rewrite app_nil_r; reflexivity|].
  unfold out in Hl |- *. cbn [full chop_loop] in *. fold (nxt first q). cbn [filter] in *. unfold kept at 1 in Hl. unfold kept at 1. cbn [fst snd orb] in *.
  assert (X : forall (c : bool) (a : list (bool * vec)) , filter kept ((if c then [(true, crs p (nxt first q))] else []) ++ a)
     = (if c then [(true, crs p (nxt first q))] else []) ++ filter kept a) by (intros [] a; reflexivity).
  rewrite X in *. fold (out first q) in *.
  destruct (ins p) eqn:Ip; destruct (ins (nxt first q)) eqn:In_; cbn [xorb app map fst snd andb] in *; fold (out first q) in *.
  - rewrite app_length in Hl. cbn [length] in Hl.
    replace (Nat.eqb (length (r ++ [p])) 8) with false by (symmetry; apply Nat.eqb_neq; rewrite app_length; cbn; lia).
    rewrite IH; rewrite <- app_assoc; [reflexivity|]. cbn [app]. rewrite app_length. cbn [length]. exact Hl.
  - rewrite app_length in Hl. cbn [length] in Hl.
    replace (Nat.eqb (length (r ++ [p])) 8) with false by (symmetry; apply Nat.eqb_neq; rewrite app_length; cbn; lia).
    replace (Nat.eqb (length ((r ++ [p]) ++ [crs p (nxt first q)])) 8) with false by (symmetry; apply Nat.eqb_neq; rewrite !app_length; cbn; lia).
    rewrite IH; rewrite <- !app_assoc; [reflexivity|]. cbn [app]. rewrite app_length. cbn [length]. exact Hl.
  - rewrite app_length in Hl. cbn [length] in Hl.
    replace (Nat.eqb (length (r ++ [crs p (nxt first q)])) 8) with false by (symmetry; apply Nat.eqb_neq; rewrite !app_length; cbn; lia).
    rewrite IH; rewrite <- !app_assoc; [reflexivity|]. cbn [app]. rewrite app_length. cbn [length]. exact Hl.
  - apply IH. exact Hl.
Qed.
(* with eight points the loop may stop early, but at the last one *)
Lemma chop_loop_out8 : forall first q r, length (r ++ out first q) <= 8 -> fst (chop_loop dir sg h first q r) = r ++ out first q.
Proof.
  intros first. induction q as [|p q IH]; intros r Hl; [unfold out; cbn; rewrite app_nil_r; reflexivity|].
  unfold out in Hl |- *. cbn [full chop_loop] in *. fold (nxt first q). cbn [filter] in *. unfold kept at 1 in Hl. unfold kept at 1. cbn [fst snd orb] in *.
  assert (X : forall (c : bool) (a : list (bool * vec)) , filter kept ((if c then [(true, crs p (nxt first q))] else []) ++ a)
     = (if c then [(true, crs p (nxt first q))] else []) ++ filter kept a) by (intros [] a; reflexivity).
  rewrite X in *. fold (out first q) in *.
  assert (E : forall l : list vec, length l <= 0 -> l = []) by (intros [|? ?] L; [reflexivity|cbn in L; lia]).
  destruct (ins p) eqn:Ip; destruct (ins (nxt first q)) eqn:In_; cbn [xorb app map fst snd andb] in *; fold (out first q) in *.
  - rewrite app_length in Hl. cbn [length] in Hl.
    destruct (Nat.eqb (length (r ++ [p])) 8) eqn:Q.
    + apply Nat.eqb_eq in Q. rewrite app_length in Q. cbn in Q. cbn [fst]. rewrite (E (out first q)) by lia. reflexivity.
    + rewrite IH; rewrite <- app_assoc; [reflexivity|]. cbn [app]. rewrite app_length. cbn [length]. exact Hl.
  - rewrite app_length in Hl. cbn [length] in Hl.
    replace (Nat.eqb (length (r ++ [p])) 8) with false by (symmetry; apply Nat.eqb_neq; rewrite app_length; cbn; lia).
    destruct (Nat.eqb (length ((r ++ [p]) ++ [crs p (nxt first q)])) 8) eqn:Q.
    + apply Nat.eqb_eq in Q. rewrite !app_length in Q. cbn in Q. cbn [fst]. rewrite (E (out first q)) by lia. rewrite <- app_assoc. reflexivity.
    + rewrite IH; rewrite <- !app_assoc; [reflexivity|]. cbn [app]. rewrite app_length. cbn [length]. exact Hl.
  - rewrite app_length in Hl. cbn [length] in Hl.
    destruct (Nat.eqb (length (r ++ [crs p (nxt first q)])) 8) eqn:Q.
    + apply Nat.eqb_eq in Q. rewrite !app_length in Q. cbn in Q. cbn [fst]. rewrite (E (out first q)) by lia. reflexivity.
    + rewrite IH; rewrite <- !app_assoc; [reflexivity|]. cbn [app]. rewrite app_length. cbn [length]. exact Hl.
  - apply IH. exact Hl.
Qed.

(* the line as an affine function: inside is where it is negative *)
Definition line : aff := if dir then Aff 0 sg (- h) else Aff sg 0 (- h).
Lemma ev_line : forall p, ev line p = (sg * coord dir p - h)%R.
Proof. intros p. unfold line, ev, coord. destruct dir; cbn [fa fb fc]; lra. Qed.
Lemma ins_line : forall p, ins p = neg line p.
Proof.
  intros p. unfold inside, neg. rewrite ev_line.
  destruct (Rlt_dec (sg * coord dir p) h); destruct (Rlt_dec (sg * coord dir p - h) 0); try reflexivity; exfalso; lra.
Qed.

Hypothesis sg1 : (sg * sg = 1)%R.
(* the new point lies on the segment, and on the line *)
Lemma crossing_mix : forall p n, ins p <> ins n -> exists t, (0 <= t <= 1)%R /\ (forall f, ev f (crs p n) = (ev f p + t * (ev f n - ev f p))%R) /\ ev line (crs p n) = 0%R.
Proof.
  intros p n D. unfold inside in D.
  assert (S0 : (sg <> 0)%R) by (intros Z; rewrite Z in sg1; lra).
  assert (NE : (coord dir n - coord dir p <> 0)%R).
  { intros Z. apply D. replace (coord dir n) with (coord dir p) by lra. reflexivity. }
  exists ((sg * h - coord dir p) / (coord dir n - coord dir p))%R.
  set (t := ((sg * h - coord dir p) / (coord dir n - coord dir p))%R).
  assert (T : (t * (coord dir n - coord dir p) = sg * h - coord dir p)%R) by (unfold t; field; exact NE).
  split; [|split].
  - assert (T' : (t * (sg * coord dir n - sg * coord dir p) = h - sg * coord dir p)%R).
    { replace (t * (sg * coord dir n - sg * coord dir p))%R with (sg * (t * (coord dir n - coord dir p)))%R by ring. rewrite T.
      replace (sg * (sg * h - coord dir p))%R with (sg * sg * h - sg * coord dir p)%R by ring. rewrite sg1. ring. }
    destruct (Rlt_dec (sg * coord dir p) h) as [P|P]; destruct (Rlt_dec (sg * coord dir n) h) as [N|N]; try (exfalso; apply D; reflexivity); split; nra.
  - intros f. unfold crossing, ev, t. unfold coord in *. destruct dir; cbn [negb fst snd]; field; exact NE.
  - rewrite ev_line. unfold crossing, coord. destruct dir; cbn [fst snd]; replace (sg * (sg * h) - h)%R with (sg * sg * h - h)%R by ring; rewrite sg1; ring.
Qed.

Lemma full_in : forall first q x, In x (full first q) ->
  (fst x = false /\ In (snd x) q)
  \/ (fst x = true /\ exists a b, In a q /\ In b (first :: q) /\ ins a <> ins b /\ snd x = crs a b).
Proof.
  intros first. induction q as [|p q IH]; intros x Hx; [destruct Hx|].
  assert (NX : In (nxt first q) (first :: p :: q)) by (destruct q as [|n q]; cbn; auto).
  cbn [full] in Hx. destruct Hx as [<-|Hx]; [left; cbn; auto|]. apply in_app_or in Hx. destruct Hx as [Hx|Hx].
  - destruct (xorb (ins p) (ins (nxt first q))) eqn:Q; [|destruct Hx]. destruct Hx as [<-|[]]. right. cbn [fst snd]. split; [reflexivity|].
    exists p, (nxt first q). split; [left; reflexivity|]. split; [exact NX|]. split; [|reflexivity].
    intros E. rewrite E in Q. rewrite xorb_nilpotent in Q. discriminate.
  - destruct (IH x Hx) as [(H1 & H2)|(H1 & a & b & Ha & Hb & H)]; [left; cbn; auto|]. right. split; [exact H1|]. exists a, b.
    split; [right; exact Ha|]. split; [destruct Hb as [<-|Hb]; cbn; auto|exact H].
Qed.

Lemma hull_in : forall q p, In p q -> hull2 q p.
Proof. intros q p I f H. apply H, I. Qed.
Lemma hull_trans : forall q r y, (forall p, In p r -> hull2 q p) -> hull2 r y -> hull2 q y.
Proof. intros q r y H Y f Hf. apply Y. intros p I. apply (H p I f Hf). Qed.
(* nothing outside the polygon or beyond the line is produced *)
Lemma out_sound : forall first t x, In x (out first (first :: t)) -> hull2 (first :: t) x /\ (ev line x <= 0)%R.
Proof.
  intros first t x Hx. unfold out in Hx. apply in_map_iff in Hx. destruct Hx as (y & <- & Hy). apply filter_In in Hy. destruct Hy as [Hy K].
  destruct (full_in first _ y Hy) as [(H1 & H2)|(H1 & a & b & Ha & Hb & D & ->)].
  - split; [apply hull_in; exact H2|]. unfold kept in K. rewrite H1 in K. cbn [orb] in K. rewrite ins_line in K. unfold neg in K.
    destruct (Rlt_dec (ev line (snd y)) 0); [lra|discriminate].
  - destruct (crossing_mix a b D) as (s & Hs & F & L). split; [|rewrite L; lra].
    intros f Hf. rewrite F. assert (Hb' : In b (first :: t)) by (destruct Hb as [<-|Hb]; [left; reflexivity|exact Hb]).
    pose proof (Hf a Ha). pose proof (Hf b Hb'). nra.
Qed.

(* putting the new points in changes no signs, dropping the others changes none *)
Lemma neg_mix : forall f p n, ins p <> ins n -> dif (neg f p) (neg f (crs p n)) + dif (neg f (crs p n)) (neg f n) <= dif (neg f p) (neg f n).
Proof.
  intros f p n D. destruct (crossing_mix p n D) as (t & Ht & F & _). specialize (F f). unfold neg.
  destruct (Rlt_dec (ev f p) 0); destruct (Rlt_dec (ev f n) 0); destruct (Rlt_dec (ev f (crs p n)) 0); cbn; try lia; exfalso; nra.
Qed.
Lemma full_ch : forall f first q b, ch b (map (fun x => neg f (snd x)) (full first q) ++ [neg f first]) <= ch b (map (neg f) q ++ [neg f first]).
Proof.
  intros f first. induction q as [|p q IH]; intros b; [cbn; lia|].
  cbn [full map app ch snd]. rewrite map_app, <- app_assoc.
  specialize (IH (neg f p)).
  destruct (xorb (ins p) (ins (nxt first q))) eqn:Q; cbn [map app ch snd]; [|lia].
  assert (D : ins p <> ins (nxt first q)) by (intros E; rewrite E, xorb_nilpotent in Q; discriminate).
  pose proof (neg_mix f p (nxt first q) D) as M.
  assert (Hd : forall c, ch c (map (fun x => neg f (snd x)) (full first q) ++ [neg f first]) = dif c (neg f (nxt first q)) +
     ch (neg f (nxt first q)) (tl (map (fun x => neg f (snd x)) (full first q) ++ [neg f first]))) by (intros c; destruct q as [|n q]; reflexivity).
  rewrite (Hd (neg f p)) in IH. rewrite (Hd (neg f (crs p (nxt first q)))). lia.
Qed.
Definition convex (q : list vec) : Prop := forall f, cyc (map (neg f) q) <= 2.
Lemma full_cyc : forall f first t, cyc (map (fun x => neg f (snd x)) (full first (first :: t))) <= cyc (map (neg f) (first :: t)).
Proof.
  intros f first t. pose proof (full_ch f first (first :: t) (neg f first)) as K.
  cbn [full map app ch snd cyc] in *. rewrite dif_same in K. lia.
Qed.
Lemma out_convex : forall first t, convex (first :: t) -> convex (out first (first :: t)).
Proof.
  intros first t C f. unfold out. rewrite map_map.
  pose proof (cyc_filter kept (fun x => neg f (snd x)) (full first (first :: t)) []) as K. cbn [app] in K.
  pose proof (full_cyc f first t). specialize (C f). cbn [map] in *. lia.
Qed.

(* at most one more point than before *)
Fixpoint count (f : vec -> bool) (q : list vec) : nat := match q with [] => 0 | p :: q => (if f p then 1 else 0) + count f q end.
Lemma count_le : forall f q, count f q <= length q.
Proof. induction q as [|p q IH]; cbn; [lia|]. destruct (f p); lia. Qed.
Lemma out_length : forall first q, length (out first q) = count ins q + (ch (hd (ins first) (map ins q)) (map ins q ++ [ins first])).
Proof.
  intros first. induction q as [|p q IH]; [cbn; rewrite dif_same; reflexivity|].
  unfold out in *. cbn [full filter map app hd ch count]. rewrite dif_same.
  replace (kept (false, p)) with (ins p) by reflexivity.
  assert (X : forall (c : bool) (a : list (bool * vec)) , filter kept ((if c then [(true, crs p (nxt first q))] else []) ++ a)
     = (if c then [(true, crs p (nxt first q))] else []) ++ filter kept a) by (intros [] a; reflexivity).
  rewrite X.
  assert (N : ch (ins p) (map ins q ++ [ins first]) = dif (ins p) (ins (nxt first q)) + ch (hd (ins first) (map ins q)) (map ins q ++ [ins first])).
  { destruct q as [|n q]; cbn; rewrite ?dif_same; lia. }
  rewrite N. unfold dif. destruct (ins p), (ins (nxt first q)); cbn [xorb app map length]; rewrite ?IH; lia.
Qed.
Lemma all_ins_ch : forall q b, count ins q = length q -> ch b (map ins q) = match q with [] => 0 | _ => dif b true end.
Proof.
  induction q as [|p q IH]; intros b C; [reflexivity|]. cbn in C. pose proof (count_le ins q).
  destruct (ins p) eqn:E; [|lia]. cbn [map ch]. rewrite E, IH by lia. destruct q; [lia|]. cbn. lia.
Qed.
Lemma out_short : forall first t, convex (first :: t) -> length (out first (first :: t)) <= S (length (first :: t)).
Proof.
  intros first t C. rewrite out_length. cbn [map hd app ch]. rewrite dif_same.
  specialize (C line). cbn [map cyc] in C.
  assert (E : forall q, map (neg line) q = map ins q) by (intros; apply map_ext; intros; symmetry; apply ins_line).
  rewrite E, <- ins_line in C. cbn [Nat.add].
  pose proof (count_le ins (first :: t)) as L.
  destruct (Nat.eq_dec (count ins (first :: t)) (length (first :: t))) as [A|A]; [|lia].
  assert (I1 : ins first = true) by (cbn in A; destruct (ins first); [reflexivity|pose proof (count_le ins t); lia]).
  pose proof (all_ins_ch (t ++ [first]) (ins first)) as K. rewrite map_app in K. cbn [map] in K.
  rewrite K.
  - rewrite A, I1. destruct (t ++ [first]); cbn [dif xorb]; lia.
  - assert (Ca : forall a b, count ins (a ++ b) = count ins a + count ins b) by (induction a as [|x a IHa]; intros b; cbn; [reflexivity|rewrite IHa; lia]).
    rewrite Ca, app_length. cbn in A |- *. rewrite I1 in *. lia.
Qed.

(* ---------- nothing on the inner side is lost ---------- *)
Lemma full_app : forall first l x m, full first (l ++ x :: m) = full x l ++ full first (x :: m).
Proof.
  intros first. induction l as [|a l IH]; intros x m; [reflexivity|].
  cbn [app full]. rewrite IH, <- app_assoc. f_equal. f_equal.
  - replace (nxt first (l ++ x :: m)) with (nxt x l) by (destruct l; reflexivity). reflexivity.
Qed.
Lemma full_meets : forall l x y, ins x <> ins y -> exists c, In (true, c) (full y (x :: l)).
Proof.
  induction l as [|a l IH]; intros x y D.
  - exists (crs x y). cbn. destruct (ins x), (ins y); try congruence; cbn; auto.
  - cbn [full nxt]. destruct (bool_dec (ins x) (ins a)) as [E|E].
    + destruct (IH a y ltac:(congruence)) as [c I]. exists c. right. apply in_or_app. right. exact I.
    + exists (crs x a). right. apply in_or_app. left. destruct (ins x), (ins a); try congruence; left; reflexivity.
Qed.
Lemma ch_two : forall l, In false l -> 2 <= ch true (l ++ [true]).
Proof.
  induction l as [|a l IH]; intros I; [destruct I|]. destruct a.
  - destruct I as [I|I]; [discriminate|]. cbn [app ch]. specialize (IH I). cbn. lia.
  - cbn [app ch dif xorb]. assert (1 <= ch false (l ++ [true])).
    { clear. induction l as [|a l IH]; [cbn; lia|]. destruct a; cbn [app ch]; cbn; [lia|exact IH]. }
    lia.
Qed.

(* two points on different sides of the line, both on the negative side of f, while f is not negative on the line *)
Lemma no_bridge : forall f l x m y r, convex (l ++ x :: m ++ y :: r) -> ins x <> ins y -> neg f x = true -> neg f y = true ->
  (forall c, In (true, c) (full (nxt x l) (l ++ x :: m ++ y :: r)) -> neg f c = false) -> False.
Proof.
  intros f l x m y r C D Nx Ny Hc.
  set (q' := x :: m ++ y :: r ++ l).
  assert (Fq : forall z, In z (full x q') -> In z (full (nxt x l) (l ++ x :: m ++ y :: r))).
  { intros z Hz. rewrite (full_app (nxt x l) l x (m ++ y :: r)).
    destruct l as [|a l].
    - unfold q' in Hz. rewrite app_nil_r in Hz. exact Hz.
    - cbn [nxt] in *. unfold q' in Hz.
      change (x :: m ++ y :: r ++ a :: l) with ((x :: m) ++ y :: r ++ a :: l) in Hz.
      replace ((x :: m) ++ y :: r ++ a :: l) with ((x :: m ++ y :: r) ++ a :: l) in Hz by (cbn; rewrite <- app_assoc; reflexivity).
      rewrite full_app in Hz. apply in_app_or in Hz. apply in_or_app. tauto. }
  assert (C' : cyc (map (neg f) q') <= 2).
  { specialize (C f). replace (l ++ x :: m ++ y :: r) with (l ++ (x :: m ++ y :: r)) in C by reflexivity.
    rewrite map_app, cyc_rot, <- map_app in C. unfold q'. replace (x :: m ++ y :: r ++ l) with ((x :: m ++ y :: r) ++ l); [exact C|].
    cbn. rewrite <- app_assoc. reflexivity. }
  pose proof (full_cyc f x (m ++ y :: r ++ l)) as K. fold q' in K.
  assert (Q : full x q' = full y (x :: m) ++ full x (y :: r ++ l)) by (unfold q'; apply (full_app x (x :: m) y (r ++ l))).
  rewrite Q, map_app in K.
  destruct (full_meets m x y D) as [u U]. destruct (full_meets (r ++ l) y x ltac:(congruence)) as [w W].
  assert (Hu : neg f u = false) by (apply Hc, Fq; rewrite Q; apply in_or_app; left; exact U).
  assert (Hw : neg f w = false) by (apply Hc, Fq; rewrite Q; apply in_or_app; right; exact W).
  apply (in_map (fun x => neg f (snd x))) in U. apply (in_map (fun x => neg f (snd x))) in W. cbn [snd] in U, W. rewrite Hu in U. rewrite Hw in W.
  cbn [full map app snd] in U, W, K. rewrite Nx in *. rewrite Ny in *. cbn [cyc] in K.
  destruct U as [U|U]; [discriminate|]. destruct W as [W|W]; [discriminate|].
  rewrite <- app_assoc in K. cbn [app] in K.
  set (X1 := map (fun x0 : bool * vec => neg f (snd x0)) ((if xorb (ins x) (ins (nxt y m)) then [(true, crs x (nxt y m))] else []) ++ full y m)) in *.
  set (X2 := map (fun x0 : bool * vec => neg f (snd x0)) ((if xorb (ins y) (ins (nxt x (r ++ l))) then [(true, crs y (nxt x (r ++ l)))] else []) ++ full x (r ++ l))) in *.
  rewrite ch_app in K. pose proof (ch_two X1 U). pose proof (ch_two X2 W). lia.
Qed.
Local Open Scope R_scope.

Lemma least_ratio : forall (q : list vec) (f g : vec -> R) (s : vec -> bool), (exists p, In p q /\ s p = true) ->
  (forall p, In p q -> s p = true -> 0 < g p) ->
  exists p, In p q /\ s p = true /\ forall p', In p' q -> s p' = true -> f p / g p <= f p' / g p'.
Proof.
  induction q as [|a q IH]; intros f g s (p & I & Sp) Hg; [destruct I|].
  assert (Hd : (exists p, In p q /\ s p = true) \/ (forall p, In p q -> s p = false)).
  { clear. induction q as [|b q IHq]; [right; intros p []|]. destruct (s b) eqn:E; [left; exists b; split; [left; reflexivity|exact E]|].
    destruct IHq as [(p & I & H)|H]; [left; exists p; split; [right; exact I|exact H]|]. right. intros p [<-|I]; [exact E|apply H, I]. }
  destruct Hd as [He|Hn].
  - destruct (IH f g s He (fun p I => Hg p (or_intror I))) as (m & Im & Sm & Hm).
    destruct (s a) eqn:Sa.
    + destruct (Rle_dec (f a / g a) (f m / g m)) as [L|L].
      * exists a. split; [left; reflexivity|]. split; [exact Sa|]. intros p' [<-|I'] S'; [lra|]. specialize (Hm p' I' S'). lra.
      * exists m. split; [right; exact Im|]. split; [exact Sm|]. intros p' [<-|I'] S'; [lra|apply Hm; assumption].
    + exists m. split; [right; exact Im|]. split; [exact Sm|]. intros p' [<-|I'] S'; [congruence|apply Hm; assumption].
  - destruct I as [<-|I]; [|rewrite (Hn p I) in Sp; discriminate].
    exists a. split; [left; reflexivity|]. split; [exact Sp|]. intros p' [<-|I'] S'; [lra|]. rewrite (Hn p' I') in S'. discriminate.
Qed.

Lemma out_complete : forall first t y, convex (first :: t) -> hull2 (first :: t) y -> ev line y < 0 -> hull2 (out first (first :: t)) y.
Proof.
  intros first t y C H L f Hf. set (q := first :: t) in *.
  destruct (Rle_dec 0 (ev f y)) as [K|K]; [exact K|exfalso].
  (* the kept vertices *)
  assert (Kin : forall p, In p q -> ins p = true -> 0 <= ev f p).
  { intros p I E. apply Hf. unfold out. apply in_map_iff. exists (false, p). split; [reflexivity|]. apply filter_In. split.
    - clear - I. unfold q in *. revert I. generalize (first :: t) as l. clear. induction l as [|a l IH]; intros I; [destruct I|].
      destruct I as [<-|I]; [left; reflexivity|]. cbn [full]. right. apply in_or_app. right. apply IH, I.
    - unfold kept. cbn. exact E. }
  assert (Kcr : forall c, In (true, c) (full first q) -> 0 <= ev f c).
  { intros c I. apply Hf. unfold out. apply in_map_iff. exists (true, c). split; [reflexivity|]. apply filter_In. split; [exact I|reflexivity]. }
  assert (Some_in : exists p, In p q /\ ins p = true).
  { assert (D : forall l : list vec, (exists p, In p l /\ ins p = true) \/ (forall p, In p l -> ins p = false)).
    { induction l as [|b l IH]; [right; intros p []|]. destruct (ins b) eqn:E; [left; exists b; split; [left; reflexivity|exact E]|].
      destruct IH as [(p & I & P)|P]; [left; exists p; split; [right; exact I|exact P]|]. right. intros p [<-|I]; [exact E|apply P, I]. }
    destruct (D q) as [E|E]; [exact E|exfalso]. assert (0 <= ev line y); [|lra]. apply H. intros p I. specialize (E p I).
    rewrite ins_line in E. unfold neg in E. destruct (Rlt_dec (ev line p) 0); [discriminate|lra]. }
  assert (Lin : forall p, ins p = true -> ev line p < 0).
  { intros p E. rewrite ins_line in E. unfold neg in E. destruct (Rlt_dec (ev line p) 0); [assumption|discriminate]. }
  assert (Lout : forall p, ins p = false -> 0 <= ev line p).
  { intros p E. rewrite ins_line in E. unfold neg in E. destruct (Rlt_dec (ev line p) 0); [discriminate|lra]. }
  destruct (least_ratio q (ev f) (fun p => - ev line p) ins Some_in) as (j & Ij & Sj & Hj).
  { intros p _ E. specialize (Lin p E). lra. }
  set (lam := ev f j / - ev line j) in *.
  assert (Pj : 0 < - ev line j) by (specialize (Lin j Sj); lra).
  assert (Lam0 : 0 <= lam) by (unfold lam; apply Rmult_le_pos; [apply Kin; assumption|apply Rlt_le, Rinv_0_lt_compat, Pj]).
  set (comb := fun k => Aff (fa f + k * fa line) (fb f + k * fb line) (fc f + k * fc line)).
  assert (Ec : forall k p, ev (comb k) p = ev f p + k * ev line p) by (intros; unfold comb, ev; cbn [fa fb fc]; ring).
  assert (Hin : forall p, In p q -> ins p = true -> 0 <= ev f p + lam * ev line p).
  { intros p I E. specialize (Hj p I E). specialize (Lin p E).
    assert (M : lam * - ev line p <= ev f p / - ev line p * - ev line p) by (apply Rmult_le_compat_r; lra).
    replace (ev f p / - ev line p * - ev line p) with (ev f p) in M by (field; lra). lra. }
  assert (D : (exists i, In i q /\ ins i = false /\ ev f i + lam * ev line i < 0) \/ (forall i, In i q -> ins i = false -> 0 <= ev f i + lam * ev line i)).
  { clear - q. induction q as [|a l IH]; [right; intros i []|]. destruct IH as [(i & I & E)|E]; [left; exists i; split; [right; exact I|exact E]|].
    destruct (ins a) eqn:Ea; [right; intros i [<-|I] Ei; [congruence|apply E; assumption]|].
    destruct (Rlt_dec (ev f a + lam * ev line a) 0) as [R|R]; [left; exists a; split; [left; reflexivity|split; assumption]|].
    right. intros i [<-|I] Ei; [lra|apply E; assumption]. }
  destruct D as [(i & Ii & Si & Ei)|D].
  2:{ assert (0 <= ev (comb lam) y).
      { apply H. intros p I. rewrite Ec. destruct (ins p) eqn:E; [apply Hin; assumption|apply D; assumption]. }
      rewrite Ec in H0. nra. }
  (* a little beyond the least ratio both are negative *)
  set (eps := - (ev f i + lam * ev line i) / (2 * (ev line i + 1))).
  pose proof (Lout i Si) as Li.
  assert (Eps : 0 < eps) by (unfold eps; apply Rmult_lt_0_compat; [lra|apply Rinv_0_lt_compat; lra]).
  assert (Ni : ev (comb (lam + eps)) i < 0).
  { rewrite Ec.
    assert (eps * (2 * (ev line i + 1)) = - (ev f i + lam * ev line i)) by (unfold eps; field; lra). nra. }
  assert (Nj : ev (comb (lam + eps)) j < 0).
  { rewrite Ec. assert (lam * - ev line j = ev f j) by (unfold lam; field; lra). nra. }
  assert (Nneg : forall p, ev (comb (lam + eps)) p < 0 -> neg (comb (lam + eps)) p = true) by (intros p E; unfold neg; destruct (Rlt_dec _ _); [reflexivity|lra]).
  assert (Cr : forall c, In (true, c) (full first q) -> neg (comb (lam + eps)) c = false).
  { intros c I. unfold neg. rewrite Ec. specialize (Kcr c I).
    destruct (full_in first q (true, c) I) as [(E & _)|(_ & a & b & _ & _ & Dab & E)]; [discriminate|]. cbn [snd] in E.
    destruct (crossing_mix a b Dab) as (s & _ & _ & Z). rewrite <- E in Z. rewrite Z.
    destruct (Rlt_dec (ev f c + (lam + eps) * 0) 0); [lra|reflexivity]. }
  (* j and i in either order *)
  destruct (in_split j q Ij) as (l & r & Q).
  assert (Iij : In i l \/ In i r).
  { rewrite Q in Ii. apply in_app_or in Ii. destruct Ii as [?|[<-|?]]; [tauto|congruence|tauto]. }
  destruct Iij as [I|I].
  - destruct (in_split i l I) as (l1 & l2 & ->).
    assert (Q' : q = l1 ++ i :: l2 ++ j :: r) by (rewrite Q, <- app_assoc; reflexivity).
    assert (F1 : nxt i l1 = first) by (unfold q in Q'; destruct l1; cbn in Q'; injection Q'; intros; cbn; congruence).
    apply (no_bridge (comb (lam + eps)) l1 i l2 j r); [rewrite <- Q'; exact C|congruence|apply Nneg, Ni|apply Nneg, Nj|].
    rewrite F1, <- Q'. exact Cr.
  - destruct (in_split i r I) as (r1 & r2 & ->).
    assert (F1 : nxt j l = first) by (unfold q in Q; destruct l; cbn in Q; injection Q; intros; cbn; congruence).
    apply (no_bridge (comb (lam + eps)) l j r1 i r2); [rewrite <- Q; exact C|congruence|apply Nneg, Nj|apply Nneg, Ni|].
    rewrite F1, <- Q. exact Cr.
Qed.
End Chop.

(* ---------- the four chops ---------- *)
Local Open Scope R_scope.
Definition chopped (dir : bool) (sg h : R) (q : list vec) : list vec :=
  match q with [] => [] | first :: _ => out dir sg h first q end.
Lemma empty_hull : forall y, ~ hull2 [] y.
Proof. intros y H. specialize (H (Aff 0 0 (-1)) ltac:(intros p [])). unfold ev in H. cbn [fa fb fc] in H. lra. Qed.
Lemma convex_nil : convex [].
Proof. intros f. cbn. lia. Qed.
Lemma chopped_convex : forall dir sg h q, sg * sg = 1 -> convex q -> convex (chopped dir sg h q).
Proof. intros dir sg h [|p q] S1 C; [exact C|]. apply out_convex; assumption. Qed.
Lemma chopped_length : forall dir sg h q, sg * sg = 1 -> convex q -> (length (chopped dir sg h q) <= S (length q))%nat.
Proof. intros dir sg h [|p q] S1 C; [cbn; lia|]. apply out_short; assumption. Qed.
Lemma chopped_sound : forall dir sg h q x, sg * sg = 1 -> In x (chopped dir sg h q) -> hull2 q x /\ sg * coord dir x <= h.
Proof.
  intros dir sg h [|p q] x S1 I; [destruct I|]. destruct (out_sound dir sg h S1 p q x I) as [H L]. split; [exact H|].
  rewrite ev_line in L. lra.
Qed.
Lemma chopped_complete : forall dir sg h q y, sg * sg = 1 -> convex q -> hull2 q y -> sg * coord dir y < h -> hull2 (chopped dir sg h q) y.
Proof.
  intros dir sg h [|p q] y S1 C H L; [exact H|]. apply out_complete; try assumption. rewrite ev_line. lra.
Qed.
Lemma chop_chopped : forall dir sg h q, sg * sg = 1 -> convex q -> (length q <= 6)%nat -> chop dir sg h q = (chopped dir sg h q, false).
Proof.
  intros dir sg h [|p q] S1 C L; [reflexivity|]. unfold chop. rewrite chop_loop_out; [reflexivity|].
  cbn [app]. pose proof (chopped_length dir sg h (p :: q) S1 C) as K. cbn [chopped] in K. lia.
Qed.
Lemma chop_last : forall dir sg h q, sg * sg = 1 -> convex q -> (length q <= 7)%nat -> fst (chop dir sg h q) = chopped dir sg h q.
Proof.
  intros dir sg h [|p q] S1 C L; [reflexivity|]. unfold chop. rewrite chop_loop_out8; [reflexivity|].
  cbn [app]. pose proof (chopped_length dir sg h (p :: q) S1 C) as K. cbn [chopped] in K. lia.
Qed.

Theorem rect_quad_spec : forall h0 h1 q, convex q -> length q = 4%nat ->
  (length (rect_quad h0 h1 q) <= 8)%nat
  /\ (forall x, In x (rect_quad h0 h1 q) -> hull2 q x /\ - h0 <= fst x <= h0 /\ - h1 <= snd x <= h1)
  /\ (forall y, hull2 q y -> - h0 < fst y < h0 -> - h1 < snd y < h1 -> hull2 (rect_quad h0 h1 q) y).
Proof.
  intros h0 h1 q C L.
  assert (S1 : (-1) * (-1) = 1) by ring. assert (S2 : 1 * 1 = 1) by ring.
  set (q1 := chopped false (-1) h0 q). set (q2 := chopped false 1 h0 q1).
  set (q3 := chopped true (-1) h1 q2). set (q4 := chopped true 1 h1 q3).
  assert (C1 : convex q1) by (apply chopped_convex; assumption).
  assert (C2 : convex q2) by (apply chopped_convex; assumption).
  assert (C3 : convex q3) by (apply chopped_convex; assumption).
  pose proof (chopped_length false (-1) h0 q S1 C) as L1. fold q1 in L1.
  pose proof (chopped_length false 1 h0 q1 S2 C1) as L2. fold q2 in L2.
  pose proof (chopped_length true (-1) h1 q2 S1 C2) as L3. fold q3 in L3.
  pose proof (chopped_length true 1 h1 q3 S2 C3) as L4. fold q4 in L4.
  assert (E : rect_quad h0 h1 q = q4).
  { unfold rect_quad. rewrite chop_chopped by (assumption || lia). fold q1. rewrite chop_chopped by (assumption || lia). fold q2.
    rewrite chop_chopped by (assumption || lia). fold q3. rewrite chop_last by (assumption || lia). reflexivity. }
  rewrite E. split; [lia|]. split.
  - intros x I4.
    destruct (chopped_sound true 1 h1 q3 x S2 I4) as [H4 B4].
    assert (H3 : hull2 q2 x) by (apply (hull_trans q2 q3); [|exact H4]; intros z I; apply (chopped_sound true (-1) h1 q2 z S1 I)).
    assert (H2 : hull2 q1 x) by (apply (hull_trans q1 q2); [|exact H3]; intros z I; apply (chopped_sound false 1 h0 q1 z S2 I)).
    assert (H1 : hull2 q x) by (apply (hull_trans q q1); [|exact H2]; intros z I; apply (chopped_sound false (-1) h0 q z S1 I)).
    assert (B3 : 0 <= ev (Aff 0 1 h1) x).
    { apply H4. intros z I. destruct (chopped_sound true (-1) h1 q2 z S1 I) as [_ B]. unfold ev, coord in *. cbn [fa fb fc]. lra. }
    assert (B2 : 0 <= ev (Aff (-1) 0 h0) x).
    { apply H3. intros z I. destruct (chopped_sound false 1 h0 q1 z S2 I) as [_ B]. unfold ev, coord in *. cbn [fa fb fc]. lra. }
    assert (B1 : 0 <= ev (Aff 1 0 h0) x).
    { apply H2. intros z I. destruct (chopped_sound false (-1) h0 q z S1 I) as [_ B]. unfold ev, coord in *. cbn [fa fb fc]. lra. }
    split; [exact H1|]. unfold ev, coord in *. cbn [fa fb fc] in *. lra.
  - intros y H B0 B1.
    repeat (apply chopped_complete; [assumption|assumption| |unfold coord; lra]). exact H.
Qed.

(* a parallelogram, its corners in order, is convex *)
Theorem parallelogram_convex : forall c d k1 k2 k3 k4,
  convex [ (c - k1 - k3, d - k2 - k4); (c - k1 + k3, d - k2 + k4); (c + k1 + k3, d + k2 + k4); (c + k1 - k3, d + k2 - k4) ].
Proof.
  intros c d k1 k2 k3 k4 f. cbn [map]. unfold neg.
  set (x := ev f (c - k1 - k3, d - k2 - k4)). set (y := ev f (c - k1 + k3, d - k2 + k4)).
  set (z := ev f (c + k1 + k3, d + k2 + k4)). set (w := ev f (c + k1 - k3, d + k2 - k4)).
  assert (E : x + z = y + w) by (unfold x, y, z, w, ev; cbn [fst snd]; ring).
  destruct (Rlt_dec x 0); destruct (Rlt_dec y 0); destruct (Rlt_dec z 0); destruct (Rlt_dec w 0); cbn; try lia; exfalso; lra.
Qed.
