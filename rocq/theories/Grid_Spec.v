(* What a user expects of the broad phase, stated without cells, keys or voxels. *)
From Coq Require Import List NArith ZArith QArith Reals Sorted Bool.
From Flocq Require Import Core IEEE754.BinarySingleNaN.
From Verif Require Import Outcome Grid_Model.
Import ListNotations.

(* ----- exact boxes: sets of rational points ----- *)
Definition inside2 (b : box2 exact) (p : Q * Q) : Prop :=
  (fst (lo2 b) <= fst p /\ fst p <= fst (up2 b) /\ snd (lo2 b) <= snd p /\ snd p <= snd (up2 b))%Q.
Definition meet2 (a b : box2 exact) : Prop := exists p, inside2 a p /\ inside2 b p.
(* non-empty interior, the constructor's assertion min < max *)
Definition proper2 (b : box2 exact) : Prop :=
  (fst (lo2 b) < fst (up2 b) /\ snd (lo2 b) < snd (up2 b))%Q.

Definition inside3 (b : box3 exact) (p : Q * Q * Q) : Prop :=
  (c0 (lo3 b) <= c0 p /\ c0 p <= c0 (up3 b) /\ c1 (lo3 b) <= c1 p /\ c1 p <= c1 (up3 b) /\
   c2 (lo3 b) <= c2 p /\ c2 p <= c2 (up3 b))%Q.
Definition meet3 (a b : box3 exact) : Prop := exists p, inside3 a p /\ inside3 b p.
Definition proper3 (b : box3 exact) : Prop :=
  (c0 (lo3 b) < c0 (up3 b) /\ c1 (lo3 b) < c1 (up3 b) /\ c2 (lo3 b) < c2 (up3 b))%Q.

(* ----- boxes with double coordinates: sets of real points ----- *)
Definition fin (x : b64) : Prop := is_finite x = true.
Definition val (x : b64) : R := B2R x.
Definition finite2 (b : box2 binary64) : Prop :=
  fin (fst (lo2 b)) /\ fin (snd (lo2 b)) /\ fin (fst (up2 b)) /\ fin (snd (up2 b)).
Definition inside2R (b : box2 binary64) (p : R * R) : Prop :=
  (val (fst (lo2 b)) <= fst p /\ fst p <= val (fst (up2 b)) /\
   val (snd (lo2 b)) <= snd p /\ snd p <= val (snd (up2 b)))%R.
Definition meet2R (a b : box2 binary64) : Prop := exists p, inside2R a p /\ inside2R b p.
(* the box contains at least one point *)
Definition inhabited2R (b : box2 binary64) : Prop := exists p, inside2R b p.

Definition finite3 (b : box3 binary64) : Prop :=
  fin (c0 (lo3 b)) /\ fin (c1 (lo3 b)) /\ fin (c2 (lo3 b)) /\
  fin (c0 (up3 b)) /\ fin (c1 (up3 b)) /\ fin (c2 (up3 b)).
Definition inside3R (b : box3 binary64) (p : R * R * R) : Prop :=
  (val (c0 (lo3 b)) <= c0 p /\ c0 p <= val (c0 (up3 b)) /\
   val (c1 (lo3 b)) <= c1 p /\ c1 p <= val (c1 (up3 b)) /\
   val (c2 (lo3 b)) <= c2 p /\ c2 p <= val (c2 (up3 b)))%R.
Definition meet3R (a b : box3 binary64) : Prop := exists p, inside3R a p /\ inside3R b p.
Definition inhabited3R (b : box3 binary64) : Prop := exists p, inside3R b p.

(* box number i of the list *)
Definition box_at {B} (bs : list B) (i : N) (b : B) : Prop := nth_error bs (N.to_nat i) = Some b.

(* the two boxes numbered (i,j) exist and meet *)
Definition meeting {B} (meet : B -> B -> Prop) (bs : list B) (i j : N) : Prop :=
  exists a b, box_at bs i a /\ box_at bs j b /\ meet a b.

(* a std::set of index pairs holds exactly the meeting pairs, smaller index first *)
Definition pair_lt (p q : N * N) : Prop :=
  (fst p < fst q \/ (fst p = fst q /\ snd p < snd q))%N.
Definition is_pair_set (s : list (N * N)) : Prop := StronglySorted pair_lt s.
Definition exactly_meeting {B} (meet : B -> B -> Prop) (bs : list B) (s : list (N * N)) : Prop :=
  is_pair_set s /\ forall i j, In (i, j) s <-> (i < j)%N /\ meeting meet bs i j.

(* indices are 32-bit *)
Definition indexable {B} (bs : list B) : Prop := (N.of_nat (length bs) <= 4294967296)%N.

(* ----- the scene is not too sparse for 32-bit cell numbers ----- *)
Definition Qsum (l : list Q) : Q := fold_right Qplus 0%Q l.
Definition widths2 (bs : list (box2 exact)) := map (fun b : box2 exact => fst (up2 b) - fst (lo2 b))%Q bs.
Definition heights2 (bs : list (box2 exact)) := map (fun b : box2 exact => snd (up2 b) - snd (lo2 b))%Q bs.
(* mean extent along the axis where it is largest *)
Definition is_mean_extent2 (bs : list (box2 exact)) (h : Q) : Prop :=
  (exists e, (e = Qsum (widths2 bs) \/ e = Qsum (heights2 bs)) /\
             Qsum (widths2 bs) <= e /\ Qsum (heights2 bs) <= e /\
             h == e / inject_Z (Z.of_nat (length bs)))%Q.
(* along each axis all boxes fit in that many mean extents *)
Definition spread2 (bs : list (box2 exact)) (X Y : Z) : Prop :=
  forall h, is_mean_extent2 bs h -> forall a b, In a bs -> In b bs ->
    (fst (up2 b) - fst (lo2 a) + (4 # 1000000) <= inject_Z X * h /\
     snd (up2 b) - snd (lo2 a) + (4 # 1000000) <= inject_Z Y * h)%Q.

Definition ext3 (k : forall A, A * A * A -> A) (bs : list (box3 exact)) : list Q :=
  map (fun b : box3 exact => k Q (up3 b) - k Q (lo3 b))%Q bs.
Definition is_mean_extent3 (bs : list (box3 exact)) (h : Q) : Prop :=
  (exists e, (e = Qsum (ext3 (@c0) bs) \/ e = Qsum (ext3 (@c1) bs) \/ e = Qsum (ext3 (@c2) bs)) /\
             Qsum (ext3 (@c0) bs) <= e /\ Qsum (ext3 (@c1) bs) <= e /\ Qsum (ext3 (@c2) bs) <= e /\
             h == e / inject_Z (Z.of_nat (length bs)))%Q.
Definition spread3 (bs : list (box3 exact)) (X Y Z : Z) : Prop :=
  forall h, is_mean_extent3 bs h -> forall a b, In a bs -> In b bs ->
    (c0 (up3 b) - c0 (lo3 a) + (4 # 1000000) <= inject_Z X * h /\
     c1 (up3 b) - c1 (lo3 a) + (4 # 1000000) <= inject_Z Y * h /\
     c2 (up3 b) - c2 (lo3 a) + (4 # 1000000) <= inject_Z Z * h)%Q.
