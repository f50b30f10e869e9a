(* Broad phase collision detection: the three uniform grids.

   Models
     /repo/ball2d/SpatialGridDetector.cpp       (whole file, 2D)
     /repo/rigidbody2d/SpatialGrid.cpp          (whole file, 2D, same algorithm plus the one-box query)
     /repo/rigidbody3d/SpatialGridDetector.cpp  (whole file, 3D)

   The arithmetic on `scalar` (double) is a parameter: the record [arith].  Two instances are
   given: exact rationals [exact] and IEEE binary64 with rounding to nearest [binary64]. *)
From Coq Require Import List NArith ZArith QArith Qround Lia Bool.
From Flocq Require Import Core IEEE754.BinarySingleNaN.
From Verif Require Import Outcome.
Import ListNotations.
Open Scope N_scope.

(* The operations on `scalar` the three files use.  [adiv] is [None] when the exact quotient does
   not exist; [to_u32] is the cast<unsigned>() of
   ball2d/SpatialGridDetector.cpp:33,103, [None] when C++ leaves the cast undefined
   (truncated value outside [0, 2^32), NaN, infinity). *)
Record arith := Arith {
  sc : Type;
  alt : sc -> sc -> bool;
  aadd : sc -> sc -> sc;
  asub : sc -> sc -> sc;
  adiv : sc -> sc -> option sc;
  azero : sc;
  a1em6 : sc;
  a2em6 : sc;
  aofsize : nat -> sc;
  aceil : sc -> sc;
  to_u32 : sc -> option N
}.

(* unsigned arithmetic: modulo 2^32 *)
Definition u32 (n : N) : N := n mod 4294967296.

(* ---------- containers ---------- *)

(* std::map<unsigned,std::vector<unsigned>> as a list sorted by key;
   find / insert empty / emplace_back, ball2d/SpatialGridDetector.cpp:61-70 *)
Definition voxmap := list (N * list N).
Fixpoint vox_add (k i : N) (m : voxmap) : voxmap :=
  match m with
  | [] => [(k, [i])]
  | (k', l) :: m' =>
      if k <? k' then (k, [i]) :: m
      else if k =? k' then (k', l ++ [i]) :: m'
      else (k', l) :: vox_add k i m'
  end.

(* std::set<std::pair<unsigned,unsigned>>::insert: a list sorted lexicographically *)
Definition pair_ltb (p q : N * N) : bool :=
  (fst p <? fst q) || ((fst p =? fst q) && (snd p <? snd q)).
Fixpoint set_add (p : N * N) (s : list (N * N)) : list (N * N) :=
  match s with
  | [] => [p]
  | q :: s' => if pair_ltb p q then p :: s
               else if pair_ltb q p then q :: set_add p s'
               else s
  end.

(* for( x = lo; x <= up; ++x ) over unsigned: ball2d/SpatialGridDetector.cpp:54,56.
   With up = 2^32-1 the loop never ends; the model reports that as [UB]. *)
Definition cell_range (lo up : N) : outcome (list N) :=
  if up =? 4294967295 then UB
  else Ok (map (fun k => lo + N.of_nat k) (seq 0 (N.to_nat (up + 1 - lo)))).

(* The nested idx0 < idx1 loops, ball2d/SpatialGridDetector.cpp:120-124 *)
Fixpoint pairs_of (l : list N) : list (N * N) :=
  match l with
  | [] => []
  | a :: l' => map (pair a) l' ++ pairs_of l'
  end.

(* The part of getPotentialOverlaps / rasterizeAABBs that does not depend on the dimension. *)
Section Generic.
  Context {B : Type}.
  Variable overlaps : B -> B -> bool.
  (* keys of the cells of one box, in the order the nested loops visit them *)
  Variable cells : B -> outcome (list N).

  (* rasterizeAABBs, ball2d/SpatialGridDetector.cpp:42-74; the index pushed is
     unsigned(aabb_idx) *)
  Fixpoint rasterize (idx : nat) (bs : list B) (m : voxmap) : outcome voxmap :=
    match bs with
    | [] => Ok m
    | b :: bs' =>
        let! ks := cells b in
        rasterize (Datatypes.S idx) bs' (fold_left (fun m k => vox_add k (u32 (N.of_nat idx)) m) ks m)
    end.

  (* lines 124-129 of ball2d/SpatialGridDetector.cpp *)
  Definition test_pair (bs : list B) (s : list (N * N)) (p : N * N) : list (N * N) :=
    match nth_error bs (N.to_nat (fst p)), nth_error bs (N.to_nat (snd p)) with
    | Some a, Some b => if overlaps a b then set_add p s else s
    | _, _ => s   (* not reached: the stored indices are those of the boxes *)
    end.

  (* lines 116-132 *)
  Definition scan_voxels (bs : list B) (m : voxmap) (s : list (N * N)) : list (N * N) :=
    fold_left (fun s e => fold_left (test_pair bs) (pairs_of (snd e)) s) m s.

  (* getPotentialOverlapsAllPairs, ball2d/SpatialGridDetector.cpp:135-147,
     rigidbody3d/SpatialGridDetector.cpp:139-151 *)
  Fixpoint all_pairs_inner (i j : nat) (a : B) (bs : list B) (s : list (N * N)) : list (N * N) :=
    match bs with
    | [] => s
    | b :: bs' =>
        all_pairs_inner i (Datatypes.S j) a bs'
          (if overlaps a b then set_add (u32 (N.of_nat i), u32 (N.of_nat j)) s else s)
    end.
  Fixpoint all_pairs (i : nat) (bs : list B) (s : list (N * N)) : list (N * N) :=
    match bs with
    | [] => s
    | a :: bs' => all_pairs (Datatypes.S i) bs' (all_pairs_inner i (Datatypes.S i) a bs' s)
    end.

  (* getPotentialOverlaps( trial, ... ), rigidbody2d/SpatialGrid.cpp:143-153 *)
  Fixpoint trial_overlaps (i : nat) (trial : B) (bs : list B) (out : list N) : list N :=
    match bs with
    | [] => out
    | b :: bs' =>
        trial_overlaps (Datatypes.S i) trial bs' (if overlaps b trial then out ++ [N.of_nat i] else out)
    end.
End Generic.

Section Grid.
  Variable ar : arith.
  Notation T := (sc ar).

  (* Eigen's coefficient-wise min / max *)
  Definition amin (a b : T) : T := if alt ar b a then b else a.
  Definition amax (a b : T) : T := if alt ar a b then b else a.

  (* one coordinate of computeCellIndex, ball2d/SpatialGridDetector.cpp:29-34 *)
  Definition cell (c mn h : T) : outcome N :=
    match adiv ar (asub ar c mn) h with
    | Some x => match to_u32 ar x with Some i => Ok i | None => UB end
    | None => UB
    end.

  (* index_lower and index_upper of one coordinate, ball2d/SpatialGridDetector.cpp:48-51 *)
  Definition cell_lo (lo mn h : T) : outcome N := cell (asub ar lo (a1em6 ar)) mn h.
  Definition cell_up (up mn h : T) : outcome N := cell (aadd ar up (a1em6 ar)) mn h.

  (* number of cells along one axis, ball2d/SpatialGridDetector.cpp:103 *)
  Definition ncells (mn mx h : T) : outcome N :=
    match adiv ar (asub ar mx mn) h with
    | Some x => match to_u32 ar (aceil ar x) with Some i => Ok i | None => UB end
    | None => UB
    end.

  (* ---------- 2D ---------- *)
  Record box2 := Box2 { lo2 : T * T; up2 : T * T }.

  (* AABB::overlaps, ball2d/SpatialGridDetector.cpp:15-26 = rigidbody2d/SpatialGrid.cpp:15-32 *)
  Definition overlaps2 (a b : box2) : bool :=
    if alt ar (fst (up2 a)) (fst (lo2 b)) || alt ar (snd (up2 a)) (snd (lo2 b)) then false
    else if alt ar (fst (up2 b)) (fst (lo2 a)) || alt ar (snd (up2 b)) (snd (lo2 a)) then false
    else true.

  (* keyForIndex, ball2d/SpatialGridDetector.cpp:36-40 *)
  Definition key2 (x y : N) (dims : N * N) : N := u32 (x + u32 (fst dims * y)).

  (* keys of one box, ball2d/SpatialGridDetector.cpp:47-59 *)
  Definition cells2 (mn : T * T) (h : T) (dims : N * N) (b : box2) : outcome (list N) :=
    let! lx := cell_lo (fst (lo2 b)) (fst mn) h in
    let! ly := cell_lo (snd (lo2 b)) (snd mn) h in
    let! ux := cell_up (fst (up2 b)) (fst mn) h in
    let! uy := cell_up (snd (up2 b)) (snd mn) h in
    let! xs := cell_range lx ux in
    let! ys := cell_range ly uy in
    Ok (flat_map (fun x => map (fun y => key2 x y dims) ys) xs).

  (* initializeSpatialGrid, ball2d/SpatialGridDetector.cpp:76-104.  The running minimum starts
     from the first box instead of +infinity (same value).  Without boxes the C++ code casts
     (-inf - inf)/(0/0) to unsigned, which is undefined. *)
  Definition init2 (bs : list box2) : outcome ((T * T) * (N * N) * T) :=
    match bs with
    | [] => UB
    | b0 :: _ =>
        let mn := fold_left (fun m b => (amin (fst m) (fst (lo2 b)), amin (snd m) (snd (lo2 b)))) bs (lo2 b0) in
        let mx := fold_left (fun m b => (amax (fst m) (fst (up2 b)), amax (snd m) (snd (up2 b)))) bs (up2 b0) in
        let mn := (asub ar (fst mn) (a2em6 ar), asub ar (snd mn) (a2em6 ar)) in
        let mx := (aadd ar (fst mx) (a2em6 ar), aadd ar (snd mx) (a2em6 ar)) in
        let d := fold_left (fun d b => (aadd ar (fst d) (asub ar (fst (up2 b)) (fst (lo2 b))),
                                        aadd ar (snd d) (asub ar (snd (up2 b)) (snd (lo2 b)))))
                   bs (azero ar, azero ar) in
        match adiv ar (amax (fst d) (snd d)) (aofsize ar (length bs)) with
        | None => UB
        | Some h =>
            let! dx := ncells (fst mn) (fst mx) h in
            let! dy := ncells (snd mn) (snd mx) h in
            Ok (mn, (dx, dy), h)
        end
    end.

  (* getPotentialOverlaps, ball2d/SpatialGridDetector.cpp:106-133,
     rigidbody2d/SpatialGrid.cpp:114-141; [s] is the set passed in *)
  Definition getPotentialOverlaps2 (bs : list box2) (s : list (N * N)) : outcome (list (N * N)) :=
    let! (mn, dims, h) := init2 bs in
    let! m := rasterize (cells2 mn h dims) 0 bs [] in
    Ok (scan_voxels overlaps2 bs m s).

  Definition getPotentialOverlapsAllPairs2 (bs : list box2) (s : list (N * N)) : list (N * N) :=
    all_pairs overlaps2 0 bs s.

  Definition getPotentialOverlapsTrial2 (trial : box2) (bs : list box2) (out : list N) : list N :=
    trial_overlaps overlaps2 0 trial bs out.

  (* ---------- 3D ---------- *)
  Record box3 := Box3 { lo3 : T * T * T; up3 : T * T * T }.
  Definition c0 {A} (v : A * A * A) : A := fst (fst v).
  Definition c1 {A} (v : A * A * A) : A := snd (fst v).
  Definition c2 {A} (v : A * A * A) : A := snd v.

  (* rigidbody3d/SpatialGridDetector.cpp:8-25 *)
  Definition overlaps3 (a b : box3) : bool :=
    if alt ar (c0 (up3 a)) (c0 (lo3 b)) || alt ar (c1 (up3 a)) (c1 (lo3 b)) || alt ar (c2 (up3 a)) (c2 (lo3 b)) then false
    else if alt ar (c0 (up3 b)) (c0 (lo3 a)) || alt ar (c1 (up3 b)) (c1 (lo3 a)) || alt ar (c2 (up3 b)) (c2 (lo3 a)) then false
    else true.

  (* rigidbody3d/SpatialGridDetector.cpp:36-41 *)
  Definition key3 (x y z : N) (dims : N * N * N) : N :=
    u32 (u32 (x + u32 (c0 dims * y)) + u32 (u32 (c0 dims * c1 dims) * z)).

  (* rigidbody3d/SpatialGridDetector.cpp:48-62 *)
  Definition cells3 (mn : T * T * T) (h : T) (dims : N * N * N) (b : box3) : outcome (list N) :=
    let! lx := cell_lo (c0 (lo3 b)) (c0 mn) h in
    let! ly := cell_lo (c1 (lo3 b)) (c1 mn) h in
    let! lz := cell_lo (c2 (lo3 b)) (c2 mn) h in
    let! ux := cell_up (c0 (up3 b)) (c0 mn) h in
    let! uy := cell_up (c1 (up3 b)) (c1 mn) h in
    let! uz := cell_up (c2 (up3 b)) (c2 mn) h in
    let! xs := cell_range lx ux in
    let! ys := cell_range ly uy in
    let! zs := cell_range lz uz in
    Ok (flat_map (fun x => flat_map (fun y => map (fun z => key3 x y z dims) zs) ys) xs).

  (* rigidbody3d/SpatialGridDetector.cpp:80-108 *)
  Definition init3 (bs : list box3) : outcome ((T * T * T) * (N * N * N) * T) :=
    match bs with
    | [] => UB
    | b0 :: _ =>
        let mn := fold_left (fun m b => (amin (c0 m) (c0 (lo3 b)), amin (c1 m) (c1 (lo3 b)), amin (c2 m) (c2 (lo3 b)))) bs (lo3 b0) in
        let mx := fold_left (fun m b => (amax (c0 m) (c0 (up3 b)), amax (c1 m) (c1 (up3 b)), amax (c2 m) (c2 (up3 b)))) bs (up3 b0) in
        let mn := (asub ar (c0 mn) (a2em6 ar), asub ar (c1 mn) (a2em6 ar), asub ar (c2 mn) (a2em6 ar)) in
        let mx := (aadd ar (c0 mx) (a2em6 ar), aadd ar (c1 mx) (a2em6 ar), aadd ar (c2 mx) (a2em6 ar)) in
        let d := fold_left (fun d b => (aadd ar (c0 d) (asub ar (c0 (up3 b)) (c0 (lo3 b))),
                                        aadd ar (c1 d) (asub ar (c1 (up3 b)) (c1 (lo3 b))),
                                        aadd ar (c2 d) (asub ar (c2 (up3 b)) (c2 (lo3 b)))))
                   bs (azero ar, azero ar, azero ar) in
        match adiv ar (amax (amax (c0 d) (c1 d)) (c2 d)) (aofsize ar (length bs)) with
        | None => UB
        | Some h =>
            let! dx := ncells (c0 mn) (c0 mx) h in
            let! dy := ncells (c1 mn) (c1 mx) h in
            let! dz := ncells (c2 mn) (c2 mx) h in
            Ok (mn, (dx, dy, dz), h)
        end
    end.

  (* rigidbody3d/SpatialGridDetector.cpp:110-137 *)
  Definition getPotentialOverlaps3 (bs : list box3) (s : list (N * N)) : outcome (list (N * N)) :=
    let! (mn, dims, h) := init3 bs in
    let! m := rasterize (cells3 mn h dims) 0 bs [] in
    Ok (scan_voxels overlaps3 bs m s).

  Definition getPotentialOverlapsAllPairs3 (bs : list box3) (s : list (N * N)) : list (N * N) :=
    all_pairs overlaps3 0 bs s.
End Grid.
Arguments Box2 {ar} _ _.
Arguments lo2 {ar} _.
Arguments up2 {ar} _.
Arguments Box3 {ar} _ _.
Arguments lo3 {ar} _.
Arguments up3 {ar} _.
Arguments overlaps2 {ar} _ _.
Arguments overlaps3 {ar} _ _.

(* ---------- the two instances of the arithmetic ---------- *)

Definition Z_u32 (z : Z) : option N :=
  if (0 <=? z)%Z && (z <? 4294967296)%Z then Some (Z.to_N z) else None.

(* Exact arithmetic: every operation of the code without rounding *)
Definition exact : arith :=
  {| sc := Q;
     alt := fun a b => negb (Qle_bool b a);
     aadd := fun a b => Qred (a + b);
     asub := fun a b => Qred (a - b);
     adiv := fun a b => if Qeq_bool b 0 then None else Some (Qred (a / b));
     azero := 0%Q;
     a1em6 := 1 # 1000000;
     a2em6 := 2 # 1000000;
     aofsize := fun n => inject_Z (Z.of_nat n);
     aceil := fun q => inject_Z (Qceiling q);
     to_u32 := fun q => Z_u32 (Z.quot (Qnum q) (Zpos (Qden q))) |}.

(* IEEE-754 binary64, rounding to nearest even, with infinities and NaN: what `double` is *)
Definition prec53 : Prec_gt_0 53 := eq_refl.
Definition emax1024 : Prec_lt_emax 53 1024 := eq_refl.
Definition b64 : Type := binary_float 53 1024.
Definition b64_of (m e : Z) : b64 := binary_normalize 53 1024 prec53 emax1024 mode_NE m e false.
Definition binary64 : arith :=
  {| sc := b64;
     alt := @Bltb 53 1024;
     aadd := @Bplus 53 1024 prec53 emax1024 mode_NE;
     asub := @Bminus 53 1024 prec53 emax1024 mode_NE;
     adiv := fun a b => Some (@Bdiv 53 1024 prec53 emax1024 mode_NE a b);
     azero := B754_zero false;
     (* the doubles written 1.0e-6 and 2.0e-6 in the source *)
     a1em6 := b64_of 0x10c6f7a0b5ed8d (-72);
     a2em6 := b64_of 0x10c6f7a0b5ed8d (-71);
     aofsize := fun n => b64_of (Z.of_nat n) 0;
     aceil := @Bnearbyint 53 1024 emax1024 mode_UP;
     to_u32 := fun x => if is_finite x then Z_u32 (Btrunc x) else None |}.
