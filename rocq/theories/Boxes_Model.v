(* Contacts between two boxes in space, over the reals: /repo/rigidbody3d/Constraints/BoxBoxUtilities.cpp.
   The scalars are real numbers, so rounding is not modelled; minus infinity, the first value of `depth`, is None.
   Output arguments are returned. *)
From Coq Require Import List Reals Arith Bool.
From Verif Require Import Ccd_Model Lin_Model ContactRb3_Model Rot_Model.
Import ListNotations.
Open Scope R_scope.

(* v[i], A( i, j ) and A.col( j ) *)
Definition at3 (v : v3) (i : nat) : R := match i with 0%nat => c0 v | 1%nat => c1 v | _ => c2 v end.
Definition ent (A : m3) (i j : nat) : R := at3 (match i with 0%nat => row0 A | 1%nat => row1 A | _ => row2_ A end) j.
Definition mat_col (A : m3) (j : nat) : v3 := V3 (at3 (row0 A) j) (at3 (row1 A) j) (at3 (row2_ A) j).
(* v.array().abs(), A.array().abs() *)
Definition abs3 (v : v3) : v3 := V3 (Rabs (c0 v)) (Rabs (c1 v)) (Rabs (c2 v)).
Definition abs_mat (A : m3) : m3 := M3 (abs3 (row0 A)) (abs3 (row1 A)) (abs3 (row2_ A)).

(* lineClosestApproach, BoxBoxUtilities.cpp:18-37 *)
Definition line_closest (pa ua pb ub : v3) : R * R :=
  let p := sub3 pb pa in
  let uaub := dot3 ua ub in
  let q1 := dot3 ua p in
  let q2 := - dot3 ub p in
  let d := 1 - uaub * uaub in
  if Rle_dec d (1 / 10000) then (0, 0)
  else (( q1 + uaub * q2 ) * (1 / d), ( uaub * q1 + q2 ) * (1 / d)).

(* ---------- intersectRectQuad, 47-108 ---------- *)
(* xy[dir] and xy[1-dir]; dir is false for x *)
Definition coord (dir : bool) (p : vec) : R := if dir then snd p else fst p.
(* sign * pq[dir] < h[dir], 68 *)
Definition inside (dir : bool) (sign h : R) (p : vec) : bool := if Rlt_dec (sign * coord dir p) h then true else false.
(* 85-86 *)
Definition crossing (dir : bool) (sign h : R) (p n : vec) : vec :=
  let o := coord (negb dir) p + (coord (negb dir) n - coord (negb dir) p) / (coord dir n - coord dir p) * (sign * h - coord dir p) in
  if dir then (o, sign * h) else (sign * h, o).
(* The loop over the points of q, 65-96: r holds the points written so far. The second component says whether the eighth
   point was written (nr & 8), which leaves the function through `done`. The arrays ret and buffer are lists here. *)
Fixpoint chop_loop (dir : bool) (sign h : R) (first : vec) (q r : list vec) : list vec * bool :=
  match q with
  | [] => (r, false)
  | p :: rest =>
      let next := match rest with n :: _ => n | [] => first end in
      let r1 := if inside dir sign h p then r ++ [p] else r in
      if inside dir sign h p && Nat.eqb (List.length r1) 8 then (r1, true)
      else
        let cross := xorb (inside dir sign h p) (inside dir sign h next) in
        let r2 := if cross then r1 ++ [crossing dir sign h p next] else r1 in
        if cross && Nat.eqb (List.length r2) 8 then (r2, true)
        else chop_loop dir sign h first rest r2
  end.
Definition chop (dir : bool) (sign h : R) (q : list vec) : list vec * bool :=
  match q with
  | [] => ([], false)
  | first :: _ => chop_loop dir sign h first q []
  end.
(* the four chops, 56-101 *)
Definition rect_quad (h0 h1 : R) (quad : list vec) : list vec :=
  let '(q, full) := chop false (-1) h0 quad in
  if full then q else
  let '(q, full) := chop false 1 h0 q in
  if full then q else
  let '(q, full) := chop true (-1) h1 q in
  if full then q else
  fst (chop true 1 h1 q).

(* ---------- the separating axes, 110-150 and 169-329 ---------- *)
(* smallest_pen_depth, invert_normal, code and normalC; normalC is not set before the first edge, here zero *)
Record sat := Sat { sat_depth : option R; sat_invert : bool; sat_code : nat; sat_normal : v3 }.
Definition above (x : R) (d : option R) : bool :=
  match d with None => true | Some d => if Rlt_dec d x then true else false end.
Definition negative (x : R) : bool := if Rlt_dec x 0 then true else false.
(* axisAlignedSeperatingTest, 110-125; None when it returns true *)
Definition axis_test (dist width : R) (code : nat) (s : sat) : option sat :=
  let pen := Rabs dist - width in
  if Rlt_dec 0 pen then None
  else Some (if above pen (sat_depth s) then Sat (Some pen) (negative dist) code (sat_normal s) else s).
(* edgeEdgeSeparatingTest, 127-150; the fudge factor is 1.05 *)
Definition edge_test (dist width n1 n2 n3 : R) (code : nat) (s : sat) : option sat :=
  let s2 := Rabs dist - width in
  if Rlt_dec 0 s2 then None
  else
    let l := sqrt (n1 * n1 + n2 * n2 + n3 * n3) in
    if Rlt_dec 0 l then
      let s2 := s2 / l in
      Some (if above (s2 * (105 / 100)) (sat_depth s)
            then Sat (Some s2) (negative dist) code (V3 (n1 / l) (n2 / l) (n3 / l)) else s)
    else Some s.

(* the fifteen tests in order, 192-329 *)
Definition tests (p1 : v3) (R1 : m3) (side1 p2 : v3) (R2 : m3) (side2 : v3) : list (sat -> option sat) :=
  let p := sub3 p2 p1 in
  let pp := mul3 (tr R1) p in
  let Rr := mm (tr R1) R2 in
  let Q := abs_mat Rr in
  let QbA := add3 (mul3 Q side2) side1 in
  let p_on_R2 := mul3 (tr R2) p in
  let QTaB := add3 (mul3 (tr Q) side1) side2 in
  let RR := ent Rr in
  let QQ := ent Q in
  let x := c0 pp in let y := c1 pp in let z := c2 pp in
  let a := at3 side1 in let b := at3 side2 in
  [ axis_test (c0 pp) (c0 QbA) 1; axis_test (c1 pp) (c1 QbA) 2; axis_test (c2 pp) (c2 QbA) 3;
    axis_test (c0 p_on_R2) (c0 QTaB) 4; axis_test (c1 p_on_R2) (c1 QTaB) 5; axis_test (c2 p_on_R2) (c2 QTaB) 6;
    edge_test (z * RR 1 0 - y * RR 2 0) (a 1 * QQ 2 0 + a 2 * QQ 1 0 + b 1 * QQ 0 2 + b 2 * QQ 0 1) 0 (- RR 2 0) (RR 1 0) 7;
    edge_test (z * RR 1 1 - y * RR 2 1) (a 1 * QQ 2 1 + a 2 * QQ 1 1 + b 0 * QQ 0 2 + b 2 * QQ 0 0) 0 (- RR 2 1) (RR 1 1) 8;
    edge_test (z * RR 1 2 - y * RR 2 2) (a 1 * QQ 2 2 + a 2 * QQ 1 2 + b 0 * QQ 0 1 + b 1 * QQ 0 0) 0 (- RR 2 2) (RR 1 2) 9;
    edge_test (x * RR 2 0 - z * RR 0 0) (a 0 * QQ 2 0 + a 2 * QQ 0 0 + b 1 * QQ 1 2 + b 2 * QQ 1 1) (RR 2 0) 0 (- RR 0 0) 10;
    edge_test (x * RR 2 1 - z * RR 0 1) (a 0 * QQ 2 1 + a 2 * QQ 0 1 + b 0 * QQ 1 2 + b 2 * QQ 1 0) (RR 2 1) 0 (- RR 0 1) 11;
    edge_test (x * RR 2 2 - z * RR 0 2) (a 0 * QQ 2 2 + a 2 * QQ 0 2 + b 0 * QQ 1 1 + b 1 * QQ 1 0) (RR 2 2) 0 (- RR 0 2) 12;
    edge_test (y * RR 0 0 - x * RR 1 0) (a 0 * QQ 1 0 + a 1 * QQ 0 0 + b 1 * QQ 2 2 + b 2 * QQ 2 1) (- RR 1 0) (RR 0 0) 0 13;
    edge_test (y * RR 0 1 - x * RR 1 1) (a 0 * QQ 1 1 + a 1 * QQ 0 1 + b 0 * QQ 2 2 + b 2 * QQ 2 0) (- RR 1 1) (RR 0 1) 0 14;
    edge_test (y * RR 0 2 - x * RR 1 2) (a 0 * QQ 1 2 + a 1 * QQ 0 2 + b 0 * QQ 2 1 + b 1 * QQ 2 0) (- RR 1 2) (RR 0 2) 0 15 ]%nat.
Fixpoint run_tests (l : list (sat -> option sat)) (s : sat) : option sat :=
  match l with
  | [] => Some s
  | t :: l => match t s with None => None | Some s => run_tests l s end
  end.
Definition first_sat : sat := Sat None false 0 zero3.
Definition search (p1 : v3) (R1 : m3) (side1 p2 : v3) (R2 : m3) (side2 : v3) : option sat :=
  run_tests (tests p1 R1 side1 p2 R2 side2) first_sat.

(* normal and depth, 333-349 *)
Definition sat_world (R1 R2 : m3) (s : sat) : v3 :=
  let n := if Nat.leb (sat_code s) 6
           then if Nat.leb (sat_code s) 3 then mat_col R1 (sat_code s - 1) else mat_col R2 (sat_code s - 4)
           else mul3 R1 (sat_normal s) in
  if sat_invert s then scale3 (-1) n else n.
Definition sat_value (s : sat) : R := match sat_depth s with Some d => d * -1 | None => 0 end.

(* ---------- one edge against another, 354-406 ---------- *)
(* the corner of a box furthest along n, 358-368; side_sign is 1 for box 1 and -1 for box 2, 370-380 *)
Definition corner (p : v3) (A : m3) (side n : v3) (side_sign : R) : v3 :=
  let add pa j :=
    let sign := if Rlt_dec 0 (dot3 n (mat_col A j)) then side_sign else - side_sign in
    add3 pa (scale3 (sign * at3 side j) (mat_col A j)) in
  add (add (add p 0%nat) 1%nat) 2%nat.
Definition edge_point (p1 : v3) (R1 : m3) (side1 p2 : v3) (R2 : m3) (side2 normal : v3) (code : nat) : v3 :=
  let pa := corner p1 R1 side1 normal 1 in
  let pb := corner p2 R2 side2 normal (-1) in
  let ua := mat_col R1 ((code - 7) / 3) in
  let ub := mat_col R2 ((code - 7) mod 3) in
  let '(alpha, beta) := line_closest pa ua pb ub in
  scale3 (1 / 2) (add3 (add3 pa (scale3 alpha ua)) (add3 pb (scale3 beta ub))).

(* ---------- a face against a box, 408-615 ---------- *)
(* lanr, a1 and a2, 453-489 *)
Definition incident_axes (anr : v3) : nat * nat * nat :=
  (if Rlt_dec (c0 anr) (c1 anr) then
     if Rlt_dec (c2 anr) (c1 anr) then (1, 0, 2) else (2, 0, 1)
   else
     if Rlt_dec (c2 anr) (c0 anr) then (0, 1, 2) else (2, 0, 1))%nat.
(* code1 and code2, 512-528 *)
Definition other_axes (codeN : nat) : nat * nat :=
  (match codeN with 0 => (1, 2) | 1 => (0, 2) | _ => (0, 1) end)%nat.
(* Contacts of box b with the face of box a with outward normal normal2 and axis codeN: points and depths, 448-615 *)
Definition face_points (pa : v3) (Ra : m3) (Sa pb : v3) (Rb : m3) (Sb normal2 : v3) (codeN : nat) : list (v3 * R) :=
  let nr := mul3 (tr Rb) normal2 in
  let '(lanr, a1, a2) := incident_axes (abs3 nr) in
  let center := if Rlt_dec (at3 nr lanr) 0 then add3 (sub3 pb pa) (scale3 (at3 Sb lanr) (mat_col Rb lanr))
                else sub3 (sub3 pb pa) (scale3 (at3 Sb lanr) (mat_col Rb lanr)) in
  let '(code1, code2) := other_axes codeN in
  let k_1 := dot3 center (mat_col Ra code1) in
  let k_2 := dot3 center (mat_col Ra code2) in
  let m11 := dot3 (mat_col Ra code1) (mat_col Rb a1) in
  let m12 := dot3 (mat_col Ra code1) (mat_col Rb a2) in
  let m21 := dot3 (mat_col Ra code2) (mat_col Rb a1) in
  let m22 := dot3 (mat_col Ra code2) (mat_col Rb a2) in
  let k1 := m11 * at3 Sb a1 in let k2 := m21 * at3 Sb a1 in
  let k3 := m12 * at3 Sb a2 in let k4 := m22 * at3 Sb a2 in
  let quad := [ (k_1 - k1 - k3, k_2 - k2 - k4); (k_1 - k1 + k3, k_2 - k2 + k4);
                (k_1 + k1 + k3, k_2 + k2 + k4); (k_1 + k1 - k3, k_2 + k2 - k4) ] in
  let ret := rect_quad (at3 Sa code1) (at3 Sa code2) quad in
  let det1 := 1 / (m11 * m22 - m12 * m21) in
  let lift (xy : vec) :=
    let k1 := m22 * det1 * (fst xy - k_1) - m12 * det1 * (snd xy - k_2) in
    let k2 := - (m21 * det1) * (fst xy - k_1) + m11 * det1 * (snd xy - k_2) in
    add3 (add3 center (scale3 k1 (mat_col Rb a1))) (scale3 k2 (mat_col Rb a2)) in
  map (fun xy => (add3 (lift xy) pa, at3 Sa codeN - dot3 normal2 (lift xy)))
      (filter (fun xy => if Rle_dec 0 (at3 Sa codeN - dot3 normal2 (lift xy)) then true else false) ret).

(* boxBox, 167-615: the normal, the depth, the code, the contacts and their depths; None when an axis separates the boxes,
   which leaves the contacts empty and the normal unset *)
Definition box_box_contacts (p1 : v3) (R1 : m3) (side1 p2 : v3) (R2 : m3) (side2 : v3) : option (v3 * R * nat * list (v3 * R)) :=
  match search p1 R1 side1 p2 R2 side2 with
  | None => None
  | Some s =>
      let normal := sat_world R1 R2 s in
      let code := sat_code s in
      let points :=
        if Nat.ltb 6 code then [(edge_point p1 R1 side1 p2 R2 side2 normal code, sat_value s)]
        else if Nat.leb code 3 then face_points p1 R1 side1 p2 R2 side2 normal (code - 1)
        else face_points p2 R2 side2 p1 R1 side1 (neg3 normal) (code - 4) in
      Some (normal, sat_value s, code, points)
  end.

(* isActive, 617-627: the contact points, each with the normal turned round. Two boxes without contacts have no normal *)
Definition box_box3 (p1 : v3) (R1 : m3) (side1 p2 : v3) (R2 : m3) (side2 : v3) : list (v3 * v3) :=
  match box_box_contacts p1 R1 side1 p2 R2 side2 with
  | None => []
  | Some (normal, _, _, points) => map (fun x => (fst x, scale3 (-1) normal)) points
  end.
