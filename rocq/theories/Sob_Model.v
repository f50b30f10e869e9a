(* The interface to the So-bogus friction solver: the bodies in contact are renumbered, the masses, velocities and contact
   bases of those bodies are handed to the solver, its answer is copied back and the numbers of the bodies are restored.
   Models /repo/scisim/ConstrainedMaps/Sobogus.cpp:40-594, 652-1108,
          /repo/scisim/ConstrainedMaps/bogus/{Ball2D,RigidBody2D,RigidBody3D}SobogusInterface.cpp (fromPrimal, solve),
          /repo/scisim/Constraints/Constraint.cpp:18-36, 62-122
   over the reals. The dual solver itself (bogus::DualFrictionProblem::solveWith) is an arbitrary function [gs] of what it is
   given: the matrix W = H MInv H^T, the vector b = E^T w - H MInv f, mu and the starting impulses. The inverse of a
   mass block (PrimalFrictionProblem::computeMInv) is an arbitrary function [inv]. *)
From Coq Require Import List Reals Arith Bool.
From Verif Require Import Outcome Ccd_Model Lin_Model ContactBall_Model ContactRb2_Model ContactRb3_Model.
Import ListNotations.
Open Scope R_scope.

(* ---------- small dense vectors of the contact space: VectorXs of 2 or 3 entries ---------- *)
Definition at_ (l : list R) (k : nat) : R := nth k l 0.
Definition ldot (a b : list R) : R := rsum (length a) (fun k => at_ a k * at_ b k).
(* sum of a( k ) * basis.col( k ): d entries *)
Definition to_world (d : nat) (basis : list (list R)) (a : list R) : list R :=
  map (fun e => rsum d (fun k => at_ a k * at_ (nth k basis []) e)) (seq 0 d).
(* E^T r *)
Definition to_local (basis : list (list R)) (r : list R) : list R := map (fun b => ldot b r) basis.

(* ---------- what differs between the three simulators ---------- *)
Record sim (C : Type) := Sim {
  k_s : nat;                                        (* velocity entries per body *)
  k_d : nat;                                        (* rows per contact *)
  k_vslot : nat -> nat -> nat -> nat;               (* bodies, body, entry: place in the velocity vector *)
  k_qs : nat; k_qslot : nat -> nat -> nat -> nat;   (* the same for the configuration *)
  k_mass : nat -> dvec -> nat -> nat -> nat -> R;   (* bodies, entries of M, body: its mass block, row and column *)
  k_bodies : C -> outcome (nat * option nat);       (* getSimulatedBodyIndices *)
  k_set0 : C -> nat -> outcome C;                   (* setBodyIndex0 *)
  k_set1 : C -> nat -> outcome C;                   (* setBodyIndex1 *)
  k_H0 : dvec -> C -> list (list R) -> outcome (list (list R));             (* evalH *)
  k_H1 : dvec -> C -> list (list R) -> outcome (option (list (list R)));
  k_ndotv : nat -> dvec -> C -> dvec -> R;          (* evalNdotV *)
  k_kinvel : dvec -> C -> outcome (list R);         (* computeKinematicRelativeVelocity *)
  k_mu0 : bool }.                                   (* solve2D and solveRigidBody2D drop the friction impulse where mu is zero *)
Arguments k_s {C}. Arguments k_d {C}. Arguments k_vslot {C}. Arguments k_qs {C}. Arguments k_qslot {C}. Arguments k_mass {C}.
Arguments k_bodies {C}. Arguments k_set0 {C}. Arguments k_set1 {C}. Arguments k_H0 {C}. Arguments k_H1 {C}. Arguments k_ndotv {C}.
Arguments k_kinvel {C}. Arguments k_mu0 {C}.

(* ---------- copying bodies ---------- *)
Definition put (d : dvec) (k : nat) (x : R) : dvec := fun i => if Nat.eqb i k then x else d i.
Definition puts (l : list (nat * R)) (d : dvec) : dvec := fold_left (fun d e => put d (fst e) (snd e)) l d.
Definition none : dvec := fun _ => 0.
(* extractq* and extractv*, Sobogus.cpp:811-884: a segment<n> assignment copies n entries *)
Definition extract (w : nat) (slot : nat -> nat -> nat -> nat) (ng : nat) (ltg : list nat) (x : dvec) : dvec :=
  puts (flat_map (fun l => map (fun o => (slot (length ltg) l o, x (slot ng (nth l ltg 0%nat) o))) (seq 0 w)) (seq 0 (length ltg))) none.
(* "Map local velocity solution to global" and the same for the force, 1006-1070 *)
Definition scatter (w : nat) (slot : nat -> nat -> nat -> nat) (ng : nat) (ltg : list nat) (xl x : dvec) : dvec :=
  puts (flat_map (fun l => map (fun o => (slot ng (nth l ltg 0%nat) o, xl (slot (length ltg) l o))) (seq 0 w)) (seq 0 (length ltg))) x.
(* "Reorder the degrees of freedom", 352-359, 461-468, 569-576: the solver keeps the entries of a body together *)
Definition reorder (s : nat) (slot : nat -> nat -> nat -> nat) (nl : nat) (x : dvec) : dvec :=
  puts (flat_map (fun l => map (fun o => (slot nl l o, x (s * l + o)%nat)) (seq 0 s)) (seq 0 nl)) none.

Section Solve.
Context {C : Type} (K : sim C).
Let s := k_s K. Let d := k_d K.

(* body_present[ i ] = true, Sobogus.cpp:662-675; an index past the end is undefined *)
Definition mark (ng : nat) (present : nat -> bool) (i : nat) : outcome (nat -> bool) :=
  if Nat.ltb i ng then Ok (fun b => if Nat.eqb b i then true else present b) else UB.
Definition mark_contact (ng : nat) (present : nat -> bool) (c : C) : outcome (nat -> bool) :=
  let! ij := k_bodies K c in
  let! present := mark ng present (fst ij) in
  match snd ij with Some j => mark ng present j | None => Ok present end.
(* buildLocalToGlobalMap, 658-687 *)
Definition build_ltg (ng : nat) (cs : list C) : outcome (list nat) :=
  let! present := ofold (mark_contact ng) cs (fun _ => false) in
  Ok (filter present (seq 0 ng)).
(* gtl.find, 915-944; the end iterator is dereferenced when the body is missing *)
Fixpoint find_from (k : nat) (ltg : list nat) (b : nat) : outcome nat :=
  match ltg with
  | [] => UB
  | g :: ltg => if Nat.eqb g b then Ok k else find_from (S k) ltg b
  end.
(* setSimulatedBody0 and setSimulatedBody1 with the new numbers, 927-944 *)
Definition remap (f : nat -> outcome nat) (c : C) : outcome C :=
  let! ij := k_bodies K c in
  let! l := f (fst ij) in
  let! c := k_set0 K c l in
  let! ij := k_bodies K c in
  match snd ij with
  | Some j => let! l := f j in k_set1 K c l
  | None => Ok c
  end.
(* "Reset the constraint indices", 1072-1092 *)
Definition ltg_at (ltg : list nat) (l : nat) : outcome nat :=
  match nth_error ltg l with Some g => Ok g | None => UB end.

(* What is known about one contact when the solver is called; the code keeps these in arrays of the same length:
   the constraint, the columns of its basis, CoR, mu, the extra relative velocities (nrel_extra and drel_extra; absent for
   every contact or for none) and the starting impulses alpha, beta. *)
Record item := Item { it_c : C; it_E : list (list R); it_CoR : R; it_mu : R; it_extra : option (list R); it_imp : list R }.

Definition add_lists (a b : list R) : list R := map (fun k => at_ a k + at_ b k) (seq 0 (length a)).
(* - kinematic_rel_vel.dot( bases.col ), Constraint.cpp:89-122, then nrel += nrel_extra; drel += drel_extra, Sobogus.cpp:904-913;
   nrel and the entries of drel in one list *)
Definition kin_rel (q0 : dvec) (it : item) : outcome (list R) :=
  let! kin := k_kinvel K q0 (it_c it) in
  let rel := map (fun b => - ldot b kin) (it_E it) in
  Ok (match it_extra it with None => rel | Some x => add_lists rel x end).

(* computeForcingTerm, Constraint.cpp:18-36 *)
Definition forcing (ndotv CoR : R) (basis : list (list R)) (rel : list R) : list R :=
  to_world d basis (match rel with [] => [] | nrel :: drel => (CoR * ndotv + nrel) :: drel end).

(* what initialize2D 64-105, initializeRigidBody2D 139-179, initialize3D 207-247 store for a contact: its renumbered
   constraint, its simulated bodies, H0, H1 and w *)
Record stored := Stored { st_it : item; st_c : C; st_ij : nat * option nat; st_h0 : list (list R); st_h1 : option (list (list R));
  st_w : list R }.
(* The code runs over the contacts several times, once for each of these values; here there is one pass. *)
Definition prepare (ltg : list nat) (q0 ql vl : dvec) (it : item) : outcome stored :=
  let! rel := kin_rel q0 it in
  let! c := remap (find_from 0 ltg) (it_c it) in
  let w := forcing (k_ndotv K (length ltg) ql c vl) (it_CoR it) (it_E it) rel in
  let! h0 := k_H0 K ql c (it_E it) in
  let! h1 := k_H1 K ql c (it_E it) in
  let! ij := k_bodies K c in
  Ok (Stored it c ij h0 h1 w).

(* an s-entry row placed at a body *)
Definition place (slot : nat -> nat -> nat) (b : nat) (x : list R) : col := map (fun o => (slot b o, at_ x o)) (seq 0 s).
Definition lneg (x : list R) : list R := map Ropp x.
Definition packed (b o : nat) : nat := (s * b + o)%nat.
(* the rows of H of one contact: a block for the first body, minus one for the second, fromPrimal of the three interfaces
   (Ball2D 59-82, RigidBody2D and RigidBody3D 61-84) *)
Definition hcols (slot : nat -> nat -> nat) (ij : nat * option nat) (h0 : list (list R)) (h1 : option (list (list R))) : list col :=
  map (fun k => place slot (fst ij) (nth k h0 [])
                ++ match snd ij, h1 with Some j, Some h1 => place slot j (lneg (nth k h1 [])) | _, _ => [] end) (seq 0 d).
Definition st_cols (h : stored) : list col := hcols packed (st_ij h) (st_h0 h) (st_h1 h).
(* n, t (and s) as solve2D 299-301, 317-319 and solve3D 513-517, 530-533 read them: the linear part of the rows of H0 *)
Definition st_basis (h : stored) : list (list R) := map (firstn d) (st_h0 h).

(* MInv * x: one block per body *)
Definition block_mul (blk : nat -> nat -> nat -> R) (x : dvec) : dvec :=
  fun k => rsum s (fun o => blk (k / s)%nat (k mod s)%nat o * x (packed (k / s) o)).
(* W = H MInv H^T, DualFrictionProblem::computeFrom *)
Definition gs_matrix (minv : dvec -> dvec) (cols : list col) : list (list R) :=
  map (fun ci => map (fun cj => col_dot ci (minv (impulse [(cj, 1)]))) cols) cols.
(* b = E^T w - H MInv f, for one contact; minvf is MInv f *)
Definition gs_rhs (minvf : dvec) (h : stored) : list R :=
  add_lists (to_local (it_E (st_it h)) (st_w h)) (map (fun c => - col_dot c minvf) (st_cols h)).
(* r of solve2D 299-301, solve3D 513-517 and then "r to local coords" *)
Definition gs_start (h : stored) : list R := to_local (it_E (st_it h)) (to_world d (st_basis h) (it_imp (st_it h))).
(* "Convert r to world coords", then alpha and beta, 311-335, 405-431, 530-542 *)
Definition read_imps (h : stored) (rloc : list R) : list R :=
  match to_local (st_basis h) (to_world d (it_E (st_it h)) rloc) with
  | [] => []
  | alpha :: betas => alpha :: (if k_mu0 K && Reqb (it_mu (st_it h)) 0 then map (fun _ => 0) betas else betas)
  end.
(* the friction force, 337-349, 433-458, 544-566: the linear part of both bodies comes from H0, the angular part of the second
   one from H1 *)
Definition force_cols (slot : nat -> nat -> nat) (h : stored) (imps : list R) : list (col * R) :=
  map (fun k => (place slot (fst (st_ij h)) (nth k (st_h0 h) [])
                 ++ match snd (st_ij h), st_h1 h with
                    | Some j, Some h1 => place slot j (lneg (firstn d (nth k (st_h0 h) []) ++ skipn d (nth k h1 [])))
                    | _, _ => []
                    end, at_ imps k)) (seq 1 (d - 1)).

Record sob_result := mkSob { sb_contacts : list C; sb_imps : list (list R); sb_f : dvec; sb_v : dvec; sb_ok : bool; sb_error : R }.

(* Sobogus::solve, 886-1093, with initialize2D / initializeRigidBody2D / initialize3D and solve2D / solveRigidBody2D / solve3D.
   [gs W b mu start] returns the impulses and the residual. *)
Definition sob_solve (inv : (nat -> nat -> R) -> nat -> nat -> R)
    (gs : list (list R) -> list (list R) -> list R -> list (list R) -> list (list R) * R) (tol : R)
    (ng : nat) (M q0 v0 : dvec) (its : list item) : outcome sob_result :=
  let! ltg := build_ltg ng (map it_c its) in
  let nl := length ltg in
  let mass := fun l => k_mass K ng M (nth l ltg 0%nat) in
  let ql := extract (k_qs K) (k_qslot K) ng ltg q0 in
  let vl := extract s (k_vslot K) ng ltg v0 in
  let! hs := omapM (prepare ltg q0 ql vl) its in
  let fin := fun k => - rsum s (fun o => mass (k / s)%nat (k mod s)%nat o * vl (k_vslot K nl (k / s)%nat o)) in
  let minv := block_mul (fun l => inv (mass l)) in
  let cols := flat_map st_cols hs in
  let '(rloc, err) := gs (gs_matrix minv cols) (map (gs_rhs (minv fin)) hs) (map it_mu its) (map gs_start hs) in
  let vs := minv (fun k => impulse (combine cols (concat rloc)) k - fin k) in
  let imps := map (fun hr => read_imps (fst hr) (snd hr)) (combine hs rloc) in
  let fl := impulse (flat_map (fun hi => force_cols (k_vslot K nl) (fst hi) (snd hi)) (combine hs imps)) in
  let vl := reorder s (k_vslot K) nl vs in
  let! back := omapM (fun h => remap (ltg_at ltg) (st_c h)) hs in
  Ok (mkSob back imps (scatter s (k_vslot K) ng ltg fl none) (scatter s (k_vslot K) ng ltg vl v0) (Rltb err tol) err).
End Solve.
Arguments item : clear implicits. Arguments stored : clear implicits. Arguments sob_result : clear implicits.
Arguments Item {C}. Arguments it_c {C}. Arguments it_E {C}. Arguments it_CoR {C}. Arguments it_mu {C}. Arguments it_extra {C}. Arguments it_imp {C}.
Arguments Stored {C}. Arguments st_it {C}. Arguments st_c {C}. Arguments st_ij {C}. Arguments st_h0 {C}. Arguments st_h1 {C}. Arguments st_w {C}.
Arguments mkSob {C}. Arguments sb_contacts {C}. Arguments sb_imps {C}. Arguments sb_f {C}. Arguments sb_v {C}. Arguments sb_ok {C}. Arguments sb_error {C}.

(* ---------- the three simulators ---------- *)
Definition of2 (a : vec) : list R := [fst a; snd a].
Definition to2 (l : list R) : vec := (at_ l 0, at_ l 1).
Definition of3 (a : v3) : list R := [c0 a; c1 a; c2 a].
Definition to3 (l : list R) : v3 := V3 (at_ l 0) (at_ l 1) (at_ l 2).
Definition basis2 (b : list (list R)) : vec * vec := (to2 (nth 0 b []), to2 (nth 1 b [])).

(* setBodyIndex0: BallBallConstraint.cpp:260-263, BallStaticPlaneConstraint.cpp:215-218, BallStaticDrumConstraint.cpp:210-213 *)
Definition b_set0 (c : ball_contact) (k : nat) : outcome ball_contact :=
  match c with
  | BallBall _ j n r0 r1 t => Ok (BallBall k j n r0 r1 t)
  | KickBallBall _ j n r0 r1 x t => Ok (KickBallBall k j n r0 r1 x t)
  | BallPlane _ r p => Ok (BallPlane k r p)
  | BallDrum _ n r => Ok (BallDrum k n r)
  end.
(* setBodyIndex1: BallBallConstraint.cpp:265-268; the others fall back to the base class, which ends the program *)
Definition b_set1 (c : ball_contact) (k : nat) : outcome ball_contact :=
  match c with
  | BallBall i _ n r0 r1 t => Ok (BallBall i k n r0 r1 t)
  | KickBallBall i _ n r0 r1 x t => Ok (KickBallBall i k n r0 r1 x t)
  | _ => Exit
  end.
Definition slot_of (s : nat) : nat -> nat -> nat -> nat := fun _ b o => (s * b + o)%nat.
(* extractMass2D, Sobogus.cpp:689-704: both diagonal entries are the first mass entry of the ball *)
Definition ball_block (ng : nat) (M : dvec) (b o o' : nat) : R := if Nat.eqb o o' then M (2 * b + 0)%nat else 0.
Definition ball_sim : sim ball_contact := {|
  k_s := 2; k_d := 2; k_vslot := slot_of 2; k_qs := 2; k_qslot := slot_of 2; k_mass := ball_block;
  k_bodies := fun c => Ok (b_bodies c); k_set0 := b_set0; k_set1 := b_set1;
  k_H0 := fun _ c b => Ok [of2 (fst (b_H0 c (basis2 b))); of2 (snd (b_H0 c (basis2 b)))];
  k_H1 := fun _ c b => Ok (match b_H1 c (basis2 b) with Some h => Some [of2 (fst h); of2 (snd h)] | None => None end);
  k_ndotv := fun _ _ c v => b_evalNdotV c v; k_kinvel := fun _ c => Ok (of2 (b_kinvel c)); k_mu0 := true |}.

(* setBodyIndex0 and setBodyIndex1: CircleCircleConstraint.cpp:195-203, BodyBodyConstraint.cpp:116-124,
   TeleportedCircleCircleConstraint.cpp:167-175 (inherited by the kick), KinematicObjectCircleConstraint.cpp:148-151,
   StaticPlaneBodyConstraint.cpp:122-125, StaticPlaneCircleConstraint.cpp:149-152 *)
Definition rb2_set0 (c : rb2_contact) (k : nat) : outcome rb2_contact :=
  match c with
  | CircleCircle _ j n p r0 r1 => Ok (CircleCircle k j n p r0 r1)
  | BodyBody2 _ j n a0 a1 => Ok (BodyBody2 k j n a0 a1)
  | TeleCircleCircle _ j n a0 a1 => Ok (TeleCircleCircle k j n a0 a1)
  | KickCircleCircle _ j n a0 a1 x => Ok (KickCircleCircle k j n a0 a1 x)
  | KinCircle _ r n kk kx kv ko => Ok (KinCircle k r n kk kx kv ko)
  | PlaneBody2 _ a p => Ok (PlaneBody2 k a p)
  | PlaneCircle _ r p => Ok (PlaneCircle k r p)
  end.
Definition rb2_set1 (c : rb2_contact) (k : nat) : outcome rb2_contact :=
  match c with
  | CircleCircle i _ n p r0 r1 => Ok (CircleCircle i k n p r0 r1)
  | BodyBody2 i _ n a0 a1 => Ok (BodyBody2 i k n a0 a1)
  | TeleCircleCircle i _ n a0 a1 => Ok (TeleCircleCircle i k n a0 a1)
  | KickCircleCircle i _ n a0 a1 x => Ok (KickCircleCircle i k n a0 a1 x)
  | _ => Exit
  end.
(* extractMass2DRigidBody, Sobogus.cpp:706-723 *)
Definition rb2_block (ng : nat) (M : dvec) (b o o' : nat) : R := if Nat.eqb o o' then M (3 * b + o)%nat else 0.
Definition of_row2 (r : row2) : list R := [fst (fst r); snd (fst r); snd r].
Definition rb2_sim : sim rb2_contact := {|
  k_s := 3; k_d := 2; k_vslot := slot_of 3; k_qs := 3; k_qslot := slot_of 3; k_mass := rb2_block;
  k_bodies := fun c => Ok (rb2_bodies c); k_set0 := rb2_set0; k_set1 := rb2_set1;
  k_H0 := fun q c b => Ok [of_row2 (fst (rb2_H0 q c (basis2 b))); of_row2 (snd (rb2_H0 q c (basis2 b)))];
  k_H1 := fun q c b => Ok (match rb2_H1 q c (basis2 b) with Some h => Some [of_row2 (fst h); of_row2 (snd h)] | None => None end);
  k_ndotv := fun _ q c v => rb2_evalNdotV q c v; k_kinvel := fun q c => Ok (of2 (rb2_kinvel q c)); k_mu0 := true |}.

(* setBodyIndex0 and setBodyIndex1: SphereSphereConstraint.cpp:341-349, TeleportedSphereSphereConstraint.cpp:308-316,
   BodyBodyConstraint.cpp:296-304, KinematicObjectBodyConstraint.cpp:194-197, KinematicObjectSphereConstraint.cpp:224-227,
   StaticPlaneBodyConstraint.cpp:281-284, StaticPlaneBoxConstraint.cpp:291-294, StaticPlaneSphereConstraint.cpp:298-301,
   StaticCylinderSphereConstraint.cpp:305-308, StaticCylinderBodyConstraint.cpp:145-148. SphereBodyConstraint has neither. *)
Definition rb3_set0 (c : rb3_contact) (k : nat) : outcome rb3_contact :=
  match c with
  | SphereSphere _ j n p r0 r1 => Ok (SphereSphere k j n p r0 r1)
  | TeleSphereSphere _ j n a0 a1 => Ok (TeleSphereSphere k j n a0 a1)
  | BodyBody3 _ j n a0 a1 => Ok (BodyBody3 k j n a0 a1)
  | SphereBody _ _ _ _ _ => Exit
  | KinBody _ kk n a => Ok (KinBody k kk n a)
  | KinSphere _ r n kk => Ok (KinSphere k r n kk)
  | PlaneBody3 _ n a p => Ok (PlaneBody3 k n a p)
  | PlaneSphere _ r p => Ok (PlaneSphere k r p)
  | CylSphere _ r cy => Ok (CylSphere k r cy)
  | CylBody _ a cy => Ok (CylBody k a cy)
  end.
Definition rb3_set1 (c : rb3_contact) (k : nat) : outcome rb3_contact :=
  match c with
  | SphereSphere i _ n p r0 r1 => Ok (SphereSphere i k n p r0 r1)
  | TeleSphereSphere i _ n a0 a1 => Ok (TeleSphereSphere i k n a0 a1)
  | BodyBody3 i _ n a0 a1 => Ok (BodyBody3 i k n a0 a1)
  | _ => Exit
  end.
(* velocities: 3 linear entries per body, then 3 angular ones; configurations: 3 and then 9. Sobogus.cpp:831-841, 873-884 *)
Definition slot3 (w : nat) (nb b o : nat) : nat := if Nat.ltb o 3 then (3 * b + o)%nat else (3 * nb + w * b + (o - 3))%nat.
(* extractMass3D, Sobogus.cpp:725-754: the diagonal of the linear part, then nine entries of the inertia by columns *)
Definition rb3_block (ng : nat) (M : dvec) (b o o' : nat) : R :=
  if Nat.ltb o 3 then (if Nat.eqb o o' then M (3 * b + o)%nat else 0)
  else if Nat.ltb o' 3 then 0 else M (3 * ng + 9 * b + 3 * (o' - 3) + (o - 3))%nat.
(* getSimulatedBodyIndices of SphereBody falls back to the base class, which ends the program *)
Definition rb3_sim_bodies (c : rb3_contact) : outcome (nat * option nat) :=
  match c with SphereBody _ _ _ _ _ => Exit | _ => Ok (rb3_bodies c) end.
Definition of_row3 (r : row3) : list R := of3 (fst r) ++ of3 (snd r).
Definition b3 (b : list (list R)) (k : nat) : v3 := to3 (nth k b []).
Definition rb3_sim : sim rb3_contact := {|
  k_s := 6; k_d := 3; k_vslot := slot3 3; k_qs := 12; k_qslot := slot3 9; k_mass := rb3_block;
  k_bodies := rb3_sim_bodies; k_set0 := rb3_set0; k_set1 := rb3_set1;
  k_H0 := fun q c b => let! h := rb3_H0 q c (b3 b 0) (b3 b 1) (b3 b 2) in Ok (map of_row3 h);
  k_H1 := fun q c b => let! h := rb3_H1 q c (b3 b 0) (b3 b 1) (b3 b 2) in
                       Ok (match h with Some h => Some (map of_row3 h) | None => None end);
  k_ndotv := fun nb q c v => match rb3_evalNdotV nb q c v with Some x => x | None => 0 end;
  k_kinvel := fun q c => let! u := rb3_kinvel q c in Ok (of3 u); k_mu0 := false |}.
