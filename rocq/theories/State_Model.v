(* Adding and deleting bodies: RigidBody2DState::addBody, removeBodies, removeGeometry and Ball2DState::pushBallBack.
   A VectorXs of 3n (2n) numbers is a list of n triples (pairs), one per segment the code reads or writes; the diagonal
   matrices M and Minv are the lists of their diagonal values (valuePtr). Eigen's operator() and std::vector's operator[]
   out of range are undefined behaviour (asserts are off). *)
From Coq Require Import ZArith List Reals Arith Bool.
From Verif Require Import Outcome Ccd_Model Lin_Model.
Import ListNotations.
Open Scope R_scope.
Open Scope outcome_scope.

(* a double: None is NaN *)
Definition num := option R.
Definition isnan (x : num) : bool := match x with None => true | Some _ => false end.

Definition oget {A} (l : list A) (i : nat) : outcome A :=
  match nth_error l i with Some x => Ok x | None => UB end.
Fixpoint set_nth {A} (l : list A) (i : nat) (x : A) : list A :=
  match l, i with
  | [], _ => []
  | _ :: r, O => x :: r
  | y :: r, S i => y :: set_nth r i x
  end.
Definition oset {A} (l : list A) (i : nat) (x : A) : outcome (list A) :=
  if (i <? length l)%nat then Ok (set_nth l i x) else UB.
(* conservativeResize( n + 1 ) and a write to the last segment; a vector that did not have n segments would keep
   uninitialised entries *)
Definition push {A} (l : list A) (n : nat) (x : A) : outcome (list A) :=
  if Nat.eqb (length l) n then Ok (l ++ [x]) else UB.

Inductive shape := Circle (r : R) | Box (rx ry : R).

(* computeMassAndInertia: /repo/rigidbody2d/CircleGeometry.cpp:46-50, BoxGeometry.cpp:44-48 *)
Definition mass_and_inertia (g : shape) (rho : R) : R * R :=
  match g with
  | Circle r => let m := rho * PI * r * r in (m, / 2 * m * r * r)
  | Box rx ry => let m := rho * 4 * rx * ry in (m, m * (rx * rx + ry * ry) / 3)
  end.

Definition triple := (num * num * num)%type.
Definition mtriple := (R * R * R)%type.

Record rb2state := RbState {
  s_q : list triple; s_v : list triple; s_M : list mtriple; s_Minv : list mtriple;
  s_fixed : list bool; s_gidx : list nat; s_geo : list shape }.

(* RigidBody2DState::addBody, /repo/rigidbody2d/RigidBody2DState.cpp:187-261 *)
Definition add_body (s : rb2state) (x v : vec) (theta omega rho : R) (geo : nat) (fixed : bool) : outcome rb2state :=
  let n := length (s_q s) in
  let q := s_q s ++ [(Some (fst x), Some (snd x), Some theta)] in
  let! vv := push (s_v s) n (Some (fst v), Some (snd v), Some omega) in
  let! gi := push (s_gidx s) n geo in
  let fx := s_fixed s ++ [fixed] in
  let! g := oget (s_geo s) geo in
  let mI := mass_and_inertia g rho in
  let! oldM := omapM (oget (s_M s)) (seq 0 n) in
  let! oldMinv := omapM (oget (s_Minv s)) (seq 0 n) in
  Ok (RbState q vv (oldM ++ [(fst mI, fst mI, snd mI)]) (oldMinv ++ [(1 / fst mI, 1 / fst mI, 1 / snd mI)]) fx gi (s_geo s)).

(* The compaction loop both remove functions use:
   for( ; from < n; from++, to++ ) { while( from < n && dead( from ) ) from++; if( from == n ) break; move( to, from ); } *)
Section Compact.
Context {St : Type} (dead : St -> nat -> outcome bool) (move : nat -> nat -> St -> outcome St).
(* fuel bounds the number of tests; n + 1 is always enough *)
Fixpoint compact (fuel n to from : nat) (s : St) : outcome (nat * St) :=
  match fuel with
  | O => UB
  | S fuel =>
      if (from <? n)%nat then
        let! d := dead s from in
        if d then compact fuel n to (S from) s
        else let! s' := move to from s in compact fuel n (S to) (S from) s'
      else Ok (to, s)
  end.
End Compact.

(* arr[ to ] = arr[ from ] *)
Definition copy {A} (l : list A) (to from : nat) : outcome (list A) :=
  let! x := oget l from in oset l to x.

(* RigidBody2DState::removeBodies, RigidBody2DState.cpp:263-347 *)
Definition mark (q : list triple) (i : nat) : outcome (list triple) :=
  let! t := oget q i in oset q i (None, snd (fst t), snd t).
Definition body_dead (s : rb2state) (i : nat) : outcome bool :=
  let! t := oget (s_q s) i in Ok (isnan (fst (fst t))).
Definition body_move (to from : nat) (s : rb2state) : outcome rb2state :=
  let! q := copy (s_q s) to from in
  let! v := copy (s_v s) to from in
  let! M := copy (s_M s) to from in
  let! Minv := copy (s_Minv s) to from in
  let! fx := copy (s_fixed s) to from in
  let! gi := copy (s_gidx s) to from in
  Ok (RbState q v M Minv fx gi (s_geo s)).
Definition remove_bodies (s : rb2state) (indices : list nat) : outcome rb2state :=
  match indices with
  | [] => Ok s
  | _ =>
      let! q := ofold mark indices (s_q s) in
      let s1 := RbState q (s_v s) (s_M s) (s_Minv s) (s_fixed s) (s_gidx s) (s_geo s) in
      let n := length q in
      let! r := compact body_dead body_move (S n) n 0 0 s1 in
      let to := fst r in let s2 := snd r in
      Ok (RbState (firstn to (s_q s2)) (firstn to (s_v s2)) (firstn to (s_M s2)) (firstn to (s_Minv s2))
                  (firstn to (s_fixed s2)) (firstn to (s_gidx s2)) (s_geo s2))
  end.

(* RigidBody2DState::removeGeometry, RigidBody2DState.cpp:349-397. The pointers are option shape (nullptr = None); the
   entries of index_map are None until written, and reading one that was never written is undefined behaviour. *)
Definition geo_dead (s : list (option shape) * list (option nat)) (i : nat) : outcome bool :=
  let! p := oget (fst s) i in Ok (match p with None => true | Some _ => false end).
Definition geo_move (to from : nat) (s : list (option shape) * list (option nat)) : outcome (list (option shape) * list (option nat)) :=
  let! p := oget (fst s) from in
  let! g1 := oset (fst s) from None in
  let! g2 := oset g1 to p in
  let! im := oset (snd s) from (Some to) in
  Ok (g2, im).
Definition read_map (im : list (option nat)) (i : nat) : outcome nat :=
  let! e := oget im i in match e with Some k => Ok k | None => UB end.
Definition read_ptr (p : option shape) : outcome shape := match p with Some g => Ok g | None => UB end.
Definition remove_geometry (s : rb2state) (indices : list nat) : outcome rb2state :=
  match indices with
  | [] => Ok s
  | _ =>
      let! g := ofold (fun g i => oset g i None) indices (map Some (s_geo s)) in
      let n := length g in
      let! r := compact geo_dead geo_move (S n) n 0 0 (g, repeat None n) in
      let! geo := omapM read_ptr (firstn (fst r) (fst (snd r))) in
      let! gi := omapM (read_map (snd (snd r))) (s_gidx s) in
      Ok (RbState (s_q s) (s_v s) (s_M s) (s_Minv s) (s_fixed s) gi geo)
  end.

(* RigidBody2DState::addCircleGeometry, RigidBody2DState.cpp:405-408 *)
Definition add_circle (s : rb2state) (r : R) : rb2state :=
  RbState (s_q s) (s_v s) (s_M s) (s_Minv s) (s_fixed s) (s_gidx s) (s_geo s ++ [Circle r]).

(* ---------- the script functions around them, /repo/rigidbody2d/PythonScripting.cpp ---------- *)
Inductive state_call :=
| AddCircle (r : R)                                       (* addCircleGeometry 479-499 *)
| AddBody (x v : vec) (theta omega rho : R) (geo : Z) (fixed : Z) (* addBody 501-537 *)
| DeleteBodies (indices : list nat)                       (* deleteBodies 539-575 *)
| DeleteGeometry (indices : list nat).                    (* deleteGeometry 577-613 *)

Definition state_step (s : rb2state) (c : state_call) : outcome rb2state :=
  match c with
  | AddCircle r => if Rle_dec r 0 then Exit else Ok (add_circle s r)
  | AddBody x v theta omega rho geo fixed =>
      if Rle_dec rho 0 then Exit
      else if (geo <? 0)%Z || (Z.of_nat (length (s_geo s)) <=? geo)%Z then Exit
      else if negb (fixed =? 0)%Z && negb (fixed =? 1)%Z then Exit
      else add_body s x v theta omega rho (Z.to_nat geo) (fixed =? 1)%Z
  | DeleteBodies indices =>
      if existsb (fun i => Nat.leb (length (s_q s)) i) indices then Exit else remove_bodies s indices
  | DeleteGeometry indices =>
      if existsb (fun i => Nat.leb (length (s_geo s)) i) indices then Exit else remove_geometry s indices
  end.
Definition state_run (s : rb2state) (cs : list state_call) : outcome rb2state := ofold state_step cs s.

(* ---------- balls ---------- *)
Record bstate := BState { t_q : list vec; t_v : list vec; t_r : list R; t_fixed : list bool; t_M : list R; t_Minv : list R }.

(* Ball2DState::pushBallBack, /repo/ball2d/Ball2DState.cpp:315-369; nballs() is m_fixed.size(), 79-82 *)
Definition push_ball (s : bstate) (q v : vec) (r m : R) (fixed : bool) : outcome bstate :=
  let n := length (t_fixed s) in
  let! q' := push (t_q s) n q in
  let! v' := push (t_v s) n v in
  let! r' := push (t_r s) n r in
  let fx := t_fixed s ++ [fixed] in
  let! M := omapM (oget (t_M s)) (seq 0 (2 * n)) in
  let! Minv := omapM (oget (t_Minv s)) (seq 0 (2 * n)) in
  Ok (BState q' v' r' fx (M ++ [m; m]) (Minv ++ [1 / m; 1 / m])).

(* insertBall, /repo/ball2d/PythonScripting.cpp:365-399 *)
Record ball_args := BallArgs { a_q : vec; a_v : vec; a_r : R; a_m : R; a_fixed : Z }.
Definition insert_ball (s : bstate) (a : ball_args) : outcome bstate :=
  if Rle_dec (a_r a) 0 then Exit
  else if Rle_dec (a_m a) 0 then Exit
  else if negb (a_fixed a =? 0)%Z && negb (a_fixed a =? 1)%Z then Exit
  else push_ball s (a_q a) (a_v a) (a_r a) (a_m a) (a_fixed a =? 1)%Z.
Definition insert_balls (s : bstate) (l : list ball_args) : outcome bstate := ofold insert_ball l s.
