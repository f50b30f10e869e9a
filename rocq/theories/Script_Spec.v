(* What a script call naming something by index should do. *)
From Coq Require Import ZArith List Reals Arith Bool.
From Verif Require Import Outcome Ccd_Model Lin_Model State_Spec Script_Model.
Import ListNotations.
Open Scope R_scope.

(* the index a call names and how many such things there are *)
Definition index (c : script_call) : Z :=
  match c with
  | BPosition i _ | BVelocity i _ | BDelete i | RPosition i _ | RVelocity i _ | RNormal i _ | ROmega i _ | RDelete i
  | PPosition i _ | PVelocity i _ | COrientation i _ _ | COmega i _ | CollisionType i | CollisionIndices i
  | ForceType i | SetGravity i _ => i
  end.
Definition count (w : world) (c : script_call) : nat :=
  match c with
  | BPosition _ _ | BVelocity _ _ | BDelete _ => length (w_bp w)
  | RPosition _ _ | RVelocity _ _ | RNormal _ _ | ROmega _ _ | RDelete _ => length (w_rp w)
  | PPosition _ _ | PVelocity _ _ => length (w_p3 w)
  | COrientation _ _ _ | COmega _ _ => length (w_cy w)
  | CollisionType _ | CollisionIndices _ => length (w_con w)
  | ForceType _ | SetGravity _ _ => length (w_grav w)
  end.
Definition exists_in (w : world) (c : script_call) : Prop := (0 <= index c < Z.of_nat (count w c))%Z.
(* lists short enough to be indexed by an unsigned *)
Definition small (w : world) : Prop :=
  (Z.of_nat (length (w_bp w)) < 2 ^ 32 /\ Z.of_nat (length (w_rp w)) < 2 ^ 32 /\ Z.of_nat (length (w_p3 w)) < 2 ^ 32
  /\ Z.of_nat (length (w_cy w)) < 2 ^ 32 /\ Z.of_nat (length (w_con w)) < 2 ^ 32 /\ Z.of_nat (length (w_grav w)) < 2 ^ 32)%Z.
(* the cylinder axis given is of unit length, to a millionth *)
Definition axis_ok (c : script_call) : Prop :=
  match c with COrientation _ a _ => Rabs (sqrt (dot3 a a) - 1) <= 1 / 1000000 | _ => True end.

(* l' is l with only the k-th entry changed, from x to y *)
Definition only_changes {A} (l l' : list A) (k : nat) (x y : A) : Prop :=
  exists a b, l = a ++ x :: b /\ l' = a ++ y :: b /\ length a = k.
Definition drops {A} (l l' : list A) (k : nat) : Prop := exists a x b, l = a ++ x :: b /\ l' = a ++ b /\ length a = k.

Definition does (c : script_call) (w : world) (w' : world) (r : answer) : Prop :=
  let k := Z.to_nat (index c) in
  match c with
  | BPosition _ x => r = Nothing /\ exists p, only_changes (w_bp w) (w_bp w') k p (BPlane x (bp_v p) (bp_n p) (bp_t p)) /\ w' = set_bp w (w_bp w')
  | BVelocity _ v => r = Nothing /\ exists p, only_changes (w_bp w) (w_bp w') k p (BPlane (bp_x p) v (bp_n p) (bp_t p)) /\ w' = set_bp w (w_bp w')
  | BDelete _ => r = Nothing /\ drops (w_bp w) (w_bp w') k /\ w' = set_bp w (w_bp w')
  | RPosition _ x => r = Nothing /\ exists p, only_changes (w_rp w) (w_rp w') k p (RPlane x (rp_n p) (rp_t p) (rp_v p) (rp_omega p)) /\ w' = set_rp w (w_rp w')
  | RVelocity _ v => r = Nothing /\ exists p, only_changes (w_rp w) (w_rp w') k p (RPlane (rp_x p) (rp_n p) (rp_t p) v (rp_omega p)) /\ w' = set_rp w (w_rp w')
  | RNormal _ n => r = Nothing /\ exists p, only_changes (w_rp w) (w_rp w') k p
      (RPlane (rp_x p) (vnormalized n) (vperp (vnormalized n)) (rp_v p) (rp_omega p)) /\ w' = set_rp w (w_rp w')
  | ROmega _ o => r = Nothing /\ exists p, only_changes (w_rp w) (w_rp w') k p (RPlane (rp_x p) (rp_n p) (rp_t p) (rp_v p) o) /\ w' = set_rp w (w_rp w')
  | RDelete _ => r = Nothing /\ drops (w_rp w) (w_rp w') k /\ w' = set_rp w (w_rp w')
  | PPosition _ x => r = Nothing /\ exists p, only_changes (w_p3 w) (w_p3 w') k p (Plane3 x (p3_n p) (p3_v p) (p3_omega p)) /\ w' = set_p3 w (w_p3 w')
  | PVelocity _ v => r = Nothing /\ exists p, only_changes (w_p3 w) (w_p3 w') k p (Plane3 (p3_x p) (p3_n p) v (p3_omega p)) /\ w' = set_p3 w (w_p3 w')
  | COrientation _ a t => r = Nothing /\ exists p, only_changes (w_cy w) (w_cy w') k p
      (Cyl (cy_x p) (normalized3 a) t (cy_v p) (cy_omega p) (cy_r p)) /\ w' = set_cy w (w_cy w')
  | COmega _ o => r = Nothing /\ exists p, only_changes (w_cy w) (w_cy w') k p
      (Cyl (cy_x p) (cy_n p) (cy_theta p) (cy_v p) o (cy_r p)) /\ w' = set_cy w (w_cy w')
  | CollisionType _ => w' = w /\ exists p, nth_error (w_con w) k = Some p /\ r = Kind (fst p)
  | CollisionIndices _ => w' = w /\ exists p, nth_error (w_con w) k = Some p /\ r = Bodies (fst (snd p)) (snd (snd p))
  | ForceType _ => w' = w /\ r = Gravity
  | SetGravity _ g => r = Nothing /\ exists p, only_changes (w_grav w) (w_grav w') k p g /\ w' = set_grav w (w_grav w')
  end.

(* the same call with another index *)
Definition with_index (c : script_call) (j : Z) : script_call :=
  match c with
  | BPosition _ x => BPosition j x | BVelocity _ x => BVelocity j x | BDelete _ => BDelete j
  | RPosition _ x => RPosition j x | RVelocity _ x => RVelocity j x | RNormal _ x => RNormal j x | ROmega _ x => ROmega j x | RDelete _ => RDelete j
  | PPosition _ x => PPosition j x | PVelocity _ x => PVelocity j x | COrientation _ a t => COrientation j a t | COmega _ x => COmega j x
  | CollisionType _ => CollisionType j | CollisionIndices _ => CollisionIndices j | ForceType _ => ForceType j | SetGravity _ x => SetGravity j x
  end.

(* a run in which every call names an existing item, or an index strictly beyond the end *)
Fixpoint never_at_end (w : world) (cs : list script_call) : Prop :=
  match cs with
  | [] => True
  | c :: r => (index c mod 2 ^ 32)%Z <> Z.of_nat (count w c) /\ (forall w' a, script w c = Ok (w', a) -> never_at_end w' r)
  end.
