(* The state as a list of bodies, and what adding and deleting should do to it. *)
From Coq Require Import ZArith List Reals Arith Bool.
From Verif Require Import Outcome Ccd_Model Lin_Model State_Model.
Import ListNotations.
Open Scope R_scope.

Record rbody := Rbody { b_pos : triple; b_vel : triple; b_mass : mtriple; b_imass : mtriple; b_fixed : bool; b_shape : shape }.

(* the arrays of s hold exactly the bodies bs, in order, and its geometry list is gs *)
Definition represents (s : rb2state) (bs : list rbody) (gs : list shape) : Prop :=
  s_q s = map b_pos bs /\ s_v s = map b_vel bs /\ s_M s = map b_mass bs /\ s_Minv s = map b_imass bs
  /\ s_fixed s = map b_fixed bs /\ s_geo s = gs
  /\ Forall2 (fun i b => nth_error gs i = Some (b_shape b)) (s_gidx s) bs.

(* the x coordinate is a number; the masses are positive and the inverse masses their inverses *)
Definition located (b : rbody) : Prop := exists x, fst (fst (b_pos b)) = Some x.
Definition massive (b : rbody) : Prop :=
  exists m I, b_mass b = (m, m, I) /\ 0 < m /\ 0 < I /\ exists im iI, b_imass b = (im, im, iI) /\ m * im = 1 /\ I * iI = 1.
Definition proper (g : shape) : Prop := match g with Circle r => 0 < r | Box a b => 0 < a /\ 0 < b end.

(* the elements whose position is not named *)
Definition without {A} (indices : list nat) (l : list A) : list A :=
  map snd (filter (fun p => negb (existsb (Nat.eqb (fst p)) indices)) (combine (seq 0 (length l)) l)).

(* a solid of the given density and shape *)
Definition disc_mass (rho r : R) : R := rho * (PI * (r * r)).
Definition disc_inertia (rho r : R) : R := disc_mass rho r * (r * r) / 2.
Definition plate_mass (rho a b : R) : R := rho * ((2 * a) * (2 * b)).
Definition plate_inertia (rho a b : R) : R := plate_mass rho a b * ((2 * a) * (2 * a) + (2 * b) * (2 * b)) / 12.
Definition solid_mass (rho : R) (g : shape) : R := match g with Circle r => disc_mass rho r | Box a b => plate_mass rho a b end.
Definition solid_inertia (rho : R) (g : shape) : R := match g with Circle r => disc_inertia rho r | Box a b => plate_inertia rho a b end.

Definition new_body (x v : vec) (theta omega rho : R) (g : shape) (fixed : bool) : rbody :=
  let m := solid_mass rho g in let I := solid_inertia rho g in
  Rbody (Some (fst x), Some (snd x), Some theta) (Some (fst v), Some (snd v), Some omega) (m, m, I) (/ m, / m, / I) fixed g.

(* what a script call does to the bodies and shapes; None when the call is rejected *)
Definition spec_step (st : list rbody * list shape) (c : state_call) : option (list rbody * list shape) :=
  let (bs, gs) := st in
  match c with
  | AddCircle r => if Rlt_dec 0 r then Some (bs, gs ++ [Circle r]) else None
  | AddBody x v theta omega rho geo fixed =>
      if Rlt_dec 0 rho then
        if (0 <=? geo)%Z && (geo <? Z.of_nat (length gs))%Z then
          match nth_error gs (Z.to_nat geo) with
          | Some g => if (fixed =? 0)%Z then Some (bs ++ [new_body x v theta omega rho g false], gs)
                      else if (fixed =? 1)%Z then Some (bs ++ [new_body x v theta omega rho g true], gs) else None
          | None => None
          end
        else None
      else None
  | DeleteBodies l => if forallb (fun i => Nat.ltb i (length bs)) l then Some (without l bs, gs) else None
  | DeleteGeometry l => if forallb (fun i => Nat.ltb i (length gs)) l then Some (bs, without l gs) else None
  end.
Fixpoint spec_run (st : list rbody * list shape) (cs : list state_call) : option (list rbody * list shape) :=
  match cs with
  | [] => Some st
  | c :: r => match spec_step st c with Some st' => spec_run st' r | None => None end
  end.

Definition good (bs : list rbody) (gs : list shape) : Prop := Forall located bs /\ Forall massive bs /\ Forall proper gs.

(* no call deletes a shape that a body uses at the time *)
Definition spares_shapes (s : rb2state) (cs : list state_call) : Prop :=
  forall pre l post s1, cs = pre ++ DeleteGeometry l :: post -> state_run s pre = Ok s1 -> forall i, In i (s_gidx s1) -> ~ In i l.

(* balls *)
Record ball := Ball { k_q : vec; k_v : vec; k_r : R; k_m : R; k_fixed : bool }.
Definition holds_balls (s : bstate) (bs : list ball) : Prop :=
  t_q s = map k_q bs /\ t_v s = map k_v bs /\ t_r s = map k_r bs /\ t_fixed s = map k_fixed bs
  /\ t_M s = flat_map (fun b => [k_m b; k_m b]) bs /\ t_Minv s = flat_map (fun b => [/ k_m b; / k_m b]) bs.
Definition acceptable (a : ball_args) : Prop := 0 < a_r a /\ 0 < a_m a /\ (a_fixed a = 0%Z \/ a_fixed a = 1%Z).
Definition as_ball (a : ball_args) : ball := Ball (a_q a) (a_v a) (a_r a) (a_m a) (a_fixed a =? 1)%Z.
