(* Specification vocabulary for scene files: which numbers a text can stand for, and which settings make a
   scene the parsers may hand out. *)
From Coq Require Import ZArith NArith QArith Bool Ascii String List.
From Verif Require Import Outcome Str_Model Str_Spec Rational_Model RatParse_Model Scene_Text Scene_Model.
Import ListNotations.
Open Scope string_scope.
Open Scope list_scope.

(* the exact number m * 10^k *)
Definition decimal_value (m k : Z) : Q := Qred (inject_Z m * Qpower (inject_Z 10) k).
(* x is the scalar nearest to some decimal number *)
Definition decimal (fp : fpmode) (x : Q) : Prop := exists m k : Z, rnd fp (decimal_value m k) = Some x.
(* x is what an unchecked extraction can leave behind: a decimal number, 0 when the text was no number, the
   largest scalar when the number was too large *)
Definition loose (fp : fpmode) (x : Q) : Prop :=
  decimal fp x \/ x = 0%Q \/
  exists m k : Z, rnd fp (decimal_value m k) = None /\
    ((0 <= m)%Z /\ x = fmax fp \/ (m <= 0)%Z /\ x = (- fmax fp)%Q).

(* a word: some characters, none of them white space *)
Definition word (w : str) : Prop := w <> [] /\ Forall (fun c => isspace c = false) w.

Definition tolerance (fp : fpmode) (t : Q) : Prop := decimal fp t /\ (0 <= t)%Q.
Definition strict_tolerance (fp : fpmode) (t : Q) : Prop := decimal fp t /\ (0 < t)%Q.
Definition iterations (k : Z) : Prop := (0 < k <= 2 ^ 31 - 1)%Z.

Definition lcp_ok (fp : fpmode) (bd : build) (apgd : bool) (s : lcp_solver) : Prop :=
  match s with
  | Apgd tol it => apgd = true /\ strict_tolerance fp tol /\ (0 <= it < 2 ^ 32)%Z
  | QlVp tol | Ql tol => has_ql bd = true /\ decimal fp tol
  | Ipopt ws tol => has_ipopt bd = true /\ ws <> [] /\ Forall word ws /\ strict_tolerance fp tol
  end.

Fixpoint impact_ok (fp : fpmode) (bd : build) (apgd : bool) (o : impact_op) : Prop :=
  match o with
  | GaussSeidel v | Jacobi v => tolerance fp v
  | Lcp s => lcp_ok fp bd apgd s
  | Gr v s => tolerance fp v /\ lcp_ok fp bd apgd s
  | Grr e i => impact_ok fp bd apgd e /\ impact_ok fp bd apgd i
  end.

(* coefficients of a friction solver *)
Definition friction_coefficients (fp : fpmode) (mu cor : Q) : Prop :=
  decimal fp mu /\ (0 <= mu)%Q /\ decimal fp cor /\ (0 <= cor <= 1)%Q.

Definition map_ok (fp : fpmode) (cor : Q) (m : friction_map) : Prop :=
  match m with
  | Geometric tol k _ | Stabilized tol k => tolerance fp tol /\ iterations k
  | SymplecticEulerMap tol k _ _ p => tolerance fp tol /\ iterations k /\ tolerance fp p /\ (cor == 0)%Q
  end.
Definition map_iterations (m : friction_map) : Z :=
  match m with Geometric _ k _ => k | Stabilized _ k => k | SymplecticEulerMap _ k _ _ _ => k end.

(* the friction solvers of the 2D ball parser *)
Definition ball_solver_ok (fp : fpmode) (bd : build) (s : friction_solver) (m : friction_map) : Prop :=
  match s with
  | Staggered _ _ l (MdpQl t) =>
      lcp_ok fp bd true l /\ has_ql bd = true /\ tolerance fp t /\
      match m with Geometric _ _ c => c = CacheNone | Stabilized _ _ => True | _ => False end
  | Sobogus e => (0 < e <= map_iterations m)%Z
  | _ => False
  end.
Definition ball_response_ok (fp : fpmode) (bd : build) (r : response) : Prop :=
  match r with
  | NoResponse => True
  | Impact op cor cache => impact_ok fp bd true op /\ decimal fp cor /\ cache <> None
  | Friction s m mu cor => friction_coefficients fp mu cor /\ map_ok fp cor m /\ ball_solver_ok fp bd s m
  end.

Definition ball_force_ok (fp : fpmode) (f : ball_force) : Prop :=
  match f with
  | Gravity (x, y) => loose fp x /\ loose fp y
  | Penalty k p => tolerance fp k /\ decimal fp p
  end.
Definition is_gravity (f : ball_force) : bool := match f with Gravity _ => true | _ => false end.

Definition plane2_ok (fp : fpmode) (p : Q * Q * (Q * Q)) : Prop :=
  let '(x, y, (nx, ny)) := p in decimal fp x /\ decimal fp y /\ decimal fp nx /\ decimal fp ny.

(* portals: the ones that move with velocity v are bounded by b > 0, the ones that do not come first *)
Definition portals2_ok {P} (fp : fpmode) (plane_ok : P -> Prop) (bounds_ok : Q -> Prop)
  (l : list (P * P * (Q * Q))) : Prop :=
  Forall (fun p => plane_ok (fst (fst p)) /\ plane_ok (snd (fst p))) l /\
  (2 * Z.of_nat (length l) <= 2 ^ 32)%Z /\
  exists still moving, l = still ++ moving /\
    Forall (fun p => snd p = (0%Q, 0%Q)) still /\
    Forall (fun p => decimal fp (fst (snd p)) /\ decimal fp (snd (snd p)) /\ bounds_ok (snd (snd p))) moving.

Definition ball_ok (fp : fpmode) (b : ball) : Prop :=
  loose fp (fst (b_x b)) /\ loose fp (snd (b_x b)) /\ loose fp (fst (b_v b)) /\ loose fp (snd (b_v b)) /\
  loose fp (b_m b) /\ loose fp (b_r b).

Record ball_scene_ok (fp : fpmode) (bd : build) (sc : ball_scene) : Prop := {
  ok_end : match bs_end sc with None => True | Some t => decimal fp t /\ (0 < t)%Q end;
  ok_forces : Forall (ball_force_ok fp) (bs_forces sc) /\
    exists g p, bs_forces sc = g ++ p /\ Forall (fun f => is_gravity f = true) g /\
                Forall (fun f => is_gravity f = false) p;
  ok_dt : parse_rational (bs_dt_text sc) = Ok (Some (bs_dt sc)) /\ (0 < num (bs_dt sc))%Z;
  ok_response : ball_response_ok fp bd (bs_response sc);
  ok_drums : Forall (fun d => loose fp (fst (fst d)) /\ loose fp (snd (fst d)) /\ loose fp (snd d)) (bs_drums sc);
  ok_planes : Forall (plane2_ok fp) (bs_planes sc);
  ok_portals : portals2_ok fp (plane2_ok fp) (fun b => 0 < b)%Q (bs_portals sc);
  ok_balls : exists balls, Forall (ball_ok fp) balls /\
    bs_q sc = flat_map (fun b => [fst (b_x b); snd (b_x b)]) balls /\
    bs_v sc = flat_map (fun b => [fst (b_v b); snd (b_v b)]) balls /\
    bs_m sc = flat_map (fun b => [b_m b; b_m b]) balls /\
    bs_r sc = map b_r balls /\ bs_fixed sc = map b_fixed balls }.

(* ---------------------------------------------------------------- what a file says *)
(* position i of the list holds the number that attribute a of the element stands for *)
Definition holds (fp : fpmode) (nd : node) (a : str) (l : list Q) (i : nat) : Prop :=
  exists t x, first_attribute nd a = Some t /\ unchecked (read_scalar fp t) = Ok x /\ nth_error l i = Some x.
(* attribute a of the element is the index i *)
Definition names (nd : node) (a : str) (i : nat) : Prop :=
  exists t, first_attribute nd a = Some t /\ checked (read_unsigned 32 t) = Some (Z.of_nat i).
(* attribute a of the element is two numbers *)
Definition pair_text (fp : fpmode) (nd : node) (a : str) (p : Q * Q) : Prop :=
  exists t, first_attribute nd a = Some t /\ read_scalars fp t = [fst p; snd p].

(* nothing but white space *)
Definition blank (t : str) : Prop := Forall (fun c => isspace c = true) t.
(* the attributes of each element that are read without looking at the result *)
Definition loose_attributes (e : str) : list str :=
  if seqb e "ball" then map lit ["x"; "y"; "vx"; "vy"; "m"; "r"; "fixed"]
  else if seqb e "static_drum" then map lit ["x"; "y"; "r"]
  else if seqb e "gravity" then map lit ["fx"; "fy"] else [].
(* the caching option of the So-bogus solver *)
Definition caching_word (t : str) : Prop := t = lit "none" \/ t = lit "normal" \/ t = lit "normal_and_friction".
Definition bad_caching (n : node) : Prop := exists t, first_attribute n "cache_impulses" = Some t /\
  (~ caching_word t \/ t <> lit "none" /\ first_attribute n "staggering" = Some (lit "stabilized")).

(* ---------------------------------------------------------------- numbers in text *)
(* [white space] [sign] D [. F] [e [sign] E] *)
Inductive exponent := NoExp | Exp (c : ascii) (sg : sign) (E : str).
Definition exp_text (e : exponent) : str := match e with NoExp => [] | Exp c sg E => c :: sign_str sg ++ E end.
Definition exp_value (e : exponent) : Z := match e with NoExp => 0 | Exp _ sg E => sign_app sg (digits_val E) end.
Definition fraction_text (F : option str) : str := match F with None => [] | Some f => "."%char :: f end.
Definition fraction_digits (F : option str) : str := match F with None => [] | Some f => f end.
Definition exp_ok (e : exponent) : Prop :=
  match e with NoExp => True | Exp c _ E => (c = "e"%char \/ c = "E"%char) /\ all_digits E /\ E <> [] end.
(* what follows cannot be taken for more of the number *)
Definition stops (F : option str) (e : exponent) (rest : str) : Prop :=
  match rest with
  | [] => True
  | c :: _ => is_digit c = false /\ (e = NoExp -> c <> "e"%char /\ c <> "E"%char /\ (F = None -> c <> "."%char))
  end.
