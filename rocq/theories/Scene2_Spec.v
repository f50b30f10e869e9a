(* Specification vocabulary for 2D rigid body scene files. *)
From Coq Require Import ZArith QArith Bool Ascii String List.
From Verif Require Import Outcome Str_Model Rational_Model RatParse_Model Scene_Text Scene_Model Scene_Spec Scene2_Model.
Import ListNotations.
Open Scope string_scope.
Open Scope list_scope.

(* a decimal number, or plus or minus infinity *)
Definition number (fp : fpmode) (e : ext) : Prop := match e with Fin q => decimal fp q | _ => True end.
Definition numbers2 (fp : fpmode) (p : ext * ext) : Prop := number fp (fst p) /\ number fp (snd p).
Definition ext_pos (e : ext) : Prop := match e with Fin q => (0 < q)%Q | PInf => True | NInf => False end.

Definition rb2_solver_ok (s : friction_solver) (m : friction_map) : Prop :=
  match s, m with
  | Sobogus e, Geometric _ k _ => (0 < e <= k)%Z
  | Sobogus e, Stabilized _ k => (0 < e <= k)%Z
  | _, _ => False
  end.
Definition rb2_response_ok (fp : fpmode) (bd : build) (r : response) : Prop :=
  match r with
  | NoResponse => True
  | Impact op cor cache => impact_ok fp bd false op /\ decimal fp cor /\ cache <> None
  | Friction s m mu cor => friction_coefficients fp mu cor /\ map_ok fp cor m /\ rb2_solver_ok s m
  end.

Definition shape2_ok (fp : fpmode) (s : shape2) : Prop :=
  match s with
  | Circle r => decimal fp r /\ (0 < r)%Q
  | Box rx ry => number fp rx /\ ext_pos rx /\ number fp ry /\ ext_pos ry
  end.
Definition plane_rb2_ok (ar : arith2) (p : plane_rb2) : Prop :=
  numbers2 ar (fst p) /\ numbers2 ar (snd p) /\ zero_norm ar (snd p) = false.
Definition camera_rb2_ok (fp : fpmode) (c : camera_rb2) : Prop :=
  numbers2 fp (rc_center c) /\ decimal fp (rc_scale c) /\ (0 < rc_scale c)%Q /\ iterations (rc_fps c).
Definition body2_ok (fp : fpmode) (ngeo : nat) (b : body2) : Prop :=
  numbers2 fp (r2_x b) /\ decimal fp (r2_theta b) /\ numbers2 fp (r2_v b) /\ decimal fp (r2_omega b) /\
  decimal fp (r2_rho b) /\ (0 < r2_rho b)%Q /\ (r2_geo b < ngeo)%nat /\ (Z.of_nat (r2_geo b) < 2 ^ 31)%Z.

Record rb2_scene_ok (ar : arith2) (bd : build) (sc : rb2_scene) : Prop := {
  ok2_end : match r2s_end sc with None => True | Some t => decimal ar t /\ (0 < t)%Q end;
  ok2_camera : match r2s_camera sc with None => True | Some c => camera_rb2_ok ar c end;
  ok2_dt : match r2s_integrator sc with
           | None => r2s_dt_text sc = lit "0" /\ r2s_dt sc = mkRat 0 1
           | Some _ => parse_rational (r2s_dt_text sc) = Ok (Some (r2s_dt sc)) /\ (0 < num (r2s_dt sc))%Z
           end;
  ok2_response : rb2_response_ok ar bd (r2s_response sc);
  ok2_gravity : Forall (numbers2 ar) (r2s_gravity sc);
  ok2_planes : Forall (plane_rb2_ok ar) (r2s_planes sc);
  ok2_portals : portals2_ok ar (plane_rb2_ok ar) (fun b => 0 <= b)%Q (r2s_portals sc);
  ok2_geometry : Forall (shape2_ok ar) (r2s_geometry sc);
  ok2_bodies : exists bodies, Forall (body2_ok ar (List.length (r2s_geometry sc))) bodies /\
    r2s_q sc = flat_map (fun b => [fst (r2_x b); snd (r2_x b); Fin (r2_theta b)]) bodies /\
    r2s_v sc = flat_map (fun b => [fst (r2_v b); snd (r2_v b); Fin (r2_omega b)]) bodies /\
    r2s_m sc = flat_map (fun b => match nth_error (r2s_geometry sc) (r2_geo b) with
                                  | Some s => let '(m, i) := shape_mass ar s (r2_rho b) in [m; m; i]
                                  | None => [] end) bodies /\
    r2s_geo sc = map r2_geo bodies /\ r2s_fixed sc = map r2_fixed bodies }.

(* ---------------------------------------------------------------- what a file says *)
(* attribute a of the element is two scalars with one space between, each a number, inf or -inf *)
Definition vec2_text (fp : fpmode) (nd : node) (a : str) (p : ext * ext) : Prop :=
  exists t1 t2, first_attribute nd a = Some (t1 ++ " "%char :: t2) /\ ~ In " "%char t1 /\ ~ In " "%char t2 /\
    read_ext fp t1 = Some (fst p) /\ read_ext fp t2 = Some (snd p).
Definition scalar_text (fp : fpmode) (nd : node) (a : str) (x : Q) : Prop :=
  exists t, first_attribute nd a = Some t /\ checked (read_scalar fp t) = Some x.
(* the attributes of each element that are read as vectors *)
Definition vector_attributes (e : str) : list str :=
  if seqb e "camera" then map lit ["center"]
  else if seqb e "static_plane" then map lit ["x"; "n"]
  else if seqb e "near_earth_gravity" then map lit ["f"]
  else if seqb e "geometry" then map lit ["r"]
  else if seqb e "rigid_body" then map lit ["x"; "v"] else [].
