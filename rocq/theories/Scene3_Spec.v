(* Specification vocabulary for 3D rigid body scene files. *)
From Coq Require Import ZArith QArith Bool Ascii String List Sorted.
From Verif Require Import Outcome Str_Model Rational_Model RatParse_Model Scene_Text Scene_Model Scene_Spec Scene2_Model Scene2_Spec Scene3_Model.
Import ListNotations.
Open Scope string_scope.
Open Scope list_scope.

Definition numbers3 (fp : fpmode) (p : ext3) : Prop := let '(x, y, z) := p in number fp x /\ number fp y /\ number fp z.
Definition decimals3 (fp : fpmode) (p : q3) : Prop := let '(x, y, z) := p in decimal fp x /\ decimal fp y /\ decimal fp z.
Definition pos3 (p : ext3) : Prop := let '(x, y, z) := p in ext_pos x /\ ext_pos y /\ ext_pos z.
Definition ext_nonneg (e : ext) : Prop := match e with Fin q => (0 <= q)%Q | PInf => True | NInf => False end.
Definition is_zero (e : ext) : Prop := match e with Fin q => (q == 0)%Q | _ => False end.
Definition below (a b : ext) : Prop :=
  match a, b with
  | Fin x, Fin y => (x < y)%Q
  | Fin _, PInf | NInf, Fin _ | NInf, PInf => True
  | _, _ => False
  end.
Definition below3 (a b : ext3) : Prop :=
  let '(x, y, z) := a in let '(x', y', z') := b in below x x' /\ below y y' /\ below z z'.

Definition view_ok (fp : fpmode) (v : view3) : Prop :=
  match v with
  | NoView => True
  | Perspective th ph rho la up => decimal fp th /\ decimal fp ph /\ decimal fp rho /\ (0 < rho)%Q /\ numbers3 fp la /\ numbers3 fp up
  | Orthographic p x s => In p (map lit ["xy"; "zy"; "zx"]) /\ numbers3 fp x /\ decimal fp s /\ (0 < s)%Q
  end.
Definition camera3_ok (fp : fpmode) (c : camera3) : Prop :=
  c = mkCam3 NoView 60 false false \/ (c3_view c <> NoView /\ view_ok fp (c3_view c) /\ (0 <= c3_fps c < 2 ^ 32)%Z).

Definition smooth_ok (fp : fpmode) (bd : build) (f : friction_op) : Prop :=
  match f with
  | MdpIpopt ws t => has_ipopt bd = true /\ ws <> [] /\ Forall word ws /\ tolerance fp t
  | MdpQl _ => False
  end.
Definition rb3_solver_ok (fp : fpmode) (bd : build) (s : friction_solver) (m : friction_map) (cor : Q) : Prop :=
  match s with
  | Staggered _ _ l f => lcp_ok fp bd false l /\ smooth_ok fp bd f /\ map_ok fp cor m /\
      match m with Geometric _ _ c => c = CacheNone | Stabilized _ _ => True | _ => False end
  | Sobogus e => (0 < e <= map_iterations m)%Z /\ map_ok fp cor m /\ match m with Geometric _ _ c => c = CacheNone | _ => True end
  | GrrFriction op f => impact_ok fp bd false op /\ smooth_ok fp bd f /\ (m = Geometric 0 0 CacheNone \/ m = Stabilized 0 0)
  end.
Definition rb3_response_ok (fp : fpmode) (bd : build) (r : response) : Prop :=
  match r with
  | NoResponse => True
  | Impact op cor cache => impact_ok fp bd false op /\ decimal fp cor /\ cache = None
  | Friction s m mu cor => friction_coefficients fp mu cor /\ rb3_solver_ok fp bd s m cor
  end.

Definition boundary_ok (fp : fpmode) (b : boundary3) : Prop :=
  numbers3 fp (bd_min b) /\ numbers3 fp (bd_max b) /\ below3 (bd_min b) (bd_max b).
Definition plane3_ok (fp : fpmode) (p : plane3) : Prop := numbers3 fp (fst p) /\ numbers3 fp (snd p).
Definition cylinder3_ok (fp : fpmode) (c : cylinder3) : Prop :=
  let '(x, a, r) := c in numbers3 fp x /\ numbers3 fp a /\ decimal fp r /\ (0 < r)%Q.
Definition shape3_ok (ar : arith3) (s : shape3) : Prop :=
  match s with
  | Sphere r => decimal ar r /\ (0 < r)%Q
  | Box3 r => numbers3 ar r /\ pos3 r
  | Staple w l d => decimal ar w /\ decimal ar l /\ decimal ar d /\ (0 < d)%Q /\ (d <= w)%Q /\ (d <= l)%Q
  | Mesh f => readable ar f = true
  end.
Definition body3_ok (fp : fpmode) (ngeo : nat) (b : body3) : Prop :=
  decimals3 fp (r3_x b) /\ decimals3 fp (r3_v b) /\ decimals3 fp (r3_omega b) /\ decimal fp (r3_rho b) /\
  (r3_geo b < ngeo)%nat /\ match r3_R b with None => True | Some r => numbers3 fp r end.

(* the half widths of a drawn plane *)
Definition width_ok (fp : fpmode) (r : ext * ext) : Prop :=
  numbers2 fp r /\ ext_nonneg (fst r) /\ ext_nonneg (snd r).
Definition no_width (r : ext * ext) : Prop := is_zero (fst r) /\ is_zero (snd r).
(* one side of a drawn portal: not drawn, or drawn with these half widths *)
Definition side_ok (fp : fpmode) (r : ext * ext) : Prop := r = (Fin 0, Fin 0) \/ width_ok fp r.
(* the half widths plane a is drawn with *)
Definition draws (rs : list (nat * (ext * ext))) (a : nat) (w : ext * ext) : Prop :=
  In (a, w) rs \/ (forall w', ~ In (a, w') rs) /\ w = (Fin 0, Fin 0).

Definition sign_unit (k : Z) : Prop := k = 1%Z \/ k = (-1)%Z.
Record drawn_ok (fp : fpmode) (d : drawn) : Prop := {
  okd_planes : Forall (plane3_ok fp) (dr_planes d);
  okd_portals : Forall (fun p => plane3_ok fp (fst (fst p)) /\ plane3_ok fp (snd (fst p)) /\
                                 let '(x, y, z) := snd p in sign_unit x /\ sign_unit y /\ sign_unit z) (dr_portals d);
  (* renderers come in the order of their planes; an index one past the last plane is let through *)
  okd_sorted : StronglySorted le (map fst (dr_plane_rend d));
  okd_rend : Forall (fun r => (fst r <= List.length (dr_planes d))%nat /\ width_ok fp (snd r)) (dr_plane_rend d);
  okd_psorted : StronglySorted lt (map fst (dr_portal_rend d));
  okd_prend : Forall (fun r => (fst r < List.length (dr_portals d))%nat /\
                               (side_ok fp (fst (snd r)) /\ side_ok fp (snd (snd r))) /\
                               ~ (no_width (fst (snd r)) /\ no_width (snd (snd r)))) (dr_portal_rend d) }.

Record rb3_scene_ok (ar : arith3) (bd : build) (sc : rb3_scene) : Prop := {
  ok3_end : match r3s_end sc with None => True | Some t => decimal ar t /\ (0 < t)%Q end;
  ok3_gravity : Forall (numbers3 ar) (r3s_gravity sc);
  ok3_camera : camera3_ok ar (r3s_camera sc);
  ok3_dt : parse_rational (r3s_dt_text sc) = Ok (Some (r3s_dt sc)) /\ (0 < num (r3s_dt sc))%Z;
  ok3_response : rb3_response_ok ar bd (r3s_response sc);
  ok3_boundary : match r3s_boundary sc with None => True | Some b => boundary_ok ar b end;
  ok3_cylinders : Forall (cylinder3_ok ar) (r3s_cylinders sc);
  ok3_crend : Forall (fun r => (fst r <= List.length (r3s_cylinders sc))%nat /\ decimal ar (snd r) /\ (0 <= snd r)%Q) (r3s_cylinder_rend sc);
  ok3_drawn : drawn_ok ar (r3s_drawn sc);
  ok3_geometry : Forall (shape3_ok ar) (r3s_geometry sc);
  ok3_bodies : exists bodies, Forall (body3_ok ar (List.length (r3s_geometry sc))) bodies /\
    let mo b := match nth_error (r3s_geometry sc) (r3_geo b) with
                | Some s => moment ar s (r3_rho b)
                | None => mkMoments 0 (0, 0, 0) (0, 0, 0) ((0, 0, 0), (0, 0, 0), (0, 0, 0)) end%Q in
    r3s_q sc = flat_map (fun b => entries3 (plus3 ar (r3_x b) (mo_CM (mo b)))) bodies ++
               flat_map (fun b => entries9 (turn ar (r3_R b) (mo_R (mo b)))) bodies /\
    r3s_v sc = flat_map (fun b => entries3 (r3_v b)) bodies ++ flat_map (fun b => entries3 (r3_omega b)) bodies /\
    r3s_M sc = map (fun b => mo_M (mo b)) bodies /\ r3s_I sc = map (fun b => mo_I (mo b)) bodies /\
    r3s_geo sc = map r3_geo bodies /\ r3s_fixed sc = map r3_fixed bodies }.

(* fewer than 2^31 planes, cylinders and geometries *)
Definition indexable (sc : rb3_scene) : Prop :=
  (Z.of_nat (List.length (dr_planes (r3s_drawn sc)) + 2 * List.length (dr_portals (r3s_drawn sc))) < 2 ^ 31 /\
   Z.of_nat (List.length (r3s_cylinders sc)) < 2 ^ 31 /\ Z.of_nat (List.length (r3s_geometry sc)) < 2 ^ 31)%Z.

(* ---------------------------------------------------------------- what a file says *)
(* attribute a of the element is three scalars with one space between, each a number, inf or -inf *)
Definition vec3_text (fp : fpmode) (nd : node) (a : str) (p : ext3) : Prop :=
  exists t1 t2 t3, first_attribute nd a = Some (t1 ++ " "%char :: t2 ++ " "%char :: t3) /\
    ~ In " "%char t1 /\ ~ In " "%char t2 /\ ~ In " "%char t3 /\
    let '(x, y, z) := p in read_ext fp t1 = Some x /\ read_ext fp t2 = Some y /\ read_ext fp t3 = Some z.
(* attribute a of the element is three numbers with white space between *)
Definition triple_text (fp : fpmode) (nd : node) (a : str) (p : q3) : Prop :=
  exists t, first_attribute nd a = Some t /\ read_scalars fp t = entries3 p.
(* attribute a of the element is the (64 bit) index i *)
Definition names64 (nd : node) (a : str) (i : nat) : Prop :=
  exists t, first_attribute nd a = Some t /\ checked (read_unsigned 64 t) = Some (Z.of_nat i).
(* a geometry index: counted from the front, or, when negative, from the end *)
Definition names_geometry (nd : node) (ngeo g : nat) : Prop :=
  exists t k, first_attribute nd "geo_idx" = Some t /\ checked (read_int t) = Some k /\
    (k = Z.of_nat g \/ k = Z.of_nat g - Z.of_nat ngeo)%Z.
Definition shape3_text (ar : arith3) (nd : node) (s : shape3) : Prop :=
  match s with
  | Sphere r => first_attribute nd "type" = Some (lit "sphere") /\ scalar_text ar nd "r" r
  | Box3 r => first_attribute nd "type" = Some (lit "box") /\ vec3_text ar nd "r" r
  | Staple w l d => first_attribute nd "type" = Some (lit "staple") /\ scalar_text ar nd "w" w /\ scalar_text ar nd "l" l /\ scalar_text ar nd "D" d
  | Mesh f => first_attribute nd "type" = Some (lit "mesh") /\ first_attribute nd "filename" = Some f
  end.
(* the attributes of each element that are read as vectors *)
Definition vector_attributes3 (e : str) : list str :=
  if seqb e "camera_perspective" then map lit ["lookat"; "up"]
  else if seqb e "camera_orthographic" then map lit ["x"]
  else if seqb e "simulation_boundary" then map lit ["min"; "max"]
  else if seqb e "static_plane" then map lit ["x"; "n"]
  else if seqb e "static_cylinder" then map lit ["x"; "axis"]
  else if seqb e "static_plane_renderer" then map lit ["r"]
  else if seqb e "planar_portal" then map lit ["multiplier"]
  else if seqb e "near_earth_gravity" then map lit ["f"]
  else if seqb e "geometry" then map lit ["r"]
  else if seqb e "rigid_body_with_density" then map lit ["R"] else [].
