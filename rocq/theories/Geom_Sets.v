(* The points of the bodies of the model of the two simulators. *)
From Coq Require Import List Reals.
From Verif Require Import Ccd_Model Lin_Model ContactRb3_Model Rot_Model Rot_Spec Geom_Model Geom_Spec.
Import ListNotations.
Open Scope R_scope.

Definition body2_points (b : body2) (p : vec) : Prop :=
  match b2_shape b with
  | Circle2 r => in_disc (b2_x b) r p
  | Box2 r => in_box2 (b2_x b) (b2_theta b) r p
  end.
Definition body2_valid (b : body2) : Prop :=
  match b2_shape b with
  | Circle2 r => 0 <= r
  | Box2 r => 0 <= fst r /\ 0 <= snd r
  end.

(* a point v of a body placed at x with orientation M *)
Definition placed (x : v3) (M : m3) (S : v3 -> Prop) (p : v3) : Prop := exists v, S v /\ p = add3 x (mul3 M v).
Definition body3_points (b : body3) (p : v3) : Prop :=
  match b3_shape b with
  | Box3 w => in_box3 (b3_x b) (b3_R b) w p
  | Sphere3 r => in_ball3 (b3_x b) r p
  | Staple3 s => in_staple (st_w s) (st_l s) (st_r s) (b3_x b) (b3_R b) p
  | Mesh3 vs => placed (b3_x b) (b3_R b) (hull vs) p
  end.
(* everything but a staple *)
Definition body3_valid (b : body3) : Prop :=
  rotation (b3_R b) /\
  match b3_shape b with
  | Box3 w => 0 <= c0 w /\ 0 <= c1 w /\ 0 <= c2 w
  | Sphere3 r => 0 <= r
  | Staple3 _ => False
  | Mesh3 _ => True
  end.
(* the circle on its way from x0 to x1 *)
Definition swept_disc (x0 x1 : vec) (r : R) (p : vec) : Prop :=
  exists s, 0 <= s <= 1 /\ in_disc (vadd x0 (vscale s (vsub x1 x0))) r p.
(* the box b with every side moved out by r *)
Definition widened (b : v3 * v3) (r : R) : v3 * v3 := (sub3 (fst b) (V3 r r r), add3 (snd b) (V3 r r r)).
