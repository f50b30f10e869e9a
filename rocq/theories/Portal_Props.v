(* C23, C24, C25, C50: portals and the contacts across them. *)
From Coq Require Import List NArith ZArith Reals Lia Lra Bool Sorting.Sorted.
From Verif Require Import Outcome Grid_Model Ccd_Model Ccd_Proofs Cache_Model Cache_Thms ContactBall_Model Lin_Model
  Portal_Model Portal_Spec Portal_Proofs Portal_Thms Portal_Active Portal_Runs Portal_Ex.
Import ListNotations.
Open Scope R_scope.

(* ============ C23 ============ *)
(* A fixed portal, on hardware that turns any double into some int: a point at signed distance h in front of plane A and s
   along it comes out at -h in front of plane B and -s along it; distances are kept; coming back gives the point. The same
   for plane B. *)
Theorem C23_fixed : forall conv a b x, always_answers conv -> unit_plane a -> unit_plane b ->
  let p := fixed_portal2 a b in
  (exists y, through2_a conv p x = Ok y /\ height b y = - height a x /\ along b y = - along a x /\ through2_b conv p y = Ok x) /\
  (exists y, through2_b conv p x = Ok y /\ height a y = - height b x /\ along a y = - along b x /\ through2_a conv p y = Ok x) /\
  (forall x' y y', through2_a conv p x = Ok y -> through2_a conv p x' = Ok y' -> sqdist y y' = sqdist x x') /\
  (forall x' y y', through2_b conv p x = Ok y -> through2_b conv p x' = Ok y' -> sqdist y y' = sqdist x x').
Proof.
  intros conv a b x A Ua Ub p. split; [|split; [|split]].
  - destruct (fixed_through conv a b x A Ua Ub) as (y & E & H & S). exists y. repeat split; auto.
    pose proof (fixed_round conv a b x A Ua Ub) as K. rewrite E in K. exact K.
  - destruct (fixed_through conv b a x A Ub Ua) as (y & E & H & S). exists y. repeat split; auto.
    pose proof (fixed_round conv b a x A Ub Ua) as K. rewrite E in K. exact K.
  - intros x' y y'. apply (fixed_isometry conv a b x x' y y' Ua Ub).
  - intros x' y y'. apply (fixed_isometry conv b a x x' y y' Ub Ua).
Qed.
Print Assumptions C23_fixed.

(* By the letter of the C++ standard every fixed portal is undefined behaviour: 0/0 is converted to int. *)
Theorem C23_fixed_defined_refuted : forall a b x,
  through2_a strict (fixed_portal2 a b) x = UB /\ through2_b strict (fixed_portal2 a b) x = UB.
Proof. intros a b x. split; apply fixed_undefined. Qed.
Print Assumptions C23_fixed_defined_refuted.

(* A sliding portal with bounds b > 0 and displacement dx, with any correct conversion to int: depth is mirrored, the position
   along the other plane is dx - s up to a whole number of periods 2 b, and lies in [-b, b). *)
Theorem C23_sliding : forall conv p x, int_conversion conv -> unit_plane (po_a p) -> unit_plane (po_b p) ->
  0 < po_bounds p -> Rabs (po_dx p - along (po_a p) x) <= 4294967294 * po_bounds p ->
  exists y k, through2_a conv p x = Ok y /\ height (po_b p) y = - height (po_a p) x /\
    along (po_b p) y = po_dx p - along (po_a p) x - 2 * IZR k * po_bounds p /\ - po_bounds p <= along (po_b p) y < po_bounds p.
Proof. intros conv p x C A B. exact (sliding_through conv (po_a p) (po_b p) (po_bounds p) (po_dx p) x C A B). Qed.
Theorem C23_sliding_b : forall conv p x, int_conversion conv -> unit_plane (po_a p) -> unit_plane (po_b p) ->
  0 < po_bounds p -> Rabs (po_dx p - along (po_b p) x) <= 4294967294 * po_bounds p ->
  exists y k, through2_b conv p x = Ok y /\ height (po_a p) y = - height (po_b p) x /\
    along (po_a p) y = po_dx p - along (po_b p) x - 2 * IZR k * po_bounds p /\ - po_bounds p <= along (po_a p) y < po_bounds p.
Proof. intros conv p x C A B. exact (sliding_through conv (po_b p) (po_a p) (po_bounds p) (po_dx p) x C B A). Qed.
Print Assumptions C23_sliding.
Print Assumptions C23_sliding_b.

(* Going through and back returns to the start up to whole periods, and exactly when the start lies in [-b, b). *)
Theorem C23_sliding_round_trip : forall conv p x, int_conversion conv -> unit_plane (po_a p) -> unit_plane (po_b p) ->
  0 < po_bounds p -> - po_bounds p <= po_dx p <= po_bounds p -> Rabs (po_dx p - along (po_a p) x) <= 4294967294 * po_bounds p ->
  exists y z k, through2_a conv p x = Ok y /\ through2_b conv p y = Ok z /\
    height (po_a p) z = height (po_a p) x /\ along (po_a p) z = along (po_a p) x + 2 * IZR k * po_bounds p /\
    (- po_bounds p <= along (po_a p) x < po_bounds p -> z = x).
Proof.
  intros conv p x C A B Hb Hd Hx.
  destruct (sliding_round conv _ _ _ _ x C A B Hb Hd Hx) as (z & k & E & H & S & _).
  apply obind_Ok_inv in E as (y & Ey & Ez). exists y, z, k. repeat split; auto.
  intros In. pose proof (sliding_round_exact conv _ _ _ _ x C A B Hb Hd In) as K. rewrite Ey in K. cbn [obind] in K.
  unfold through2_b in *. rewrite Ez in K. now injection K.
Qed.
Print Assumptions C23_sliding_round_trip.

(* Distances between two points sent through the same plane are kept up to whole periods. *)
Theorem C23_sliding_distance : forall conv p x x' y y', unit_plane (po_a p) -> unit_plane (po_b p) ->
  through2_a conv p x = Ok y -> through2_a conv p x' = Ok y' ->
  exists k, sqdist (vadd y (vscale (2 * IZR k * po_bounds p) (p_t (po_b p)))) y' = sqdist x x'.
Proof. intros conv p x x' y y' A B. exact (sliding_distance conv _ _ _ _ x x' y y' A B). Qed.
Print Assumptions C23_sliding_distance.

(* The velocity given to a body that crosses a plane is the velocity of its image: while the portal slides from dx to
   dx + h v and the body moves by h u, its image moves by h (u + kick), up to whole periods. *)
Theorem C23_velocity_of_image : forall conv p w h x u y y', facing (po_a p) (po_b p) w ->
  let p' := mkPortal2 (po_a p) (po_b p) (po_v p) (po_bounds p) (po_dx p + h * po_v p) in
  through2_a conv p x = Ok y -> through2_a conv p' (vadd x (vscale h u)) = Ok y' -> height (po_a p) x < 0 ->
  exists k, y' = vadd (vadd y (vscale h (vadd u (kick_of_point p x)))) (vscale (2 * IZR k * po_bounds p) (p_t (po_a p))).
Proof.
  intros conv p w h x u y y' F p' E E' H. unfold kick_of_point. destruct (behind2_spec (po_a p) x); [|contradiction].
  exact (facing_kick conv _ _ _ _ _ _ _ _ _ _ _ F E E').
Qed.
Print Assumptions C23_velocity_of_image.

(* Enforcing periodic boundary conditions. Any number of fixed portals whose planes face each other and which do not disturb
   one another (a torus): every body ends between all planes, moved by at most one period per portal, keeping its velocity;
   a body that was inside is not moved. *)
Theorem C23_enforce_torus : forall conv ps bodies, always_answers conv ->
  Forall fixed_facing ps -> ForallOrdPairs (fun p q => independent p q /\ independent q p) ps ->
  Forall (fun xv => Forall (fun p => within_one p (fst xv)) ps) bodies ->
  exists out, enforce2 conv ps bodies = Ok out /\
    Forall2 (fun xv yv => snd yv = snd xv /\ Forall (fun p => between p (fst yv)) ps /\
      shifted_by ps (fst xv) (fst yv) /\ (Forall (fun p => between p (fst xv)) ps -> fst yv = fst xv)) bodies out.
Proof. exact enforce_fixed. Qed.
Print Assumptions C23_enforce_torus.

(* One sliding portal and one body. *)
Theorem C23_enforce_sliding : forall conv p w x v, int_conversion conv -> facing (po_a p) (po_b p) w -> 0 < po_bounds p ->
  Rabs (po_dx p) <= po_bounds p -> Rabs (along (po_a p) x) <= 1000000000 * po_bounds p ->
  Rabs (along (po_b p) x) <= 1000000000 * po_bounds p -> - w <= height (po_a p) x <= 2 * w ->
  exists y u, enforce2 conv [p] [(x, v)] = Ok [(y, u)] /\ 0 <= height (po_a p) y <= w /\ 0 <= height (po_b p) y <= w /\
    (0 <= height (po_a p) x <= w -> y = x /\ u = v) /\
    (height (po_a p) x < 0 -> through2_a conv p x = Ok y /\ - po_bounds p <= along (po_b p) y < po_bounds p /\
       u = vadd v (vscale (- po_v p) (p_t (po_a p)))) /\
    (w < height (po_a p) x -> through2_b conv p x = Ok y /\ - po_bounds p <= along (po_a p) y < po_bounds p /\
       u = vadd v (vscale (- po_v p) (p_t (po_b p)))).
Proof.
  intros conv p w x v C F Hb Hd Ha Hb' Hw.
  destruct (enforce_body_sliding conv p w x v C F Hb Hd Ha Hb' Hw) as (y & u & E & R). exists y, u. split; [|exact R].
  unfold enforce2. cbn [ofold omapM]. rewrite E. reflexivity.
Qed.
Print Assumptions C23_enforce_sliding.

(* For planes that do not face each other the position is turned but the velocity is not: a body that falls through the floor
   comes out of the wall still falling. *)
Theorem C23_velocity_turned_refuted : exists a b x v y, unit_plane a /\ unit_plane b /\ height a x < 0 /\
  enforce2 hardware [fixed_portal2 a b] [(x, v)] = Ok [(y, v)] /\ height b y = - height a x /\
  vdot (p_n b) v <> - vdot (p_n a) v.
Proof.
  exists floor2, left_wall, (3, -1), (0, -1), (1, 3).
  unfold unit_plane, floor2, left_wall. vcalc. repeat split; try lra.
  unfold enforce2. cbn [ofold omapM]. unfold enforce2_body, in_portal2, teleport_inside2. cbn [fst snd po_a po_b fixed_portal2].
  destruct (behind2_spec (mkPlane2 (0, 0) (0, 1) (- (1), 0)) (3, -1)) as [H|H]; [|exfalso; apply H; vcalc; lra].
  cbn [orb]. unfold through2_a, through2, fixed_portal2, ddiv. cbn [po_a po_b po_bounds po_dx p_x p_n p_t].
  destruct (Req_EM_T (2 * 0) 0); [|lra]. cbn [hardware obind].
  unfold lees_edwards. cbn [po_v]. unfold Reqb. destruct (Req_EM_T 0 0); [|lra]. cbn [negb obind].
  do 3 f_equal. apply veq; vcalc; lra.
Qed.
Print Assumptions C23_velocity_turned_refuted.

(* Bodies are matched with portals by their boxes: the test says yes exactly when the box reaches the plane or behind. *)
Theorem C23_box_test2 : forall lo up p, fst lo <= fst up -> snd lo <= snd up ->
  (aabb_in2 lo up p = true <-> exists x, fst lo <= fst x <= fst up /\ snd lo <= snd x <= snd up /\ height p x <= 0).
Proof. exact aabb_in2_iff. Qed.
Print Assumptions C23_box_test2.
Theorem C23_box_test3 : forall lo up p, c0 lo <= c0 up -> c1 lo <= c1 up -> c2 lo <= c2 up ->
  (aabb_in3 lo up p = true <->
   exists x, c0 lo <= c0 x <= c0 up /\ c1 lo <= c1 x <= c1 up /\ c2 lo <= c2 x <= c2 up /\ height3 p x <= 0).
Proof. exact aabb_in3_iff. Qed.
Print Assumptions C23_box_test3.

(* In space: distances are kept, coming back through the other plane gives the point, and the depth is mirrored unless the
   portal was given a normal multiplier of -1. *)
Theorem C23_space : forall p x y, unit_plane3 (pt_a p) -> unit_plane3 (pt_b p) -> signs (pt_mult p) ->
  height3 (pt_b p) (through3_a p x) = - IZR (fst (fst (pt_mult p))) * height3 (pt_a p) x /\
  height3 (pt_a p) (through3_b p x) = - IZR (fst (fst (pt_mult p))) * height3 (pt_b p) x /\
  through3_b p (through3_a p x) = x /\ through3_a p (through3_b p x) = x /\
  sqdist3 (through3_a p x) (through3_a p y) = sqdist3 x y /\ sqdist3 (through3_b p x) (through3_b p y) = sqdist3 x y.
Proof.
  intros p x y A B S. destruct (through3_spec (pt_a p) (pt_b p) (pt_mult p) x A B S) as (H1 & H2 & H3).
  destruct (through3_spec (pt_b p) (pt_a p) (pt_mult p) x B A S) as (K1 & K2 & K3).
  unfold through3_a, through3_b. repeat split; auto.
Qed.
Print Assumptions C23_space.

Theorem C23_enforce_space : forall p w x, unit_plane3 (pt_a p) -> unit_plane3 (pt_b p) -> signs (pt_mult p) ->
  fst (fst (pt_mult p)) = 1%Z -> q_n (pt_b p) = neg3 (q_n (pt_a p)) -> height3 (pt_a p) (q_x (pt_b p)) = w -> 0 < w ->
  - w <= height3 (pt_a p) x <= 2 * w ->
  exists y, enforce3 [p] [x] = [y] /\ 0 <= height3 (pt_a p) y <= w /\ 0 <= height3 (pt_b p) y <= w /\
    (0 <= height3 (pt_a p) x <= w -> y = x).
Proof. exact enforce3_one. Qed.
Print Assumptions C23_enforce_space.

(* With a normal multiplier of -1 a body behind one plane is put behind the other. *)
Theorem C23_flipped_normal_refuted : forall a b m1 m2 x, unit_plane3 a -> unit_plane3 b -> signs (-1, m1, m2)%Z ->
  height3 a x < 0 -> exists y, enforce3 [mkPortal3 a b (-1, m1, m2)%Z] [x] = [y] /\ height3 b y < 0.
Proof.
  intros a b m1 m2 x A B S H. cbn [enforce3 fold_left map]. unfold in_portal3, teleport_inside3. cbn [pt_a pt_b].
  change (depth3 a x) with (height3 a x). destruct (Rltb_spec (height3 a x) 0) as [_|N]; [|lra]. cbn [orb].
  eexists. split; [reflexivity|]. destruct (through3_spec a b (-1, m1, m2)%Z x A B S) as (K & _).
  unfold through3_a. cbn [pt_a pt_b pt_mult]. cbn [fst] in K. rewrite K. lra.
Qed.
Print Assumptions C23_flipped_normal_refuted.

(* non-vacuity: a floor and a ceiling; the torus of side 10 with a ball that left it at a corner; a sheared channel *)
Example C23_facing : facing floor2 (ceiling 10) 10.
Proof. apply floor_ceiling. lra. Qed.
Example C23_torus_case :
  let ps := [fixed_portal2 floor2 (ceiling 10); fixed_portal2 left_wall (right_wall 10)] in
  Forall fixed_facing ps /\ ForallOrdPairs (fun p q => independent p q /\ independent q p) ps /\
  Forall (fun xv => Forall (fun p => within_one p (fst xv)) ps) [((-1, 12), (3, 4)) : vec * vec].
Proof. exact torus_example. Qed.
Example C23_sliding_case : let p := mkPortal2 floor2 (ceiling 10) 2 5 (-3) in
  int_conversion strict /\ facing (po_a p) (po_b p) 10 /\ 0 < po_bounds p /\ Rabs (po_dx p) <= po_bounds p /\
  Rabs (along (po_a p) (17, -1)) <= 1000000000 * po_bounds p /\ Rabs (along (po_b p) (17, -1)) <= 1000000000 * po_bounds p /\
  height (po_a p) (17, -1) = -1.
Proof.
  cbv zeta. split; [exact strict_conv|]. cbn [po_a po_b po_bounds po_dx]. split; [apply floor_ceiling; lra|].
  unfold floor2, ceiling. vcalc. repeat split; try lra; apply Rabs_le; lra.
Qed.
Example C23_space_case : let p := mkPortal3 floor3 (ceiling3 10) (1, 1, -1)%Z in
  unit_plane3 (pt_a p) /\ unit_plane3 (pt_b p) /\ q_n (pt_b p) = neg3 (q_n (pt_a p)) /\ height3 (pt_a p) (q_x (pt_b p)) = 10 /\
  signs (pt_mult p) /\ height3 (pt_a p) (V3 1 (-2) 3) = -2.
Proof.
  cbv zeta. cbn [pt_a pt_b pt_mult]. destruct (floor_ceiling3 10) as (A & B & C & D); [lra|]. repeat split; auto; cbn [sign signs].
  - now left. - now left. - now right. - unfold height3, floor3, dot3, sub3. cbn [q_n q_x c0 c1 c2]. lra.
Qed.

(* ============ C24 ============ *)
(* At time t the displacement is v t up to a whole number of periods, within [-bounds, bounds); the planes, the speed and the
   bounds do not change. *)
Theorem C24_update : forall conv p t, int_conversion conv -> 0 < po_bounds p -> Rabs (po_v p * t) <= 4294967294 * po_bounds p ->
  exists q k, update_portal conv p t = Ok q /\
    po_a q = po_a p /\ po_b q = po_b p /\ po_v q = po_v p /\ po_bounds q = po_bounds p /\
    po_dx q = po_v p * t - 2 * IZR k * po_bounds p /\ - po_bounds p <= po_dx q < po_bounds p.
Proof. exact update_Ok. Qed.
Print Assumptions C24_update.

(* Whatever updates came before, the result depends on the time alone. *)
Theorem C24_history : forall conv times p t q, ofold (fun q t => update_portal conv q t) times p = Ok q ->
  update_portal conv q t = update_portal conv p t.
Proof. exact update_history. Qed.
Print Assumptions C24_history.

(* The start-of-step hook updates every portal to time iteration * dt. *)
Theorem C24_all_portals : forall conv ps n dt out, update_portals conv ps n dt = Ok out ->
  Forall2 (fun p q => update_portal conv p (INR n * dt) = Ok q) ps out.
Proof.
  intros conv ps n dt. unfold update_portals. induction ps as [|p ps IH]; intros out E; cbn [omapM] in E.
  - injection E as <-. constructor.
  - apply obind_Ok_inv in E as (q & Eq & E). apply obind_Ok_inv in E as (qs & Eqs & E). injection E as <-.
    constructor; [exact Eq|]. now apply IH.
Qed.
Print Assumptions C24_all_portals.

(* Not defined without bounds (every fixed portal), nor when the displacement exceeds 2^31 periods. *)
Theorem C24_unbounded_refuted : forall p t, po_bounds p = 0 -> update_portal strict p t = UB.
Proof. exact update_undefined. Qed.
Theorem C24_too_late_refuted : forall p t, 0 < po_bounds p -> 4294967296 * po_bounds p <= po_v p * t -> update_portal strict p t = UB.
Proof. exact update_too_late. Qed.
Print Assumptions C24_unbounded_refuted.
Print Assumptions C24_too_late_refuted.

Example C24_case : let p := sliding_portal2 floor2 (ceiling 10) 2 5 in
  int_conversion strict /\ 0 < po_bounds p /\ Rabs (po_v p * 8) <= 4294967294 * po_bounds p.
Proof. cbv zeta. split; [exact strict_conv|]. cbn [po_bounds po_v sliding_portal2]. split; [lra|]. apply Rabs_le. lra. Qed.

(* ============ C25 ============ *)
(* A contact across portals does not depend on which body is named first. *)
Theorem C25_symmetric : forall b0 b1 p0 p1 s0 s1, b0 <> b1 ->
  ball_tcoll b1 b0 p1 p0 s1 s0 = ball_tcoll b0 b1 p0 p1 s0 s1 /\
  rb_tcoll b1 b0 p1 p0 s1 s0 = rb_tcoll b0 b1 p0 p1 s0 s1 /\
  t_b0 (ball_tcoll b0 b1 p0 p1 s0 s1) = N.min b0 b1 /\ t_b1 (ball_tcoll b0 b1 p0 p1 s0 s1) = N.max b0 b1 /\
  rb_tcoll b0 b1 p0 p1 s0 s1 = ball_tcoll b0 b1 p0 p1 s0 s1.
Proof.
  intros. unfold ball_tcoll, rb_tcoll. destruct (N.ltb_spec b0 b1); destruct (N.ltb_spec b1 b0); try lia; cbn [t_b0 t_b1];
    repeat split; lia.
Qed.
Print Assumptions C25_symmetric.

(* The order is a strict weak order; two contacts are equivalent exactly when they join the same bodies. *)
Theorem C25_order : forall a b c,
  tcoll_ltb a a = false /\ (tcoll_ltb a b = true -> tcoll_ltb b c = true -> tcoll_ltb a c = true) /\
  (tcoll_ltb a b = true -> tcoll_ltb b a = false) /\ (tcoll_ltb a b = false /\ tcoll_ltb b a = false <-> same_bodies a b).
Proof.
  intros a b c. split; [apply tcoll_ltb_false; lia|]. split; [apply tcoll_lt_trans|]. split; [|apply tcoll_incomparable].
  rewrite tcoll_ltb_iff, tcoll_ltb_false. lia.
Qed.
Print Assumptions C25_order.

(* Inserting contacts one after another keeps, for every pair of bodies, exactly the first one found, in order. *)
Theorem C25_first_per_pair : forall l, let s := fold_left (fun s c => tinsert c s) l [] in
  StronglySorted (fun a b => tcoll_ltb a b = true) s /\ (forall c, In c s <-> first_with_bodies l c) /\
  (forall c d, In c s -> In d s -> same_bodies c d -> c = d) /\
  (forall c, In c l -> exists d, In d s /\ same_bodies d c).
Proof.
  intros l s. destruct (tset_spec l) as [S I]. split; [exact S|]. split; [exact I|]. split; [apply (tset_once l)|].
  intros c Hc. destruct (first_exists l c Hc) as (d & F & B). exists d. split; [now apply I|exact B].
Qed.
Print Assumptions C25_first_per_pair.

(* So a second contact of the same two bodies, through another portal, is lost. *)
Theorem C25_second_portal_refuted : forall i j p q s t, (i < j)%N -> p <> q ->
  let c := ball_tcoll i j (Some p) None s false in let d := ball_tcoll i j (Some q) None t false in
  c <> d /\ fold_left (fun s c => tinsert c s) [c; d] [] = [c].
Proof.
  intros i j p q s t L N c d. unfold c, d, ball_tcoll. destruct (N.ltb_spec j i); [lia|]. split; [congruence|].
  cbn [fold_left tinsert]. unfold tcoll_ltb. cbn [t_b0 t_b1]. rewrite !N.ltb_irrefl, !N.eqb_refl. reflexivity.
Qed.
Print Assumptions C25_second_portal_refuted.

Example C25_case : fold_left (fun s c => tinsert c s)
  [ball_tcoll 3 1 (Some 0%N) None false false; ball_tcoll 2 5 None (Some 1%N) false true; ball_tcoll 1 3 None (Some 0%N) false true] [] =
  [mkT 1 3 None (Some 0%N) false false; mkT 2 5 None (Some 1%N) false true].
Proof. reflexivity. Qed.

(* ============ C50 ============ *)
(* The ball-ball contacts found by a simulation with portals. Pairs in direct contact are exactly the pairs of balls that
   touch. A contact across portals joins two balls that touch when at least one of them is looked at through a plane of a portal it
   reaches; every pair of balls that touch like that gets a contact - unless both are seen through portals and they also touch
   directly - and no pair gets two. *)
Theorem C50_contacts : forall conv ps bs direct tele,
  (N.of_nat (length bs) * (1 + N.of_nat (length ps)) <= 4294967296)%N -> Forall (fun b => 0 <= snd b) bs ->
  active_with_portals conv ps bs = Ok (direct, tele) ->
  (forall i j, In (i, j) direct -> (i <= j)%N) /\
  (forall i j, (i < j)%N -> (In (i, j) direct <-> exists x0 r0 x1 r1,
     nth_error bs (N.to_nat i) = Some (x0, r0) /\ nth_error bs (N.to_nat j) = Some (x1, r1) /\ touching x0 x1 r0 r1)) /\
  (forall c, In c tele -> (t_b0 c <= t_b1 c)%N /\ (t_p0 c <> None \/ t_p1 c <> None) /\
     exists y0 y1 r0 r1, seen_at conv ps bs (t_b0 c) (t_p0 c) (t_s0 c) y0 /\ seen_at conv ps bs (t_b1 c) (t_p1 c) (t_s1 c) y1 /\
       radius_of bs (t_b0 c) r0 /\ radius_of bs (t_b1 c) r1 /\ touching y0 y1 r0 r1) /\
  (forall i p s y ri j q t z rj xi xj, seen_at conv ps bs i p s y -> seen_at conv ps bs j q t z ->
     nth_error bs (N.to_nat i) = Some (xi, ri) -> nth_error bs (N.to_nat j) = Some (xj, rj) ->
     (i, p, s) <> (j, q, t) -> (p <> None \/ q <> None) -> touching y z ri rj ->
     (p <> None -> q <> None -> ~ touching xi xj ri rj) ->
     exists c, In c tele /\ t_b0 c = N.min i j /\ t_b1 c = N.max i j) /\
  (forall c d, In c tele -> In d tele -> same_bodies c d -> c = d).
Proof.
  intros conv ps bs direct tele Len W E. split; [|exact (active_portals conv ps bs direct tele Len W E)].
  intros i j. exact (active_ordered conv ps bs direct tele i j Len E).
Qed.
Print Assumptions C50_contacts.

(* The search finishes: no ball may touch both planes of one portal (the program exits), and the arena may not be more than
   about 2^31 times larger than the smallest ball. *)
Theorem C50_finishes : forall conv, always_answers conv -> forall ps bs M m,
  (N.of_nat (length bs) * (1 + N.of_nat (length ps)) <= 4294967296)%N -> bs <> [] ->
  (forall x r, In (x, r) bs -> m <= r) -> 0 < m -> 2 * M + 1 < 4294967000 * m ->
  (forall p x r, In p ps -> In (x, r) bs -> ~ (touches_plane (po_a p) x r /\ touches_plane (po_b p) x r)) ->
  (forall i p s y r, seen_at conv ps bs i p s y -> radius_of bs i r -> Rabs (fst y) + r <= M /\ Rabs (snd y) + r <= M) ->
  exists direct tele, active_with_portals conv ps bs = Ok (direct, tele).
Proof. exact active_runs. Qed.
Print Assumptions C50_finishes.

(* The contact handed to the solver: its normal comes from the centres as seen through the portals at the start of the step,
   and its relative velocity is the difference of the velocities as seen through the portals - provided not both balls are
   seen through sliding portals. *)
Theorem C50_contact_velocity : forall conv ps bs0 bs1 direct tele c con v,
  active_with_portals conv ps bs1 = Ok (direct, tele) ->
  (N.of_nat (length bs1) * (1 + N.of_nat (length ps)) <= 4294967296)%N -> Forall (fun b => 0 <= snd b) bs1 ->
  map snd bs0 = map snd bs1 -> In c tele -> ~ (slides ps (t_p0 c) /\ slides ps (t_p1 c)) ->
  tele_contact conv ps bs0 bs1 c = Ok con ->
  let i := N.to_nat (t_b0 c) in let j := N.to_nat (t_b1 c) in
  b_bodies con = (i, Some j) /\
  b_relvel con v = vsub (seen_velocity ps (t_p0 c) (t_s0 c) (seg2 v (2 * i))) (seen_velocity ps (t_p1 c) (t_s1 c) (seg2 v (2 * j))) /\
  exists x0 x1 y0 y1, nth_error (map fst bs0) i = Some x0 /\ nth_error (map fst bs0) j = Some x1 /\
    centre conv ps x0 (t_p0 c) (t_s0 c) = Ok y0 /\ centre conv ps x1 (t_p1 c) (t_s1 c) = Ok y1 /\
    b_normal con = vnormalized (vsub y0 y1).
Proof. exact tele_contact_spec. Qed.
Print Assumptions C50_contact_velocity.

(* A ball whose image touches it is in contact with itself. *)
Theorem C50_self_contact_refuted : exists ps bs direct tele c, Forall fixed_facing ps /\ length bs = 1%nat /\
  active_with_portals hardware ps bs = Ok (direct, tele) /\ In c tele /\ t_b0 c = t_b1 c.
Proof.
  destruct self_contact as (d & t & c & E & I & B0 & B1). exists (hole 1.2), [((0, 0.1), 1)], d, t, c.
  split; [repeat constructor; apply fixed_facing_tb; lra|]. repeat split; auto. congruence.
Qed.
Print Assumptions C50_self_contact_refuted.

(* As soon as there is a portal, balls are only compared at the end of the step: a ball that passes right through another one
   during the step is missed, even far away from the portal. *)
Theorem C50_tunnelling_refuted : exists ps x0 x1 y r direct tele, Forall fixed_facing ps /\
  (exists t, 0 <= t <= 1 /\ touching (vadd x0 (vscale t (vsub x1 x0))) y r r) /\
  active_with_portals hardware ps [(x1, r); (y, r)] = Ok (direct, tele) /\ ~ In (0, 1)%N direct /\ tele = [].
Proof.
  destruct tunnelling as (d & t & E & N & T). exists (hole 10), (2, 5), (8, 5), (5, 5), 1, d, t.
  split; [repeat constructor; apply fixed_facing_tb; lra|]. split; [|auto]. exists 0.5. split; [lra|].
  unfold touching. apply sqrt_le_of; [lra|]. unfold sqdist. vcalc. lra.
Qed.
Print Assumptions C50_tunnelling_refuted.

(* two balls that touch only across the portal *)
Example C50_case : exists direct tele c, active_with_portals hardware (hole 2.5) two_balls = Ok (direct, tele) /\
  ~ In (0, 1)%N direct /\ In c tele /\ t_b0 c = 0%N /\ t_b1 c = 1%N.
Proof. exact two_balls_example. Qed.
