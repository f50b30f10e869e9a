(* C62: what the 3D rigid body scene parser accepts, and what a loaded scene holds. *)
From Coq Require Import ZArith NArith QArith Bool Ascii String List Lia ZifyBool ZifyNat ZifyN Permutation.
From Verif Require Import Outcome Str_Model Str_Spec Rational_Model RatParse_Model Scene_Text Scene_Model Scene_Spec Scene_TextProofs Scene_Proofs Scene_Write Scene_Thms Scene2_Model Scene2_Spec Scene2_Proofs Scene3_Model Scene3_Spec Scene3_Rend Scene3_Proofs Scene3_Thms.
From Verif Require State_Spec State_Proofs.
Import ListNotations.
Open Scope string_scope.
Open Scope list_scope.

(* C62. The scenes that can come out of the parser are exactly the ones whose settings are in range. *)
Theorem C62_accepted_scenes : forall ar bd sc, indexable sc ->
  ((exists doc, parse_rb3 ar bd doc = Ok (Some sc)) <-> rb3_scene_ok ar bd sc).
Proof.
  intros ar bd sc HI. split; [|apply parse_rb3_complete; exact HI]. intros (doc & H). unfold parse_rb3 in H. pstep H.
  eapply load_rb3_scene_sound, H.
Qed.
Print Assumptions C62_accepted_scenes.
(* C62. ... and no accepted scene is out of range, however many elements it has. *)
Theorem C62_in_range : forall ar bd doc sc, parse_rb3 ar bd doc = Ok (Some sc) -> rb3_scene_ok ar bd sc.
Proof. intros ar bd doc sc H. unfold parse_rb3 in H. pstep H. eapply load_rb3_scene_sound, H. Qed.
Print Assumptions C62_in_range.

(* C62. The i-th rigid_body_with_density element fills entries 3i.. of the positions, entries 9i.. of the
   orientations that follow them, entries 3i.. of the velocities and of the angular velocities that follow them,
   and entry i of masses, inertias, geometry indices and fixed flags. Its mass, inertia, centre and principal
   axes are those of the geometry it names, at its density; a negative index counts from the end. *)
Definition slice {A} (start count : nat) (l : list A) : list A := firstn count (skipn start l).
Lemma slice_flat {A B} (f : A -> list B) k (l : list A) : (forall x, List.length (f x) = k) -> forall i x pre post, nth_error l i = Some x ->
  slice (List.length pre + k * i) k (pre ++ flat_map f l ++ post) = f x.
Proof.
  intros HK i x pre post Hi. unfold slice. rewrite skipn_app. replace (List.length pre + k * i - List.length pre)%nat with (k * i)%nat by lia.
  rewrite skipn_all2 by lia. cbn [app]. revert i Hi. induction l as [|y l IH]; intros [|i] Hi; try discriminate; cbn [nth_error] in Hi; cbn [flat_map].
  - injection Hi as ->. rewrite Nat.mul_0_r. cbn [skipn]. rewrite <- app_assoc, firstn_app, HK, Nat.sub_diag. cbn [firstn]. rewrite app_nil_r. apply firstn_all2. rewrite HK. lia.
  - rewrite <- app_assoc, skipn_app, HK. rewrite skipn_all2 by (rewrite HK; nia). cbn [app]. replace (k * S i - k)%nat with (k * i)%nat by nia. apply IH, Hi.
Qed.
Lemma flat_map_len {A B} (f : A -> list B) k l : (forall x, List.length (f x) = k) -> List.length (flat_map f l) = (k * List.length l)%nat.
Proof. intros HK. induction l as [|x l IH]; cbn [flat_map List.length]; [lia|]. rewrite app_length, IH, HK. lia. Qed.
Lemma entries3_len v : List.length (entries3 v) = 3%nat.
Proof. destruct v as [[x y] z]. reflexivity. Qed.
Lemma entries9_len v : List.length (entries9 v) = 9%nat.
Proof. destruct v as [[a b] c]. unfold entries9. rewrite !app_length, !entries3_len. reflexivity. Qed.
Theorem C62_bodies : forall ar bd doc sc, parse_rb3 ar bd doc = Ok (Some sc) ->
  exists root, first_in doc "rigidbody3d_scene" = Some root /\
  let n := List.length (elements root "rigid_body_with_density") in
  List.length (r3s_q sc) = (12 * n)%nat /\ List.length (r3s_v sc) = (6 * n)%nat /\ List.length (r3s_M sc) = n /\
  List.length (r3s_I sc) = n /\ List.length (r3s_geo sc) = n /\ List.length (r3s_fixed sc) = n /\
  forall i nd, nth_error (elements root "rigid_body_with_density") i = Some nd ->
    exists x v om rho f g s r,
      triple_text ar nd "x" x /\ triple_text ar nd "v" v /\ triple_text ar nd "omega" om /\ scalar_text ar nd "rho" rho /\
      (exists t, first_attribute nd "fixed" = Some t /\ checked (read_bool t) = Some f) /\
      names_geometry nd (List.length (r3s_geometry sc)) g /\ nth_error (r3s_geometry sc) g = Some s /\
      match first_attribute nd "R" with None => r = None | Some _ => exists w, r = Some w /\ vec3_text ar nd "R" w end /\
      slice (3 * i) 3 (r3s_q sc) = entries3 (plus3 ar x (mo_CM (moment ar s rho))) /\
      slice (3 * n + 9 * i) 9 (r3s_q sc) = entries9 (turn ar r (mo_R (moment ar s rho))) /\
      slice (3 * i) 3 (r3s_v sc) = entries3 v /\ slice (3 * n + 3 * i) 3 (r3s_v sc) = entries3 om /\
      nth_error (r3s_M sc) i = Some (mo_M (moment ar s rho)) /\ nth_error (r3s_I sc) i = Some (mo_I (moment ar s rho)) /\
      nth_error (r3s_geo sc) i = Some g /\ nth_error (r3s_fixed sc) i = Some f.
Proof.
  intros ar bd doc sc H. unfold parse_rb3 in H. pstep H. apply of_option_inv in Ha. exists a. split; [exact Ha|]. clear Ha.
  unfold load_rb3_scene in H. repeat pstep H. apply accept_inv in H. subst sc. cbn [r3s_q r3s_v r3s_M r3s_I r3s_geo r3s_fixed r3s_geometry].
  rename Ha12 into HB. rename Ha13 into HP. rename a12 into geo. rename a13 into bodies. rename a14 into ps.
  apply each_inv in HB. apply lift_inv in HP. apply omapM_iff in HP.
  pose proof (Forall2_len _ _ _ HB) as L. pose proof (Forall2_len _ _ _ HP) as L'. cbv zeta. rewrite !concat_flat_map, !app_length, !map_length.
  rewrite (flat_map_len _ 3 ps) by (intros; apply entries3_len). rewrite (flat_map_len _ 9 ps) by (intros; apply entries9_len).
  rewrite !(flat_map_len _ 3 bodies) by (intros; apply entries3_len). rewrite <- L', <- L.
  split; [lia|]. split; [lia|]. do 4 (split; [reflexivity|]). intros i nd Hi. destruct (forall2_nth _ _ _ HB _ _ Hi) as (b & Hb & E).
  destruct (forall2_nth _ _ _ HP _ _ Hb) as (p & Hp & M). unfold place in M. destruct (nth_error geo (r3_geo b)) as [s|] eqn:EG; [|discriminate].
  apply (f_equal (fun o => match o with Ok y => y | _ => p end)) in M. cbv beta iota in M.
  exists (r3_x b), (r3_v b), (r3_omega b), (r3_rho b), (r3_fixed b), (r3_geo b), s, (r3_R b).
  pose proof (slice_flat (fun p => entries3 (pl_x p)) 3 ps (fun p => entries3_len (pl_x p)) i p [] (flat_map (fun p => entries9 (pl_R p)) ps) Hp) as S1.
  pose proof (slice_flat (fun p => entries9 (pl_R p)) 9 ps (fun p => entries9_len (pl_R p)) i p (flat_map (fun p => entries3 (pl_x p)) ps) [] Hp) as S2.
  pose proof (slice_flat (fun b => entries3 (r3_v b)) 3 bodies (fun b => entries3_len (r3_v b)) i b [] (flat_map (fun b => entries3 (r3_omega b)) bodies) Hb) as S3.
  pose proof (slice_flat (fun b => entries3 (r3_omega b)) 3 bodies (fun b => entries3_len (r3_omega b)) i b (flat_map (fun b => entries3 (r3_v b)) bodies) [] Hb) as S4.
  cbn [app List.length] in S1, S3. rewrite app_nil_r in S2, S4. rewrite (flat_map_len _ 3 ps) in S2 by (intros; apply entries3_len).
  rewrite (flat_map_len _ 3 bodies) in S4 by (intros; apply entries3_len). rewrite <- L', <- L in S2. rewrite <- L in S4.
  rewrite !nth_error_map, Hb, Hp, S2, S4. rewrite !Nat.add_0_l in S1, S3. rewrite S1, S3.
  subst p. cbn [pl_x pl_R pl_M pl_I option_map].
  clear -E EG. unfold load_body3 in E. repeat pstep E. apply accept_inv in E. subst b. cbn [r3_x r3_v r3_omega r3_rho r3_geo r3_fixed r3_R] in *.
  split; [apply triple_attr_text; assumption|]. split; [apply triple_attr_text; assumption|]. split; [apply triple_attr_text; assumption|].
  split; [apply scalar_attr_text; assumption|]. split.
  { match goal with G : bool_attr nd _ = _ |- _ => unfold bool_attr in G; apply pbind_inv in G as (t & Et & G); apply of_option_inv in Et, G; exists t; auto end. }
  split. { match goal with G : load_geo_idx _ nd = _ |- _ => apply load_geo_idx_inv in G; apply G end. }
  split; [exact EG|]. split; [|repeat split].
  destruct (first_attribute nd "R") eqn:ER.
  - match goal with G : pbind (vec3_attr _ nd _) _ = _ |- _ => apply pbind_inv in G as (w & Hw & G); apply accept_inv in G; subst end. exists w. split; [reflexivity|apply vec3_attr_text, Hw].
  - match goal with G : accept None = Ok (Some _) |- _ => apply accept_inv in G; congruence end.
Qed.
Print Assumptions C62_bodies.

(* C62. The k-th gravity, geometry, cylinder, cylinder renderer and plane element describe the k-th force, geometry,
   cylinder, cylinder renderer and plane; the k-th portal joins the two planes its element names, no plane belongs to
   two portals, and the planes no portal names stay, in file order. *)
Theorem C62_planes_and_portals : forall ar bd doc sc, parse_rb3 ar bd doc = Ok (Some sc) ->
  exists root planes links, first_in doc "rigidbody3d_scene" = Some root /\
    Forall2 (shape3_text ar) (elements root "geometry") (r3s_geometry sc) /\
    Forall2 (fun nd f => vec3_text ar nd "f" f) (elements root "near_earth_gravity") (r3s_gravity sc) /\
    Forall2 (fun nd c => let '(x, a, r) := c in vec3_text ar nd "x" x /\ vec3_text ar nd "axis" a /\ scalar_text ar nd "R" r)
      (elements root "static_cylinder") (r3s_cylinders sc) /\
    Forall2 (fun nd r => names64 nd "cylinder_idx" (fst r) /\ scalar_text ar nd "L" (snd r))
      (elements root "static_cylinder_renderer") (r3s_cylinder_rend sc) /\
    Forall2 (fun nd p => vec3_text ar nd "x" (fst p) /\ vec3_text ar nd "n" (snd p)) (elements root "static_plane") planes /\
    Forall2 (fun nd l => names nd "planeA" (fst l) /\ names nd "planeB" (snd l)) (elements root "planar_portal") links /\
    NoDup (flat_map (fun l => [fst l; snd l]) links) /\
    Forall2 (fun l p => nth_error planes (fst l) = Some (fst (fst p)) /\ nth_error planes (snd l) = Some (snd (fst p)))
      links (dr_portals (r3s_drawn sc)) /\
    dr_planes (r3s_drawn sc) = State_Spec.without (flat_map (fun l => [fst l; snd l]) links) planes.
Proof.
  intros ar bd doc sc H. unfold parse_rb3 in H. pstep H. apply of_option_inv in Ha. exists a. rename Ha into HR.
  unfold load_rb3_scene in H. repeat pstep H. apply accept_inv in H. subst sc. cbn [r3s_geometry r3s_gravity r3s_cylinders r3s_cylinder_rend r3s_drawn].
  apply load_portals3_inv in Ha10 as (links & EL & [_ K2 _ K4 K5 _ _]); [|apply sort_by_sorted].
  exists a7, (map fst links).
  assert (flat_map (fun l : nat * nat => [fst l; snd l]) (map fst links) = flat (map fst links)) as EF.
  { unfold flat. symmetry. apply concat_flat_map. }
  rewrite EF. apply each_inv in Ha1, Ha6, Ha7, Ha9, Ha11.
  split; [exact HR|]. split; [|split; [|split; [|split; [|split; [|split; [|split; [exact K2|split]]]]]]].
  - eapply State_Proofs.forall2_impl; [|exact Ha11]. intros nd s X. cbv beta in X. unfold load_geometry3 in X. apply pbind_inv in X as (ty & HT & X). apply of_option_inv in HT.
    destruct (seqb ty "sphere") eqn:B1; [|destruct (seqb ty "box") eqn:B2; [|destruct (seqb ty "staple") eqn:B3; [|destruct (seqb ty "mesh") eqn:B4; [|discriminate]]]];
      match goal with B : seqb ty _ = true |- _ => apply seqb_true in B; subst ty end.
    + apply pbind_inv in X as (r & Hr & X). pstep X. apply accept_inv in X. subst s. split; [exact HT|]. apply scalar_attr_text; assumption.
    + apply pbind_inv in X as (r & Hr & X). pstep X. apply accept_inv in X. subst s. split; [exact HT|]. apply vec3_attr_text; assumption.
    + apply pbind_inv in X as (w & Hw & X). pstep X. apply pbind_inv in X as (l & Hl & X). pstep X. apply pbind_inv in X as (d & Hd & X). repeat pstep X. apply accept_inv in X. subst s.
      split; [exact HT|]. repeat split; apply scalar_attr_text; assumption.
    + apply pbind_inv in X as (f & Hf & X). pstep X. apply accept_inv in X. subst s. apply of_option_inv in Hf. split; assumption.
  - eapply State_Proofs.forall2_impl; [|exact Ha1]. intros nd s X. apply vec3_attr_text, X.
  - eapply State_Proofs.forall2_impl; [|exact Ha7]. intros nd [[x ax] r] X. cbv beta in X. unfold load_cylinder3 in X. repeat pstep X. apply accept_inv in X. injection X as -> -> ->.
    split; [apply vec3_attr_text; assumption|]. split; [apply vec3_attr_text; assumption|apply scalar_attr_text; assumption].
  - eapply State_Proofs.forall2_impl; [|exact Ha9]. intros nd r X. cbv beta in X. unfold load_cylinder_renderer in X. apply pbind_inv in X as (t & Ht & X). apply pbind_inv in X as (i & Hi & X).
    apply pbind_inv in X as (u & _ & X). apply pbind_inv in X as (l & Hl & X). pstep X. apply accept_inv in X. subst r. cbn [fst snd]. apply of_option_inv in Ht, Hi.
    split; [|apply scalar_attr_text, Hl]. exists t. split; [exact Ht|]. rewrite Hi. f_equal. apply checked_unsigned in Hi; lia.
  - eapply State_Proofs.forall2_impl; [|exact Ha6]. intros nd p X. cbv beta in X. unfold load_plane3 in X. repeat pstep X. apply accept_inv in X. subst p.
    split; apply vec3_attr_text; assumption.
  - apply load_links_forall2 in EL. clear -EL. induction EL as [|n x l r (X1 & X2 & _) _ IH]; [constructor|]. cbn [map]. constructor; [|exact IH].
    split; eapply plane_index_names; eassumption.
  - clear -K4. induction K4 as [|l p ls ps (X1 & X2 & _) _ IH]; [constructor|]. cbn [map]. constructor; [split; assumption|exact IH].
  - exact K5.
Qed.
Print Assumptions C62_planes_and_portals.

(* C62. Renderers follow their planes. Every renderer element of a plane that stays draws that plane, at its new
   index, with its half widths, and there are no others; portal i is drawn exactly when one of its planes is drawn
   with a nonzero width, and with the half widths of a renderer of each side (zero when the side has none). *)
Lemma perm_filter {A} (f : A -> bool) l l' : Permutation l l' -> Permutation (filter f l) (filter f l').
Proof.
  induction 1 as [| x l l' _ IH | x y l | l l' l'' _ IH1 _ IH2]; cbn [filter].
  - constructor.
  - destruct (f x); [constructor|]; exact IH.
  - destruct (f x), (f y); try reflexivity. constructor.
  - etransitivity; eassumption.
Qed.
Theorem C62_renderers : forall ar bd doc sc, parse_rb3 ar bd doc = Ok (Some sc) ->
  exists root planes links rs, first_in doc "rigidbody3d_scene" = Some root /\
    List.length planes = List.length (elements root "static_plane") /\
    dr_planes (r3s_drawn sc) = State_Spec.without (flat_map (fun l => [fst l; snd l]) links) planes /\
    Forall2 (fun nd l => names nd "planeA" (fst l) /\ names nd "planeB" (snd l)) (elements root "planar_portal") links /\
    Forall2 (fun nd r => names64 nd "plane" (fst r) /\ vec2_text ar nd "r" (snd r)) (elements root "static_plane_renderer") rs /\
    (exists kept, Permutation kept (filter (fun r => negb (existsb (Nat.eqb (fst r)) (flat_map (fun l => [fst l; snd l]) links))) rs) /\
       Forall2 (fun r r' => snd r' = snd r /\
           fst r' = List.length (State_Spec.without (flat_map (fun l => [fst l; snd l]) links) (firstn (fst r) planes)) /\
           nth_error (dr_planes (r3s_drawn sc)) (fst r') = nth_error planes (fst r))
         kept (dr_plane_rend (r3s_drawn sc))) /\
    (forall i l, nth_error links i = Some l -> exists wa wb, draws rs (fst l) wa /\ draws rs (snd l) wb /\
       forall h, In (i, h) (dr_portal_rend (r3s_drawn sc)) <-> h = (wa, wb) /\ ~ (no_width wa /\ no_width wb)) /\
    (forall i h, In (i, h) (dr_portal_rend (r3s_drawn sc)) -> (i < List.length links)%nat).
Proof.
  intros ar bd doc sc H. unfold parse_rb3 in H. pstep H. apply of_option_inv in Ha. exists a. rename Ha into HR.
  unfold load_rb3_scene in H. repeat pstep H. apply accept_inv in H. subst sc. cbn [r3s_drawn].
  apply load_portals3_inv in Ha10 as (links & EL & [_ K2 _ K4 K5 K6 K7]); [|apply sort_by_sorted].
  exists a7, (map fst links), a9.
  assert (flat_map (fun l : nat * nat => [fst l; snd l]) (map fst links) = flat (map fst links)) as EF.
  { unfold flat. symmetry. apply concat_flat_map. }
  rewrite EF. apply each_inv in Ha6, Ha8. set (ix := flat (map fst links)) in *.
  assert (Forall2 (fun nd r => (fst r <= List.length a7)%nat /\ names64 nd "plane" (fst r) /\ vec2_text ar nd "r" (snd r)) (elements a "static_plane_renderer") a9) as HRS.
  { eapply State_Proofs.forall2_impl; [|exact Ha8]. intros nd r X. cbv beta in X. unfold load_plane_renderer in X. apply pbind_inv in X as (t & Ht & X). apply pbind_inv in X as (i & Hi & X).
    apply pbind_inv in X as (u & Hu & X). apply pbind_inv in X as (l & Hl & X). pstep X. apply accept_inv in X. subst r. cbn [fst snd]. apply of_option_inv in Ht, Hi.
    apply guard_inv in Hu. pose proof (checked_unsigned 64 _ _ ltac:(lia) Hi) as HN.
    split; [lia|]. split; [|apply vec2_attr_text, Hl]. exists t. split; [exact Ht|]. rewrite Hi. f_equal. lia. }
  split; [exact HR|]. split; [symmetry; eapply Forall2_len, Ha6|]. split; [exact K5|]. split; [|split; [|split; [|split]]].
  - apply load_links_forall2 in EL. clear -EL. induction EL as [|n x l r (X1 & X2 & _) _ IH]; [constructor|]. cbn [map]. constructor; [|exact IH].
    split; eapply plane_index_names; eassumption.
  - eapply State_Proofs.forall2_impl; [|exact HRS]. cbv beta. tauto.
  - exists (filter (fun r => negb (member ix (fst r))) (sort_by a9)). split.
    + apply (perm_filter (fun r => negb (member ix (fst r)))), sort_by_perm.
    + rewrite K6, K5. assert (Forall (fun r : nat * (ext * ext) => (fst r <= List.length a7)%nat /\ ~ In (fst r) ix) (filter (fun r => negb (member ix (fst r))) (sort_by a9))) as FR.
      { apply Forall_forall. intros r Hr. apply filter_In in Hr as [Hr Hm]. apply (Permutation_in _ (sort_by_perm a9)) in Hr. split.
        - clear -HRS Hr. induction HRS as [|nd x l l' (X & _) _ IH]; [destruct Hr|]. destruct Hr as [<-|Hr]; auto.
        - intros K. apply member_iff in K. rewrite K in Hm. discriminate. }
      clear -FR. induction FR as [|r l (X1 & X2) _ IH]; [constructor|]. cbn [map]. constructor; [|exact IH]. cbn [fst snd]. split; [reflexivity|]. split.
      * rewrite without_length, firstn_length, Nat.min_l by exact X1. reflexivity.
      * symmetry. apply without_rank; assumption.
  - intros i l Hl. assert (fst l <> snd l) as ND.
    { clear -K2 Hl. unfold ix in K2. revert i Hl. induction links as [|[[x y] e] links IH]; intros i Hl; [destruct i; discriminate|]. cbn [map fst snd flat concat app] in *.
      inversion K2 as [|? ? N1 N2]; subst. inversion N2; subst. destruct i as [|i]; cbn [nth_error] in Hl; [injection Hl as <-; cbn [fst snd]; intros ->; apply N1; left; reflexivity|eapply IH; eassumption]. }
    exists (lastw (fst l) (sort_by a9)), (lastw (snd l) (sort_by a9)).
    assert (forall k w, draws (sort_by a9) k w -> draws a9 k w) as DP.
    { intros k w [D|[D E]]; [left; eapply Permutation_in; [apply sort_by_perm|exact D]|right; split; [|exact E]]. intros w' K. apply (D w'). eapply Permutation_in; [symmetry; apply sort_by_perm|exact K]. }
    split; [apply DP, lastw_draws|]. split; [apply DP, lastw_draws|]. intros h. rewrite K7, portal_renderers_in, Nat.sub_0_r, Hl. destruct l as [x y]. cbn [fst snd] in *. split.
    + intros (ab & _ & E & -> & N). injection E as <-. rewrite half_widths_last in N |- * by exact ND. split; [reflexivity|exact N].
    + intros [-> N]. exists (x, y). split; [lia|]. split; [reflexivity|]. split; [symmetry; apply half_widths_last, ND|exact N].
  - intros i h Hi. rewrite K7 in Hi. apply portal_renderers_in in Hi as (ab & _ & E & _). rewrite Nat.sub_0_r in E. apply nth_error_Some. congruence.
Qed.
Print Assumptions C62_renderers.

(* C62. Time step, integrator, end time, script, boundary and camera are the ones in the file; an orthographic
   camera overrides a perspective one. *)
Definition common_text (n : node) (c : camera3) : Prop :=
  (exists t, first_attribute n "fps" = Some t /\ checked (read_unsigned 32 t) = Some (c3_fps c)) /\
  (exists t, first_attribute n "render_at_fps" = Some t /\ checked (read_bool t) = Some (c3_at_fps c)) /\
  (exists t, first_attribute n "locked" = Some t /\ checked (read_bool t) = Some (c3_locked c)).
Theorem C62_settings : forall ar bd doc sc, parse_rb3 ar bd doc = Ok (Some sc) ->
  exists root, first_in doc "rigidbody3d_scene" = Some root /\
  r3s_callback sc = match first_node root "scripting" with None => [] | Some n => match first_attribute n "callback" with Some t => t | None => [] end end /\
  (exists n, first_node root "integrator" = Some n /\ first_attribute n "dt" = Some (r3s_dt_text sc) /\
     first_attribute n "type" = Some (match r3s_integrator sc with SplitHam => lit "split_ham" | Dmv => lit "dmv" | ExponentialEuler => lit "exponential_euler" end)) /\
  match r3s_end sc with
  | None => first_node root "end_time" = None
  | Some t => exists n, first_node root "end_time" = Some n /\ scalar_text ar n "t" t
  end /\
  match r3s_boundary sc with
  | None => first_node root "simulation_boundary" = None
  | Some b => exists n, first_node root "simulation_boundary" = Some n /\ vec3_text ar n "min" (bd_min b) /\ vec3_text ar n "max" (bd_max b) /\
      first_attribute n "violation_behavior" = Some (if bd_exit b then lit "exit" else lit "none")
  end /\
  match first_node root "camera_orthographic", first_node root "camera_perspective" with
  | Some n, _ => common_text n (r3s_camera sc) /\ exists p x s, c3_view (r3s_camera sc) = Orthographic p x s /\
      first_attribute n "projection_plane" = Some p /\ vec3_text ar n "x" x /\ scalar_text ar n "scale" s
  | None, Some n => common_text n (r3s_camera sc) /\ exists th ph rho la up, c3_view (r3s_camera sc) = Perspective th ph rho la up /\
      scalar_text ar n "theta" th /\ scalar_text ar n "phi" ph /\ scalar_text ar n "rho" rho /\ vec3_text ar n "lookat" la /\ vec3_text ar n "up" up
  | None, None => c3_view (r3s_camera sc) = NoView
  end.
Proof.
  intros ar bd doc sc H. unfold parse_rb3 in H. pstep H. apply of_option_inv in Ha. exists a. split; [exact Ha|]. clear Ha.
  unfold load_rb3_scene in H. repeat pstep H. apply accept_inv in H. subst sc. cbn [r3s_callback r3s_end r3s_dt_text r3s_integrator r3s_boundary r3s_camera].
  assert (forall n m f b l, unsigned_attr n "fps" = Ok (Some f) -> bool_attr n "render_at_fps" = Ok (Some b) -> bool_attr n "locked" = Ok (Some l) ->
    common_text n (mkCam3 m f b l)) as CT.
  { intros n m f b l H1 H2 H3. unfold unsigned_attr, bool_attr in *. apply pbind_inv in H1 as (t1 & T1 & H1). apply pbind_inv in H2 as (t2 & T2 & H2). apply pbind_inv in H3 as (t3 & T3 & H3).
    apply of_option_inv in T1, T2, T3, H1, H2, H3. unfold common_text. cbn [c3_fps c3_at_fps c3_locked]. repeat split; eexists; split; eassumption. }
  split; [|split; [|split; [|split]]].
  - unfold load_scripting in Ha. destruct (first_node a "scripting"); [|apply accept_inv in Ha; congruence].
    unfold attr in Ha. apply of_option_inv in Ha. rewrite Ha. reflexivity.
  - unfold load_integrator3 in Ha3. apply pbind_inv in Ha3 as (n & HN & Ha3). apply of_option_inv in HN. apply pbind_inv in Ha3 as (td & HD & Ha3). apply pbind_inv in Ha3 as (kk & HK & Ha3).
    apply accept_inv in Ha3. subst a4. cbn [fst snd] in *. exists n. split; [exact HN|].
    unfold load_dt in HD. apply pbind_inv in HD as (t & HT & HD). repeat pstep HD. apply accept_inv in HD. subst td. cbn [fst]. split; [apply of_option_inv; assumption|].
    unfold load_kind3 in HK. apply pbind_inv in HK as (ty & HY & HK). apply of_option_inv in HY. rewrite HY.
    destruct (seqb ty "split_ham") eqn:B; [apply accept_inv in HK; subst; apply seqb_true in B; congruence|].
    destruct (seqb ty "dmv") eqn:B'; [apply accept_inv in HK; subst; apply seqb_true in B'; congruence|].
    destruct (seqb ty "exponential_euler") eqn:B''; [apply accept_inv in HK; subst; apply seqb_true in B''; congruence|discriminate].
  - apply optional_inv in Ha0. destruct a1 as [t|]; [|exact Ha0]. destruct Ha0 as (n & E & L). exists n. split; [exact E|]. unfold load_end_time in L. repeat pstep L. apply accept_inv in L. subst.
    apply scalar_attr_text. assumption.
  - apply optional_inv in Ha5. destruct a6 as [b|]; [|exact Ha5]. destruct Ha5 as (n & E & L). exists n. split; [exact E|]. unfold load_boundary in L.
    apply pbind_inv in L as (t & HT & L). apply pbind_inv in L as (e & HE & L). apply pbind_inv in L as (lo & HL & L). apply pbind_inv in L as (hi & HH & L). pstep L. apply accept_inv in L. subst b.
    cbn [bd_min bd_max bd_exit]. split; [apply vec3_attr_text, HL|]. split; [apply vec3_attr_text, HH|]. apply of_option_inv in HT, HE. rewrite HT.
    destruct (seqb t "none") eqn:B; [apply seqb_true in B; injection HE as <-; congruence|]. destruct (seqb t "exit") eqn:B'; [apply seqb_true in B'; injection HE as <-; congruence|discriminate].
  - unfold load_cameras in Ha2. apply pbind_inv in Ha2 as (p & HP & Ha2). apply pbind_inv in Ha2 as (o & HO & Ha2). apply accept_inv in Ha2. subst a3.
    apply optional_inv in HP, HO. destruct o as [o|].
    + destruct HO as (n & -> & L). unfold load_orthographic in L. apply pbind_inv in L as (pl & H1 & L). pstep L. apply pbind_inv in L as (x & H2 & L). apply pbind_inv in L as (s & H3 & L).
      pstep L. apply pbind_inv in L as (f & H4 & L). apply pbind_inv in L as (b & H5 & L). apply pbind_inv in L as (l & H6 & L). apply accept_inv in L. subst o.
      split; [apply CT; assumption|]. exists pl, x, s. apply of_option_inv in H1. repeat split; try assumption; [apply vec3_attr_text, H2|apply scalar_attr_text, H3].
    + rewrite HO. destruct p as [p|]; [|rewrite HP; reflexivity]. destruct HP as (n & -> & L). unfold load_perspective in L.
      apply pbind_inv in L as (th & H1 & L). apply pbind_inv in L as (ph & H2 & L). apply pbind_inv in L as (rho & H3 & L). pstep L. apply pbind_inv in L as (la & H7 & L). apply pbind_inv in L as (up & H8 & L).
      apply pbind_inv in L as (f & H4 & L). apply pbind_inv in L as (b & H5 & L). apply pbind_inv in L as (l & H6 & L). apply accept_inv in L. subst p.
      split; [apply CT; assumption|]. exists th, ph, rho, la, up. repeat split; try (apply scalar_attr_text; assumption); apply vec3_attr_text; assumption.
Qed.
Print Assumptions C62_settings.

(* C62. How elements of different kinds are mixed in the file does not matter. *)
Theorem C62_element_order : forall ar bd at1 at2 ch1 ch2,
  (forall a, filter (fun c => seqb (name_of c) a) ch1 = filter (fun c => seqb (name_of c) a) ch2) ->
  parse_rb3 ar bd [Node "rigidbody3d_scene" at1 ch1] = parse_rb3 ar bd [Node "rigidbody3d_scene" at2 ch2].
Proof.
  intros ar bd at1 at2 ch1 ch2 H.
  exact (load_rb3_scene_elements ar bd (Node "rigidbody3d_scene" at1 ch1) (Node "rigidbody3d_scene" at2 ch2) H).
Qed.
Print Assumptions C62_element_order.

(* C62. Loading is undefined only when the time step overflows 64 bit arithmetic, the text of a vector is empty or a
   geometry index is the smallest int; the process is ended only by a caching option. *)
Theorem C62_undefined_only : forall ar bd doc, parse_rb3 ar bd doc = UB ->
  exists root, first_in doc "rigidbody3d_scene" = Some root /\
  ((exists n t, first_node root "integrator" = Some n /\ first_attribute n "dt" = Some t /\ parse_rational t = UB) \/
   (exists e n a, In n (elements root e) /\ In a (vector_attributes3 e) /\ first_attribute n a = Some []) \/
   (exists n t, In n (elements root "rigid_body_with_density") /\ first_attribute n "geo_idx" = Some t /\ checked (read_int t) = Some (- 2 ^ 31)%Z)).
Proof.
  intros ar bd doc H. assert (fails true (parse_rb3 ar bd doc)) as F by (rewrite H; reflexivity). unfold parse_rb3 in F.
  apply pbind_fails in F as [F|(root & E & F)]; [destruct F|]. exists root. split; [apply of_option_inv, E|].
  apply load_rb3_scene_fails in F as [[_ F]|[F _]]; [exact F|discriminate].
Qed.
Print Assumptions C62_undefined_only.
Theorem C62_exit_only : forall ar bd doc, parse_rb3 ar bd doc = Exit ->
  exists root, first_in doc "rigidbody3d_scene" = Some root /\
  exists n t, first_node root "sobogus_friction_solver" = Some n /\ first_attribute n "staggering" = Some (lit "symplectic_euler") /\
    first_attribute n "cache_impulses" = Some t /\ ~ caching_word t.
Proof.
  intros ar bd doc H. assert (fails false (parse_rb3 ar bd doc)) as F by (rewrite H; reflexivity). unfold parse_rb3 in F.
  apply pbind_fails in F as [F|(root & E & F)]; [destruct F|].
  apply load_rb3_scene_fails in F as [[F _]|[_ F]]; [discriminate|]. exists root. split; [apply of_option_inv, E|exact F].
Qed.
Print Assumptions C62_exit_only.

(* ---------------------------------------------------------------- violations *)
Definition exact3 : arith3 := mkArith3 (mkFp (fun q => Some q) 1000) (fun f => seqb f "bunny.h5")
  (fun s rho => match s with
                | Sphere r => mkMoments (rho * 4 * r * r * r) (0, 0, 0) (rho, rho, rho) ((1, 0, 0), (0, 1, 0), (0, 0, 1))
                | _ => mkMoments rho (1, 0, 0) (rho, 2 * rho, 3 * rho) ((0, 1, 0), (-1 # 1, 0, 0), (0, 0, 1))
                end)%Q
  (fun o r => r)
  (fun a b => let '(x, y, z) := a in let '(x', y', z') := b in (x + x', y + y', z + z')%Q).
Definition libs : build := mkBuild true true.
Definition at_ (a t : string) : str * str := (lit a, lit t).
Definition el (a : string) (at' : list (str * str)) : node := Node (lit a) at' [].
Definition scene_of (l : list node) : list node := [Node (lit "rigidbody3d_scene") [] (el "integrator" [at_ "type" "dmv"; at_ "dt" "0.01"] :: l)].
Definition a_sphere : node := el "geometry" [at_ "type" "sphere"; at_ "r" "1"].
Definition a_body (rho geo : string) : node :=
  el "rigid_body_with_density" [at_ "x" "1 2 3"; at_ "v" "0 -1 0"; at_ "omega" "0 0 2"; at_ "rho" rho; at_ "fixed" "0"; at_ "geo_idx" geo].
Definition a_plane (n : string) : node := el "static_plane" [at_ "x" "0 0 0"; at_ "n" n].

(* C62 violated: a renderer one past the last plane is accepted and draws nothing that exists. *)
Theorem C62_renderer_index_refuted : exists sc,
  parse_rb3 exact3 libs (scene_of [a_plane "0 1 0"; el "static_plane_renderer" [at_ "plane" "1"; at_ "r" "2 2"]]) = Ok (Some sc) /\
  dr_plane_rend (r3s_drawn sc) = [(1%nat, (Fin 2, Fin 2))] /\ List.length (dr_planes (r3s_drawn sc)) = 1%nat.
Proof. eexists. vm_compute. repeat split. Qed.
Print Assumptions C62_renderer_index_refuted.
(* C62 violated: a negative density, and so a negative mass, is accepted. *)
Theorem C62_density_refuted : exists sc m,
  parse_rb3 exact3 libs (scene_of [a_sphere; a_body "-1" "0"]) = Ok (Some sc) /\ r3s_M sc = [m] /\ (m < 0)%Q.
Proof. eexists. eexists. split; [vm_compute; reflexivity|]. split; [reflexivity|]. vm_compute. reflexivity. Qed.
Print Assumptions C62_density_refuted.
(* C62 violated: a plane with normal zero is accepted. *)
Theorem C62_zero_normal_refuted : exists sc,
  parse_rb3 exact3 libs (scene_of [a_plane "0 0 0"]) = Ok (Some sc) /\ map snd (dr_planes (r3s_drawn sc)) = [(Fin 0, Fin 0, Fin 0)].
Proof. eexists. vm_compute. repeat split. Qed.
Print Assumptions C62_zero_normal_refuted.
(* C62 violated: a frame rate of -1 is accepted as 4294967295, and 0 is accepted. *)
Definition a_camera (fps : string) : node :=
  el "camera_orthographic" [at_ "projection_plane" "xy"; at_ "x" "0 0 0"; at_ "scale" "2"; at_ "fps" fps; at_ "render_at_fps" "1"; at_ "locked" "0"].
Theorem C62_fps_refuted : exists sc sc',
  parse_rb3 exact3 libs (scene_of [a_camera "-1"]) = Ok (Some sc) /\ c3_fps (r3s_camera sc) = 4294967295%Z /\
  parse_rb3 exact3 libs (scene_of [a_camera "0"]) = Ok (Some sc') /\ c3_fps (r3s_camera sc') = 0%Z.
Proof. eexists. eexists. vm_compute. repeat split. Qed.
Print Assumptions C62_fps_refuted.
(* C62 violated: the smallest int as geometry index is undefined behavior. *)
Theorem C62_geo_idx_refuted : parse_rb3 exact3 libs (scene_of [a_sphere; a_body "1" "-2147483648"]) = UB.
Proof. vm_compute. reflexivity. Qed.
Print Assumptions C62_geo_idx_refuted.
(* C62 violated: the documented generalized restitution friction solver (RigidBody3DSceneParser.cpp:1971-1983) is
   rejected: the settings of the friction operator are read from the friction_operator element itself. *)
Definition an_lcp (nm : string) : node := Node (lit nm) [at_ "type" "lcp"] [el "solver" [at_ "name" "ipopt"; at_ "tol" "1.0e-12"; at_ "linear_solvers" "ma97"]].
Definition grr_scene (friction : node) : list node := scene_of [Node (lit "grr_friction_solver") [at_ "mu" "2.0"; at_ "CoR" "0.8"; at_ "staggering" "geometric"]
  [Node (lit "impact_operator") [at_ "type" "grr"] [an_lcp "elastic_operator"; an_lcp "inelastic_operator"]; friction]].
Theorem C62_grr_example_refuted :
  parse_rb3 exact3 libs (grr_scene (Node (lit "friction_operator") [at_ "type" "smooth"] [el "solver" [at_ "name" "ipopt"; at_ "tol" "1.0e-12"; at_ "linear_solvers" "ma97"]])) = Ok None /\
  exists sc, parse_rb3 exact3 libs (grr_scene (el "friction_operator" [at_ "name" "ipopt"; at_ "tol" "1.0e-12"; at_ "linear_solvers" "ma97"])) = Ok (Some sc).
Proof. split; [vm_compute; reflexivity|]. eexists. vm_compute. reflexivity. Qed.
Print Assumptions C62_grr_example_refuted.
(* C62 violated: a scene written by the exporter is never accepted, whatever its geometry and bodies. *)
Theorem C62_export_refuted : forall ar bd print print_nat geometry bodies doc sc,
  export_scene print print_nat geometry bodies = Ok doc -> parse_rb3 ar bd doc <> Ok (Some sc).
Proof.
  intros ar bd print print_nat geometry bodies doc sc H K. unfold export_scene in H.
  destruct (omapM (export_geometry print) geometry) as [gs| |] eqn:EG; try discriminate. cbn [obind] in H. injection H as <-.
  apply omapM_iff in EG. unfold parse_rb3 in K. apply pbind_inv in K as (root & HR & K). apply of_option_inv in HR. unfold first_in in HR.
  apply find_some in HR as [[<-|[]] _]. unfold load_rb3_scene in K. repeat pstep K.
  unfold load_integrator3 in Ha3. apply pbind_inv in Ha3 as (n & HN & _).
  apply of_option_inv in HN. unfold first_node, first_in in HN. apply find_some in HN as [HI HS]. cbn [children_of] in HI. apply seqb_true in HS.
  apply in_app_or in HI as [HI|HI].
  - clear -EG HI HS. induction EG as [|s g ss gs E _ IH]; [destruct HI|]. destruct HI as [->|HI]; [|exact (IH HI)].
    destruct s; cbn [export_geometry] in E; try discriminate; injection E as <-; discriminate.
  - apply in_map_iff in HI as (b & <- & _). discriminate.
Qed.
Print Assumptions C62_export_refuted.

(* ---------------------------------------------------------------- the hypotheses are met *)
Example scene3_example : parse_rb3 exact3 libs (scene_of
  [a_sphere; el "geometry" [at_ "type" "staple"; at_ "w" "3"; at_ "l" "2"; at_ "D" "0.5"]; a_plane "0 1 0"; a_body "2" "-1"; a_plane "1 0 0"; a_plane "-1 0 0"; a_body "0.5" "0";
   el "planar_portal" [at_ "planeA" "0"; at_ "planeB" "2"; at_ "multiplier" "1 -1 1"];
   el "static_plane_renderer" [at_ "plane" "1"; at_ "r" "5 6"]; el "static_plane_renderer" [at_ "plane" "0"; at_ "r" "7 8"];
   el "static_cylinder" [at_ "x" "0 0 0"; at_ "axis" "0 1 0"; at_ "R" "4"]; el "static_cylinder_renderer" [at_ "cylinder_idx" "0"; at_ "L" "9"];
   el "near_earth_gravity" [at_ "f" "0 -9.81 0"]; a_camera "25";
   el "sobogus_friction_solver" [at_ "mu" "0.5"; at_ "CoR" "0"; at_ "max_iters" "1000"; at_ "eval_every" "50"; at_ "tol" "1.0e-8"; at_ "staggering" "geometric"]]) = Ok (Some {|
  r3s_callback := []; r3s_end := None; r3s_gravity := [(Fin 0, Fin (-981 # 100), Fin 0)];
  r3s_camera := mkCam3 (Orthographic (lit "xy") (Fin 0, Fin 0, Fin 0) 2) 25 true false;
  r3s_integrator := Dmv; r3s_dt_text := lit "0.01"; r3s_dt := mkRat 1 100;
  r3s_response := Friction (Sobogus 50) (Geometric (1 # 100000000) 1000 CacheNone) (1 # 2) 0;
  r3s_boundary := None; r3s_cylinders := [((Fin 0, Fin 0, Fin 0), (Fin 0, Fin 1, Fin 0), 4)]; r3s_cylinder_rend := [(0%nat, 9)];
  r3s_drawn := mkDrawn [((Fin 0, Fin 0, Fin 0), (Fin 1, Fin 0, Fin 0))]
    [(((Fin 0, Fin 0, Fin 0), (Fin 0, Fin 1, Fin 0)), ((Fin 0, Fin 0, Fin 0), (Fin (-1 # 1), Fin 0, Fin 0)), (1, -1, 1)%Z)]
    [(0%nat, (Fin 5, Fin 6))] [(0%nat, ((Fin 7, Fin 8), (Fin 0, Fin 0)))];
  r3s_geometry := [Sphere 1; Staple 3 2 (1 # 2)];
  r3s_q := [2; 2; 3; 1; 2; 3; 0; 1; 0; -1 # 1; 0; 0; 0; 0; 1; 1; 0; 0; 0; 1; 0; 0; 0; 1];
  r3s_v := [0; -1 # 1; 0; 0; -1 # 1; 0; 0; 0; 2; 0; 0; 2];
  r3s_M := [2; 4 # 2]; r3s_I := [(2, 4, 6); (1 # 2, 1 # 2, 1 # 2)]; r3s_geo := [1%nat; 0%nat]; r3s_fixed := [false; false] |}%Q).
Proof. vm_compute. reflexivity. Qed.
Example caching3_example : parse_rb3 exact3 libs (scene_of
  [el "sobogus_friction_solver" [at_ "mu" "0.5"; at_ "CoR" "0"; at_ "max_iters" "1000"; at_ "eval_every" "50"; at_ "tol" "1.0e-8"; at_ "staggering" "symplectic_euler";
    at_ "stabilization" "0"; at_ "penetration_threshold" "0"; at_ "cache_impulses" "some"]]) = Exit.
Proof. vm_compute. reflexivity. Qed.
Example geo_idx3_example : parse_rb3 exact3 libs (scene_of [a_sphere; a_body "1" "-2"]) = Ok None /\ parse_rb3 exact3 libs (scene_of [a_sphere; a_body "1" "1"]) = Ok None.
Proof. vm_compute. split; reflexivity. Qed.
Example boundary3_example : parse_rb3 exact3 libs (scene_of [el "simulation_boundary" [at_ "violation_behavior" "exit"; at_ "min" "0 0 0"; at_ "max" "1 0 1"]]) = Ok None.
Proof. vm_compute. reflexivity. Qed.
Example export_example : exists doc, export_scene (fun _ => lit "1") (fun _ => lit "0") [Sphere 1] [mkExported (0, 0, 0) (0, 0, 0) (0, 0, 0) (0, 0, 0) 1 false 0]%Q = Ok doc.
Proof. eexists. vm_compute. reflexivity. Qed.

(* C62. The number of a body's geometry is accepted exactly when it counts a geometry that exists, from the front or,
   if negative, from the end. *)
Theorem C62_geometry_numbers : forall ngeo nd t k, first_attribute nd "geo_idx" = Some t -> checked (read_int t) = Some k ->
  k <> int_min ->
  ((- Z.of_nat ngeo <= k < Z.of_nat ngeo)%Z -> load_geo_idx ngeo nd = Ok (Some (Z.to_nat (k mod Z.of_nat ngeo)))) /\
  (~ (- Z.of_nat ngeo <= k < Z.of_nat ngeo)%Z -> load_geo_idx ngeo nd = Ok None).
Proof.
  intros ngeo nd t k E R NM. unfold load_geo_idx, int_attr, attr. rewrite E. cbn [of_option pbind obind]. rewrite R. cbn [of_option pbind obind].
  destruct (Z.ltb_spec k 0) as [L|L].
  - destruct (Z.eqb_spec k int_min); [contradiction|]. unfold guard. split; intros B.
    + destruct (Z.ltb_spec (Z.of_nat ngeo) (Z.abs k)); [lia|]. cbn [negb pbind obind accept].
      rewrite <- (Z.mod_unique k (Z.of_nat ngeo) (-1) (Z.of_nat ngeo + k)%Z); [reflexivity|lia|lia].
    + destruct (Z.ltb_spec (Z.of_nat ngeo) (Z.abs k)); [reflexivity|lia].
  - unfold guard. split; intros B.
    + destruct (Z.leb_spec (Z.of_nat ngeo) k); [lia|]. cbn [negb pbind obind accept]. rewrite Z.mod_small by lia. reflexivity.
    + destruct (Z.leb_spec (Z.of_nat ngeo) k); [reflexivity|lia].
Qed.
Print Assumptions C62_geometry_numbers.
Example C62_geometry_numbers_nonvacuous : load_geo_idx 2 (a_body "1" "-2") = Ok (Some 0%nat) /\ load_geo_idx 2 (a_body "1" "-3") = Ok None.
Proof. split; vm_compute; reflexivity. Qed.

(* C62. A body element written by the exporter holds what the parser reads: if numbers are printed so that they read
   back, the body is read back. *)
Theorem C62_exported_bodies : forall fp ngeo print print_nat b,
  (forall v, In v [e_x b; e_v b; e_omega b] -> read_scalars fp (export_triple print v) = entries3 v) ->
  read_list (read_ext fp) 3 (export_triple print (e_R b)) = accept (map Fin (entries3 (e_R b))) ->
  checked (read_scalar fp (print (e_rho b))) = Some (e_rho b) ->
  checked (read_int (print_nat (e_geo b))) = Some (Z.of_nat (e_geo b)) -> (e_geo b < ngeo)%nat ->
  load_body3 fp ngeo (export_body print print_nat b) =
  Ok (Some (mkBody3 (e_x b) (e_v b) (e_omega b) (e_rho b) (e_fixed b) (e_geo b)
    (Some (let '(x, y, z) := e_R b in (Fin x, Fin y, Fin z))))).
Proof.
  intros fp ngeo print print_nat b HT HR HS HI HG.
  pose proof (HT (e_x b) (or_introl eq_refl)) as HX. pose proof (HT (e_v b) (or_intror (or_introl eq_refl))) as HV.
  pose proof (HT (e_omega b) (or_intror (or_intror (or_introl eq_refl)))) as HO. clear HT.
  assert (HF : checked (read_bool (if e_fixed b then lit "1" else lit "0")) = Some (e_fixed b)) by (destruct (e_fixed b); vm_compute; reflexivity).
  destruct (C62_geometry_numbers ngeo (export_body print print_nat b) (print_nat (e_geo b)) (Z.of_nat (e_geo b)) eq_refl HI) as [HN _]; [unfold int_min; lia|].
  specialize (HN ltac:(lia)). rewrite Z.mod_small, Nat2Z.id in HN by lia.
  unfold load_body3. rewrite HN. unfold triple_attr, scalar_attr, bool_attr, vec3_attr, attr.
  change (first_attribute (export_body print print_nat b) "x") with (Some (export_triple print (e_x b))).
  change (first_attribute (export_body print print_nat b) "v") with (Some (export_triple print (e_v b))).
  change (first_attribute (export_body print print_nat b) "omega") with (Some (export_triple print (e_omega b))).
  change (first_attribute (export_body print print_nat b) "rho") with (Some (print (e_rho b))).
  change (first_attribute (export_body print print_nat b) "R") with (Some (export_triple print (e_R b))).
  change (first_attribute (export_body print print_nat b) "fixed") with (Some (if e_fixed b then lit "1" else lit "0")).
  cbn [of_option pbind obind]. rewrite HX, HV, HO, HS, HF, HR.
  destruct (e_x b) as [[x1 x2] x3], (e_v b) as [[v1 v2] v3], (e_omega b) as [[o1 o2] o3], (e_R b) as [[r1 r2] r3].
  reflexivity.
Qed.
Print Assumptions C62_exported_bodies.
Example C62_exported_bodies_nonvacuous :
  let print := fun q : Q => if Qeq_bool q 0 then lit "0" else if Qeq_bool q 1 then lit "1" else lit "0.5" in
  load_body3 exact3 2 (export_body print (fun _ => lit "1") (mkExported (0, 1, 1 # 2) (1, 0, 0) (1 # 2, 0, 0) (0, 0, 1) (1 # 2) true 1))%Q
  = Ok (Some (mkBody3 (0, 1, 1 # 2) (1 # 2, 0, 0) (0, 0, 1) (1 # 2) true 1 (Some (Fin 1, Fin 0, Fin 0))))%Q.
Proof. vm_compute. reflexivity. Qed.
