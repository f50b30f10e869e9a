From Coq Require Import ZArith NArith String Lia List.
From Verif Require Import Outcome Codec_Model Codec_Spec Codec_Proofs SnapBall_Model SnapRb2_Model SnapRb3_Model Snap_Spec.
Import ListNotations.
Open Scope N_scope.

Ltac rgo := intros; repeat match goal with H : _ /\ _ |- _ => destruct H end; rwalk.
Ltac unproj := cbn [b2_ca b2_st b2c_ball_ball b2c_drum_ball b2c_plane_ball b2d_r b2d_x b2o_a b2o_b b2o_bounds b2o_dx b2o_v b2p_n
  b2p_t b2p_v b2p_x b2s_M b2s_Minv b2s_drums b2s_fixed b2s_forces b2s_planes b2s_portals b2s_q b2s_r b2s_v r2_ca
  r2_st r2c_body_body r2c_circle_circle r2c_kin_circle r2c_plane_circle r2o_a r2o_b r2o_bounds r2o_dx r2o_v
  r2p_n r2p_omega r2p_t r2p_v r2p_x r2s_M r2s_Minv r2s_fixed r2s_forces r2s_geo r2s_geo_idx r2s_planes
  r2s_portals r2s_q r2s_v r3_ca r3_st r3c_cs r3c_ks r3c_ps r3c_ss r3m_I r3m_R r3m_com r3m_delta r3m_dims r3m_end
  r3m_faces r3m_file r3m_hull r3m_origin r3m_samples r3m_sdf r3m_verts r3m_volume r3o_a r3o_b r3o_mult r3p_n
  r3p_omega r3p_v r3p_x r3s_M r3s_M0 r3s_Minv r3s_Minv0 r3s_behavior r3s_bmax r3s_bmin r3s_cyls r3s_fixed
  r3s_forces r3s_geo r3s_geo_idx r3s_nbodies r3s_planes r3s_portals r3s_q r3s_v r3y_n r3y_omega r3y_r r3y_theta
  r3y_v r3y_x] in *.
Ltac rgo1 x := destruct x; unproj; rgo.

(* ---- balls ---- *)
Lemma reads_b2_plane p : ok_b2_plane p -> reads p_b2_plane (enc_b2_plane p) p.
Proof. unfold ok_b2_plane, p_b2_plane, enc_b2_plane. rgo1 p. Qed.
Lemma reads_b2_drum p : ok_b2_drum p -> reads p_b2_drum (enc_b2_drum p) p.
Proof. unfold ok_b2_drum, p_b2_drum, enc_b2_drum. rgo1 p. Qed.
#[export] Hint Resolve reads_b2_plane reads_b2_drum : reads.
Lemma reads_b2_portal p : ok_b2_portal p -> reads p_b2_portal (enc_b2_portal p) p.
Proof. unfold ok_b2_portal, p_b2_portal, enc_b2_portal. destruct p; unproj. rgo. Qed.
#[export] Hint Resolve reads_b2_portal : reads.

Lemma reads_name s : ok_string (name_of s) -> reads p_string (enc_string (name_of s)) (name_of s).
Proof. apply reads_string. Qed.

Lemma reads_b2_force f : ok_b2_force f -> ~ is_penalty f -> reads p_b2_force (enc_b2_force f) f.
Proof.
  destruct f as [g|]; cbn [ok_b2_force is_penalty]; [|tauto]. intros Hg _.
  unfold p_b2_force, enc_b2_force. eapply reads_bind; [apply reads_string, ok_name; reflexivity|].
  destruct (bstring_eqb_spec (name_of "ball2d_gravity_force") (name_of "ball2d_gravity_force")); [|contradiction].
  rwalk.
Qed.
Lemma exits_b2_force k p : exits p_b2_force (enc_b2_force (B2Penalty k p)).
Proof.
  unfold p_b2_force, enc_b2_force. eapply exits_bind_r; [apply reads_string, ok_name; reflexivity|].
  destruct (bstring_eqb_spec (name_of "hertzian_penalty") (name_of "ball2d_gravity_force")) as [E|_];
    [discriminate E|]. intros rest. reflexivity.
Qed.

Definition no_penalty (s : b2_state) := Forall (fun f => ~ is_penalty f) (b2s_forces s).

Lemma reads_b2_state s : ok_b2_state s -> no_penalty s -> reads p_b2_state (enc_b2_state s) s.
Proof.
  unfold ok_b2_state, no_penalty, p_b2_state, enc_b2_state.
  destruct s; unproj.
  intros (?&?&?&?&?&?&?&?&?&[Hs Hf]) Hn.
  repeat rstep. eapply reads_bind_nil; [|apply reads_ret].
  apply reads_vec; [assumption|]. rewrite Forall_forall in *. intros f Hin.
  apply reads_b2_force; auto.
Qed.
Lemma reads_b2_cache c : ok_b2_cache c -> reads p_b2_cache (enc_b2_cache c) c.
Proof. unfold ok_b2_cache, p_b2_cache, enc_b2_cache. destruct c; unproj. rgo. Qed.

Lemma not_penalty_dec f : {is_penalty f} + {~ is_penalty f}.
Proof. destruct f; [right|left]; simpl; auto. Qed.

Lemma no_penalty_of s : ~ has_penalty_force s -> no_penalty (b2_st s).
Proof.
  intros H. unfold no_penalty. apply Forall_forall. intros f Hf Hp. apply H. apply Exists_exists. eauto.
Qed.

Lemma reads_b2_sim s : ok_b2_sim s -> ~ has_penalty_force s -> reads p_b2_sim (enc_b2_sim s) s.
Proof.
  intros [Hs Hc] Hn%no_penalty_of. destruct s as [s c]; unproj.
  unfold p_b2_sim, enc_b2_sim. unproj. eapply reads_bind; [now apply reads_b2_state|].
  eapply reads_bind_nil; [now apply reads_b2_cache|apply reads_ret].
Qed.

Lemma exits_b2_sim s : ok_b2_sim s -> has_penalty_force s -> exits p_b2_sim (enc_b2_sim s).
Proof.
  intros [Hs _] Hp. destruct s as [s c]; unfold has_penalty_force in *; unproj.
  unfold p_b2_sim, enc_b2_sim. unproj. apply exits_bind_l.
  unfold ok_b2_state, p_b2_state, enc_b2_state in *.
  destruct s; unproj.
  destruct Hs as (?&?&?&?&?&?&?&?&?&[Hz Hf]).
  do 9 (eapply exits_bind_r; [solve [eauto with reads]|]). apply exits_bind_l'.
  apply exits_vec; [assumption| |].
  - rewrite Forall_forall in *. intros f Hin. destruct (not_penalty_dec f) as [Hpf|Hpf].
    + right. destruct f; [contradiction|]. apply exits_b2_force.
    + left. apply reads_b2_force; auto.
  - eapply Exists_impl; [|exact Hp]. intros f Hpf. destruct f; [contradiction|]. apply exits_b2_force.
Qed.

(* ---- 2D rigid bodies ---- *)
Lemma reads_r2_plane p : ok_r2_plane p -> reads p_r2_plane (enc_r2_plane p) p.
Proof. unfold ok_r2_plane, p_r2_plane, enc_r2_plane. rgo1 p. Qed.
#[export] Hint Resolve reads_r2_plane : reads.
Lemma reads_r2_portal p : ok_r2_portal p -> reads p_r2_portal (enc_r2_portal p) p.
Proof. unfold ok_r2_portal, p_r2_portal, enc_r2_portal. destruct p; unproj. rgo. Qed.
Lemma u32_small n : (n <? 256) = true -> u32 n.
Proof. intros H%N.ltb_lt. unfold u32. change (2 ^ 32) with 4294967296. lia. Qed.
Lemma u8_small n : (n <? 256) = true -> u8 n.
Proof. intros H%N.ltb_lt. unfold u8. change (2 ^ 8) with 256. lia. Qed.
Lemma reads_r2_geo g : ok_r2_geo g -> reads p_r2_geo (enc_r2_geo g) g.
Proof.
  unfold p_r2_geo, enc_r2_geo. destruct g; cbn [ok_r2_geo]; intros H;
    (eapply reads_bind; [apply reads_u32, u32_small; reflexivity|]).
  - change (0 =? 0) with true. rwalk.
  - change (1 =? 0) with false. change (1 =? 1) with true. rwalk.
Qed.
Lemma reads_r2_force g : ok_r2_force g -> reads p_r2_force (enc_r2_force g) g.
Proof.
  unfold p_r2_force, enc_r2_force. destruct g; cbn [ok_r2_force]; intros H.
  eapply reads_bind; [apply reads_u32, u32_small; reflexivity|]. change (0 =? 0) with true. rwalk.
Qed.
#[export] Hint Resolve reads_r2_portal reads_r2_geo reads_r2_force : reads.
Lemma reads_r2_state s : ok_r2_state s -> reads p_r2_state (enc_r2_state s) s.
Proof.
  unfold ok_r2_state, p_r2_state, enc_r2_state.
  destruct s; unproj. rgo.
Qed.
Lemma reads_r2_cache c : ok_r2_cache c -> reads p_r2_cache (enc_r2_cache c) c.
Proof.
  unfold ok_r2_cache, p_r2_cache, enc_r2_cache.
  destruct c; unproj. rgo.
Qed.
#[export] Hint Resolve reads_r2_state reads_r2_cache : reads.
Lemma reads_r2_sim s : ok_r2_sim s -> reads p_r2_sim (enc_r2_sim s) s.
Proof. unfold ok_r2_sim, p_r2_sim, enc_r2_sim. destruct s; unproj. rgo. Qed.

(* ---- 3D rigid bodies ---- *)
Lemma reads_r3_plane p : ok_r3_plane p -> reads p_r3_plane (enc_r3_plane p) p.
Proof. unfold ok_r3_plane, p_r3_plane, enc_r3_plane. rgo1 p. Qed.
Lemma reads_r3_cyl p : ok_r3_cyl p -> reads p_r3_cyl (enc_r3_cyl p) p.
Proof. unfold ok_r3_cyl, p_r3_cyl, enc_r3_cyl. rgo1 p. Qed.
#[export] Hint Resolve reads_r3_plane reads_r3_cyl : reads.
Lemma reads_r3_portal p : ok_r3_portal p -> reads p_r3_portal (enc_r3_portal p) p.
Proof. unfold ok_r3_portal, p_r3_portal, enc_r3_portal. destruct p; unproj. rgo. Qed.
Lemma reads_r3_mesh m : ok_r3_mesh m -> reads p_r3_mesh (enc_r3_mesh m) m.
Proof.
  unfold ok_r3_mesh, p_r3_mesh, enc_r3_mesh.
  destruct m; unproj. rgo.
Qed.
#[export] Hint Resolve reads_r3_portal reads_r3_mesh : reads.

Lemma enc_r3_geo_cases g : (g = R3Staple /\ enc_r3_geo g = Exit) \/ (g <> R3Staple /\ exists b, enc_r3_geo g = Ok b).
Proof. destruct g; [right|right|left|right]; split; try reflexivity; try discriminate; eexists; reflexivity. Qed.

Lemma Ok_inj {A} (a b : A) : Ok a = Ok b -> a = b.
Proof. congruence. Qed.

Lemma reads_r3_geo g b : ok_r3_geo g -> enc_r3_geo g = Ok b -> reads p_r3_geo b g.
Proof.
  unfold p_r3_geo. destruct g; cbn [ok_r3_geo enc_r3_geo]; intros H E; try discriminate; apply Ok_inj in E; subst b;
    (eapply reads_bind; [apply reads_u8, u8_small; reflexivity|]).
  - change (0 =? 0) with true. rwalk.
  - change (1 =? 0) with false. change (1 =? 1) with true. rwalk.
  - change (3 =? 0) with false. change (3 =? 1) with false. change (3 =? 2) with false. change (3 =? 3) with true. rwalk.
Qed.
Lemma reads_r3_force g : ok_r3_force g -> reads p_r3_force (enc_r3_force g) g.
Proof.
  unfold p_r3_force, enc_r3_force. destruct g; cbn [ok_r3_force]; intros H.
  eapply reads_bind; [apply reads_string, ok_name; reflexivity|].
  destruct (bstring_eqb_spec (name_of "near_earth_gravity") (name_of "near_earth_gravity")); [|contradiction]. rwalk.
Qed.
#[export] Hint Resolve reads_r3_force : reads.

Lemma reads_rep_o {A} (p : parser A) (e : A -> outcome bytes) l : forall bs,
  (forall a b, In a l -> e a = Ok b -> reads p b a) -> omapM e l = Ok bs ->
  reads (p_rep (List.length l) p) (concat bs) l.
Proof.
  induction l as [|a l IH]; intros bs H E; cbn [omapM p_rep List.length] in *.
  - injection E as <-. apply reads_ret.
  - apply obind_Ok_inv in E as (b & Eb & E). apply obind_Ok_inv in E as (bs' & Ebs & E).
    apply Ok_inj in E; subst bs. cbn [concat].
    eapply reads_bind; [apply H; [now left|eassumption]|].
    apply reads_last with (g := cons a). apply IH; [|assumption]. intros. eapply H; eauto. now right.
Qed.
Lemma reads_vec_o {A} (p : parser A) (e : A -> outcome bytes) l bs :
  sized l -> (forall a b, In a l -> e a = Ok b -> reads p b a) -> enc_vec_o e l = Ok bs -> reads (p_vec p) bs l.
Proof.
  intros Hs H E. unfold enc_vec_o, omap in E. apply obind_Ok_inv in E as (b & Eb & E). apply Ok_inj in E; subst bs. unfold p_vec.
  eapply reads_bind; [apply reads_u64; exact Hs|]. rewrite Nat2N.id. eapply reads_rep_o; eauto.
Qed.

Lemma omapM_staple l : (In R3Staple l -> omapM enc_r3_geo l = Exit) /\ (~ In R3Staple l -> exists bs, omapM enc_r3_geo l = Ok bs).
Proof.
  induction l as [|g l [IH1 IH2]]; simpl.
  - split; [tauto|]. intros _. eauto.
  - destruct (enc_r3_geo_cases g) as [[-> ->]|[Hg [b Hb]]].
    + split; [reflexivity|tauto].
    + rewrite Hb. split.
      * intros [->|H]; [contradiction|]. simpl. now rewrite IH1.
      * intros H. destruct IH2 as [bs ->]; [tauto|]. simpl. eauto.
Qed.

Lemma reads_r3_state s bs : ok_r3_state s -> enc_r3_state s = Ok bs -> reads p_r3_state bs s.
Proof.
  unfold ok_r3_state, p_r3_state, enc_r3_state, omap. intros Hs E. oinv E.
  match goal with H : Ok _ = Ok _ |- _ => apply Ok_inj in H; subst bs end.
  destruct s; unproj.
  destruct Hs as (?&?&?&?&?&?&?&?&[Hz Hg]&?&?&?&?&?&?&?&?).
  assert (reads (p_vec p_r3_geo) a r3s_geo).
  { eapply reads_vec_o; [assumption| |eassumption]. intros g b Hin. apply reads_r3_geo.
    rewrite Forall_forall in Hg. auto. }
  rwalk.
Qed.
Lemma reads_r3_cache c : ok_r3_cache c -> reads p_r3_cache (enc_r3_cache c) c.
Proof. unfold ok_r3_cache, p_r3_cache, enc_r3_cache. destruct c; unproj. rgo. Qed.

Lemma reads_r3_sim s bs : ok_r3_sim s -> enc_r3_sim s = Ok bs -> reads p_r3_sim bs s.
Proof.
  intros [Hs Hc] E. unfold enc_r3_sim, omap in E. apply obind_Ok_inv in E as (b & Eb & E). apply Ok_inj in E; subst bs. unfold p_r3_sim.
  destruct s; unproj.
  eapply reads_bind; [eapply reads_r3_state; eassumption|].
  eapply reads_bind_nil; [now apply reads_r3_cache|apply reads_ret].
Qed.
Lemma enc_r3_sim_staple s : has_staple s -> enc_r3_sim s = Exit.
Proof.
  unfold has_staple, enc_r3_sim, enc_r3_state, enc_vec_o, omap. intros H.
  destruct (omapM_staple (r3s_geo (r3_st s))) as [E _]. now rewrite (E H).
Qed.
Lemma enc_r3_sim_total s : ~ has_staple s -> exists bs, enc_r3_sim s = Ok bs.
Proof.
  unfold has_staple, enc_r3_sim, enc_r3_state, enc_vec_o, omap. intros H.
  destruct (omapM_staple (r3s_geo (r3_st s))) as [_ E]. destruct (E H) as [bs ->]. simpl. eauto.
Qed.
