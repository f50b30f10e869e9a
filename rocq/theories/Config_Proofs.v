From Coq Require Import ZArith NArith String Lia ZifyBool ZifyNat ZifyN List.
From Verif Require Import Outcome Codec_Model Codec_Spec Codec_Proofs SnapBall_Model SnapRb2_Model SnapRb3_Model Snap_Spec
  Snap_Proofs Config_Model Config_Spec.
Import ListNotations.
Open Scope N_scope.

(* ---- fuel monotonicity ---- *)
Definition le_parser {A} (p q : parser A) : Prop := forall s, p s <> UB -> q s = p s.
Lemma le_refl {A} (p : parser A) : le_parser p p.
Proof. intros s _. reflexivity. Qed.
Lemma le_bind {A B} (p q : parser A) (f g : A -> parser B) :
  le_parser p q -> (forall a, le_parser (f a) (g a)) -> le_parser (pbind p f) (pbind q g).
Proof.
  intros H1 H2 s H. unfold pbind in *. destruct (p s) as [[a s']| |] eqn:E.
  - rewrite H1, E by (rewrite E; discriminate). simpl in *. now apply H2.
  - rewrite H1, E by (rewrite E; discriminate). reflexivity.
  - simpl in H. contradiction.
Qed.
Lemma le_pub {A} (q : parser A) : le_parser pub q.
Proof. intros s H. exfalso. apply H. reflexivity. Qed.
Lemma le_if {A} (b : bool) (p q r s : parser A) :
  le_parser p q -> le_parser r s -> le_parser (if b then p else r) (if b then q else s).
Proof. destruct b; auto. Qed.

Lemma p_impop_le ql ip f : le_parser (p_impop_f ql ip f) (p_impop_f ql ip (S f)).
Proof.
  induction f as [|f IH]; [apply le_pub|].
  cbn [p_impop_f] in *. apply le_bind; [apply le_refl|]. intros s.
  repeat first [apply le_refl | apply IH | apply le_if | (apply le_bind; [|intros ?])].
Qed.
Lemma p_impop_mono ql ip f f' : (f <= f')%nat -> le_parser (p_impop_f ql ip f) (p_impop_f ql ip f').
Proof.
  induction 1 as [|f' Hle IH]; [apply le_refl|]. intros s H.
  rewrite <- (IH s H). apply p_impop_le. rewrite (IH s H). exact H.
Qed.

Fixpoint op_size (o : impop) : nat :=
  match o with
  | OpGR _ op => S (op_size op)
  | OpGRR a b => S (op_size a + op_size b)
  | _ => 1%nat
  end.

Ltac evalif := match goal with
  | |- context [bstring_eqb ?a ?b] => let v := eval vm_compute in (bstring_eqb a b) in change (bstring_eqb a b) with v
  end.
Ltac evalifs := repeat evalif; rewrite ?Bool.andb_false_r, ?Bool.andb_true_r; cbv match; cbn [andb].
(* read a literal name and select the branch *)
Ltac rname := eapply reads_bind; [apply reads_string, ok_name; reflexivity|cbv beta; evalifs].
Ltac xname := eapply exits_bind_r; [apply reads_string, ok_name; reflexivity|cbv beta; evalifs].

Lemma omap_inv {A B} (f : A -> B) x b : omap f x = Ok b -> exists a, x = Ok a /\ b = f a.
Proof. unfold omap. intros H. apply obind_Ok_inv in H as (a & -> & H). injection H as <-. eauto. Qed.

Lemma op_size_len o : forall bs, enc_impop o = Ok bs -> (op_size o <= List.length bs)%nat.
Proof.
  assert (L : forall s b, (8 <= List.length (enc_string s ++ b))%nat)
    by (intros; unfold enc_string, enc_vec; rewrite !app_length; change (List.length (enc_u64 _)) with 8%nat; lia).
  induction o; intros bs H; cbn [enc_impop] in H; apply omap_inv in H as (b & Hb & ->); cbn [op_size].
  all: rewrite ?app_length.
  all: match goal with |- context [List.length (enc_string ?s)] =>
         pose proof (L s []) as L'; rewrite app_nil_r in L' end.
  all: try lia.
  - apply omap_inv in Hb as (b' & Hb' & ->). rewrite app_length. specialize (IHo _ Hb'). lia.
  - apply obind_Ok_inv in Hb as (b1 & H1 & Hb). apply obind_Ok_inv in Hb as (b2 & H2 & Hb). apply Ok_inj in Hb; subst b.
    rewrite app_length. specialize (IHo1 _ H1). specialize (IHo2 _ H2). lia.
Qed.

Lemma reads_impop_f ql ip o : forall bs f, ok_impop o -> known_impop ql ip o -> enc_impop o = Ok bs ->
  (op_size o <= f)%nat -> reads (p_impop_f ql ip f) bs o.
Proof.
  induction o; intros bs f Hok Hk E Hf; cbn [enc_impop] in E; apply omap_inv in E as (b & Hb & ->);
    cbn [op_size ok_impop known_impop] in *; try contradiction;
    (destruct f as [|f]; [lia|]); cbn [p_impop_f impop_name]; rname.
  - apply Ok_inj in Hb; subst b. apply reads_ret.
  - apply omap_inv in Hb as (b' & Hb' & ->). destruct Hok.
    eapply reads_bind; [now apply reads_u64|]. eapply reads_bind_nil; [|apply reads_ret].
    apply IHo; auto. lia.
  - apply obind_Ok_inv in Hb as (b1 & H1 & Hb). apply obind_Ok_inv in Hb as (b2 & H2 & Hb). apply Ok_inj in Hb; subst b.
    destruct Hok, Hk.
    eapply reads_bind; [apply IHo1; auto; lia|]. eapply reads_bind_nil; [|apply reads_ret]. apply IHo2; auto. lia.
  - apply Ok_inj in Hb; subst b. rwalk.
  - apply Ok_inj in Hb; subst b. subst ql. cbn [andb]. rwalk.
  - apply Ok_inj in Hb; subst b. subst ip. destruct ql; cbn [andb]; destruct Hok; rwalk.
  - apply Ok_inj in Hb; subst b. destruct ql, ip; cbn [andb]; destruct Hok; rwalk.
Qed.

Lemma known_writable ql ip o : known_impop ql ip o -> ~ unwritable_impop o.
Proof. induction o; cbn; tauto. Qed.

Lemma known_dec ql ip o : {known_impop ql ip o} + {~ known_impop ql ip o}.
Proof.
  induction o; cbn; try tauto; try (apply Bool.bool_dec).
Qed.

Lemma exits_impop_f ql ip o : forall bs f, ok_impop o -> ~ known_impop ql ip o -> enc_impop o = Ok bs ->
  (op_size o <= f)%nat -> exits (p_impop_f ql ip f) bs.
Proof.
  induction o; intros bs f Hok Hk E Hf; cbn [enc_impop] in E; apply omap_inv in E as (b & Hb & ->);
    cbn [op_size ok_impop known_impop] in *; try (exfalso; apply Hk; exact I);
    (destruct f as [|f]; [lia|]); cbn [p_impop_f impop_name]; try discriminate Hb; xname.
  - apply omap_inv in Hb as (b' & Hb' & ->). destruct Hok.
    eapply exits_bind_r; [now apply reads_u64|]. apply exits_bind_l'. apply IHo; auto. lia.
  - apply obind_Ok_inv in Hb as (b1 & H1 & Hb). apply obind_Ok_inv in Hb as (b2 & H2 & Hb). apply Ok_inj in Hb; subst b.
    destruct Hok. destruct (known_dec ql ip o1) as [K1|K1].
    + eapply exits_bind_r; [eapply (reads_impop_f ql ip o1); eauto; lia|]. apply exits_bind_l'. apply IHo2; auto; try tauto; lia.
    + apply exits_bind_l. apply IHo1; auto. lia.
  - destruct ql; [contradiction (Hk eq_refl)|]. cbn [andb]. destruct ip; cbn [andb]; intros rest; reflexivity.
  - destruct ip; [contradiction (Hk eq_refl)|]. destruct ql; cbn [andb]; intros rest; reflexivity.
Qed.

Lemma reads_impop ql ip o bs : ok_impop o -> known_impop ql ip o -> enc_impop o = Ok bs -> reads (p_impop ql ip) bs o.
Proof.
  intros Hok Hk E. pose proof (op_size_len _ _ E) as L. split.
  - intros rest. unfold p_impop. apply (reads_impop_f ql ip o bs); auto. rewrite app_length. lia.
  - intros x y Ex Hy. unfold p_impop.
    set (f := S (List.length x)). set (g := Nat.max f (op_size o)).
    assert (U : p_impop_f ql ip g x = UB) by (eapply (reads_impop_f ql ip o bs); eauto; lia).
    destruct (p_impop_f ql ip f x) eqn:Ef; [| |reflexivity].
    all: assert (Hx : p_impop_f ql ip f x <> UB) by (rewrite Ef; discriminate);
      apply (p_impop_mono ql ip f g) in Hx; [|lia]; congruence.
Qed.
Lemma exits_impop ql ip o bs : ok_impop o -> ~ known_impop ql ip o -> enc_impop o = Ok bs -> exits (p_impop ql ip) bs.
Proof.
  intros Hok Hk E rest. unfold p_impop. pose proof (op_size_len _ _ E) as L.
  apply (exits_impop_f ql ip o bs); auto. rewrite app_length. lia.
Qed.

Lemma enc_impop_exit o : unwritable_impop o -> enc_impop o = Exit.
Proof.
  induction o; cbn [unwritable_impop enc_impop]; intros H; try contradiction; try reflexivity.
  - now rewrite (IHo H).
  - destruct H as [H|H]; [now rewrite (IHo1 H)|]. rewrite (IHo2 H). destruct (enc_impop o1) eqn:E1; try reflexivity.
    exfalso. clear -E1. revert E1. induction o1; cbn [enc_impop]; try discriminate.
    + destruct (enc_impop o1); try discriminate. intros _. now apply IHo1.
    + destruct (enc_impop o1_1); try discriminate; cbn; [|now intros _; apply IHo1_1].
      destruct (enc_impop o1_2); try discriminate. now intros _; apply IHo1_2.
Qed.
Lemma enc_impop_ok o : ~ unwritable_impop o -> exists bs, enc_impop o = Ok bs.
Proof.
  induction o; cbn [unwritable_impop enc_impop]; intros H; try (exfalso; apply H; exact I); try (eexists; reflexivity).
  - destruct (IHo H) as [b ->]. eexists; reflexivity.
  - destruct IHo1 as [b1 ->]; [tauto|]. destruct IHo2 as [b2 ->]; [tauto|]. eexists; reflexivity.
Qed.

(* ---- the other parts ---- *)
Lemma reads_fricop ql ip o : ok_fricop o -> known_fricop ql ip o -> reads (p_fricop ql ip) (enc_fricop o) o.
Proof.
  unfold p_fricop. destruct o; cbn [ok_fricop known_fricop enc_fricop]; intros Hok Hk.
  - rewrite <- (app_nil_r (enc_string _)). rname. destruct ql, ip; cbn [andb]; apply reads_ret.
  - rname. subst ql; cbn [andb]. destruct Hok. rwalk.
  - rname. subst ql; cbn [andb]. rwalk.
  - rname. subst ip; destruct ql; cbn [andb]; destruct Hok; rwalk.
Qed.
Lemma exits_fricop ql ip o : ~ known_fricop ql ip o -> exits (p_fricop ql ip) (enc_fricop o).
Proof.
  unfold p_fricop. destruct o; cbn [known_fricop enc_fricop]; intros Hk; try (exfalso; apply Hk; exact I); xname.
  - destruct ql; [contradiction (Hk eq_refl)|]. destruct ip; intros rest; reflexivity.
  - destruct ql; [contradiction (Hk eq_refl)|]. destruct ip; intros rest; reflexivity.
  - destruct ip; [contradiction (Hk eq_refl)|]. destruct ql; intros rest; reflexivity.
Qed.
Lemma known_fricop_dec ql ip o : {known_fricop ql ip o} + {~ known_fricop ql ip o}.
Proof. destruct o; cbn; try tauto; apply Bool.bool_dec. Qed.

Lemma reads_fsolver ql ip s bs : ok_fsolver s -> known_fsolver ql ip s -> enc_fsolver s = Ok bs -> reads (p_fsolver ql ip) bs s.
Proof.
  unfold p_fsolver. destruct s; cbn [ok_fsolver known_fsolver enc_fsolver]; intros Hok Hk E; try contradiction.
  - apply Ok_inj in E; subst bs. rewrite <- (app_nil_r (enc_string _)). rname. apply reads_ret.
  - apply omap_inv in E as (b & Hb & ->). rname. destruct Hok, Hk.
    pose proof (reads_impop ql ip _ _ H H1 Hb). pose proof (reads_fricop ql ip _ H0 H2). rwalk.
  - apply Ok_inj in E; subst bs. rname. destruct Hok. rwalk.
Qed.
Lemma exits_fsolver ql ip s bs : ok_fsolver s -> ~ known_fsolver ql ip s -> enc_fsolver s = Ok bs -> exits (p_fsolver ql ip) bs.
Proof.
  unfold p_fsolver. destruct s; cbn [ok_fsolver known_fsolver enc_fsolver]; intros Hok Hk E; try (exfalso; apply Hk; exact I).
  - apply omap_inv in E as (b & Hb & ->). xname. destruct Hok as [H1 H2].
    do 2 (eapply exits_bind_r; [apply reads_bool|]).
    destruct (known_dec ql ip io) as [K|K].
    + eapply exits_bind_r; [eapply reads_impop; eauto|]. apply exits_bind_l', exits_fricop. tauto.
    + apply exits_bind_l. eapply exits_impop; eauto.
  - apply omap_inv in E as (b & Hb & ->). xname. intros rest; reflexivity.
Qed.
Lemma known_fsolver_dec ql ip s : {known_fsolver ql ip s} + {~ known_fsolver ql ip s}.
Proof.
  destruct s; cbn; try tauto. destruct (known_dec ql ip io), (known_fricop_dec ql ip fo); tauto.
Qed.
Lemma enc_fsolver_exit s : unwritable_fsolver s -> enc_fsolver s = Exit.
Proof. destruct s; cbn [unwritable_fsolver enc_fsolver]; try contradiction; intros H; now rewrite (enc_impop_exit _ H). Qed.
Lemma enc_fsolver_ok s : ~ unwritable_fsolver s -> exists bs, enc_fsolver s = Ok bs.
Proof.
  destruct s; cbn [unwritable_fsolver enc_fsolver]; intros H; try (eexists; reflexivity);
    destruct (enc_impop_ok _ H) as [b ->]; eexists; reflexivity.
Qed.

Lemma reads_imap m : reads p_imap (enc_imap m) m.
Proof.
  unfold p_imap. destruct m; cbn [enc_imap].
  - rewrite <- (app_nil_r (enc_string _)). rname. apply reads_ret.
  - rname. rwalk.
Qed.
Lemma reads_ifmap m : ok_ifmap m -> reads p_ifmap (enc_ifmap m) m.
Proof.
  unfold p_ifmap. destruct m; cbn [ok_ifmap enc_ifmap]; intros H.
  - rewrite <- (app_nil_r (enc_string _)). rname. apply reads_ret.
  - rname. destruct H as (?&?&?&?). rwalk.
  - rname. destruct H as (?&?&?). rwalk.
  - rname. destruct H as (?&?&?&?&?). rwalk.
Qed.

Definition umap_codec (p : parser umap) (known : list umap) : Prop :=
  (forall u, In u known -> reads p (enc_umap u) u) /\ (forall u, ~ In u known -> exits p (enc_umap u)).
Lemma umap_b2 : umap_codec p_umap_b2 umaps_b2.
Proof.
  unfold p_umap_b2. split; intros u H; destruct u; try (exfalso; cbn in H; intuition discriminate);
    unfold enc_umap; rewrite <- (app_nil_r (enc_string _)).
  1: rname; apply reads_ret.
  all: xname; intros rest; reflexivity.
Qed.
Lemma umap_r2 : umap_codec p_umap_r2 umaps_r2.
Proof.
  unfold p_umap_r2. split; intros u H; destruct u; try (exfalso; cbn in H; intuition discriminate);
    unfold enc_umap; rewrite <- (app_nil_r (enc_string _)).
  1,2: rname; apply reads_ret.
  all: xname; intros rest; reflexivity.
Qed.
Lemma umap_r3 : umap_codec p_umap_r3 umaps_r3.
Proof.
  unfold p_umap_r3. split; intros u H; destruct u; try (exfalso; cbn in H; intuition discriminate);
    unfold enc_umap; rewrite <- (app_nil_r (enc_string _)).
  1-3: rname; apply reads_ret.
  all: xname; intros rest; reflexivity.
Qed.
Definition umap_eq_dec (a b : umap) : {a = b} + {a <> b}.
Proof. decide equality. Defined.

(* ---- the file ---- *)
Section File.
  Context {S : Type} (ok_sim known_sim unwritable_sim : S -> Prop) (enc_sim : S -> outcome bytes) (p_sim : parser S)
    (p_umap : parser umap) (umaps : list umap) (magic : N) (with_imap hdf5 ql ip : bool) (git : bstring).
  Hypothesis Hreads : forall s bs, ok_sim s -> known_sim s -> enc_sim s = Ok bs -> reads p_sim bs s.
  Hypothesis Hexits : forall s bs, ok_sim s -> ~ known_sim s -> enc_sim s = Ok bs -> exits p_sim bs.
  Hypothesis Hdec : forall s, known_sim s \/ ~ known_sim s.
  Hypothesis Hun : forall s, unwritable_sim s -> enc_sim s = Exit.
  Hypothesis Hok : forall s, ~ unwritable_sim s -> exists bs, enc_sim s = Ok bs.
  Hypothesis Hu : umap_codec p_umap umaps.
  Hypothesis Hm : u32 magic.
  Hypothesis Hg : ok_string git.

  Ltac yproj := cbn [y_sim y_iter y_umap y_dt_num y_dt_den y_end y_impop y_cor y_fsolver y_mu y_imap y_ifmap y_spath
    y_smod y_outdir y_forces y_steps y_frame y_prec y_width y_ser y_over] in *.
  Ltac rfile := eapply reads_bind; [solve [eauto using reads_imap, reads_ifmap with reads]|cbv beta].
  Ltac xfile := eapply exits_bind_r; [solve [eauto using reads_imap, reads_ifmap with reads]|cbv beta].

  Lemma reads_sys y bs : ok_sys ok_sim with_imap hdf5 y -> known_sys ql ip umaps known_sim y ->
    enc_sys magic with_imap hdf5 git enc_sim y = Ok bs -> reads (p_sys ql ip magic with_imap hdf5 p_sim p_umap) bs y.
  Proof.
    destruct y. unfold ok_sys, known_sys, enc_sys, p_sys. yproj.
    intros (?&?&?&?&?&?&?&?&?&?&?&?&?&?&?&?&?&Him&Hh) (?&?&?&?) E.
    apply obind_Ok_inv in E as (bsim & E1 & E). apply obind_Ok_inv in E as (bop & E2 & E).
    apply obind_Ok_inv in E as (bfs & E3 & E). apply Ok_inj in E. subst bs.
    rfile. rewrite N.eqb_refl. rfile.
    eapply reads_bind; [eapply Hreads; eassumption|]. rfile.
    eapply reads_bind; [apply Hu; assumption|]. do 3 rfile.
    eapply reads_bind; [eapply reads_impop; eassumption|]. rfile.
    eapply reads_bind; [eapply reads_fsolver; eassumption|]. rfile.
    eapply reads_bind with (a := y_imap).
    { destruct with_imap; [apply reads_imap|]. rewrite (Him eq_refl). apply reads_ret. }
    do 3 rfile.
    eapply reads_bind with (a := y_outdir).
    { destruct hdf5; [now apply reads_string|]. destruct (Hh eq_refl) as [-> _]. apply reads_ret. }
    eapply reads_bind with (a := y_forces).
    { destruct hdf5; [now apply reads_bool|]. destruct (Hh eq_refl) as [_ ->]. apply reads_ret. }
    rwalk.
  Qed.

  Lemma exits_sys y bs : ok_sys ok_sim with_imap hdf5 y -> ~ known_sys ql ip umaps known_sim y ->
    enc_sys magic with_imap hdf5 git enc_sim y = Ok bs -> exits (p_sys ql ip magic with_imap hdf5 p_sim p_umap) bs.
  Proof.
    destruct y. unfold ok_sys, known_sys, enc_sys, p_sys. yproj.
    intros (?&?&?&?&?&?&?&?&?&?&?&?&?&?&?&?&?&Him&Hh) Hk E.
    apply obind_Ok_inv in E as (bsim & E1 & E). apply obind_Ok_inv in E as (bop & E2 & E).
    apply obind_Ok_inv in E as (bfs & E3 & E). apply Ok_inj in E. subst bs.
    xfile. rewrite N.eqb_refl. xfile.
    destruct (Hdec y_sim) as [K1|K1]; [|apply exits_bind_l; eapply Hexits; eassumption].
    eapply exits_bind_r; [eapply Hreads; eassumption|]. xfile.
    destruct (in_dec umap_eq_dec y_umap umaps) as [K2|K2]; [|apply exits_bind_l; apply Hu; assumption].
    eapply exits_bind_r; [apply Hu; assumption|]. do 3 xfile.
    destruct (known_dec ql ip y_impop) as [K3|K3]; [|apply exits_bind_l; eapply exits_impop; eassumption].
    eapply exits_bind_r; [eapply reads_impop; eassumption|]. xfile.
    destruct (known_fsolver_dec ql ip y_fsolver) as [K4|K4]; [tauto|].
    apply exits_bind_l. eapply exits_fsolver; eassumption.
  Qed.

  Lemma enc_sys_exit y : unwritable_sys unwritable_sim y -> enc_sys magic with_imap hdf5 git enc_sim y = Exit.
  Proof.
    unfold unwritable_sys, enc_sys. intros H.
    destruct (enc_sim (y_sim y)) as [b| |] eqn:E1; [|reflexivity|].
    - cbn [obind]. destruct H as [H|[H|H]]; [rewrite (Hun _ H) in E1; discriminate| |].
      + now rewrite (enc_impop_exit _ H).
      + assert (X : enc_impop (y_impop y) <> UB).
        { destruct (enc_impop (y_impop y)) eqn:E; try discriminate. exfalso. revert E. clear.
          generalize (y_impop y). induction i; cbn [enc_impop]; try discriminate.
          - destruct (enc_impop i); try discriminate. intros _. now apply IHi.
          - destruct (enc_impop i1); try discriminate; cbn; [|now intros _; apply IHi1].
            destruct (enc_impop i2); try discriminate. now intros _; apply IHi2. }
        destruct (enc_impop (y_impop y)); [|reflexivity|contradiction].
        cbn [obind]. now rewrite (enc_fsolver_exit _ H).
    - exfalso. destruct H as [H|H]; [rewrite (Hun _ H) in E1; discriminate|].
      assert (Hn : ~ unwritable_sim (y_sim y)) by (intros X; rewrite (Hun _ X) in E1; discriminate).
      destruct (Hok _ Hn) as [b Hb]. congruence.
  Qed.
  Lemma enc_sys_ok y : ~ unwritable_sys unwritable_sim y -> exists bs, enc_sys magic with_imap hdf5 git enc_sim y = Ok bs.
  Proof.
    unfold unwritable_sys, enc_sys. intros H.
    destruct (Hok (y_sim y)) as [b1 ->]; [tauto|].
    destruct (enc_impop_ok (y_impop y)) as [b2 ->]; [tauto|].
    destruct (enc_fsolver_ok (y_fsolver y)) as [b3 ->]; [tauto|]. eexists; reflexivity.
  Qed.
End File.

(* files of a tool with another magic number are refused *)
Lemma wrong_magic {S S'} m m' wi wi' hd hd' ql ip git (enc_sim : S -> outcome bytes) (p_sim : parser S') p_umap y bs rest :
  u32 m -> m <> m' -> enc_sys m wi hd git enc_sim y = Ok bs ->
  p_sys ql ip m' wi' hd' p_sim p_umap (bs ++ rest) = Exit.
Proof.
  intros Hm Hne E. unfold enc_sys in E.
  apply obind_Ok_inv in E as (bsim & E1 & E). apply obind_Ok_inv in E as (bop & E2 & E).
  apply obind_Ok_inv in E as (bfs & E3 & E). apply Ok_inj in E. subst bs.
  unfold p_sys, pbind at 1. rewrite <- app_assoc. destruct (reads_u32 m Hm) as [R _]. rewrite R. cbn [obind fst snd].
  destruct (N.eqb_spec m m'); [contradiction|]. reflexivity.
Qed.

(* instances *)
Lemma penalty_dec s : ~ has_penalty_force s \/ ~ ~ has_penalty_force s.
Proof.
  destruct (Exists_dec is_penalty (b2s_forces (b2_st s)) not_penalty_dec) as [H|H]; [right|left]; unfold has_penalty_force; tauto.
Qed.
Lemma b2_reads s bs : ok_b2_sim s -> ~ has_penalty_force s -> Ok (enc_b2_sim s) = Ok bs -> reads p_b2_sim bs s.
Proof. intros H1 H2 E. apply Ok_inj in E; subst bs. now apply reads_b2_sim. Qed.
Lemma b2_exits s bs : ok_b2_sim s -> ~ ~ has_penalty_force s -> Ok (enc_b2_sim s) = Ok bs -> exits p_b2_sim bs.
Proof.
  intros H1 H2 E. apply Ok_inj in E; subst bs. apply exits_b2_sim; [assumption|].
  destruct (Exists_dec is_penalty (b2s_forces (b2_st s)) not_penalty_dec) as [H|H]; [exact H|contradiction (H2 H)].
Qed.
Lemma r2_reads s bs : ok_r2_sim s -> True -> Ok (enc_r2_sim s) = Ok bs -> reads p_r2_sim bs s.
Proof. intros H1 _ E. apply Ok_inj in E; subst bs. now apply reads_r2_sim. Qed.
Lemma staple_dec s : has_staple s \/ ~ has_staple s.
Proof.
  unfold has_staple. induction (r3s_geo (r3_st s)) as [|g l [IH|IH]]; [right; intros []|left; now right|].
  destruct (enc_r3_geo_cases g) as [[-> _]|[Hg _]]; [left; now left|right; intros [H|H]; auto].
Qed.
Lemma r3_reads s bs : ok_r3_sim s -> True -> enc_r3_sim s = Ok bs -> reads p_r3_sim bs s.
Proof. intros H _. now apply reads_r3_sim. Qed.
Lemma magics : u32 magic_b2 /\ u32 magic_r2 /\ u32 magic_r3.
Proof. repeat split; reflexivity. Qed.

(* what a resume of the written system gives *)
Definition resume_law {S} (ok known unwritable : sys S -> Prop) (enc : sys S -> outcome bytes) (p : parser (sys S)) : Prop :=
  (forall y, ok y -> known y -> ~ unwritable y -> exists bs, enc y = Ok bs /\ round_trip p bs y /\ cut_detected p bs) /\
  (forall y, ok y -> ~ known y -> ~ unwritable y -> exists bs, enc y = Ok bs /\ exits p bs) /\
  (forall y, unwritable y -> enc y = Exit).

Lemma file_law {S} (ok_sim known_sim unwritable_sim : S -> Prop) enc_sim p_sim p_umap umaps magic with_imap hdf5 ql ip git :
  (forall s bs, ok_sim s -> known_sim s -> enc_sim s = Ok bs -> reads p_sim bs s) ->
  (forall s bs, ok_sim s -> ~ known_sim s -> enc_sim s = Ok bs -> exits p_sim bs) ->
  (forall s, known_sim s \/ ~ known_sim s) ->
  (forall s, unwritable_sim s -> enc_sim s = Exit) ->
  (forall s, ~ unwritable_sim s -> exists bs, enc_sim s = Ok bs) ->
  umap_codec p_umap umaps -> u32 magic -> ok_string git ->
  resume_law (ok_sys ok_sim with_imap hdf5) (known_sys ql ip umaps known_sim) (unwritable_sys unwritable_sim)
    (enc_sys magic with_imap hdf5 git enc_sim) (p_sys ql ip magic with_imap hdf5 p_sim p_umap).
Proof.
  intros H1 H2 H3 H4 H5 H6 H7 H8. split; [|split].
  - intros y Hy Hk Hu. destruct (enc_sys_ok unwritable_sim enc_sim magic with_imap hdf5 git H5 y Hu) as [bs E].
    exists bs. split; [assumption|]. eapply reads_sys; eassumption.
  - intros y Hy Hk Hu. destruct (enc_sys_ok unwritable_sim enc_sim magic with_imap hdf5 git H5 y Hu) as [bs E].
    exists bs. split; [assumption|]. eapply exits_sys; eassumption.
  - intros y Hu. now apply (enc_sys_exit unwritable_sim).
Qed.

Lemma law_b2 ql ip hdf5 git : ok_string git ->
  resume_law (ok_sys ok_b2_sim true hdf5) (known_sys ql ip umaps_b2 (fun s => ~ has_penalty_force s))
    (unwritable_sys (fun _ => False)) (enc_sys_b2 hdf5 git) (p_sys_b2 ql ip hdf5).
Proof.
  intros Hg. apply file_law; try assumption.
  - exact b2_reads.
  - exact b2_exits.
  - exact penalty_dec.
  - contradiction.
  - intros s _. eauto.
  - exact umap_b2.
  - exact (proj1 magics).
Qed.
Lemma law_r2 ql ip hdf5 git : ok_string git ->
  resume_law (ok_sys ok_r2_sim true hdf5) (known_sys ql ip umaps_r2 (fun _ => True))
    (unwritable_sys (fun _ => False)) (enc_sys_r2 hdf5 git) (p_sys_r2 ql ip hdf5).
Proof.
  intros Hg. apply file_law; try assumption.
  - exact r2_reads.
  - intros s bs _ H. exfalso. apply H. exact I.
  - left. exact I.
  - contradiction.
  - intros s _. eauto.
  - exact umap_r2.
  - exact (proj1 (proj2 magics)).
Qed.
Lemma law_r3 ql ip hdf5 git : ok_string git ->
  resume_law (ok_sys ok_r3_sim false hdf5) (known_sys ql ip umaps_r3 (fun _ => True))
    (unwritable_sys has_staple) (enc_sys_r3 hdf5 git) (p_sys_r3 ql ip hdf5).
Proof.
  intros Hg. apply file_law; try assumption.
  - exact r3_reads.
  - intros s bs _ H. exfalso. apply H. exact I.
  - left. exact I.
  - exact enc_r3_sim_staple.
  - exact enc_r3_sim_total.
  - exact umap_r3.
  - exact (proj2 (proj2 magics)).
Qed.
Lemma magics_differ : magic_b2 <> magic_r2 /\ magic_b2 <> magic_r3 /\ magic_r2 <> magic_r3.
Proof. repeat split; discriminate. Qed.
Lemma not_resumable :
  (forall ql ip k y, y_umap y = USymplecticEuler \/ y_umap y = UNull -> ~ known_sys (S := b2_sim) ql ip umaps_b2 k y) /\
  (forall ql ip k y, y_umap y = UNull -> ~ known_sys (S := r2_sim) ql ip umaps_r2 k y) /\
  (forall ql ip k y, y_umap y = UExpEuler -> ~ known_sys (S := r3_sim) ql ip umaps_r3 k y) /\
  (forall (S : Type) ql ip u k (y : sys S) io fo, y_fsolver y = FsGRRFriction io fo -> ~ known_sys ql ip u k y) /\
  (forall (S : Type) un (y : sys S) t, y_impop y = OpJacobi t \/ y_impop y = OpQLVP t -> unwritable_sys un y).
Proof.
  unfold known_sys, unwritable_sys. repeat split.
  - intros ql ip k y [->| ->]; cbn; intuition discriminate.
  - intros ql ip k y ->; cbn; intuition discriminate.
  - intros ql ip k y ->; cbn; intuition discriminate.
  - intros S ql ip u k y io fo ->; cbn; tauto.
  - intros S un y t [->| ->]; cbn; auto.
Qed.
