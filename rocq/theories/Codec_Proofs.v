From Coq Require Import ZArith NArith Ascii String Lia ZifyBool ZifyNat ZifyN List.
From Verif Require Import Outcome Str_Model Codec_Model Codec_Spec.
Import ListNotations.
Open Scope N_scope.

Lemma app_cut {A} (a b c d : list A) : a ++ b = c ++ d ->
  (exists e, c = a ++ e /\ b = e ++ d) \/ (exists e, e <> [] /\ a = c ++ e /\ d = e ++ b).
Proof.
  revert c. induction a as [|x a IH]; intros c H; simpl in *.
  - left. exists c. auto.
  - destruct c as [|y c]; simpl in *.
    + right. exists (x :: a). split; [discriminate|split; [reflexivity|now symmetry]].
    + injection H as -> H. destruct (IH _ H) as [(e & -> & ->)|(e & He & -> & ->)].
      * left. exists e. auto.
      * right. exists e. auto.
Qed.

Lemma reads_ret {A} (a : A) : reads (pret a) [] a.
Proof.
  split; [intros rest; reflexivity|].
  intros x y H Hy. symmetry in H. apply app_eq_nil in H as [_ ->]. contradiction.
Qed.

Lemma reads_bind {A B} (p : parser A) (f : A -> parser B) b1 b2 a b :
  reads p b1 a -> reads (f a) b2 b -> reads (pbind p f) (b1 ++ b2) b.
Proof.
  intros [R1 C1] [R2 C2]. split.
  - intros rest. unfold pbind. rewrite <- app_assoc, R1. simpl. apply R2.
  - intros x y E Hy. unfold pbind. destruct (app_cut _ _ _ _ E) as [(e & -> & E2)|(e & He & E1 & _)].
    + rewrite R1. simpl. eapply C2; eauto.
    + rewrite (C1 _ _ E1 He). reflexivity.
Qed.

Lemma reads_bind_nil {A B} (p : parser A) (f : A -> parser B) b1 a b :
  reads p b1 a -> reads (f a) [] b -> reads (pbind p f) b1 b.
Proof. intros H1 H2. rewrite <- (app_nil_r b1). eapply reads_bind; eauto. Qed.

Lemma reads_last {A B} (p : parser A) (g : A -> B) b1 a :
  reads p b1 a -> reads (pbind p (fun x => pret (g x))) b1 (g a).
Proof. intros H. eapply reads_bind_nil; [exact H|apply reads_ret]. Qed.

Lemma reads_byte b : reads p_byte [b] b.
Proof.
  split; [intros rest; reflexivity|].
  intros x y E Hy. destruct x as [|c x]; [reflexivity|].
  destruct x, y; try discriminate. contradiction.
Qed.

Lemma reads_le k : forall n, n < 256 ^ N.of_nat k -> reads (p_le k) (enc_le k n) n.
Proof.
  induction k as [|k IH]; intros n Hn.
  - cbn [p_le enc_le]. replace n with 0 by (change (256 ^ N.of_nat 0) with 1 in Hn; lia). apply reads_ret.
  - cbn [p_le enc_le]. change (n mod 256 :: enc_le k (n / 256)) with ([n mod 256] ++ enc_le k (n / 256)).
    eapply reads_bind; [apply reads_byte|].
    rewrite Nat2N.inj_succ, N.pow_succ_r' in Hn.
    assert (H : n / 256 < 256 ^ N.of_nat k) by (apply N.div_lt_upper_bound; lia).
    specialize (IH _ H). apply reads_last with (g := fun r => n mod 256 + 256 * r) in IH.
    replace (n mod 256 + 256 * (n / 256)) with n in IH; [exact IH|].
    pose proof (N.div_mod n 256). lia.
Qed.

Lemma reads_u8 n : u8 n -> reads p_u8 (enc_u8 n) n.
Proof. intros H. apply reads_le. exact H. Qed.
Lemma reads_u32 n : u32 n -> reads p_u32 (enc_u32 n) n.
Proof. intros H. apply reads_le. exact H. Qed.
Lemma reads_u64 n : u64 n -> reads p_u64 (enc_u64 n) n.
Proof. intros H. apply reads_le. exact H. Qed.

Lemma reads_bool b : reads p_bool (enc_bool b) b.
Proof.
  unfold p_bool, enc_bool. eapply reads_bind_nil.
  - apply reads_u8. unfold u8. destruct b; reflexivity.
  - destruct b; apply reads_ret.
Qed.

Lemma reads_rep {A} (p : parser A) (e : A -> bytes) l :
  Forall (fun a => reads p (e a) a) l -> reads (p_rep (List.length l) p) (enc_list e l) l.
Proof.
  induction 1 as [|a l Ha Hl IH]; cbn [p_rep List.length].
  - apply reads_ret.
  - unfold enc_list in *. cbn [map concat]. eapply reads_bind; [exact Ha|].
    now apply reads_last with (g := cons a) in IH.
Qed.

Lemma reads_vec {A} (p : parser A) (e : A -> bytes) l :
  sized l -> Forall (fun a => reads p (e a) a) l -> reads (p_vec p) (enc_vec e l) l.
Proof.
  intros Hs Hl. unfold p_vec, enc_vec. eapply reads_bind; [apply reads_u64; exact Hs|].
  rewrite Nat2N.id. now apply reads_rep.
Qed.

Lemma reads_vec_ok {A} (P : A -> Prop) (p : parser A) (e : A -> bytes) l :
  (forall a, P a -> reads p (e a) a) -> ok_vec P l -> reads (p_vec p) (enc_vec e l) l.
Proof.
  intros H [Hs Hl]. apply reads_vec; [assumption|]. eapply Forall_impl; [exact H|assumption].
Qed.

Lemma reads_string s : ok_string s -> reads p_string (enc_string s) s.
Proof.
  intros [Hs _]. apply reads_vec; [assumption|]. apply Forall_forall. intros b _. apply reads_byte.
Qed.

Lemma reads_strings l : ok_vec ok_string l -> reads p_strings (enc_strings l) l.
Proof. apply reads_vec_ok. exact reads_string. Qed.

Lemma reads_rep_n {A} (p : parser A) (e : A -> bytes) l n :
  n = List.length l -> Forall (fun a => reads p (e a) a) l -> reads (p_rep n p) (enc_list e l) l.
Proof. intros ->. apply reads_rep. Qed.

Lemma reads_fix k l : ok_fix k l -> reads (p_fix k) (enc_fix l) l.
Proof.
  intros [Hk Hl]. apply reads_rep_n; [auto|]. eapply Forall_impl; [exact reads_u64|assumption].
Qed.
Lemma reads_fix32 k l : ok_fix32 k l -> reads (p_fix32 k) (enc_fix32 l) l.
Proof.
  intros [Hk Hl]. apply reads_rep_n; [auto|]. eapply Forall_impl; [exact reads_u32|assumption].
Qed.
Lemma reads_vecx l : ok_vecx l -> reads p_vecx (enc_vecx l) l.
Proof. apply reads_vec_ok. exact reads_u64. Qed.
Lemma reads_vecxu l : ok_vecxu l -> reads p_vecxu (enc_vecxu l) l.
Proof. apply reads_vec_ok. exact reads_u32. Qed.
Lemma reads_mat3x m : ok_vec (ok_fix 3) m -> reads p_mat3x (enc_mat3x m) m.
Proof. apply reads_vec_ok. exact (reads_fix 3). Qed.
Lemma reads_mat3xu m : ok_vec (ok_fix32 3) m -> reads p_mat3xu (enc_mat3xu m) m.
Proof. apply reads_vec_ok. exact (reads_fix32 3). Qed.
Lemma reads_bools l : sized l -> reads (p_vec p_bool) (enc_vec enc_bool l) l.
Proof.
  intros H. apply reads_vec; [assumption|]. apply Forall_forall. intros b _. apply reads_bool.
Qed.

Lemma reads_sparse a : ok_sparse a -> reads p_sparse (enc_sparse a) a.
Proof.
  destruct a as [r c i o v]. unfold ok_sparse, p_sparse, enc_sparse. cbn [sp_rows sp_cols sp_inner sp_outer sp_vals].
  intros (Hr & Hc & Hs & Hi & Ho & Fi & Fo & Fv).
  eapply reads_bind; [apply reads_u64; exact Hr|].
  eapply reads_bind; [apply reads_u64; exact Hc|].
  eapply reads_bind; [apply reads_u64; exact Hs|].
  eapply reads_bind.
  { apply reads_rep_n; [|eapply Forall_impl; [exact reads_u32|exact Fi]]. rewrite Nat2N.id. auto. }
  eapply reads_bind.
  { apply reads_rep_n; [|eapply Forall_impl; [exact reads_u32|exact Fo]]. lia. }
  apply reads_last with (g := mkSparse r c i o).
  apply reads_rep_n; [|eapply Forall_impl; [exact reads_u64|exact Fv]]. now rewrite Nat2N.id.
Qed.

(* ---- ordered maps ---- *)
Lemma key_ltb_spec a b : Bool.reflect (key_lt a b) (key_ltb a b).
Proof.
  apply Bool.iff_reflect. unfold key_lt, key_ltb. destruct a, b; simpl.
  rewrite Bool.orb_true_iff, Bool.andb_true_iff, !N.ltb_lt, N.eqb_eq. tauto.
Qed.
Lemma key_lt_irrefl a : ~ key_lt a a.
Proof. unfold key_lt. lia. Qed.
Lemma key_lt_trans a b c : key_lt a b -> key_lt b c -> key_lt a c.
Proof. unfold key_lt. lia. Qed.
Lemma key_lt_total a b : key_lt a b \/ a = b \/ key_lt b a.
Proof. unfold key_lt. destruct a as [a1 a2], b as [b1 b2]; simpl.
  destruct (N.lt_trichotomy a1 b1) as [?|[->|?]]; [auto| |auto].
  destruct (N.lt_trichotomy a2 b2) as [?|[->|?]]; auto.
Qed.

Lemma kinsert_last {V} k (v : V) m : Forall (fun e => key_lt (fst e) k) m -> kinsert k v m = m ++ [(k, v)].
Proof.
  induction 1 as [|[k' v'] m Hk Hm IH]; [reflexivity|]. simpl in *.
  destruct (key_ltb_spec k k') as [H|_].
  { exfalso. eapply key_lt_irrefl, key_lt_trans; eauto. }
  destruct (key_ltb_spec k' k) as [_|H]; [|contradiction]. now rewrite IH.
Qed.

Lemma fold_kinsert_sorted {V} (es : kmap V) : forall m,
  sorted_keys es -> Forall (fun e => Forall (fun e' => key_lt (fst e) (fst e')) es) m ->
  fold_left (fun m e => kinsert (fst e) (snd e) m) es m = m ++ es.
Proof.
  induction es as [|[k v] es IH]; intros m Hs Hm; simpl.
  - now rewrite app_nil_r.
  - destruct Hs as [Hk Hs]. rewrite kinsert_last.
    2:{ eapply Forall_impl; [|exact Hm]. intros e He. now inversion He. }
    rewrite IH; [now rewrite <- app_assoc|assumption|].
    apply Forall_app. split.
    + eapply Forall_impl; [|exact Hm]. intros e He. now inversion He.
    + constructor; [assumption|constructor].
Qed.

Lemma reads_entry e : ok_entry e -> reads p_entry (enc_entry e) e.
Proof.
  destruct e as [[i j] f]. intros (Hi & Hj & Hf). unfold p_entry, enc_entry. cbn [fst snd] in *.
  eapply reads_bind; [apply reads_u32; exact Hi|].
  eapply reads_bind; [apply reads_u32; exact Hj|].
  apply reads_last with (g := fun f => ((i, j), f)). now apply reads_vecx.
Qed.

Lemma reads_cache m : ok_cache m -> reads p_cache (enc_cache m) m.
Proof.
  intros (Hs & Hl & Hk). unfold p_cache, enc_cache, enc_vec.
  eapply reads_bind; [apply reads_u64; unfold u64; change (2 ^ 64) with (2 ^ 32 * 2 ^ 32); lia|].
  destruct (N.ltb_spec (N.of_nat (List.length m)) (2 ^ 32)); [|lia].
  replace m with (fold_left (fun m e => kinsert (fst e) (snd e) m) m []) at 3.
  2:{ rewrite fold_kinsert_sorted; [reflexivity|assumption|constructor]. }
  apply reads_last with (g := fun es => fold_left (fun m e => kinsert (fst e) (snd e) m) es []).
  apply reads_rep_n; [now rewrite Nat2N.id|]. eapply Forall_impl; [exact reads_entry|assumption].
Qed.

(* string literals *)
Lemma u8_ascii a : u8 (N_of_ascii a).
Proof. apply N_ascii_bounded. Qed.
Lemma ok_name s : (N.of_nat (List.length (list_ascii_of_string s)) <? 2 ^ 64) = true -> ok_string (name_of s).
Proof.
  intros H. unfold name_of. split.
  - unfold sized. rewrite map_length. lia.
  - apply Forall_map. apply Forall_forall. intros a _. apply u8_ascii.
Qed.

Lemma bstring_eqb_spec a b : Bool.reflect (a = b) (bstring_eqb a b).
Proof. unfold bstring_eqb. destruct (list_eq_dec N.eq_dec a b); constructor; assumption. Qed.

(* consequences of [reads] used for injectivity *)
Lemma reads_prefix_free {A} (p : parser A) b1 a1 b2 a2 rest1 rest2 :
  reads p b1 a1 -> reads p b2 a2 -> b1 ++ rest1 = b2 ++ rest2 -> a1 = a2 /\ rest1 = rest2.
Proof.
  intros [R1 _] [R2 _] E. pose proof (R1 rest1) as H1. rewrite E, R2 in H1. injection H1 as -> ->. auto.
Qed.

(* The reader terminates the program on this data, whatever follows. *)
Definition exits {A} (p : parser A) (bs : bytes) : Prop := forall rest, p (bs ++ rest) = Exit.

Lemma exits_bind_l {A B} (p : parser A) (f : A -> parser B) b1 b2 : exits p b1 -> exits (pbind p f) (b1 ++ b2).
Proof. intros H rest. unfold pbind. now rewrite <- app_assoc, H. Qed.
Lemma exits_bind_l' {A B} (p : parser A) (f : A -> parser B) b1 : exits p b1 -> exits (pbind p f) b1.
Proof. intros H rest. unfold pbind. now rewrite H. Qed.
Lemma exits_bind_r {A B} (p : parser A) (f : A -> parser B) b1 b2 a :
  reads p b1 a -> exits (f a) b2 -> exits (pbind p f) (b1 ++ b2).
Proof. intros [H _] H2 rest. unfold pbind. rewrite <- app_assoc, H. apply H2. Qed.

Lemma exits_rep {A} (p : parser A) (e : A -> bytes) l :
  Forall (fun a => reads p (e a) a \/ exits p (e a)) l -> Exists (fun a => exits p (e a)) l ->
  exits (p_rep (List.length l) p) (enc_list e l).
Proof.
  induction 1 as [|a l Ha Hl IH]; intros HE; [inversion HE|].
  unfold enc_list in *. cbn [p_rep List.length map concat].
  destruct Ha as [Ha|Ha]; [|now apply exits_bind_l].
  inversion HE as [? ? Hx|? ? Hx]; subst; [now apply exits_bind_l|].
  eapply exits_bind_r; [exact Ha|]. apply exits_bind_l'. now apply IH.
Qed.

Lemma exits_vec {A} (p : parser A) (e : A -> bytes) l :
  sized l -> Forall (fun a => reads p (e a) a \/ exits p (e a)) l -> Exists (fun a => exits p (e a)) l ->
  exits (p_vec p) (enc_vec e l).
Proof.
  intros Hs Hl HE. unfold p_vec, enc_vec. eapply exits_bind_r; [apply reads_u64; exact Hs|].
  rewrite Nat2N.id. now apply exits_rep.
Qed.

#[export] Hint Resolve reads_u8 reads_u32 reads_u64 reads_bool reads_string reads_strings reads_fix reads_fix32
  reads_vecx reads_vecxu reads_mat3x reads_mat3xu reads_bools reads_sparse reads_cache reads_vec_ok : reads.
(* walk down a sequence of reads *)
Ltac rstep := eapply reads_bind; [solve [eauto with reads]|cbv beta].
Ltac rlast := eapply reads_bind_nil; [solve [eauto with reads]|apply reads_ret].
Ltac rwalk := repeat rstep; rlast.
