(* The contact points of the box-box test. *)
From Coq Require Import List Reals Arith Bool Lra Lia Psatz.
From Verif Require Import Outcome Ccd_Model Lin_Model Geom_Model Geom_Spec Geom_Circle Geom_Boxes.
Import ListNotations.
Open Scope R_scope.

(* a rectangle by two orthonormal axes *)
Definition inb (x e0 e1 : vec) (h0 h1 : R) (p : vec) : Prop :=
  Rabs (vdot e0 (vsub p x)) <= h0 /\ Rabs (vdot e1 (vsub p x)) <= h1.

Definition clip_with (xa n2 t : vec) (hn ht : R) (xb u w : vec) (kn kt : R) : list vec :=
  let fc := vadd (vsub xb xa) (vscale ((if Rltb (vdot u n2) 0 then 1 else -1) * kn) u) in
  let c_on_a := vdot fc t in
  let ct := vdot t w in
  let e0 := c_on_a - ct * kt in
  let e1 := c_on_a + ct * kt in
  let lo := if Rltb e1 e0 then e1 else e0 in
  let hi := if Rltb e1 e0 then e0 else e1 in
  let lo := Rmin lo ht in
  let hi := Rmax hi (- ht) in
  let i0 := Rmax (- ht) lo in
  let i1 := Rmin ht hi in
  let contact s :=
    let point := vadd fc (vscale ((s - c_on_a) / ct) w) in
    let depth := hn - vdot n2 point in
    if Rltb depth 0 then [] else [vadd (vadd xa point) (vscale (/ 2 * depth) n2)] in
  if Req_EM_T i0 i1 then contact i0 else contact i0 ++ contact i1.

Lemma clip_is : forall xa Ra ra xb Rb rb ia n2,
  exists ib, (ib < 2)%nat
    /\ Rabs (vdot (mcol Rb (1 - ib)) n2) <= Rabs (vdot (mcol Rb ib) n2)
    /\ clip xa Ra ra xb Rb rb ia n2
       = clip_with xa n2 (mcol Ra (1 - ia)) (at2 ra ia) (at2 ra (1 - ia)) xb
           (mcol Rb ib) (mcol Rb (1 - ib)) (at2 rb ib) (at2 rb (1 - ib)).
Proof.
  intros. unfold clip, mapply_t. cbn [fst snd].
  destruct (Rltb_spec (Rabs (vdot (fst Rb) n2)) (Rabs (vdot (snd Rb) n2))) as [L|L].
  - exists 1%nat. split; [lia|]. split; [cbn [mcol Nat.sub]; lra|]. cbn [at2 mcol Nat.sub fst snd]. reflexivity.
  - exists 0%nat. split; [lia|]. split; [cbn [mcol Nat.sub]; lra|]. cbn [at2 mcol Nat.sub fst snd]. reflexivity.
Qed.

(* what each returned point is, in terms of the reference box a and the incident box b *)
Definition contact_point (A B : vec -> Prop) (n2 u w q : vec) : Prop :=
  exists za zb m d, 0 <= d /\ outward_normal A za n2 /\ outward_normal B zb m /\ vdot m n2 < 0
    /\ (m = u \/ m = vneg u) /\ Rabs (vdot w n2) <= Rabs (vdot m n2)
    /\ vsub za zb = vscale d n2 /\ q = vscale (/ 2) (vadd za zb).

Section clip.
Variables (xa n2 t : vec) (hn ht : R) (xb u w : vec) (kn kt : R).
Hypothesis Fa : on2 n2 t.
Hypothesis Fb : on2 u w.
Hypothesis Hkn : 0 <= kn.
Hypothesis Hkt : 0 <= kt.
Hypothesis Hhn : 0 <= hn.
Hypothesis Hht : 0 <= ht.
Let p := vsub xb xa.
Let al := vdot u n2.
Let be := vdot w n2.
Let ga := vdot t u.
Let de := vdot t w.
Let Pn := vdot n2 p.
Let Pt := vdot t p.
Hypothesis Big : Rabs be <= Rabs al.
Hypothesis N : Pn - hn - kn * Rabs al - kt * Rabs be <= 0.
Hypothesis T : Rabs Pt <= ht + kn * Rabs ga + kt * Rabs de.
Hypothesis U : Rabs (vdot u p) <= kn + hn * Rabs al + ht * Rabs ga.
Hypothesis W : Rabs (vdot w p) - kt - hn * Rabs be - ht * Rabs de <= Pn - hn - kn * Rabs al - kt * Rabs be.

Lemma cl_u1 : al * al + be * be = 1.
Proof. unfold al, be. rewrite <- (on2_parseval u w Fb n2 n2). apply Fa. Qed.
Lemma cl_ag : al * al + ga * ga = 1.
Proof.
  unfold al, ga. rewrite (vdot_comm u n2). rewrite <- (on2_parseval n2 t Fa u u). apply Fb.
Qed.
Lemma cl_u2 : ga * ga = be * be.
Proof. pose proof cl_u1. pose proof cl_ag. lra. Qed.
Lemma cl_u3 : de * de = al * al.
Proof.
  assert (ga * ga + de * de = 1).
  { unfold ga, de. rewrite !(vdot_comm t). rewrite <- (on2_parseval u w Fb t t). apply Fa. }
  pose proof cl_ag. lra.
Qed.
Lemma cl_u4 : al * ga + be * de = 0.
Proof.
  unfold al, be, ga, de. rewrite !(vdot_comm t). rewrite <- (on2_parseval u w Fb n2 t). apply Fa.
Qed.
Lemma cl_up : vdot u p = al * Pn + ga * Pt.
Proof. unfold al, ga, Pn, Pt. rewrite (vdot_comm u n2). apply (on2_parseval n2 t Fa u p). Qed.
Lemma cl_wp : vdot w p = be * Pn + de * Pt.
Proof. unfold be, de, Pn, Pt. rewrite (vdot_comm w n2). apply (on2_parseval n2 t Fa w p). Qed.

Let sg := if Rltb al 0 then 1 else -1.
Let fc := vadd p (vscale (sg * kn) u).
Let c := Pt + sg * kn * ga.

Lemma cl_c : vdot fc t = c.
Proof. unfold fc, c, ga, Pt. rewrite vdot_comm, vdot_add, vdot_scale. ring. Qed.
Lemma cl_U' : Rabs (al * Pn + ga * Pt) <= kn + hn * Rabs al + ht * Rabs ga.
Proof. rewrite <- cl_up. exact U. Qed.
Lemma cl_W' : Rabs (be * Pn + de * Pt) - kt - hn * Rabs be - ht * Rabs de <= Pn - hn - kn * Rabs al - kt * Rabs be.
Proof. rewrite <- cl_wp. exact W. Qed.
Lemma cl_de : de <> 0.
Proof. exact (core_de al be ga de cl_u1 cl_u2 cl_u3 Big). Qed.

Let lo := c - Rabs de * kt.
Let hi := c + Rabs de * kt.
Let i0 := Rmax (- ht) lo.
Let i1 := Rmin ht hi.
Let point s := vadd fc (vscale ((s - c) / de) w).
Let depth s := hn - vdot n2 (point s).
Let contact s := if Rltb (depth s) 0 then [] else [vadd (vadd xa (point s)) (vscale (/ 2 * depth s) n2)].

Lemma cl_list : clip_with xa n2 t hn ht xb u w kn kt = if Req_EM_T i0 i1 then contact i0 else contact i0 ++ contact i1.
Proof.
  assert (Ov := core_overlap al be ga de hn ht kn kt Pn Pt cl_u1 cl_u2 cl_u3 cl_u4 Big N T cl_U' cl_W').
  cbv zeta in Ov. fold sg c lo hi in Ov.
  unfold clip_with. fold p al sg fc. rewrite cl_c. fold de.
  assert (L : (if Rltb (c + de * kt) (c - de * kt) then c + de * kt else c - de * kt) = lo).
  { unfold lo. destruct (Rltb_spec (c + de * kt) (c - de * kt)) as [X|X].
    - rewrite Rabs_left; [ring|]. destruct (Rlt_dec de 0) as [Y|Y]; [exact Y|exfalso].
      assert (0 <= de * kt) by (apply Rmult_le_pos; lra). lra.
    - unfold Rabs. destruct (Rcase_abs de) as [Y|Y]; [|ring].
      assert (0 <= (- de) * kt) by (apply Rmult_le_pos; lra). lra. }
  assert (H : (if Rltb (c + de * kt) (c - de * kt) then c - de * kt else c + de * kt) = hi).
  { unfold hi. destruct (Rltb_spec (c + de * kt) (c - de * kt)) as [X|X].
    - rewrite Rabs_left; [ring|]. destruct (Rlt_dec de 0) as [Y|Y]; [exact Y|exfalso].
      assert (0 <= de * kt) by (apply Rmult_le_pos; lra). lra.
    - unfold Rabs. destruct (Rcase_abs de) as [Y|Y]; [|ring].
      assert (0 <= (- de) * kt) by (apply Rmult_le_pos; lra). lra. }
  rewrite L, H.
  replace (Rmin lo ht) with lo by (symmetry; apply Rmin_left; lra).
  replace (Rmax hi (- ht)) with hi by (symmetry; apply Rmax_left; lra).
  reflexivity.
Qed.

Lemma cl_range : i0 <= i1 /\ - ht <= i0 <= ht /\ - ht <= i1 <= ht /\ lo <= i0 <= hi /\ lo <= i1 <= hi.
Proof.
  assert (Ov := core_overlap al be ga de hn ht kn kt Pn Pt cl_u1 cl_u2 cl_u3 cl_u4 Big N T cl_U' cl_W').
  cbv zeta in Ov. fold sg c lo hi in Ov.
  assert (O2 : lo <= hi).
  { unfold lo, hi. assert (0 <= Rabs de * kt) by (apply Rmult_le_pos; [apply Rabs_pos|lra]). lra. }
  unfold i0, i1, Rmax, Rmin. destruct (Rle_dec (- ht) lo), (Rle_dec ht hi); lra.
Qed.

Lemma cl_depth : forall s, depth s = hn - (Pn + sg * kn * al + (s - c) / de * be).
Proof.
  intros s. unfold depth, point, fc. rewrite !vdot_add, !vdot_scale. unfold al, be, Pn.
  rewrite (vdot_comm n2 u), (vdot_comm n2 w). ring.
Qed.

Lemma cl_nonempty : clip_with xa n2 t hn ht xb u w kn kt <> [].
Proof.
  rewrite cl_list.
  assert (K := core_depth al be ga de hn ht kn kt Pn Pt cl_u1 cl_u2 cl_u3 cl_u4 Big N T cl_U').
  cbv beta in K. fold sg c lo hi i0 i1 in K. rewrite <- (cl_depth i0), <- (cl_depth i1) in K.
  assert (C : forall s, 0 <= depth s -> contact s <> []).
  { intros s H. unfold contact. destruct (Rltb_spec (depth s) 0); [lra|discriminate]. }
  destruct (Req_EM_T i0 i1) as [E|E].
  - destruct K as [K|K]; [apply C; exact K|]. rewrite <- E in K. apply C. exact K.
  - destruct K as [K|K]; intros X; apply app_eq_nil in X; destruct X as [X1 X2].
    + exact (C i0 K X1).
    + exact (C i1 K X2).
Qed.

Let A := inb xa n2 t hn ht.
Let B := inb xb u w kn kt.

Lemma cl_contact : forall s q, - ht <= s <= ht -> lo <= s <= hi -> In q (contact s) -> contact_point A B n2 u w q.
Proof.
  intros s q Hs Hl Hq. unfold contact in Hq.
  destruct (Rltb_spec (depth s) 0) as [L|L]; [destruct Hq|].
  destruct Hq as [<-|[]].
  destruct Fa as (Fa1 & Fa2 & Fa3). destruct Fb as (Fb1 & Fb2 & Fb3).
  pose proof cl_de as Dn.
  destruct (core_cases al be ga de hn ht kn kt Pn Pt cl_u1 cl_u2 cl_u3 cl_u4 Big T cl_U') as (Cp & _ & _ & _ & _ & _ & sga & sgq & _).
  cbv zeta in sga, sgq. fold sg in sga, sgq.
  set (tau := (s - c) / de).
  assert (Tt : vdot t (point s) = s).
  { unfold point. rewrite vdot_add, vdot_scale, (vdot_comm t fc), cl_c. fold de. field. exact Dn. }
  assert (Tau : Rabs tau <= kt).
  { unfold tau, Rdiv. rewrite Rabs_mult, Rabs_inv.
    apply Rmult_le_reg_r with (Rabs de); [apply Rabs_pos_lt; exact Dn|].
    rewrite Rmult_assoc, Rinv_l, Rmult_1_r by (apply Rabs_no_R0; exact Dn).
    apply abs_in. unfold lo, hi in Hl. lra. }
  set (zb := vadd xa (point s)). set (za := vadd zb (vscale (depth s) n2)).
  assert (Pz : vsub zb xb = vadd (vscale (sg * kn) u) (vscale tau w)).
  { unfold zb, point, fc, p. unfold vsub, vadd, vscale. cbn [fst snd]. f_equal; unfold tau; ring. }
  assert (Pa : vsub za xa = vadd (point s) (vscale (depth s) n2)).
  { unfold za, zb, vsub, vadd, vscale. cbn [fst snd]. f_equal; ring. }
  exists za, zb, (vscale sg u), (depth s).
  split; [lra|].
  assert (Ia : A za).
  { unfold A, inb. rewrite Pa, !vdot_add, !vdot_scale, Fa1.
    rewrite (vdot_comm t n2), Fa3, Tt.
    replace (vdot n2 (point s) + depth s * 1) with hn by (unfold depth; ring).
    split; apply abs_in; lra. }
  split.
  { split; [exact Ia|]. intros y (Y1 & _). apply abs_inv in Y1.
    replace (vdot n2 (vsub y za)) with (vdot n2 (vsub y xa) - vdot n2 (vsub za xa))
      by (unfold vdot, vsub; cbn [fst snd]; ring).
    rewrite Pa, vdot_add, vdot_scale, Fa1. unfold depth. lra. }
  assert (Ub : vdot u (vsub zb xb) = sg * kn).
  { rewrite Pz, vdot_add, !vdot_scale, Fb1, Fb3. ring. }
  split.
  { split.
    - unfold B, inb. rewrite Ub. split.
      + assert (sg = 1 \/ sg = -1) by (unfold sg; destruct (Rltb al 0); auto).
        apply abs_in. destruct H as [-> | ->]; lra.
      + rewrite Pz, vdot_add, !vdot_scale, Fb2, (vdot_comm w u), Fb3. rewrite Rmult_0_r, Rplus_0_l, Rmult_1_r. exact Tau.
    - intros y (Y1 & _).
      replace (vdot (vscale sg u) (vsub y zb)) with (sg * vdot u (vsub y xb) - sg * vdot u (vsub zb xb))
        by (unfold vdot, vsub, vscale; cbn [fst snd]; ring).
      rewrite Ub. apply abs_inv in Y1.
      assert (sg = 1 \/ sg = -1) by (unfold sg; destruct (Rltb al 0); auto).
      destruct H as [-> | ->]; lra. }
  assert (Ma : vdot (vscale sg u) n2 = - Rabs al).
  { rewrite <- sga. unfold al, vdot, vscale. cbn [fst snd]. ring. }
  split; [rewrite Ma; lra|].
  split.
  { unfold sg. destruct (Rltb al 0); [left|right]; destruct u; unfold vscale, vneg; cbn [fst snd]; f_equal; ring. }
  split; [rewrite Ma, Rabs_Ropp, Rabs_Rabsolu; exact Big|].
  split.
  - unfold za, vsub, vadd, vscale. cbn [fst snd]. f_equal; ring.
  - fold zb. unfold za, vadd, vscale. cbn [fst snd]. f_equal; field.
Qed.

Lemma cl_points : forall q, In q (clip_with xa n2 t hn ht xb u w kn kt) -> contact_point A B n2 u w q.
Proof.
  intros q Hq. rewrite cl_list in Hq.
  destruct cl_range as (_ & R1 & R2 & R3 & R4).
  destruct (Req_EM_T i0 i1).
  - exact (cl_contact i0 q R1 R3 Hq).
  - apply in_app_or in Hq. destruct Hq as [Hq|Hq]; [exact (cl_contact i0 q R1 R3 Hq)|exact (cl_contact i1 q R2 R4 Hq)].
Qed.
End clip.
