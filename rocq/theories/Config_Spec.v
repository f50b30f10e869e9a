(* Representable configurations, and which of them the readers know. *)
From Coq Require Import ZArith NArith List.
From Verif Require Import Outcome Codec_Model Codec_Spec SnapBall_Model SnapRb2_Model SnapRb3_Model Snap_Spec Config_Model.
Import ListNotations.
Open Scope N_scope.

Fixpoint ok_impop (o : impop) : Prop :=
  match o with
  | OpNull => True
  | OpGR v op => u64 v /\ ok_impop op
  | OpGRR a b => ok_impop a /\ ok_impop b
  | OpGaussSeidel v => u64 v
  | OpQL t => u64 t
  | OpIpopt ss t => ok_vec ok_string ss /\ u64 t
  | OpAPGD t n => u64 t /\ u32 n
  | OpJacobi v => u64 v
  | OpQLVP t => u64 t
  end.
(* operators whose serialize method is not implemented *)
Fixpoint unwritable_impop (o : impop) : Prop :=
  match o with
  | OpJacobi _ | OpQLVP _ => True
  | OpGR _ op => unwritable_impop op
  | OpGRR a b => unwritable_impop a \/ unwritable_impop b
  | _ => False
  end.
(* operators a build with / without QL and Ipopt can construct *)
Fixpoint known_impop (ql ip : bool) (o : impop) : Prop :=
  match o with
  | OpQL _ => ql = true
  | OpIpopt _ _ => ip = true
  | OpGR _ op => known_impop ql ip op
  | OpGRR a b => known_impop ql ip a /\ known_impop ql ip b
  | OpJacobi _ | OpQLVP _ => False
  | _ => True
  end.

Definition ok_fricop (o : fricop) : Prop :=
  match o with
  | FoNull => True
  | FoLinear d t => u32 d /\ u64 t
  | FoBound t => u64 t
  | FoSmooth ss t => ok_vec ok_string ss /\ u64 t
  end.
Definition known_fricop (ql ip : bool) (o : fricop) : Prop :=
  match o with FoNull => True | FoLinear _ _ => ql = true | FoBound _ => ql = true | FoSmooth _ _ => ip = true end.

Definition ok_fsolver (s : fsolver) : Prop :=
  match s with
  | FsNull => True
  | FsStaggered _ _ io fo => ok_impop io /\ ok_fricop fo
  | FsSobogus t e => u32 t /\ u32 e
  | FsGRRFriction io fo => ok_impop io /\ ok_fricop fo
  end.
Definition known_fsolver (ql ip : bool) (s : fsolver) : Prop :=
  match s with
  | FsStaggered _ _ io fo => known_impop ql ip io /\ known_fricop ql ip fo
  | FsGRRFriction _ _ => False
  | _ => True
  end.
Definition unwritable_fsolver (s : fsolver) : Prop :=
  match s with FsStaggered _ _ io _ | FsGRRFriction io _ => unwritable_impop io | _ => False end.

Definition ok_ifmap (m : ifmap) : Prop :=
  match m with
  | IfNull => True
  | IfGeometric f t n c => ok_vecx f /\ u64 t /\ u32 n /\ u32 c
  | IfStabilized f t n _ _ => ok_vecx f /\ u64 t /\ u32 n
  | IfSymplectic f t n _ p c => ok_vecx f /\ u64 t /\ u32 n /\ u64 p /\ u32 c
  end.

(* the whole system of a command line tool *)
Definition ok_sys {S} (ok_sim : S -> Prop) (with_imap hdf5 : bool) (y : sys S) : Prop :=
  ok_sim (y_sim y) /\ u32 (y_iter y) /\ u64 (y_dt_num y) /\ u64 (y_dt_den y) /\ u64 (y_end y) /\
  ok_impop (y_impop y) /\ u64 (y_cor y) /\ ok_fsolver (y_fsolver y) /\ u64 (y_mu y) /\ ok_ifmap (y_ifmap y) /\
  ok_string (y_spath y) /\ ok_string (y_smod y) /\ ok_string (y_outdir y) /\
  u32 (y_steps y) /\ u32 (y_frame y) /\ u32 (y_prec y) /\ u32 (y_width y) /\
  (with_imap = false -> y_imap y = ImNull) /\ (hdf5 = false -> y_outdir y = [] /\ y_forces y = false).
(* configurations that can be resumed *)
Definition known_sys {S} (ql ip : bool) (umaps : list umap) (known_sim : S -> Prop) (y : sys S) : Prop :=
  known_sim (y_sim y) /\ In (y_umap y) umaps /\ known_impop ql ip (y_impop y) /\ known_fsolver ql ip (y_fsolver y).
Definition unwritable_sys {S} (unwritable_sim : S -> Prop) (y : sys S) : Prop :=
  unwritable_sim (y_sim y) \/ unwritable_impop (y_impop y) \/ unwritable_fsolver (y_fsolver y).

Definition umaps_b2 := [UVerlet].
Definition umaps_r2 := [USymplecticEuler; UVerlet].
Definition umaps_r3 := [UDMV; USplitHam; UNull].
