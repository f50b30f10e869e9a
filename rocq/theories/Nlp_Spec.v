(* What an optimisation problem given to Ipopt or QL means, and what its solutions are. *)
From Coq Require Import List Reals Arith String.
From Verif Require Import Outcome Ccd_Model Lin_Model Quad_Model Nlp_Model.
Import ListNotations.
Open Scope R_scope.

(* ---------- derivatives ---------- *)
(* the matrix given by a pattern and values: what is listed for ( i, j ), added up *)
Fixpoint dense (pattern : list (nat * nat)) (values : list R) (i j : nat) : R :=
  match pattern, values with
  | (r, c) :: p, v :: w => (if Nat.eqb r i then if Nat.eqb c j then v else 0 else 0) + dense p w i j
  | _, _ => 0
  end.
(* the symmetric matrix of which L is the part on and below the diagonal *)
Definition from_lower (L : nat -> nat -> R) (i j : nat) : R := if Nat.leb j i then L i j else L j i.
(* the point t h beyond x *)
Definition along (x h : dvec) (t : R) : dvec := fun i => x i + t * h i.
(* the gradient of s f + lam . g, as the callbacks give it *)
Definition lagrangian_gradient (p : tnlp) (s : R) (lam x : dvec) (j : nat) : R :=
  s * t_grad p x j + rsum (t_m p) (fun i => lam i * dense (t_jac_pattern p) (t_jac_values p x) i j).
(* A problem that states its derivatives: in every direction the gradient is the slope of the objective, the rows of the
   Jacobian are the slopes of the constraints, and the Hessian is the slope of the gradient of s f + lam . g. The patterns are in
   range, without repetitions and as long as announced; that of the Hessian is in the lower triangle. *)
Definition states_derivatives (p : tnlp) : Prop :=
  (forall x h, derivable_pt_lim (fun t => t_f p (along x h t)) 0 (rsum (t_n p) (fun j => t_grad p x j * h j)))
  /\ (forall x h i, (i < t_m p)%nat ->
        derivable_pt_lim (fun t => t_g p (along x h t) i) 0 (rsum (t_n p) (fun j => dense (t_jac_pattern p) (t_jac_values p x) i j * h j)))
  /\ (forall x s lam, exists values, t_hess_values p x s lam = Ok values /\ List.length values = t_nnz_hess p
        /\ forall h j, (j < t_n p)%nat -> derivable_pt_lim (fun t => lagrangian_gradient p s lam (along x h t) j) 0
             (rsum (t_n p) (fun k => from_lower (dense (t_hess_pattern p) values) j k * h k)))
  /\ List.length (t_jac_pattern p) = t_nnz_jac p /\ (forall x, List.length (t_jac_values p x) = t_nnz_jac p)
  /\ (forall r c, In (r, c) (t_jac_pattern p) -> (r < t_m p /\ c < t_n p)%nat) /\ NoDup (t_jac_pattern p)
  /\ List.length (t_hess_pattern p) = t_nnz_hess p
  /\ (forall r c, In (r, c) (t_hess_pattern p) -> (c <= r /\ r < t_n p)%nat) /\ NoDup (t_hess_pattern p).

(* ---------- solutions of a problem given to Ipopt ---------- *)
(* Ipopt takes bounds beyond 10^19 for none *)
Definition no_lower (b : R) : Prop := b <= - 10 ^ 19.
Definition no_upper (b : R) : Prop := 10 ^ 19 <= b.
(* y has multiplier ml for the bound l from below and mu for the bound u from above, each up to tol *)
Definition bounded (tol l u y ml mu : R) : Prop :=
  (no_lower l \/ l - tol <= y) /\ (no_upper u \/ y <= u + tol) /\ 0 <= ml /\ 0 <= mu
  /\ (no_lower l -> ml = 0) /\ (no_upper u -> mu = 0)
  /\ (no_lower l \/ Rabs (ml * (y - l)) <= tol) /\ (no_upper u \/ Rabs (mu * (u - y)) <= tol).
(* the first-order conditions, up to tol *)
Definition kkt_point (tol : R) (p : tnlp) (x : dvec) : Prop :=
  exists zl zu ll lu : dvec,
    (forall j, (j < t_n p)%nat -> bounded tol (t_xl p j) (t_xu p j) (x j) (zl j) (zu j))
    /\ (forall i, (i < t_m p)%nat -> bounded tol (t_gl p i) (t_gu p i) (t_g p x i) (ll i) (lu i))
    /\ (forall j, (j < t_n p)%nat -> Rabs (lagrangian_gradient p 1 (fun i => lu i - ll i) x j - zl j + zu j) <= tol).
(* on the problem p the solver claims success only at points that meet the first-order conditions up to tol *)
Definition honest_on (tol : R) (run : ipopt_run) (p : tnlp) : Prop :=
  forall s st x, run s p = Some (st, x) -> st = SUCCESS \/ st = STOP_AT_ACCEPTABLE_POINT -> kkt_point tol p x.
(* with linear solver s no success was reported *)
Definition fails_on (run : ipopt_run) (p : tnlp) (s : string) : Prop :=
  forall x, run s p <> Some (SUCCESS, x) /\ run s p <> Some (STOP_AT_ACCEPTABLE_POINT, x).
Definition succeeds_on (run : ipopt_run) (p : tnlp) (s : string) (x : dvec) : Prop :=
  run s p = Some (SUCCESS, x) \/ run s p = Some (STOP_AT_ACCEPTABLE_POINT, x).

(* ---------- solutions of a problem given to QL ---------- *)
Definition ql_kkt (p : qlp) (x u : dvec) : Prop :=
  let n := ql_n p in let m := ql_m p in
  (forall i, (i < m)%nat -> let s := rsum n (fun j => ql_A p i j * x j) + ql_b p i in 0 <= s /\ 0 <= u i /\ u i * s = 0)
  /\ (forall j, (j < n)%nat -> let y := u (m + j)%nat in 0 <= y /\ match ql_xl p j with Some l => l <= x j /\ y * (x j - l) = 0 | None => y = 0 end)
  /\ (forall j, (j < n)%nat -> let y := u (m + n + j)%nat in 0 <= y /\ match ql_xu p j with Some l => x j <= l /\ y * (l - x j) = 0 | None => y = 0 end)
  /\ (forall j, (j < n)%nat ->
        rsum n (fun k => ql_C p j k * x k) + ql_c p j = rsum m (fun i => ql_A p i j * u i) + u (m + j)%nat - u (m + n + j)%nat).
(* QL returns 0 only at such points *)
Definition ql_honest_on (run : ql_run) (p : qlp) : Prop := forall x0 x u, run p x0 = (0%Z, x, u) -> ql_kkt p x u.

(* ---------- what the operators owe ---------- *)
(* velocity after impulses beta along the n columns of D *)
Definition after (nd n : nat) (D Minv : mat) (v beta : dvec) : dvec :=
  fun k => v k + rsum nd (fun l => Minv k l * rsum n (fun j => D l j * beta j)).
(* velocity along column j, drel being the part due to moving fixed objects *)
Definition slip (nd : nat) (D : mat) (drel v : dvec) (j : nat) : R := rsum nd (fun k => D k j * v k) + drel j.
(* Q is the sparse form of D' Minv D, with n columns *)
Definition is_DMD (nd n : nat) (D Minv : mat) (Q : Sparse_Model.csc) : Prop :=
  Sparse_Model.m_cols Q = n /\ forall i j, (i < n)%nat -> (j < n)%nat ->
    Sparse_Model.coeff Q i j = rsum nd (fun k => D k i * rsum nd (fun l => Minv k l * D l j)).
(* honest on every problem *)
Definition honest (tol : R) (run : ipopt_run) : Prop := forall p, honest_on tol run p.
Definition ql_honest (run : ql_run) : Prop := forall p, ql_honest_on run p.
(* every run ends with a call of finalize_solution *)
Definition always_reports (run : ipopt_run) : Prop := forall s p, run s p <> None.
