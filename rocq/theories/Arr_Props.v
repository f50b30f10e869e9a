(* C74: the arrays a script gets are the state and the coefficients themselves. *)
From Coq Require Import List Reals NArith Arith Bool.
From Verif Require Import Outcome Arr_Model Arr_Spec Arr_Proofs.
Import ListNotations.
Open Scope R_scope.

(* In a whole run, what callbacks read is what the simulation holds, what they write is what it goes on with, and
   at the end the memory holds the state and nothing else. *)
Theorem C74_views : forall Mem E (sc : script Mem) n dt x q v x' q' v',
  expect_run E sc n dt x q v = Ok (x', (q', v')) ->
  exists vs m, simulate E sc n dt x q v = Ok (x', vs, m) /\ holds m q' v'.
Proof.
  intros Mem E sc n dt x q v x' q' v' H. pose proof (simulate_ok E sc n dt x q v) as A. rewrite H in A.
  destruct A as (vs & m & S & D). exists vs, m. split; [exact S|]. apply Idle_holds, D.
Qed.
Print Assumptions C74_views.

(* A callback that raises an error, or leaves the bounds of an array, ends the program. *)
Theorem C74_errors : forall Mem E (sc : script Mem) n dt x q v,
  expect_run E sc n dt x q v = Exit -> simulate E sc n dt x q v = Exit.
Proof. intros Mem E sc n dt x q v H. pose proof (simulate_ok E sc n dt x q v) as A. rewrite H in A. exact A. Qed.
Print Assumptions C74_errors.

(* A script that keeps to the rules runs as promised, whatever it computes: memory that is gone is never touched. *)
Theorem C74_proper_scripts : forall Mem E (sc : script Mem) n dt x q v, proper_script sc ->
  (expect_run E sc n dt x q v = Exit /\ simulate E sc n dt x q v = Exit) \/
  exists x' q' v' vs m, expect_run E sc n dt x q v = Ok (x', (q', v')) /\ simulate E sc n dt x q v = Ok (x', vs, m) /\ holds m q' v'.
Proof.
  intros Mem E sc n dt x q v P. pose proof (proper_run E sc n dt x q v P) as N.
  destruct (expect_run E sc n dt x q v) as [[x' [q' v']]| |] eqn:H; [|left|congruence].
  - right. destruct (C74_views Mem E sc n dt x q v x' q' v' H) as (vs & m & S & D). exists x', q', v', vs, m. tauto.
  - split; [reflexivity|]. exact (C74_errors Mem E sc n dt x q v H).
Qed.
Print Assumptions C74_proper_scripts.

(* one contact in each step; the new velocity is the old one times the friction coefficient in use *)
Definition toy : engine :=
  Engine (fun _ _ => 1%nat) 7 8 (fun q v mu cor => (v, map (fun a => a * nth 0 mu 0) v)).
Definition quiet {Mem} : script Mem := Script None None None None None None.
(* startOfStep remembers the first position, adds a ball and sets its velocity; frictionCoefficient sets mu[0] *)
Definition busy : script (list R) :=
  Script None None
    (Some (fun x => Fetch Q 0 (Read 0 0 (fun a => Insert 1 2 3 4 (Fetch V 0 (Write 0 3 a (Timestep (fun d =>
       Done (a :: match d with Some d => d | None => 0 end :: x)))))))))
    None
    (Some (fun x => Fetch Mu 5 (Write 5 0 (1 / 2) (Done x)))) None.
Example C74_views_nonvacuous :
  proper_script busy /\
  expect_run toy busy 1 (1 / 10) [] [20; 21] [30; 31] = Ok ([20; 1 / 10], ([30; 31; 3; 20], [30 * (1 / 2); 31 * (1 / 2); 3 * (1 / 2); 20 * (1 / 2)])).
Proof.
  split; [|reflexivity]. unfold proper_script, proper_in, busy. cbn. repeat split; intros; discriminate.
Qed.
Example C74_errors_nonvacuous :
  expect_run toy (Script None None (Some (fun _ => Fetch Q 0 (Write 0 2 0 (Done tt)))) None None None) 1 1 tt [0; 0] [0; 0] = Exit.
Proof. reflexivity. Qed.

(* An array that is kept until the next step points to memory that is gone. *)
Theorem C74_kept_array_refuted : exists sc : script bool,
  simulate toy sc 2 1 false [0; 0] [0; 0] = UB.
Proof.
  exists (Script None None (Some (fun again : bool => if again then Read 0 0 (fun _ => Done true) else Fetch Q 0 (Done true))) None None None).
  reflexivity.
Qed.
Print Assumptions C74_kept_array_refuted.

(* What endOfStep writes to an array that startOfStep fetched is lost. *)
Theorem C74_lost_write_refuted : exists (sc : script unit) x m,
  start_step sc = Some (fun _ => Fetch Q 0 (Done tt)) /\ end_step sc = Some (fun _ => Write 0 0 5 (Done tt)) /\
  simulate toy sc 1 1 tt [0; 0] [1; 2] = Ok (x, m) /\ holds m [1; 2] [1 * 7; 2 * 7].
Proof.
  exists (Script None None (Some (fun _ => Fetch Q 0 (Done tt))) (Some (fun _ => Write 0 0 5 (Done tt))) None None).
  match goal with |- exists x m, _ /\ _ /\ ?t = _ /\ _ => let u := eval cbv -[IZR Rmult] in t in
    match u with Ok (?a, ?b) => exists a, b end end.
  split; [reflexivity|]. split; [reflexivity|]. split; [cbv -[IZR Rmult]; reflexivity|].
  cbv -[IZR Rmult]. split; [reflexivity|]. split; [reflexivity|]. split; [discriminate|].
  intros b N. do 7 (destruct b as [|b]; [try (exfalso; apply N; reflexivity); (left; reflexivity) || (right; reflexivity)|]).
  exfalso. apply N. reflexivity.
Qed.
Print Assumptions C74_lost_write_refuted.

(* An array must not be used after a ball was inserted. *)
Theorem C74_insertion_refuted : exists sc : script unit,
  start_step sc = Some (fun _ => Fetch Q 0 (Insert 1 2 3 4 (Read 0 0 (fun _ => Done tt)))) /\
  simulate toy sc 1 1 tt [0; 0] [0; 0] = UB.
Proof. exists (Script None None (Some (fun _ => Fetch Q 0 (Insert 1 2 3 4 (Read 0 0 (fun _ => Done tt))))) None None None). split; reflexivity. Qed.
Print Assumptions C74_insertion_refuted.

(* The state is not there while coefficients are asked for, and coefficients are not there at any other time. *)
Theorem C74_wrong_callback_refuted :
  simulate toy (Script None None None None (Some (fun _ => Fetch Q 0 (Done tt))) None) 1 1 tt [0; 0] [0; 0] = UB /\
  simulate toy (Script None None (Some (fun _ => Fetch Mu 0 (Done tt))) None None None) 1 1 tt [0; 0] [0; 0] = UB.
Proof. split; reflexivity. Qed.
Print Assumptions C74_wrong_callback_refuted.

(* Outside the callbacks of a step the timestep is zero before the first such callback has run and not a number
   afterwards. *)
Theorem C74_timestep_refuted : forall dt, exists m m' m'',
  let ask := Some (fun _ : option (option R) => Timestep (fun d => Done (Some d))) in
  let idle := Some (fun x : option (option R) => Done x) in
  simulate toy (Script None None None None ask None) 1 dt None [0; 0] [0; 0] = Ok (Some (Some 0), no_vars, m) /\
  simulate toy (Script None None idle None ask None) 1 dt None [0; 0] [0; 0] = Ok (Some None, no_vars, m') /\
  simulate toy (Script None ask idle None None None) 1 dt None [0; 0] [0; 0] = Ok (Some None, no_vars, m'').
Proof.
  intros dt. cbv -[IZR Rmult]. eexists. eexists. eexists. split; [reflexivity|]. split; reflexivity.
Qed.
Print Assumptions C74_timestep_refuted.
