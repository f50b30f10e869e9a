(* A small simulator for the examples: a state is a number of bodies, the shapes and one coordinate. *)
From Coq Require Import Reals ZArith NArith String List Bool Lia Lra.
From Verif Require Import Outcome Codec_Model Config_Model Str_Model Rational_Model Cli_Model Cli_Spec Gui_Model Gui_Spec.
Import ListNotations.
Open Scope N_scope.

Record toy := mkToy { t_n : nat; t_geo : list geom; t_x : Z }.
(* scripts remember a number, constraint caches are numbers, colours are numbers *)
Definition sim (start : N -> toy -> outcome (N * toy)) (step : N -> toy * N -> outcome (N * (toy * N))) : env toy N N N N :=
  mkEnv toy N N N N 0 (fun _ _ _ => Ok 0) start (fun w s => Ok (w, s))
    (fun w x _ _ _ => step w x) (fun w x _ _ _ _ _ _ => step w x)
    (fun w x _ _ _ _ _ _ m => let! r := step w x in Ok (r, m))
    (fun it _ _ => 10 <=? it) (fun s => [IZR (t_x s)]) t_n t_geo (fun s => seq 0 (List.length (t_geo s))) 0 (fun ge => (ge, ge + 1)).
Definition a_view : view := mkView true 50 false false.
Definition scene_of (s : toy) (dt : rational) (v : view) : scene toy :=
  mkScene [] [] s UVerlet dt 0 OpNull ImNull 0 FsNull 0 IfNull v.
Definition hundredth := mkRat 1 100.
Definition fiftieth := mkRat 1 50.
Definition two_balls := mkToy 2 [] 0.
Definition empty := mkToy 0 [] 0.

(* nothing happens at the start; a step moves the coordinate and lets a third ball in *)
Definition no_start (w : N) (s : toy) : outcome (N * toy) := Ok (0, s).
Definition move (w : N) (x : toy * N) : outcome (N * (toy * N)) := Ok (w + 1, (mkToy 3 (t_geo (fst x)) (t_x (fst x) + 1), snd x)).
Definition plain := sim no_start move.
Definition plain_scene := scene_of two_balls hundredth a_view.

(* the constraint cache takes part in the step *)
Definition cached (w : N) (x : toy * N) : outcome (N * (toy * N)) :=
  Ok (w, (mkToy (t_n (fst x)) (t_geo (fst x)) (t_x (fst x) + 1 + Z.of_N (snd x)), snd x + 1)).
Definition same (w : N) (x : toy * N) : outcome (N * (toy * N)) := Ok (w, x).
Definition move_on (w : N) (x : toy * N) : outcome (N * (toy * N)) :=
  Ok (w + 1, (mkToy (t_n (fst x)) (t_geo (fst x)) (t_x (fst x) + 1), snd x)).

(* which events are image files, and the iteration they show *)
Definition shots {St} (e : list (seen St)) : list (str * option N) :=
  flat_map (fun x => match x with SShot n p => [(n, option_map snd p)] | SEnd _ => [] end) e.

Lemma sim_load start step : fresh_load (sim start step).
Proof. intros w w' p n. reflexivity. Qed.
Lemma sim_keeps start step : keeps_settings (sim start step).
Proof.
  intros w x it dt u c m f i w' x' i' H. cbn in H. apply obind_Ok_inv in H. destruct H as (r & _ & H).
  assert (A : i' = i) by congruence. rewrite A. reflexivity.
Qed.
Lemma sim_measures start step : same_measures (sim start step).
Proof. intros s s'. reflexivity. Qed.
Lemma no_start_fresh step : fresh_start (sim no_start step).
Proof. intros w w' s. reflexivity. Qed.
Lemma scene_valid K s dt v : (0 < num dt)%Z -> (0 < den dt)%Z -> valid_scene K (scene_of s dt v).
Proof. intros A B. split; [discriminate|]. split; [left; repeat split|]. split; [reflexivity|]. split; assumption. Qed.

Lemma sim_defined start step : (forall w s, start w s <> UB) -> (forall w x, step w x <> UB) -> simulator_defined (sim start step).
Proof.
  intros A B. repeat split; cbn; try discriminate; intros; auto.
  intros H. unfold obind in H. destruct (step w x) eqn:Q; try discriminate. exact (B _ _ Q).
Qed.
Lemma hundredth_frames s : frames_exist (scene_of s hundredth a_view).
Proof.
  split; [cbn; lia|]. intros fps Hf. cbn [scene_of sc_dt].
  assert (A : forallb (fun k => match steps_per_frame hundredth (N.of_nat k) with Ok n => negb (n =? 0) | _ => false end) (seq 1 1000) = true)
    by (vm_compute; reflexivity).
  rewrite forallb_forall in A. specialize (A (N.to_nat fps)). rewrite N2Nat.id in A.
  assert (B : In (N.to_nat fps) (seq 1 1000)) by (apply in_seq; lia). specialize (A B).
  destruct (steps_per_frame hundredth fps) as [n| |]; try discriminate. exists n. split; [reflexivity|].
  intros ->. discriminate.
Qed.
Lemma plain_keeps_scripts : scripts_keep KBall plain.
Proof.
  split; [|split; [|exact I]].
  - intros s i H. apply in_seq in H. cbn in *. lia.
  - intros s s' (w & w' & H). cbn in H. unfold no_start in H. assert (A : s' = s) by congruence. rewrite A. split; reflexivity.
Qed.
