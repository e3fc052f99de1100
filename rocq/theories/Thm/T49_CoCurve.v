(** The curves of combinatorial-optimisation runs. *)
From Coq Require Import Reals String List Bool ZArith Arith Lia Lra.
From Verif.Base Require Import RSum.
From Verif.Spec Require Import ConfigSpec LaunchSpec ReportSpec CoReportSpec GraphRunSpec.
From Verif.Model Require Import Utils Launch Report Experiment GraphRun Start RunConfigs CoReport CoCurve.
From Verif.Proof Require Import GraphRunJob GraphRunDemo LaunchShipped ReportShipped CoReportProof CoCurveProof.
Import ListNotations.
Local Open Scope string_scope.
Local Open Scope list_scope.

(** * C109: the curves show, point by point, the mean of the best values found so far *)
(** Whole runs: as many points as steps were logged; the [t]-th shows the mean over the instances of the best values up to step (t+1) * log, and stands at step
    1 + t * log and at the [t]-th part of the time; the band has the deviation of what is not negative. *)
Theorem C109_curves A X (value : A -> R -> X -> R) zeros dummy d k N gs visits o to_int settings time : works d k N -> fed k N gs visits -> last_group N (k_models k) o -> (o < List.length gs)%nat ->
  curve_interval to_int settings = Some (k_log k) -> let n := (k_length k / k_log k)%nat in arange_length (Z.of_nat n) = Z.of_nat n ->
  exists f s steps times, run_job value zeros dummy d k N gs visits = Some (f, true) /\ f "results" = Some s /\
    co_curve to_int settings s time = Some (steps, times) /\ List.length steps = n /\ List.length times = n /\
    forall t, (t < n)%nat -> exists bs m v, List.length bs = (List.length gs - o)%nat /\ mean_of bs m /\ spread_of (map (fun x => Rmax x 0) bs) v /\
      nth_error steps t = Some ((1 + t * k_log k)%nat, (Some m, Some v)) /\ nth_error times t = Some ((INR t / INR n * (2 * time))%R, (Some m, Some v)) /\
      forall i a r, (o <= i)%nat -> nth_error gs i = Some (a, r) -> let ref := if k_mis k then 1%R else r in (0 < ref)%R ->
        exists b, nth_error bs (i - o) = Some b /\ best_seen ref b (seen (value a) (k_schedule k) (k_log k) (S t * k_log k)%nat (k_batch k) (i - o) (visits (o / k_models k)%nat)).
Proof. exact (curve_whole A X value zeros dummy d k N gs visits o to_int settings time). Qed.
Example C109_curves_case x y : works 2 (demo false) 2 /\ fed (demo false) 2 demo_data (demo_visits x y) /\ last_group 2 (k_models (demo false)) 0 /\ (0 < List.length demo_data)%nat /\
  curve_interval py_int [("name", "gwg"); ("log_every_steps", "1")] = Some (k_log (demo false)) /\ arange_length (Z.of_nat (k_length (demo false) / k_log (demo false))) = Z.of_nat 2.
Proof. destruct (demo_works false x y) as (W & F & L). do 3 (split; [assumption|]). split; [cbn; lia|]. split; reflexivity. Qed.
(** Where the points stand: the [t]-th row was logged after step (t+1) * log; the axis is right exactly when every step is logged, and never more than log - 1 steps behind. *)
Theorem C109_steps log n t x : (0 < log)%nat -> nth_error (curve_steps log n) t = Some x -> (x = S t * log <-> log = 1)%nat /\ (x + (log - 1) = S t * log)%nat.
Proof.
  intros Hl H. unfold curve_steps in H. assert (Ht : (t < n)%nat) by (rewrite <- (seq_length n 0), <- (map_length (fun i => (1 + i * log)%nat)); apply nth_error_Some; rewrite H; discriminate).
  rewrite (nth_seq_map (fun i => (1 + i * log)%nat) n t Ht) in H. injection H as <-. cbn [Nat.mul]. split; [split; intros K; lia|lia].
Qed.
Example C109_steps_case : nth_error (curve_steps 100 500) 3 = Some 301%nat.
Proof. reflexivity. Qed.
(** Values that are not negative: the band has the deviation of the values. *)
Theorem C109_band row : row <> [] -> (forall v, In v row -> (0 <= v)%R) -> exists m v, curve_values row = (Some m, Some v) /\ mean_of row m /\ spread_of row v.
Proof.
  intros Hn Hp. destruct (np_mean_ok row Hn) as (m & Em & Hm). destruct (np_std_ok row Hn) as (v & Ev & Hv). exists m, v. unfold curve_values. rewrite (clip_same row Hp), Em, Ev. repeat split; assumption || apply Hm || apply Hv.
Qed.
Example C109_band_case : [1; 0]%R <> [] /\ (forall v, In v [1; 0]%R -> (0 <= v)%R) /\ mean_of [1; 0]%R (1 / 2).
Proof. split; [discriminate|]. split; [intros v [<-|[<-|[]]]; lra|]. split; [cbn; lia|cbn; lra]. Qed.
(** All jobs of the shipped sweeps over graphs (those of optsicom do not start): the tool knows the interval of the logging, and both axes have as many points as there are rows. *)
Theorem C109_shipped nm j root jobs fs : In (nm, j) shipped_sweeps -> snd (kind j) = "co_eval" -> nm <> "co/maxcut/optsicom_sampler_sweep" -> launch py_repr j [] root = Some jobs -> job_folders root jobs fs ->
  Forall2 (fun a f => exists c d0 d L g, configure py_repr shipped_modules (shipped_files "/workdir/") a = Some c /\ get_experiment_config f = Some d0 /\ process_keys d0 = Some d /\
    look "chain_length" (l_exp c) = Some (LInt L) /\ look "log_every_steps" (l_exp c) = Some (LInt g) /\ (0 < g <= L)%Z /\ curve_interval py_int d = Some (Z.to_nat g) /\ arange_length (L / g) = (L / g)%Z) jobs fs.
Proof. exact (curve_shipped nm j root jobs fs). Qed.
Example C109_shipped_case : exists jobs fs, In ("co/mis/satlib_sampler_sweep", mis_satlib_sampler_sweep) shipped_sweeps /\ snd (kind mis_satlib_sampler_sweep) = "co_eval" /\
  launch py_repr mis_satlib_sampler_sweep [] "/results" = Some jobs /\ job_folders "/results" jobs fs /\ jobs <> [].
Proof.
  exists (match launch py_repr mis_satlib_sampler_sweep [] "/results" with Some l => l | None => [] end), (match sweep_folders mis_satlib_sampler_sweep with Some l => map snd l | None => [] end).
  split; [apply (nth_error_In _ 32); reflexivity|]. split; [reflexivity|]. split; [vm_compute; reflexivity|]. split; [apply check_folders_sound; vm_compute; reflexivity|vm_compute; discriminate].
Qed.
(** "The curves are drawn for any number of logged steps" is false: with 49 rows (a chain of 4900 steps, logged every 100) numpy.arange gives 50 numbers, and no curve is drawn, whatever the run found. *)
Theorem C109_length_refuted : exists n, arange_length n <> n /\ n = (4900 / 100)%Z /\ forall X (s : saved X) to_int d time, Z.of_nat (List.length (s_trajectory s)) = n -> co_curve to_int d s time = None.
Proof.
  exists 49%Z. assert (E : arange_length 49 <> 49%Z) by (vm_compute; discriminate). split; [exact E|]. split; [reflexivity|]. intros X s to_int d time H. apply curve_stops. rewrite H. exact E.
Qed.
(** "A point stands at the step its value was found by" is false for the interval of the shipped sweeps: what the first 100 steps found stands at step 1. *)
Theorem C109_step_refuted : exists log n t x, nth_error (curve_steps log n) t = Some x /\ log = 100%nat /\ (x < S t * log)%nat /\ x = 1%nat.
Proof. exists 100%nat, 500%nat, 0%nat, 1%nat. repeat split. lia. Qed.
(** "... whatever the sweep" is false: the satlib sweep without log_every_steps still logs every 100 steps, and the tool takes the interval to be 1000. *)
Theorem C109_default_refuted : exists j jobs fs, (j_model j, j_graph j) = ("mis", Some "satlib") /\ launch py_repr j [] "/results" = Some jobs /\ job_folders "/results" jobs fs /\ jobs <> [] /\
  Forall2 (fun a f => exists c d0 d, configure py_repr shipped_modules (shipped_files "/workdir/") a = Some c /\ get_experiment_config f = Some d0 /\ process_keys d0 = Some d /\
    look "log_every_steps" (l_exp c) = Some (LInt 100) /\ curve_interval py_int d = Some 1000%nat) jobs fs.
Proof.
  exists {| j_model := "mis"; j_sampler := "path_auxiliary"; j_graph := Some "satlib"; j_sweep := [[("sampler_config.name", [LStr "dmala"; LStr "path_auxiliary"]); ("config.experiment.chain_length", [LInt 500000])]] |}.
  eexists. exists ["1_name='dmala',chain_length=500000"; "2_name='path_auxiliary',chain_length=500000"]. split; [reflexivity|]. split; [vm_compute; reflexivity|]. split; [apply check_folders_sound; vm_compute; reflexivity|]. split; [discriminate|].
  constructor; [|constructor; [|constructor]]; eexists; eexists; eexists; (split; [vm_compute; reflexivity|]); (split; [vm_compute; reflexivity|]); (split; [vm_compute; reflexivity|]); split; vm_compute; reflexivity.
Qed.
(** "The band has the deviation of the values" is false when some are negative (as with penalties): it is half as wide here. *)
Theorem C109_band_refuted : exists row m v, curve_values row = (Some m, Some v) /\ mean_of row m /\ spread_of row 1 /\ (v = 1 / 2)%R.
Proof.
  exists [-1; 1]%R. destruct (np_mean_ok [-1; 1]%R) as (m & Em & Hm); [discriminate|]. exists m, (1 / 2)%R. split; [|split; [exact Hm|split; [|reflexivity]]].
  - unfold curve_values. rewrite Em. f_equal. cbn [map]. rewrite Rmax_right by lra. rewrite Rmax_left by lra. unfold np_std, np_mean. cbn [rsum List.length INR]. f_equal.
    match goal with |- sqrt ?x = _ => replace x with ((1 / 2) * (1 / 2))%R by field end. apply sqrt_square. lra.
  - split; [lra|]. exists 0%R. split; [split; [cbn; lia|cbn; lra]|cbn; lra].
Qed.

Print Assumptions C109_curves.
Print Assumptions C109_steps.
Print Assumptions C109_band.
Print Assumptions C109_shipped.
Print Assumptions C109_length_refuted.
Print Assumptions C109_step_refuted.
Print Assumptions C109_default_refuted.
Print Assumptions C109_band_refuted.
