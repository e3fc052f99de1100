(** The results of combinatorial-optimisation runs in the report. *)
From Coq Require Import Reals String List Bool ZArith Arith Lia Lra.
From Verif.Base Require Import RSum.
From Verif.Spec Require Import LaunchSpec CoReportSpec GraphRunSpec.
From Verif.Model Require Import Launch Experiment GraphRun Start RunConfigs CoReport.
From Verif.Proof Require Import GraphRunJob GraphRunDemo LaunchShipped CoReportProof.
Import ListNotations.
Local Open Scope string_scope.
Local Open Scope list_scope.

(** * C107: the table shows the mean and the spread of the best values found, and the time the run took *)
(** Whole runs: the mean and the deviation of the best values of the instances in the file that was saved, although the deviation is
    taken from the last row of the trajectory. *)
Theorem C107_table A X (value : A -> R -> X -> R) zeros dummy d k N gs visits o time : works d k N -> fed k N gs visits -> last_group N (k_models k) o -> (o < List.length gs)%nat ->
  exists f s bs m v, run_job value zeros dummy d k N gs visits = Some (f, true) /\ f "results" = Some s /\
    co_results s time = Some [("best_ratio_mean", Some m); ("running_time", Some (2 * time)%R); ("best_ratio_std", Some v)] /\ mean_of bs m /\ spread_of bs v /\
    List.length bs = (List.length gs - o)%nat /\
    forall i a r, (o <= i)%nat -> nth_error gs i = Some (a, r) -> let ref := if k_mis k then 1%R else r in (0 < ref)%R ->
      exists b, nth_error bs (i - o) = Some b /\ best_seen ref b (seen (value a) (k_schedule k) (k_log k) (k_length k) (k_batch k) (i - o) (visits (o / k_models k)%nat)).
Proof.
  intros (H1 & H2 & H3 & H4 & H5 & H6 & H7) (F1 & F2 & F3) Ho Hg. assert (Hlog : (0 < k_log k)%nat) by lia.
  destruct (job_saved A X value zeros dummy d k N gs visits o) as (f & s & E1 & E2 & E3 & E4 & _ & K); auto.
  assert (Nt : s_trajectory s <> []). { intros Z. rewrite Z in E4. cbn in E4. pose proof (Nat.div_str_pos (k_length k) (k_log k) ltac:(lia)). lia. }
  assert (Nb : s_best s <> []) by (intros Z; rewrite Z in E3; cbn in E3; lia).
  destruct (job_last value zeros dummy d k N gs visits f true s E1 E2) as [Z|L]; [contradiction|]. destruct (co_table s time L Nb) as (m & v & Er & Hm & Hv).
  exists f, s, (s_best s), m, v. do 6 (split; [assumption|]). intros i a r Hi Ha ref Hr. destruct (K i a r Hi Ha Hr) as (b & Eb & Hb & _). exists b. split; assumption.
Qed.
Example C107_table_case x y : works 2 (demo false) 2 /\ fed (demo false) 2 demo_data (demo_visits x y) /\ last_group 2 (k_models (demo false)) 0 /\ (0 < List.length demo_data)%nat /\
  mean_of [1; 0]%R (1 / 2) /\ spread_of [1; 0]%R (1 / 2).
Proof.
  destruct (demo_works false x y) as (W & F & L). do 3 (split; [assumption|]). split; [cbn; lia|]. split; [split; [cbn; lia|cbn; lra]|]. split; [lra|]. exists (1 / 2)%R. split; [split; [cbn; lia|cbn; lra]|cbn; lra].
Qed.
(** The time: exactly when twice the timed part is the time of all steps. *)
Theorem C107_time L ratio cost : (0 <= ratio <= 1)%R -> let b := int_of (INR L * ratio) in
  (2 * mixing_time L ratio cost = time_between cost 0 L <-> time_between cost b L = time_between cost 0 b)%R.
Proof. exact (twice_right L ratio cost). Qed.
Example C107_time_case : int_of (INR 4 * (1 / 2)) = 2%nat /\ time_between (fun t => INR (t mod 2)) 2 4 = time_between (fun t => INR (t mod 2)) 0 2.
Proof. split; [rewrite int_of_half; reflexivity|reflexivity]. Qed.
(** With half of the chain as burn-in and steps of equal time: right for even lengths, one step too much for odd ones. *)
Theorem C107_even L c : (2 * mixing_time L (1 / 2) (fun _ => c) = INR (if Nat.even L then L else S L) * c)%R /\ time_between (fun _ => c) 0 L = (INR L * c)%R.
Proof.
  rewrite time_half, time_const, Nat.sub_0_r. split; [|reflexivity]. f_equal. rewrite <- Nat.bit0_mod, Nat.bit0_odd, <- Nat.negb_even. destruct (Nat.even L); cbn [negb Nat.b2n]; [change (INR 0) with 0%R; lra|change (INR 1) with 1%R; rewrite S_INR; lra].
Qed.
Example C107_even_case : (2 * mixing_time 1001 (1 / 2) (fun _ => 1) = INR 1002 * 1)%R.
Proof. exact (proj1 (C107_even 1001 1)). Qed.
(** All shipped jobs: half of the chain is burn-in, so with steps of equal time the table is right up to one part in a thousand. *)
Theorem C107_shipped repr root nm j jobs a : In (nm, j) shipped_sweeps -> snd (kind j) = "co_eval" -> nm <> "co/maxcut/optsicom_sampler_sweep" -> launch repr j [] root = Some jobs -> In a jobs ->
  exists c L, configure repr shipped_modules (shipped_files "/workdir/") a = Some c /\ look "chain_length" (l_exp c) = Some (LInt L) /\ look "ess_ratio" (l_exp c) = Some (LFloat 5 1) /\
    forall t, (0 <= t)%R -> let n := Z.to_nat L in let total := time_between (fun _ => t) 0 n in (total <= 2 * mixing_time n (1 / 2) (fun _ => t) <= (1 + 1 / 1000) * total)%R.
Proof.
  intros Hi Hk Hn Hl Ha. destruct (timed_shipped repr root nm j jobs a Hi Hk Hn Hl Ha) as (c & L & E1 & E2 & E3 & HL). exists c, L. do 3 (split; [assumption|]). intros t Ht. apply time_close; [lia|exact Ht].
Qed.
Example C107_shipped_case repr root : In ("co/mis/satlib_sampler_sweep", mis_satlib_sampler_sweep) shipped_sweeps /\ snd (kind mis_satlib_sampler_sweep) = "co_eval" /\ exists jobs, launch repr mis_satlib_sampler_sweep [] root = Some jobs /\ jobs <> [].
Proof. assert (H : In ("co/mis/satlib_sampler_sweep", mis_satlib_sampler_sweep) shipped_sweeps) by (apply (nth_error_In _ 32); reflexivity). split; [exact H|]. split; [reflexivity|]. exact (launch_some repr root _ _ H). Qed.
(** "The table shows the time the run took" is false: with a quarter of the chain as burn-in it shows half as much again, and with steps
    that become faster (for example after compilation) it shows too little even for the usual half. *)
Theorem C107_time_refuted : (exists L ratio c, (0 <= ratio <= 1 /\ 0 < c /\ 2 * mixing_time L ratio (fun _ => c) = 3 / 2 * time_between (fun _ => c) 0 L /\ 0 < time_between (fun _ => c) 0 L)%R) /\
  exists L cost, Nat.Even L /\ (forall t, 0 < cost t)%R /\ (2 * mixing_time L (1 / 2) cost < time_between cost 0 L)%R.
Proof.
  split.
  - exists 4%nat, (1 / 4)%R, 1%R. assert (E : int_of (INR 4 * (1 / 4)) = 1%nat).
    { unfold int_of. replace (INR 4 * (1 / 4))%R with 1%R by (cbn; lra). replace (up 1) with 2%Z; [reflexivity|]. apply tech_up; lra. }
    rewrite mixing_time_is, E, !time_const. cbn. repeat split; lra.
  - exists 2%nat, (fun t => if Nat.eqb t 1 then 9 else 1)%R. split; [exists 1%nat; reflexivity|]. split; [intros t; destruct (Nat.eqb t 1); lra|]. rewrite mixing_time_is, int_of_half. cbn. lra.
Qed.
(** "Every finished run has a row" is false: the tool stops at a run whose chain is shorter than the logging interval. *)
Theorem C107_short_refuted : exists (k : co_conf) (gs : list (nat * R)) visits f s, (0 < k_length k < k_log k)%nat /\
  run_job (fun (a : nat) T (x : nat -> bool) => if x a then 1%R else 0%R) (fun _ => false) (0%nat, 1%R) 1 k 1 gs visits = Some (f, true) /\ f "results" = Some s /\ List.length (s_best s) = 1%nat /\
  forall time, co_results s time = None.
Proof.
  exists {| k_schedule := constant_schedule 1; k_length := 2; k_ratio := 1; k_log := 3; k_models := 1; k_batch := 1; k_parallel := true; k_samples := false; k_mis := false; k_group := 1 |}, [(0%nat, 1%R)], (fun _ _ => [fun _ => true]).
  assert (E : int_of (INR 2 * 1) = 2%nat). { unfold int_of. replace (INR 2 * 1)%R with 2%R by (cbn; lra). replace (up 2) with 3%Z; [reflexivity|]. apply tech_up; lra. }
  eexists. eexists. split; [cbn; lia|]. split; [reflexivity|]. split; [reflexivity|]. cbn [s_best s_trajectory]. split; [reflexivity|]. intros time. unfold co_results. cbn [s_trajectory k_length k_ratio k_log]. unfold sampling_steps, burn_in_length. rewrite E. reflexivity.
Qed.

Print Assumptions C107_table.
Print Assumptions C107_time.
Print Assumptions C107_even.
Print Assumptions C107_shipped.
Print Assumptions C107_time_refuted.
Print Assumptions C107_short_refuted.
