(** The effective sample sizes of a run in the report. *)
From Coq Require Import Reals String Ascii List Bool ZArith Arith Lia Lra.
From Verif.Spec Require Import ConfigSpec LaunchSpec ReportSpec EssReportSpec.
From Verif.Model Require Import Utils Launch Report Experiment EssEval EssReport RunConfigs Start.
From Verif.Proof Require Import LaunchProof ReportShipped EssReportProof.
Import ListNotations.
Local Open Scope string_scope.
Local Open Scope list_scope.

(** * C106: the report shows the effective sample size over the likelihood evaluations of a step, and per second *)
(** What a run on several devices wrote is read back: both numbers, however they are padded; the tool stops if one of them
    is no number. *)
Theorem C106_read to_num devices row a b : (devices <> 1)%nat -> two_numbers row a b ->
  extract_floats to_num (metric_text (parallel devices true) row) = match to_num a, to_num b with Some u, Some v => Some (u, v) | _, _ => None end.
Proof. intros Hd T. unfold parallel. rewrite (proj2 (Nat.eqb_neq _ _) Hd). exact (read_parallel to_num row a b T). Qed.
Example C106_read_case : two_numbers " 7.5  12.25 " "7.5" "12.25" /\ metric_text (parallel 4 true) " 7.5  12.25 " = "[[ 7.5  12.25 ]]" /\
  extract_floats decimal "[[ 7.5  12.25 ]]" = Some (7 + 5 / 10 ^ 1, 12 + 25 / 10 ^ 2)%R.
Proof.
  split; [|split; reflexivity].
  split; [|split; [|exists " ", " ", " "; repeat split; intros c [<-|[]]; reflexivity]]; (split; [discriminate|]); intros c Hc K; cbn in Hc, K; decompose [or] Hc; try contradiction; subst c; decompose [or] K; try contradiction; discriminate.
Qed.
(** Whole runs on several devices with half of the chain as burn-in: if the length of the chain is even and the report knows it, the
    four values are those of the run, up to the error of printing and reading a number. *)
Theorem C106_bars to_num delta d L B x0 step init time calls e mh tt ee rt re vt ve :
  ess_report L (1 / 2) B x0 step init time calls = (e, mh, tt, ee) -> Nat.Even L -> (0 < L)%nat -> (0 < calls)%nat -> tells_length to_num d L ->
  shows_pair to_num delta ee re ve -> shows_pair to_num delta tt rt vt ->
  exists x s w u, ess_results to_num d [(metric_text true re, metric_text true rt)] = Some [("ess_ee", x); ("ess_ee_std", s); ("ess_clock", w); ("ess_clock_std", u)] /\
    near delta (per_step_calls (fst e) calls L) x /\ near delta (per_step_calls (snd e) calls L) s /\ near delta (fst e / time) w /\ near delta (snd e / time) u.
Proof. exact (bars_right to_num delta d L B x0 step init time calls e mh tt ee rt re vt ve). Qed.
Example C106_bars_case : Nat.Even 1000 /\ tells_length decimal [("name", "gwg"); ("chain_length", "1000")] 1000 /\ tells_length decimal [("name", "gwg")] (10 ^ 5) /\
  shows_pair decimal (1 / 100) (1 / 8, 1 / 3)%R "0.125 0.33 " (0 + 125 / 10 ^ 3, 0 + 33 / 10 ^ 2)%R.
Proof.
  split; [exists 500%nat; reflexivity|]. split.
  { split; [|rewrite INR_IZR_INZ; reflexivity]. split; [discriminate|]. intros c Hc K; cbn in Hc, K; decompose [or] Hc; try contradiction; subst c; decompose [or] K; try contradiction; discriminate. }
  split; [reflexivity|]. exists "0.125", "0.33". split; [|split; [reflexivity|split; [reflexivity|]]].
  - split; [|split; [|exists "", "", " "; repeat split; try (intros c [<-|[]]; reflexivity); intros c []]]; (split; [discriminate|]); intros c Hc K; cbn in Hc, K; decompose [or] Hc; try contradiction; subst c; decompose [or] K; try contradiction; discriminate.
  - unfold near. cbn [fst snd]. split; unfold Rabs; repeat destruct Rcase_abs; lra.
Qed.
(** The tool as a whole loads these values for a folder; a run without a file is passed over, and a file with a header
    only gives no values. *)
Theorem C106_load to_num csv f d d' : get_experiment_config f = Some d -> process_keys d = Some d' ->
  (csv f = None -> ess_load to_num csv f = Some None) /\ (csv f = Some [] -> ess_load to_num csv f = Some (Some [])) /\
  (forall rows r, csv f = Some rows -> ess_results to_num (del "save_samples" d') rows = Some r -> ess_load to_num csv f = Some (Some r)).
Proof. intros E1 E2. unfold ess_load. split; [intros ->; reflexivity|]. split; [intros ->; rewrite E1, E2; reflexivity|]. intros rows r -> Er. rewrite E1, E2, Er. reflexivity. Qed.
Example C106_load_case : ess_load decimal (fun _ => Some [("[[0.5 0.25]]", "[[2.5 1.5]]")]) "7_name='gwg'" =
  Some (Some [("ess_ee", (0 + 5 / 10 ^ 1) * 50000); ("ess_ee_std", (0 + 25 / 10 ^ 2) * 50000); ("ess_clock", 2 + 5 / 10 ^ 1); ("ess_clock_std", 1 + 5 / 10 ^ 1)])%R.
Proof. reflexivity. Qed.
(** Exactly when the factor is right: half the length, rounded down, has to be the share of the chain after which the ESS was taken. *)
Theorem C106_factor to_num d E calls L ratio k : (E <> 0)%R -> (0 < calls)%nat -> (0 < L)%nat -> (0 < ratio)%R -> tells_length to_num d L ->
  ess_scale to_num d = Some k -> (ess_per_call E calls ratio * k = per_step_calls E calls L)%R <-> (INR (L / 2) = INR L * ratio)%R.
Proof. intros HE Hc HL Hr Ht Hk. rewrite (scale_of to_num d L Ht) in Hk. injection Hk as <-. exact (factor_right E calls L ratio (INR (L / 2)) HE Hc HL Hr). Qed.
Example C106_factor_case : tells_length decimal [("chain_length", "1000")] 1000 /\ (0 < 1 / 2)%R /\ (INR (1000 / 2) = INR 1000 * (1 / 2))%R /\ (INR (1001 / 2) <> INR 1001 * (1 / 2))%R.
Proof.
  split; [|split; [lra|split]].
  - split; [|rewrite INR_IZR_INZ; reflexivity]. split; [discriminate|]. intros c Hc K; cbn in Hc, K; decompose [or] Hc; try contradiction; subst c; decompose [or] K; try contradiction; discriminate.
  - change (1000 / 2)%nat with 500%nat. rewrite !INR_IZR_INZ. change (Z.of_nat 500) with 500%Z. change (Z.of_nat 1000) with 1000%Z. lra.
  - change (1001 / 2)%nat with 500%nat. rewrite !INR_IZR_INZ. change (Z.of_nat 500) with 500%Z. change (Z.of_nat 1001) with 1001%Z. lra.
Qed.
(** All jobs of all shipped sweeps that compute an ESS: several devices, half of the chain as burn-in, an even length, and the report knows it. *)
Theorem C106_shipped nm j root jobs fs : In (nm, j) shipped_sweeps -> snd (kind j) = "ess_eval" -> launch py_repr j [] root = Some jobs -> job_folders root jobs fs ->
  (1 < gpus j)%nat /\ Forall2 (fun a f => exists c d0 d L, configure py_repr shipped_modules (shipped_files "/workdir/") a = Some c /\ get_experiment_config f = Some d0 /\ process_keys d0 = Some d /\
    look "chain_length" (l_exp c) = Some (LInt L) /\ (0 < L)%Z /\ Z.Even L /\ look "ess_ratio" (l_exp c) = Some (LFloat 5 1) /\ look "run_parallel" (l_exp c) = Some (LBool true) /\
    match look "chain_length" (del "save_samples" d) with Some t => t = dec_Z L | None => L = 100000%Z end) jobs fs.
Proof. exact (ess_shipped nm j root jobs fs). Qed.
Example C106_shipped_case : exists jobs fs, In ("classical_models/bernoulli/chain_length_sweep", bernoulli_chain_length_sweep) shipped_sweeps /\ snd (kind bernoulli_chain_length_sweep) = "ess_eval" /\
  launch py_repr bernoulli_chain_length_sweep [] "/results" = Some jobs /\ job_folders "/results" jobs fs /\ (20 <= List.length jobs)%nat /\
  exists f d, nth_error fs 5 = Some f /\ get_experiment_config f = Some d /\ look "chain_length" d = Some "1000".
Proof.
  exists (match launch py_repr bernoulli_chain_length_sweep [] "/results" with Some l => l | None => [] end), (match sweep_folders bernoulli_chain_length_sweep with Some l => map snd l | None => [] end). split; [apply (nth_error_In _ 0); reflexivity|]. split; [reflexivity|]. split; [vm_compute; reflexivity|]. split.
  - apply check_folders_sound. vm_compute. reflexivity.
  - split; [vm_compute; lia|]. eexists. eexists. split; [vm_compute; reflexivity|]. split; [vm_compute; reflexivity|vm_compute; reflexivity].
Qed.
(** On a single device the first character of the mean and the last of the deviation are cut off. *)
Theorem C106_single to_num rp c a p b z : spaces p -> solid a -> solid b ->
  extract_floats to_num (metric_text (parallel 1 rp) (String c a ++ " " ++ p ++ b ++ String z ""))%string = match to_num a, to_num b with Some u, Some v => Some (u, v) | _, _ => None end.
Proof. exact (read_single to_num c a p b z). Qed.
Example C106_single_case : solid "2.5" /\ solid "0.2" /\ metric_text (parallel 1 true) "12.5 0.25" = "[12.5 0.25]".
Proof. split; [|split; [|reflexivity]]; (split; [discriminate|]); intros c Hc K; cbn in Hc, K; decompose [or] Hc; try contradiction; subst c; decompose [or] K; try contradiction; discriminate. Qed.
(** "The report shows what the run found" is false of a run on a single device: 12.5 is read as 2.5. *)
Theorem C106_single_refuted : exists row a b v, two_numbers row a b /\ decimal a = Some (12 + 5 / 10 ^ 1)%R /\
  extract_floats decimal (metric_text (parallel 1 true) row) = Some v /\ fst v = (2 + 5 / 10 ^ 1)%R /\ fst v <> (12 + 5 / 10 ^ 1)%R.
Proof.
  exists "12.5 0.25", "12.5", "0.25", (2 + 5 / 10 ^ 1, 0 + 2 / 10 ^ 1)%R. split; [|split; [reflexivity|split; [reflexivity|split; [reflexivity|cbn [fst]; lra]]]].
  split; [|split; [|exists "", "", ""; repeat split; intros c []]]; (split; [discriminate|]); intros c Hc K; cbn in Hc, K; decompose [or] Hc; try contradiction; subst c; decompose [or] K; try contradiction; discriminate.
Qed.
(** "... of any share of burn-in" is false: with a quarter the bars are too small by a half, whatever the run found. *)
Theorem C106_ratio_refuted : exists d L ratio k, (0 < ratio < 1)%R /\ tells_length decimal d L /\ ess_scale decimal d = Some k /\
  forall E calls, (E <> 0)%R -> (0 < calls)%nat -> (ess_per_call E calls ratio * k <> per_step_calls E calls L)%R.
Proof.
  assert (T : tells_length decimal [("chain_length", "1000")] 1000) by (apply C106_factor_case). exists [("chain_length", "1000")], 1000%nat, (1 / 4)%R, (INR (1000 / 2)). split; [lra|]. split; [exact T|]. split; [exact (scale_of _ _ _ T)|].
  intros E calls HE Hc K. apply (factor_right E calls 1000 (1 / 4)) in K; [|exact HE|exact Hc|lia|lra]. change (1000 / 2)%nat with 500%nat in K. rewrite !INR_IZR_INZ in K. change (Z.of_nat 500) with 500%Z in K. change (Z.of_nat 1000) with 1000%Z in K. lra.
Qed.
(** "... of any length of the chain" is false: a length that is not among the swept settings is taken to be 100000. *)
Theorem C106_length_refuted : exists d L k, look "chain_length" d = None /\ Nat.Even L /\ ess_scale decimal d = Some k /\
  forall E calls, (E <> 0)%R -> (0 < calls)%nat -> (ess_per_call E calls (1 / 2) * k <> per_step_calls E calls L)%R.
Proof.
  exists [("name", "gwg")], 1000%nat, 50000%R. split; [reflexivity|]. split; [exists 500%nat; reflexivity|]. split; [reflexivity|].
  intros E calls HE Hc K. apply (factor_right E calls 1000 (1 / 2)) in K; [|exact HE|exact Hc|lia|lra]. rewrite !INR_IZR_INZ in K. change (Z.of_nat 1000) with 1000%Z in K. lra.
Qed.
(** "... of odd lengths too" is false. *)
Theorem C106_odd_refuted : exists d L k, tells_length decimal d L /\ Nat.Odd L /\ ess_scale decimal d = Some k /\
  forall E calls, (E <> 0)%R -> (0 < calls)%nat -> (ess_per_call E calls (1 / 2) * k <> per_step_calls E calls L)%R.
Proof.
  assert (T : tells_length decimal [("chain_length", "1001")] 1001).
  { split; [|rewrite INR_IZR_INZ; reflexivity]. split; [discriminate|]. intros c Hc K; cbn in Hc, K; decompose [or] Hc; try contradiction; subst c; decompose [or] K; try contradiction; discriminate. }
  exists [("chain_length", "1001")], 1001%nat, (INR (1001 / 2)). split; [exact T|]. split; [exists 500%nat; reflexivity|]. split; [exact (scale_of _ _ _ T)|].
  intros E calls HE Hc K. apply (factor_right E calls 1001 (1 / 2)) in K; [|exact HE|exact Hc|lia|lra]. change (1001 / 2)%nat with 500%nat in K. rewrite !INR_IZR_INZ in K. change (Z.of_nat 500) with 500%Z in K. change (Z.of_nat 1001) with 1001%Z in K. lra.
Qed.

Print Assumptions C106_read.
Print Assumptions C106_bars.
Print Assumptions C106_load.
Print Assumptions C106_factor.
Print Assumptions C106_shipped.
Print Assumptions C106_single.
Print Assumptions C106_single_refuted.
Print Assumptions C106_ratio_refuted.
Print Assumptions C106_length_refuted.
Print Assumptions C106_odd_refuted.
