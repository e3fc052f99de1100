(** C99: runs over graph instances, from the shipped sweeps to the saved file. *)
From Coq Require Import String List Reals Arith Bool Lia Lra.
From Verif.Model Require Import CombOpt Experiment Loaders Launch Start RunConfigs GraphRun.
From Verif.Spec Require Import GraphSpec GraphRunSpec.
From Verif.Proof Require Import GraphRunProof GraphRunJob GraphRunShipped GraphRunDemo LaunchShipped.
Import ListNotations.

(** What is saved, for any objective: for every instance of the last group, the best value looked at relative to its reference; the same
    up to every looked-at step; and the sample that attained it. *)
Theorem C99_saved A X (value : A -> R -> X -> R) zeros dummy d k N gs visits o : works d k N -> fed k N gs visits -> last_group N (k_models k) o ->
  exists f s, run_job value zeros dummy d k N gs visits = Some (f, true) /\ f "results"%string = Some s /\
    length (s_best s) = (length gs - o)%nat /\ length (s_trajectory s) = (k_length k / k_log k)%nat /\ (k_samples k = true -> length (s_samples s) = k_models k) /\
    forall i a r, (o <= i)%nat -> nth_error gs i = Some (a, r) -> let ref := if k_mis k then 1%R else r in (0 < ref)%R ->
      let sees L := seen (value a) (k_schedule k) (k_log k) L (k_batch k) (i - o) (visits (o / k_models k)%nat) in
      exists b, nth_error (s_best s) (i - o) = Some b /\ best_seen ref b (sees (k_length k)) /\
        (k_samples k = true -> (exists v, sees (k_length k) v /\ (- 10 ^ 9 < v / ref)%R) ->
           exists t x, shown (k_log k) (k_length k) (k_batch k) (i - o) (visits (o / k_models k)%nat) t x /\ nth_error (s_samples s) (i - o) = Some x /\
             b = (value a (k_schedule k t) x / ref)%R) /\
        forall t, (t < k_length k / k_log k)%nat -> exists row b', nth_error (s_trajectory s) t = Some row /\ nth_error row (i - o) = Some b' /\
          best_seen ref b' (sees (S t * k_log k)%nat).
Proof. intros (H1 & H2 & H3 & H4 & H5 & H6 & _) (F1 & F2 & F3) Ho. apply job_saved; auto. lia. Qed.
Example C99_saved_example zeros dummy y : exists f s, run_job (fun (a : nat) T (x : nat -> bool) => if x a then (5 / T)%R else 1%R) zeros dummy 2 (demo false) 2 [(0%nat, 5%R); (1%nat, 2%R)]
    (demo_visits (fun _ => true) y) = Some (f, true) /\ f "results"%string = Some s /\ (y 0%nat = false -> nth_error (s_best s) 0 = Some 1%R /\ nth_error (s_samples s) 0 = Some (fun _ => true)).
Proof.
  destruct (demo_works false (fun _ => true) y) as (W & F & Ho).
  destruct (C99_saved _ _ (fun (a : nat) T (x : nat -> bool) => if x a then (5 / T)%R else 1%R) zeros dummy 2 (demo false) 2 [(0%nat, 5%R); (1%nat, 2%R)] (demo_visits (fun _ => true) y) 0 W) as (f & s & E1 & E2 & _ & _ & _ & K);
    [split; [discriminate|split; [cbn; lia|reflexivity]]|exact Ho|].
  exists f, s. split; [exact E1|]. split; [exact E2|]. intros Hy. destruct (K 0%nat 0%nat 5%R) as (b & Eb & [Hu _] & Hx & _); [lia|reflexivity|cbn; lra|].
  assert (Hs : shown 1 2 1 0 (demo_visits (fun _ => true) y 0) 1 (fun _ => true)) by (split; [split; [lia|exists 1%nat; reflexivity]|exists 0%nat; split; [lia|reflexivity]]).
  assert (Hv : seen (fun T (x : nat -> bool) => if x 0%nat then (5 / T)%R else 1%R) (constant_schedule 1) 1 2 1 0 (demo_visits (fun _ => true) y 0) 5%R).
  { exists 1%nat, (fun _ => true). split; [exact Hs|unfold constant_schedule; field]. }
  specialize (Hu 5%R Hv). cbn in Hu. destruct Hx as (t & x & Sx & Ex & ->); [reflexivity|exists 5%R; split; [exact Hv|cbn; lra]|]. cbn [Nat.sub] in *. cbn [k_mis demo] in *.
  destruct (demo_shown _ _ _ _ _ Sx) as [-> | ->]; [|exfalso; rewrite Hy in Hu; lra]. cbv beta in *. rewrite Eb, Ex. split; [f_equal; cbn; unfold constant_schedule; field|reflexivity].
Qed.

(** Independent sets: the reported number is at least the size of every independent sample looked at, and is no larger than that of some
    independent set inside a sample. *)
Theorem C99_mis coeff z zeros dummy d k N gs visits o : works d k N -> fed k N gs visits -> last_group N (k_models k) o -> (1 <= coeff)%R -> k_mis k = true ->
  exists f s, run_job (mis_at coeff z) zeros dummy d k N gs visits = Some (f, true) /\ f "results"%string = Some s /\ length (s_best s) = (length gs - o)%nat /\
    forall i g r, (o <= i)%nat -> nth_error gs i = Some (g, r) -> (length (g_nodes g) <= max_nodes z)%nat -> loopless (length (g_nodes g)) (map ends (g_edges g)) ->
      exists b, nth_error (s_best s) (i - o) = Some b /\
        honest (independent (length (g_nodes g)) (map ends (g_edges g))) (length (g_nodes g)) 1 b (samples k o visits i).
Proof. intros (H1 & H2 & H3 & H4 & H5 & H6 & H7) (F1 & F2 & F3) Ho. apply job_mis; auto. Qed.
Example C99_mis_example zeros dummy : exists f s, run_job (mis_at 1 demo_sizes) zeros dummy 2 (demo true) 2 demo_data (demo_visits (fun _ => true) (fun i => negb (Nat.eqb i 1))) = Some (f, true) /\
  f "results"%string = Some s /\ length (s_best s) = 2%nat /\ nth_error (s_best s) 0 = Some 2%R.
Proof.
  set (v := demo_visits _ _). destruct (demo_works true (fun _ => true) (fun i => negb (Nat.eqb i 1))) as (W & F & Ho).
  destruct (C99_mis 1 demo_sizes zeros dummy 2 (demo true) 2 demo_data v 0 W F Ho) as (f & s & E1 & E2 & E3 & K); [lra|reflexivity|].
  exists f, s. split; [exact E1|]. split; [exact E2|]. split; [exact E3|]. destruct (K 0%nat demo_path 2%R) as (b & Eb & H); [lia|reflexivity|cbn; lia|exact demo_loopless|].
  cbn [Nat.sub] in Eb. rewrite Eb. f_equal. rewrite (proj2 (honest_optimum _ _ _ _ _ 2 Rlt_0_1 H demo_independent)); [cbn; field|]. eexists. split; [apply demo_samples; right; reflexivity|].
  split; [exact demo_outer|reflexivity].
Qed.

(** Cliques: the same, relative to the reference size. *)
Theorem C99_clique coeff z zeros dummy d k N gs visits o : works d k N -> fed k N gs visits -> last_group N (k_models k) o -> (1 <= coeff)%R -> k_mis k = false ->
  exists f s, run_job (clique_at coeff z) zeros dummy d k N gs visits = Some (f, true) /\ f "results"%string = Some s /\ length (s_best s) = (length gs - o)%nat /\
    forall i g r, (o <= i)%nat -> nth_error gs i = Some (g, r) -> (0 < r)%R -> (length (g_nodes g) <= max_nodes z)%nat ->
      simple (length (g_nodes g)) (map ends (g_edges g)) ->
      exists b, nth_error (s_best s) (i - o) = Some b /\
        honest (clique (length (g_nodes g)) (map ends (g_edges g))) (length (g_nodes g)) r b (samples k o visits i).
Proof. intros (H1 & H2 & H3 & H4 & H5 & H6 & H7) (F1 & F2 & F3) Ho. apply job_clique; auto. Qed.
Example C99_clique_example zeros dummy : exists f s, run_job (clique_at 1 demo_sizes) zeros dummy 2 (demo false) 2 demo_data (demo_visits (fun i => Nat.eqb i 0) (fun i => Nat.ltb i 2)) = Some (f, true) /\
  f "results"%string = Some s /\ length (s_best s) = 2%nat /\ nth_error (s_best s) 0 = Some 1%R.
Proof.
  set (v := demo_visits _ _). destruct (demo_works false (fun i => Nat.eqb i 0) (fun i => Nat.ltb i 2)) as (W & F & Ho).
  destruct (C99_clique 1 demo_sizes zeros dummy 2 (demo false) 2 demo_data v 0 W F Ho) as (f & s & E1 & E2 & E3 & K); [lra|reflexivity|].
  exists f, s. split; [exact E1|]. split; [exact E2|]. split; [exact E3|]. destruct (K 0%nat demo_path 2%R) as (b & Eb & H); [lia|reflexivity|lra|cbn; lia|exact demo_simple|].
  cbn [Nat.sub] in Eb. rewrite Eb. f_equal. rewrite (proj2 (honest_optimum _ _ _ _ _ 2 Rlt_0_2 H demo_clique)); [cbn; field|]. eexists. split; [apply demo_samples; right; reflexivity|].
  split; [exact demo_pair|reflexivity].
Qed.

(** Cuts: the largest cut looked at, relative to the reference. *)
Theorem C99_cut z zeros dummy d k N gs visits o : works d k N -> fed k N gs visits -> last_group N (k_models k) o -> k_mis k = false ->
  exists f s, run_job (cut_at z) zeros dummy d k N gs visits = Some (f, true) /\ f "results"%string = Some s /\ length (s_best s) = (length gs - o)%nat /\
    forall i g r, (o <= i)%nat -> nth_error gs i = Some (g, r) -> (0 < r)%R ->
      exists b, nth_error (s_best s) (i - o) = Some b /\ best_seen r b (fun v => exists x, samples k o visits i x /\ v = cut_value (g_edges g) x).
Proof. intros (H1 & H2 & H3 & H4 & H5 & H6 & H7) (F1 & F2 & F3) Ho. apply job_cut; auto. Qed.
Example C99_cut_example zeros dummy : exists f s, run_job (cut_at demo_sizes) zeros dummy 2 (demo false) 2 demo_data (demo_visits (fun i => Nat.eqb i 0) (fun i => Nat.eqb i 1)) = Some (f, true) /\
  f "results"%string = Some s /\ length (s_best s) = 2%nat /\ nth_error (s_best s) 0 = Some 1%R.
Proof.
  set (v := demo_visits _ _). destruct (demo_works false (fun i => Nat.eqb i 0) (fun i => Nat.eqb i 1)) as (W & F & Ho).
  destruct (C99_cut demo_sizes zeros dummy 2 (demo false) 2 demo_data v 0 W F Ho) as (f & s & E1 & E2 & E3 & K); [reflexivity|].
  exists f, s. split; [exact E1|]. split; [exact E2|]. split; [exact E3|]. destruct (K 0%nat demo_path 2%R) as (b & Eb & Hu & Ha); [lia|reflexivity|lra|].
  cbn [Nat.sub] in Eb. rewrite Eb. f_equal. assert (L : (2 / 2 <= b)%R) by (apply Hu; exists (fun i => Nat.eqb i 1); split; [apply demo_samples; auto|cbn; lra]).
  destruct Ha as [-> | (w & (x & Hx & ->) & ->)]; [lra|]. apply demo_samples in Hx. destruct Hx as [-> | ->]; cbn in *; lra.
Qed.

(** An honest number never exceeds the optimum, and is the optimum once an optimal sample has been looked at. *)
Theorem C99_optimum feasible n ref best sample k : (0 < ref)%R -> honest feasible n ref best sample -> (forall S, feasible S -> (length S <= k)%nat) ->
  (best <= INR k / ref)%R /\ ((exists x, sample x /\ feasible (selected n x) /\ length (selected n x) = k) -> best = (INR k / ref)%R).
Proof. apply honest_optimum. Qed.
Example C99_optimum_example : honest (independent 3 (map ends (g_edges demo_path))) 3 1 2 (fun x => x = fun i => negb (Nat.eqb i 1)) /\
  (forall S, independent 3 (map ends (g_edges demo_path)) S -> (length S <= 2)%nat).
Proof.
  split; [|exact demo_independent]. split.
  - intros x -> _. cbn. lra.
  - exists (fun i => negb (Nat.eqb i 1)), [0; 2]%nat. split; [reflexivity|]. split; [exact demo_outer|]. split; [intros v Hv; exact Hv|cbn; lra].
Qed.

(** The saved sample need not solve the problem: with the shipped penalty of 1, a set that misses one edge is saved for the value of the
    largest clique. *)
Theorem C99_sample_refuted : exists zeros dummy d k N gs visits z f s x, works d k N /\ fed k N gs visits /\ last_group N (k_models k) 0 /\ k_samples k = true /\
  nth_error gs 0 = Some (demo_path, 2%R) /\ run_job (clique_at 1 z) zeros dummy d k N gs visits = Some (f, true) /\ f "results"%string = Some s /\
  nth_error (s_best s) 0 = Some 1%R /\ nth_error (s_samples s) 0 = Some x /\ ~ clique 3 (map ends (g_edges demo_path)) (selected 3 x).
Proof.
  destruct (demo_works false (fun _ => true) (fun _ => true)) as (W & F & Ho). set (v := demo_visits (fun _ => true) (fun _ => true)) in *.
  destruct (C99_saved _ _ (clique_at 1 demo_sizes) (fun _ => false) (demo_path, 0%R) 2 (demo false) 2 demo_data v 0 W F Ho) as (f & s & E1 & E2 & _ & _ & _ & K).
  destruct (K 0%nat demo_path 2%R) as (b & Eb & _ & Hx & _); [lia|reflexivity|cbn; lra|]. destruct Hx as (t & x & Sx & Ex & ->); [reflexivity| |].
  { exists 2%R. split; [|cbn; lra]. exists 1%nat, (fun _ => true). split; [split; [split; [cbn; lia|exists 1%nat; reflexivity]|exists 0%nat; split; [cbn; lia|reflexivity]]|]. rewrite demo_heat. symmetry; exact demo_all_value. }
  exists (fun _ => false), (demo_path, 0%R), 2%nat, (demo false), 2%nat, demo_data, v, demo_sizes, f, s, x. cbn [Nat.sub] in *.
  assert (x = fun _ => true) by (destruct (demo_shown _ _ _ _ _ Sx); assumption). subst x.
  split; [exact W|]. split; [exact F|]. split; [exact Ho|]. split; [reflexivity|]. split; [reflexivity|]. split; [exact E1|]. split; [exact E2|].
  split; [|split; [exact Ex|exact demo_not_clique]]. rewrite Eb. f_equal. rewrite demo_heat, demo_all_value. cbn. field.
Qed.

(** The shipped sweeps over independent sets, cliques and cuts (but the weighted cuts of Optsicom): every job has working settings. *)
Theorem C99_shipped repr root nm j jobs a : In (nm, j) shipped_sweeps -> In (j_model j) ["mis"; "maxclique"; "maxcut"]%string -> nm <> "co/maxcut/optsicom_sampler_sweep"%string ->
  launch repr j [] root = Some jobs -> In a jobs ->
  exists c k coeff z, configure repr shipped_modules (shipped_files "/workdir/") a = Some c /\ look "name" (l_model c) = Some (LStr (j_model j)) /\ co_settings c = Some k /\
    penalty_of (l_model c) = Some coeff /\ asked_sizes (l_model c) = Some z /\ ready (gpus j) k coeff /\ (k_mis k = true <-> j_model j = "mis"%string) /\
    (nm <> "co/maxcut/er_sampler_sweep"%string -> all_given z = true -> (instances z <= k_models k)%nat).
Proof. apply shipped_ready. Qed.
(** The sizes are those of the settings with these names. *)
Theorem C99_sizes m z : asked_sizes m = Some z -> as_nat (look "max_num_nodes" m) = Some (max_nodes z) /\ as_nat (look "max_num_edges" m) = Some (max_edges z) /\
  (all_given z = true -> as_nat (look "num_instances" m) = Some (instances z)).
Proof.
  unfold asked_sizes. destruct (as_nat (look "max_num_nodes" m)) as [n|]; [|discriminate]. destruct (as_nat (look "max_num_edges" m)) as [e|]; [|discriminate].
  destruct (as_nat (look "num_instances" m)) as [i|].
  - intros H. injection H as <-. auto.
  - destruct (Nat.ltb 0 n && Nat.ltb 0 e)%bool; [discriminate|]. intros H. injection H as <-. split; [reflexivity|]. split; [reflexivity|]. unfold all_given. cbn [instances]. rewrite Bool.andb_false_r. discriminate.
Qed.
Example C99_sizes_example : asked_sizes [("max_num_nodes", LInt 20); ("num_instances", LInt 500); ("max_num_edges", LInt 64)]%string = Some {| max_nodes := 20; max_edges := 64; instances := 500 |}.
Proof. reflexivity. Qed.
Theorem C99_ready d k penalty N : ready d k penalty -> works d k N /\ ((0 < N <= k_models k)%nat -> last_group N (k_models k) 0).
Proof.
  intros (H1 & H2 & H3 & H4 & H5 & H6 & H7 & _). split; [repeat split; try lia; try lra; auto; right; right; left; exact H6|].
  intros H. split; [exists 0%nat; reflexivity|cbn; lia].
Qed.
Example C99_shipped_example repr root : exists jobs, launch repr mis_ertest_sampler_sweep [] root = Some jobs /\ jobs <> [] /\ forall a, In a jobs ->
  exists c k coeff z, configure repr shipped_modules (shipped_files "/workdir/") a = Some c /\ co_settings c = Some k /\ asked_sizes (l_model c) = Some z /\ k_mis k = true /\
    forall zeros dummy N gs visits, (0 < N <= k_models k)%nat -> fed k N gs visits ->
      exists f s, run_job (mis_at coeff z) zeros dummy (gpus mis_ertest_sampler_sweep) k N gs visits = Some (f, true) /\ f "results"%string = Some s /\ length (s_best s) = length gs.
Proof.
  assert (Hi : In ("co/mis/ertest_sampler_sweep"%string, mis_ertest_sampler_sweep) shipped_sweeps) by (apply (nth_error_In _ 31); reflexivity).
  destruct (launch_some repr root _ _ Hi) as (jobs & H & Hne). exists jobs. split; [exact H|]. split; [exact Hne|]. intros a Ha.
  destruct (C99_shipped repr root _ _ jobs a Hi) as (c & k & coeff & z & E1 & _ & E3 & _ & E5 & E6 & E7 & _); [left; reflexivity|discriminate|exact H|exact Ha|].
  exists c, k, coeff, z. assert (M : k_mis k = true) by (apply E7; reflexivity). split; [exact E1|]. split; [exact E3|]. split; [exact E5|]. split; [exact M|].
  intros zeros dummy N gs visits HN HF. destruct (C99_ready _ _ _ N E6) as [W L]. destruct E6 as (_ & _ & _ & _ & _ & _ & _ & Hc).
  destruct (C99_mis coeff z zeros dummy _ k N gs visits 0 W HF (L HN) Hc M) as (f & s & X1 & X2 & X3 & _). exists f, s. rewrite Nat.sub_0_r in X3. auto.
Qed.

(** The random graphs of the cut sweep: of 1000 instances the file lists the last 104. *)
Theorem C99_er_refuted repr root : In ("co/maxcut/er_sampler_sweep"%string, maxcut_er_sampler_sweep) shipped_sweeps /\
  exists jobs, launch repr maxcut_er_sampler_sweep [] root = Some jobs /\ jobs <> [] /\ forall a, In a jobs ->
  exists c k z, configure repr shipped_modules (shipped_files "/workdir/") a = Some c /\ co_settings c = Some k /\ asked_sizes (l_model c) = Some z /\ all_given z = true /\ instances z = 1000%nat /\
    forall A X (value : A -> R -> X -> R) zeros dummy gs visits, length gs = 1000%nat -> fed k (instances z) gs visits ->
      exists f s, run_job value zeros dummy (gpus maxcut_er_sampler_sweep) k (instances z) gs visits = Some (f, true) /\ f "results"%string = Some s /\ length (s_best s) = 104%nat.
Proof.
  split; [apply (nth_error_In _ 26); reflexivity|]. destruct (er_refuted repr root) as (jobs & H & Hne & K). exists jobs. split; [exact H|]. split; [exact Hne|]. intros a Ha.
  destruct (K a Ha) as (c & k & coeff & z & E1 & E2 & E3 & E4 & E5 & E6 & E7). exists c, k, z. repeat (split; [assumption|]). intros A X value zeros dummy gs visits HL HF.
  destruct (C99_saved A X value zeros dummy _ k (instances z) gs visits 896 (proj1 (C99_ready _ _ _ _ E6)) HF) as (f & s & X1 & X2 & X3 & _).
  { rewrite E5, E7. split; [exists 7%nat; reflexivity|lia]. }
  exists f, s. split; [exact X1|]. split; [exact X2|]. rewrite X3, HL. reflexivity.
Qed.

(** Fewer instances than devices, but more than one: the run ends before anything is written. *)
Theorem C99_few_instances A X (value : A -> R -> X -> R) zeros dummy d k N gs visits : k_parallel k = true -> (1 < k_models k < d)%nat -> k_group k = k_models k -> (length gs <= N)%nat -> (0 < N)%nat ->
  run_job value zeros dummy d k N gs visits = Some (fun _ => None, false).
Proof. apply job_few. Qed.
Example C99_few_instances_example zeros dummy visits : run_job (cut_at demo_sizes) zeros dummy 4 (demo false) 2 demo_data visits = Some (fun _ => None, false).
Proof. apply C99_few_instances; cbn; auto; lia. Qed.
(** One instance at a time on several devices: the run ends at the second instance. *)
Theorem C99_one_by_one A X (value : A -> R -> X -> R) zeros dummy d k N gs visits : k_parallel k = true -> k_models k = 1%nat -> (1 < d)%nat -> k_group k = 1%nat -> (length gs <= N)%nat -> (1 < N)%nat ->
  gs <> [] -> (0 < k_batch k)%nat -> Nat.divide d (k_batch k) ->
  exists f s, run_job value zeros dummy d k N gs visits = Some (f, false) /\ f "results"%string = Some s /\ length (s_best s) = 1%nat.
Proof. apply job_one_by_one. Qed.
Example C99_one_by_one_example : exists k, k_parallel k = true /\ k_models k = 1%nat /\ k_group k = 1%nat /\ (0 < k_batch k)%nat /\ Nat.divide 8 (k_batch k).
Proof.
  exists {| k_schedule := constant_schedule 1; k_length := 2; k_ratio := 1; k_log := 1; k_models := 1; k_batch := 16; k_parallel := true; k_samples := true; k_mis := false; k_group := 1 |}.
  cbn. repeat split; auto; [lia|exists 2%nat; reflexivity].
Qed.
(** The shipped sweep over random partitioning graphs is such a case: no job saves anything. *)
Theorem C99_gap_rand_refuted repr root : In ("co/normcut/gap_rand_sampler_sweep"%string, normcut_gap_rand_sampler_sweep) shipped_sweeps /\
  exists jobs, launch repr normcut_gap_rand_sampler_sweep [] root = Some jobs /\ jobs <> [] /\ forall a, In a jobs ->
  exists c k N, configure repr shipped_modules (shipped_files "/workdir/") a = Some c /\ co_settings c = Some k /\ as_nat (look "num_instances" (l_model c)) = Some N /\
    forall A X (value : A -> R -> X -> R) zeros dummy gs visits, (length gs <= N)%nat ->
      run_job value zeros dummy (gpus normcut_gap_rand_sampler_sweep) k N gs visits = Some (fun _ => None, false).
Proof.
  split; [apply (nth_error_In _ 34); reflexivity|]. destruct (gap_refuted repr root) as (jobs & H & Hne & K). exists jobs. split; [exact H|]. split; [exact Hne|]. intros a Ha.
  destruct (K a Ha) as (c & k & E1 & E2 & E3 & E4 & E5 & E6). exists c, k, 5%nat. repeat (split; [assumption|]). intros A X value zeros dummy gs visits HL.
  apply C99_few_instances; auto; [rewrite E5; cbn; lia|congruence|lia].
Qed.

Print Assumptions C99_saved.
Print Assumptions C99_mis.
Print Assumptions C99_clique.
Print Assumptions C99_cut.
Print Assumptions C99_optimum.
Print Assumptions C99_sample_refuted.
Print Assumptions C99_shipped.
Print Assumptions C99_sizes.
Print Assumptions C99_ready.
Print Assumptions C99_er_refuted.
Print Assumptions C99_few_instances.
Print Assumptions C99_one_by_one.
Print Assumptions C99_gap_rand_refuted.

