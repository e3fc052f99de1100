(** C95: from a sweep file to the runs: jobs, command lines, configurations, started programs. *)
From Coq Require Import String Ascii List Bool ZArith Lia Arith Reals Lra.
From Verif.Spec Require Import ConfigSpec LaunchSpec SamplerRun StartSpec.
From Verif.Model Require Import Config Launch RunConfigs Start FullRun.
From Verif.Proof Require Import LaunchProof LaunchAccept LaunchShipped StartProof.
Import ListNotations.
Local Open Scope string_scope.

(** ** Jobs of a sweep file *)
(** The jobs are exactly the combinations of one value for each key of one of the sweeps. *)
Theorem C95_jobs sweeps l kw : all_sweeps sweeps = Some l ->
  (In kw l <-> exists s, In s sweeps /\ map fst kw = map fst s /\ Forall2 (fun kv kvs => In (snd kv) (snd kvs)) kw s).
Proof. apply all_sweeps_in. Qed.
Theorem C95_jobs_count sweeps l : all_sweeps sweeps = Some l ->
  List.length l = list_sum (map (fun s => fold_right (fun kvs m => List.length (snd kvs) * m) 1 s) sweeps).
Proof. apply all_sweeps_count. Qed.
(** The launcher refuses a file without sweeps and an empty sweep, nothing else. *)
Theorem C95_no_jobs sweeps : all_sweeps sweeps = None <-> sweeps = [] \/ In [] sweeps.
Proof. apply all_sweeps_none. Qed.
(** Work unit i runs the i-th combination; every combination is run. *)
Theorem C95_units repr j extra sd jobs : launch repr j extra sd = Some jobs ->
  exists l, all_sweeps (j_sweep j) = Some l /\ List.length jobs = List.length l /\
    forall i a, nth_error jobs i = Some a -> exists kw, nth_error l i = Some kw /\ make_job repr j extra sd (S i) kw = Some a.
Proof.
  intros H. destruct (all_sweeps (j_sweep j)) as [l|] eqn:E.
  - exists l. split; [reflexivity|]. split; [apply (launch_length _ _ _ _ _ _ H E)|]. intros i a Ha. destruct (launch_nth _ _ _ _ _ _ _ H Ha) as (l' & kw & E' & X). rewrite E in E'. injection E' as <-. eauto.
  - unfold launch in H. rewrite E in H. discriminate.
Qed.
(** The arguments of a job: the swept value, else the launcher's own, else the default of the sweep file; the sampler file is that of
    the sampler asked for. *)
Theorem C95_arguments repr j extra sd id kw a : dict kw -> dict extra -> make_job repr j extra sd id kw = Some a ->
  dict a /\
  (forall k, k <> "sampler_config" -> k <> "config.experiment.save_root" -> look k a = first_of [look k kw; look k extra; look k (default_args j)]) /\
  (forall s, first_of [look "sampler_config.name" kw; look "sampler_config.name" extra] = Some (LStr s) ->
     look "sampler_config" a = Some (LStr ("/workdir/discs/samplers/configs/" ++ s ++ "_config.py"))) /\
  (first_of [look "sampler_config.name" kw; look "sampler_config.name" extra] = None ->
     look "sampler_config" a = first_of [look "sampler_config" kw; look "sampler_config" extra; look "sampler_config" (default_args j)]).
Proof.
  intros Hk He H. destruct (make_job_args _ _ _ _ _ _ _ Hk He H) as (A & B & C & _). split; [exact A|]. split; [exact B|]. split; intros; [rewrite C, H0|rewrite C, H0]; reflexivity.
Qed.
(** The defaults: the files of the model and of the sampler that the sweep file names; the experiment file of the graph type, of text
    infilling, or the common one; nothing else but the graph type and the place of the data. *)
Theorem C95_defaults j :
  look "model_config" (default_args j) = Some (LStr ("/workdir/discs/models/configs/" ++ j_model j ++ "_config.py")) /\
  look "sampler_config" (default_args j) = Some (LStr ("/workdir/discs/samplers/configs/" ++ j_sampler j ++ "_config.py")) /\
  (forall g, j_graph j = Some g -> g <> "" -> look "config" (default_args j) = Some (LStr ("/workdir/discs/experiment/configs/" ++ j_model j ++ "/" ++ g ++ ".py")) /\
     look "model_config.graph_type" (default_args j) = Some (LStr g) /\ look "model_config.data_root" (default_args j) = Some (LStr "/gcs/xcloud-shared/hadai/data/sco")) /\
  (j_graph j = None \/ j_graph j = Some "" -> look "model_config.graph_type" (default_args j) = None /\ look "model_config.data_root" (default_args j) = None) /\
  (j_graph j = None -> j_model j = "text_infilling" -> look "config" (default_args j) = Some (LStr "/workdir/discs/experiment/configs/lm_experiment.py")) /\
  (j_graph j = Some "" \/ j_graph j = None /\ j_model j <> "text_infilling" -> look "config" (default_args j) = Some (LStr "/workdir/discs/common/configs.py")) /\
  (forall k, ~ In k ["model_config"; "sampler_config"; "config"; "model_config.graph_type"; "model_config.data_root"] -> look k (default_args j) = None).
Proof. apply default_looks. Qed.
Example C95_defaults_case : exists j, j_graph j = Some "er_800" /\ j_model j = "maxcut" /\ look "config" (default_args j) = Some (LStr "/workdir/discs/experiment/configs/maxcut/er_800.py").
Proof. exists {| j_model := "maxcut"; j_sampler := "path_auxiliary"; j_graph := Some "er_800"; j_sweep := [] |}. repeat split. Qed.
(** Where a job saves: one folder directly below the folder of the experiment, named by the number of the work unit. *)
Theorem C95_folder repr j extra sd id kw a : dict kw -> dict extra -> look "config.experiment.save_root" kw = None -> make_job repr j extra sd id kw = Some a ->
  exists folder t, look "config.experiment.save_root" a = Some (LStr (sd ++ "/" ++ folder)) /\ folder = nat_text id ++ "_" ++ t /\ free_of "/"%char folder.
Proof.
  intros Hk He Hs H. destruct (make_job_args _ _ _ _ _ _ _ Hk He H) as (_ & _ & _ & root & t & R & T & S). rewrite Hs in R. injection R as <-.
  exists (nat_text id ++ "_" ++ t), t. split; [exact S|]. split; [reflexivity|]. exact (folder_free repr kw t id T).
Qed.
(** Different work units never share it. *)
Theorem C95_results_apart repr j extra sd jobs i i' a a' : dict extra -> (forall s, In s (j_sweep j) -> dict s /\ ~ In "config.experiment.save_root" (map fst s)) ->
  launch repr j extra sd = Some jobs -> nth_error jobs i = Some a -> nth_error jobs i' = Some a' -> i <> i' ->
  look "config.experiment.save_root" a <> look "config.experiment.save_root" a'.
Proof.
  intros He Hs H Ha Ha' N E.
  destruct (launch_nth _ _ _ _ _ _ _ H Ha) as (l & kw & El & Ek & M). destruct (launch_nth _ _ _ _ _ _ _ H Ha') as (l' & kw' & El' & Ek' & M'). rewrite El in El'. injection El' as <-.
  assert (P : forall q, In q l -> dict q /\ look "config.experiment.save_root" q = None).
  { intros q Hq. apply (all_sweeps_in _ _ _ El) in Hq. destruct Hq as (s & Hi & Hf & _). destruct (Hs s Hi) as [D R]. rewrite <- Hf in R. split; [unfold dict in *; rewrite Hf; exact D|apply look_none, R]. }
  destruct (P kw (nth_error_In _ _ Ek)) as [D1 R1]. destruct (P kw' (nth_error_In _ _ Ek')) as [D2 R2].
  destruct (make_job_args _ _ _ _ _ _ _ D1 He M) as (_ & _ & _ & r1 & t1 & Q1 & _ & S1). destruct (make_job_args _ _ _ _ _ _ _ D2 He M') as (_ & _ & _ & r2 & t2 & Q2 & _ & S2).
  rewrite R1 in Q1. rewrite R2 in Q2. injection Q1 as <-. injection Q2 as <-. rewrite S1, S2 in E. injection E as E. apply roots_apart in E. congruence.
Qed.
Example C95_jobs_case : exists l kw, all_sweeps (j_sweep bernoulli_model_config_sweep) = Some l /\ In kw l /\
  look "model_config.init_sigma" kw = Some (LFloat 15 1) /\ look "sampler_config.name" kw = Some (LStr "dmala") /\ look "sampler_config.balancing_fn_type" kw = Some (LStr "RATIO").
Proof.
  eexists; eexists. split; [vm_compute; reflexivity|]. split; [|split; [|split]].
  - do 13 right. left. reflexivity.
  - reflexivity.
  - reflexivity.
  - reflexivity.
Qed.
Example C95_no_jobs_case : all_sweeps [] = None /\ all_sweeps [[("a", [LInt 1])]; []] = None /\ all_sweeps [[("a", [])]] = Some [].
Proof. repeat split; reflexivity. Qed.
Example C95_units_case repr : exists jobs, launch repr potts_model_config_sweep [] "/results/potts" = Some jobs /\ 2 <= List.length jobs /\ dict (@nil (string * lit)) /\
  forall s, In s (j_sweep potts_model_config_sweep) -> dict s /\ ~ In "config.experiment.save_root" (map fst s).
Proof.
  eexists. split; [vm_compute; reflexivity|]. split; [cbn; lia|]. split; [constructor|].
  intros s Hs. cbn in Hs. repeat (destruct Hs as [<-|Hs]; [split; [unfold dict; cbn; repeat constructor; cbn; intuition discriminate|cbn; intuition discriminate]|]). destruct Hs.
Qed.

(** ** Command lines *)
(** A tuple on the command line is read as the tuple it shows. *)
Theorem C95_tuple l : l <> [] -> tuple_of (tuple_text l) = Some (map Z.of_nat l).
Proof. apply tuple_roundtrip. Qed.
Example C95_tuple_case : tuple_text [30; 30] = "(30, 30)" /\ tuple_text [2000] = "(2000,)" /\ tuple_of "(30, 30)" = Some [30; 30]%Z.
Proof. repeat split; reflexivity. Qed.
(** A program that starts was given only keys that are in its files, ... *)
Theorem C95_unknown_key repr gm fs args f k v : open_files fs args = Some f -> In (k, v) args ->
  k <> "config" -> k <> "model_config" -> k <> "sampler_config" ->
  (forall r, k = "model_config." ++ r -> look r (g_model f) = None) -> (forall r, k = "sampler_config." ++ r -> look r (g_sampler f) = None) ->
  (forall r, k = "config.experiment." ++ r -> look r (l_exp (g_conf f)) = None) -> (forall r, k = "config.model." ++ r -> look r (l_model (g_conf f)) = None) ->
  (forall r, k = "config.sampler." ++ r -> look r (l_sampler (g_conf f)) = None) ->
  configure repr gm fs args = None.
Proof.
  intros Ho Hi N1 N2 N3 A B C D E. destruct (configure repr gm fs args) as [c|] eqn:Hc; [|reflexivity]. exfalso.
  destruct (known_key repr gm fs args f c k v Ho Hc Hi) as [H|[H|[H|([] & r & H & X)]]]; try contradiction; apply X; cbn [slot_get]; auto.
Qed.
(** ... with values of their types. *)
Theorem C95_wrong_type repr gm fs args f r v old : dict args -> open_files fs args = Some f -> look ("model_config." ++ r) args = Some v -> look r (g_model f) = Some old ->
  match old, v with
  | LInt _, LStr _ | LInt _, LFloat _ _ | LInt _, LTuple _ | LFloat _ _, LStr _ | LFloat _ _, LBool _ | LFloat _ _, LTuple _ | LBool _, LStr _ | LBool _, LInt _ | LTuple _, LInt _ => True
  | _, _ => False
  end -> configure repr gm fs args = None.
Proof.
  intros Ha Ho Hl Hold Hw. destruct (configure repr gm fs args) as [c|] eqn:Hc; [|reflexivity]. exfalso.
  destruct (known_type repr gm fs args f c SlModel r v Ha Ho Hc Hl) as (old' & w & X & Y). cbn [slot_get] in X. rewrite Hold in X. injection X as <-. destruct old, v; try contradiction; discriminate.
Qed.
Example C95_unknown_key_case repr :
  configure repr shipped_modules (shipped_files "") (local_args "ising" "gwg" None [("model_config.lambda", LFloat 3 1)]) = None /\
  configure repr shipped_modules (shipped_files "") (local_args "ising" "gwg" None [("model_config.num_categories", LStr "two")]) = None /\
  configure repr shipped_modules (shipped_files "") (local_args "ising" "gwg" None [("model_config.lambdaa", LFloat 3 1)]) <> None.
Proof. split; [vm_compute; reflexivity|]. split; [vm_compute; reflexivity|]. vm_compute. discriminate. Qed.

(** ** The configuration *)
(** Models without graph files: every value asked for is the value run; everything else comes from the files. *)
Theorem C95_classical repr gm fs args f c : dict args -> dict_files f ->
  open_files fs args = Some f -> configure repr gm fs args = Some c -> (exists n, look "name" (g_model f) = Some (LStr n)) ->
  look "graph_type" (g_model f) = None -> look "bert_model" (g_model f) = None ->
  look "graph_type" (l_model (g_conf f)) = None -> look "bert_model" (l_model (g_conf f)) = None ->
  (forall k, kept repr (look ("config.experiment." ++ k) args) (first_of [look k (l_exp (g_conf f)); look k (l_exp common_file)]) (look k (l_exp c))) /\
  (forall k, look ("config.model." ++ k) args = None ->
     kept repr (look ("model_config." ++ k) args) (first_of [look k (g_model f); look k (l_model (g_conf f)); look k (l_model common_file)]) (look k (l_model c))) /\
  (forall k, look ("config.sampler." ++ k) args = None ->
     kept repr (look ("sampler_config." ++ k) args) (first_of [look k (g_sampler f); look k (l_sampler (g_conf f)); look k (l_sampler common_file)]) (look k (l_sampler c))).
Proof. intros Ha Hf. apply classical_kept; [exact Ha|apply dict_files_dicts, Hf]. Qed.
(** Graph models: except for the keys that the module of the graph type sets and num_models, which follow that module. *)
Theorem C95_graph repr gm fs args f c : dict args -> dict_files f -> (forall n g s sec, gm n g s = Some sec -> dict sec /\ look "bert_model" sec = None) ->
  open_files fs args = Some f -> configure repr gm fs args = Some c -> (exists n, look "name" (g_model f) = Some (LStr n)) ->
  look "graph_type" (g_model f) <> None -> look "cfg_str" (g_model f) <> None -> look "bert_model" (g_model f) = None ->
  l_model (g_conf f) = [] -> l_sampler (g_conf f) = [] ->
  (forall g, kept repr (look "model_config.graph_type" args) (look "graph_type" (g_model f)) (Some g) -> truthy (to_val g) = true) ->
  exists n g s sec, gm n g s = Some sec /\
    kept repr (look "model_config.name" args) (look "name" (g_model f)) (Some n) /\
    kept repr (look "model_config.graph_type" args) (look "graph_type" (g_model f)) (Some g) /\
    kept repr (look "model_config.cfg_str" args) (look "cfg_str" (g_model f)) (Some s) /\
    (forall k, k <> "num_models" -> kept repr (look ("config.experiment." ++ k) args) (first_of [look k (l_exp (g_conf f)); look k co_file; look k (l_exp common_file)]) (look k (l_exp c))) /\
    same (look "num_models" (l_exp c)) (look "num_models" (l_model c)) /\
    (forall k, kept repr (look ("sampler_config." ++ k) args) (first_of [look k (g_sampler f); look k (l_sampler common_file)]) (look k (l_sampler c))) /\
    (forall k, look k sec = None -> kept repr (look ("model_config." ++ k) args) (first_of [look k (g_model f); look k (l_model common_file)]) (look k (l_model c))) /\
    (forall k v, look k sec = Some v -> same (look k (l_model c)) (Some v)).
Proof. intros Ha Hf. apply graph_kept; [exact Ha|apply dict_files_dicts, Hf]. Qed.
(** Text infilling. *)
Theorem C95_infilling repr gm fs args f c : dict args -> dict_files f ->
  open_files fs args = Some f -> configure repr gm fs args = Some c -> (exists n, look "name" (g_model f) = Some (LStr n)) ->
  look "graph_type" (g_model f) = None -> look "bert_model" (g_model f) <> None ->
  l_model (g_conf f) = [] -> l_sampler (g_conf f) = [] ->
  (forall b, kept repr (look "model_config.bert_model" args) (look "bert_model" (g_model f)) (Some b) -> truthy (to_val b) = true) ->
    (forall k, kept repr (look ("config.experiment." ++ k) args) (first_of [look k (l_exp (g_conf f)); look k (l_exp common_file)]) (look k (l_exp c))) /\
    (forall k, kept repr (look ("sampler_config." ++ k) args) (first_of [look k (g_sampler f); look k (l_sampler common_file)]) (look k (l_sampler c))) /\
    (forall k, kept repr (look ("model_config." ++ k) args) (first_of [look k (g_model f); look k (l_model common_file)]) (look k (l_model c))).
Proof. intros Ha Hf. apply infill_kept; [exact Ha|apply dict_files_dicts, Hf]. Qed.

Example C95_classical_case repr : let args := local_args "ising" "gwg" None [("model_config.lambdaa", LFloat 3 1); ("model_config.shape", LStr "(20, 20)"); ("config.experiment.chain_length", LInt 500)] in
  exists f c, dict args /\ dict_files f /\ open_files (shipped_files "") args = Some f /\ configure repr shipped_modules (shipped_files "") args = Some c /\
    look "name" (g_model f) = Some (LStr "ising") /\ look "graph_type" (g_model f) = None /\ look "bert_model" (g_model f) = None /\
    look "graph_type" (l_model (g_conf f)) = None /\ look "bert_model" (l_model (g_conf f)) = None /\
    look "lambdaa" (l_model c) = Some (LFloat 3 1) /\ look "shape" (l_model c) = Some (LTuple [20; 20]%Z) /\ look "chain_length" (l_exp c) = Some (LInt 500) /\ look "mu" (l_model c) = Some (LFloat 5 1).
Proof.
  cbv zeta. eexists; eexists. split; [unfold dict; cbn; repeat constructor; cbn; intuition discriminate|].
  split; [|split; [vm_compute; reflexivity|split; [vm_compute; reflexivity|repeat split; reflexivity]]].
  unfold dict_files, dict. cbn. split; [|split; [|split; [|split]]]; repeat constructor; cbn; intuition discriminate.
Qed.
Example C95_graph_case repr : let args := [("model_config", LStr "discs/models/configs/maxcut_config.py"); ("sampler_config", LStr "discs/samplers/configs/dlmc_config.py");
    ("config", LStr "discs/experiment/configs/maxcut/er.py"); ("model_config.graph_type", LStr "er"); ("model_config.cfg_str", LStr "r-0.15-n-256-300"); ("sampler_config.target_acceptance_rate", LFloat 7 1)] in
  exists f c, dict args /\ dict_files f /\ open_files (shipped_files "") args = Some f /\ configure repr shipped_modules (shipped_files "") args = Some c /\
    look "name" (g_model f) = Some (LStr "maxcut") /\ look "graph_type" (g_model f) <> None /\ look "cfg_str" (g_model f) <> None /\ look "bert_model" (g_model f) = None /\
    l_model (g_conf f) = [] /\ l_sampler (g_conf f) = [] /\
    look "graph_type" (l_model c) = Some (LStr "er") /\ look "target_acceptance_rate" (l_sampler c) = Some (LFloat 7 1) /\ look "num_models" (l_exp c) = Some (LInt 128).
Proof.
  cbv zeta. eexists; eexists. split; [unfold dict; cbn; repeat constructor; cbn; intuition discriminate|].
  split; [|split; [vm_compute; reflexivity|split; [vm_compute; reflexivity|repeat split; try reflexivity; vm_compute; discriminate]]].
  unfold dict_files, dict. cbn. split; [|split; [|split; [|split]]]; repeat constructor; cbn; intuition discriminate.
Qed.
Example C95_graph_modules_case : (forall n g s sec, shipped_modules n g s = Some sec -> dict sec /\ look "bert_model" sec = None) /\
  forall repr g, kept repr (Some (LStr "er")) (Some (LStr "ba")) (Some g) -> truthy (to_val g) = true.
Proof.
  split.
  - intros n g s sec H. unfold shipped_modules in H. destruct n as [n| | | |]; try discriminate. destruct g as [g| | | |]; try discriminate. destruct s as [s| | | |]; try discriminate. cbv zeta in H.
    repeat match type of H with (if ?b then _ else _) = _ => destruct b end; try discriminate; try (destruct (rand_type s) as [r|]; [|discriminate]; cbn [option_map] in H); try (unfold ertest_module in H; destruct (String.eqb r "800"); [|destruct (String.eqb r "10k")]);
      injection H as <-; (split; [unfold dict; cbn; repeat constructor; cbn; intuition discriminate|reflexivity]).
  - intros repr g (w & E & [H|[[H _]|(s & l & E1 & -> & E2)]]); injection E as ->.
    + rewrite H. reflexivity.
    + exfalso. exact (H "er" eq_refl).
    + injection E1 as <-. vm_compute in E2. discriminate.
Qed.
Example C95_infilling_case repr : let args := local_args "text_infilling" "path_auxiliary" None [("sampler_config.adaptive", LBool false); ("sampler_config.num_flips", LInt 2)] in
  exists f c, dict args /\ dict_files f /\ open_files (shipped_files "") args = Some f /\ configure repr shipped_modules (shipped_files "") args = Some c /\
    look "name" (g_model f) = Some (LStr "text_infilling") /\ look "graph_type" (g_model f) = None /\ look "bert_model" (g_model f) <> None /\
    l_model (g_conf f) = [] /\ l_sampler (g_conf f) = [] /\
    look "adaptive" (l_sampler c) = Some (LBool false) /\ look "num_flips" (l_sampler c) = Some (LInt 2) /\ look "name" (l_exp c) = Some (LStr "Text_Infilling_Experiment").
Proof.
  cbv zeta. eexists; eexists. split; [unfold dict; cbn; repeat constructor; cbn; intuition discriminate|].
  split; [|split; [vm_compute; reflexivity|split; [vm_compute; reflexivity|repeat split; try reflexivity; vm_compute; discriminate]]].
  unfold dict_files, dict. cbn. split; [|split; [|split; [|split]]]; repeat constructor; cbn; intuition discriminate.
Qed.

(** ** The shipped sweep files *)
(** Every job of every shipped sweep file, except maxcut/optsicom, whatever Python prints for values, wherever results go and whatever
    network sizes the checkpoints store: the files open, no argument is refused or lost, the program starts the model, sampler,
    experiment and evaluator asked for on the GPUs requested, the image models in the class for their number of categories, and the
    sampler can step on every model of that number of categories with at least two sites. *)
Theorem C95_shipped repr root nm j jobs a : In (nm, j) shipped_sweeps -> nm <> "co/maxcut/optsicom_sampler_sweep" ->
  launch repr j [] root = Some jobs -> In a jobs ->
  exists c C, configure repr shipped_modules (shipped_files "/workdir/") a = Some c /\
    (forall k v, In (k, v) a -> k <> "config.experiment.save_root" -> carried repr c k v) /\
    look "num_categories" (l_model c) = Some (LInt C) /\
    look "name" (l_sampler c) = Some (LStr (asked "sampler_config.name" a (j_sampler j))) /\
    forall ck vis hid sh im, (forall p, ck p = Some (stored (j_model j) C vis hid sh im)) ->
      exists r, start ck (gpus j) c = Some r /\ r_model r = j_model j /\
        r_experiment r = asked "config.experiment.name" a (fst (kind j)) /\ r_evaluator r = snd (kind j) /\
        look "num_categories" (r_section r) = Some (LInt C) /\ (2 <= C)%Z /\
        r_class r = (if deep (j_model j) then Some (Z.eqb C 2) else None) /\
        forall T, Z.of_nat (t_C T) = C -> (2 <= t_dim T)%nat -> usable T (r_sampler r).
Proof. apply shipped_starts. Qed.
Theorem C95_shipped_jobs repr root nm j : In (nm, j) shipped_sweeps -> exists jobs, launch repr j [] root = Some jobs /\ jobs <> [].
Proof. apply launch_some. Qed.
Example C95_shipped_case : List.length shipped_sweeps = 44 /\ In ("co/mis/satlib_sampler_sweep", mis_satlib_sampler_sweep) shipped_sweeps.
Proof. split; [reflexivity|]. apply (nth_error_In _ 32). reflexivity. Qed.

(** "The jobs of every shipped sweep file run" is false: no job of maxcut/optsicom starts, since it sets experiment.num_models, which its
    experiment file does not have. *)
Theorem C95_sweeps_run_refuted : exists nm j, In (nm, j) shipped_sweeps /\ forall repr root, exists jobs, launch repr j [] root = Some jobs /\
  List.length jobs = 8 /\ forall a, In a jobs -> configure repr shipped_modules (shipped_files "/workdir/") a = None.
Proof.
  exists "co/maxcut/optsicom_sampler_sweep", maxcut_optsicom_sampler_sweep.
  assert (Hi : In ("co/maxcut/optsicom_sampler_sweep", maxcut_optsicom_sampler_sweep) shipped_sweeps) by (apply (nth_error_In _ 27); reflexivity).
  split; [exact Hi|]. intros repr root. destruct (launch_some repr root _ _ Hi) as (jobs & H & _). exists jobs. split; [exact H|]. apply (optsicom_none repr root jobs H).
Qed.
(** "A sweep file of a model runs that model" is false: the Potts sweep over the number of categories is the categorical one. *)
Theorem C95_sweep_model_refuted : exists j, In ("classical_models/potts/num_categories_sweep", j) shipped_sweeps /\ j_model j = "categorical" /\
  In ("classical_models/categorical/num_categories_sweep", j) shipped_sweeps.
Proof. exists potts_num_categories_sweep. split; [apply (nth_error_In _ 21); reflexivity|]. split; [reflexivity|]. apply (nth_error_In _ 8). reflexivity. Qed.

(** ** Local runs *)
(** "model and graph_type of run_sampling_local.sh choose the graphs" is false: graph_type only chooses the experiment file, the graphs
    are those of the model file. *)
Theorem C95_local_graph_refuted : exists model g, forall repr sampler, In sampler ["gibbs"; "gwg"; "dlmc"; "dmala"; "path_auxiliary"; "randomwalk"] ->
  exists c, configure repr shipped_modules (shipped_files "") (local_args model sampler (Some g) []) = Some c /\
    (forall k, k <> "num_models" -> look k (l_exp maxcut_er_exp) <> None -> same (look k (l_exp c)) (look k (l_exp maxcut_er_exp))) /\ g = "er" /\
    look "graph_type" (l_model c) = Some (LStr "ba") /\ look "num_models" (l_exp c) = Some (LInt 1024) /\
    look "num_models" (er_module "") = Some (LInt 128).
Proof.
  exists "maxcut", "er". intros repr s Hs.
  repeat (destruct Hs as [<-|Hs]; [eexists; split; [vm_compute; reflexivity|]; split; [|repeat split; reflexivity];
    intros k N H; cbn [look maxcut_er_exp exp_only l_exp] in H;
    repeat match type of H with (if String.eqb ?k ?k' then _ else _) <> None => destruct (String.eqb_spec k k') as [->|]; [reflexivity|] end; congruence|]). destruct Hs.
Qed.
(** "Runs with different settings of the temperature save in different folders" is false: the folder is chosen when the model file is read,
    before the command line is. *)
Theorem C95_local_folder_refuted : exists overrides, forall repr, exists c c' r,
  configure repr shipped_modules (shipped_files "") (local_args "bernoulli" "gwg" None []) = Some c /\
  configure repr shipped_modules (shipped_files "") (local_args "bernoulli" "gwg" None overrides) = Some c' /\
  look "init_sigma" (l_model c) = Some (LFloat 5 1) /\ look "init_sigma" (l_model c') = Some (LFloat 15 1) /\
  look "save_dir_name" (l_model c) = Some (LStr "bernoulli_hightemp") /\ look "save_dir_name" (l_model c') = Some (LStr "bernoulli_hightemp") /\
  update_save_dir true (mk (erase (l_model c')) (erase (l_sampler c')) (erase (l_exp c'))) = Some r /\ get "save_root" (c_exp r) = Some (VStr "./discs/results/bernoulli_hightemp").
Proof. exists [("model_config.init_sigma", LFloat 15 1)]. intros repr. eexists; eexists; eexists. repeat split; vm_compute; reflexivity. Qed.

(** ** Image models *)
(** The class of the model fits the checkpoint when the checkpoint stores the number of categories that was configured. *)
Theorem C95_class ck m m' b : build_model ck m = Some (m', b) -> (exists n, look "name" m = Some (LStr n) /\ deep n = true) ->
  look "num_categories" m' = look "num_categories" m -> exists C, look "num_categories" m' = Some (LInt C) /\ b = Some (Z.eqb C 2).
Proof.
  intros H (n & Hn & Hd) E. unfold build_model in H. rewrite Hn in H. cbn [as_str] in H. destruct (model_keys n); [|discriminate]. rewrite Hd in H.
  destruct (binary_class n m) as [b0|] eqn:Eb; [|discriminate]. destruct (load_settings ck m); [|discriminate]. destruct (has_keys l t); [|discriminate]. injection H as -> <-.
  unfold binary_class in Eb. rewrite E. destruct (look "num_categories" m) as [[]|]; try discriminate. exists z. split; [reflexivity|].
  destruct (Z.eqb z 2); [congruence|]. destruct (Z.ltb 2 z && String.eqb n "rbm")%bool; [congruence|discriminate].
Qed.
(** Otherwise it need not: the class is chosen from the model file before the checkpoint is read.  With the shipped model file and a
    checkpoint of a binary machine, the class for several categories is built with two. *)
Theorem C95_class_refuted : exists ck m', build_model ck rbm_model = Some (m', Some false) /\ look "num_categories" m' = Some (LInt 2).
Proof. exists (fun _ => Some (stored "rbm" 2 784 50 [784]%Z [28; 28]%Z)). eexists. split; [vm_compute; reflexivity|]. vm_compute. reflexivity. Qed.
Example C95_class_case : exists ck m', build_model ck rbm_model = Some (m', Some false) /\ look "num_categories" m' = look "num_categories" rbm_model.
Proof. exists (fun _ => Some (stored "rbm" 4 784 50 [784]%Z [28; 28]%Z)). eexists. split; [vm_compute; reflexivity|]. vm_compute. reflexivity. Qed.

(** ** Which command lines are accepted *)
(** For a model without graphs or language model whose files go together: exactly those that set keys of the files to values of their types. *)
Theorem C95_accepted repr gm fs args plain f : open_files fs args = Some f -> open_files fs plain = Some f -> (forall k, In k (map fst plain) -> names_a_file k) ->
  look "graph_type" (g_model f) = None -> look "bert_model" (g_model f) = None -> look "graph_type" (l_model (g_conf f)) = None -> look "bert_model" (l_model (g_conf f)) = None ->
  configure repr gm fs plain <> None ->
  (configure repr gm fs args <> None <-> forall k v, In (k, v) args -> acceptable f k v).
Proof. apply accepted_iff. Qed.
(** Files go together when shared keys have the same types, whole numbers for floats allowed. *)
Theorem C95_files repr gm fs plain f : open_files fs plain = Some f -> (forall k, In k (map fst plain) -> names_a_file k) -> dict_files f ->
  look "graph_type" (g_model f) = None -> look "bert_model" (g_model f) = None -> look "graph_type" (l_model (g_conf f)) = None -> look "bert_model" (l_model (g_conf f)) = None ->
  all_suit (l_exp common_file) (l_exp (g_conf f)) ->
  all_suit (l_model common_file) (l_model (g_conf f)) -> all_suit (l_model common_file) (g_model f) -> all_suit (l_model (g_conf f)) (g_model f) ->
  all_suit (l_sampler common_file) (l_sampler (g_conf f)) -> all_suit (l_sampler common_file) (g_sampler f) -> all_suit (l_sampler (g_conf f)) (g_sampler f) ->
  configure repr gm fs plain <> None.
Proof. apply files_merge. Qed.
Example C95_accepted_case repr : exists fs plain f,
  open_files fs plain = Some f /\ (forall k, In k (map fst plain) -> names_a_file k) /\ dict_files f /\
  look "graph_type" (g_model f) = None /\ look "bert_model" (g_model f) = None /\ look "ess_ratio" (l_exp (g_conf f)) = Some (LInt 1) /\
  all_suit (l_exp common_file) (l_exp (g_conf f)) /\ all_suit (l_model common_file) (g_model f) /\ all_suit (l_sampler common_file) (g_sampler f) /\
  configure repr shipped_modules fs plain <> None /\ acceptable f "model_config.lambdaa" (LInt 2) /\
  configure repr shipped_modules fs (plain ++ [("model_config.lambdaa", LInt 2)])%list <> None /\ configure repr shipped_modules fs (plain ++ [("model_config.lambdaa", LStr "2")])%list = None.
Proof.
  exists {| f_model := [("m", ising_model)]; f_sampler := [("s", gwg_sampler)]; f_exp := [("c", {| l_model := []; l_sampler := []; l_exp := [("ess_ratio", LInt 1)] |})] |},
    [("model_config", LStr "m"); ("sampler_config", LStr "s"); ("config", LStr "c")]. eexists. split; [reflexivity|]. split; [intros k Hk; cbn in Hk; unfold names_a_file; cbn; tauto|].
  split; [unfold dict_files, dict; cbn; split; [|split; [|split; [|split]]]; repeat constructor; cbn; intuition discriminate|]. split; [reflexivity|]. split; [reflexivity|]. split; [reflexivity|].
  assert (one : forall k old v (s : table lit) o, look k s = Some old -> look k o = Some v -> forallb (fun kv => match look (fst kv) o with Some w => match snd kv, w with LStr _, LStr _ | LInt _, LInt _ | LFloat _ _, LFloat _ _ | LBool _, LBool _ | LTuple _, LTuple _ | LFloat _ _, LInt _ => true | _, _ => false end | None => true end) s = true -> suits old v).
  { intros k old v s o L V F. rewrite forallb_forall in F. assert (Hi : In (k, old) s) by (clear -L; induction s as [|[k1 v1] s IH]; cbn in L; [discriminate|]; destruct (String.eqb_spec k k1) as [->|]; [injection L as ->; left; reflexivity|right; auto]).
    specialize (F _ Hi). cbn [fst snd] in F. rewrite V in F. destruct old, v; try discriminate F; exact I. }
  split; [intros k old v L V; apply (one k old v _ _ L V); reflexivity|]. split; [intros k old v L V; apply (one k old v _ _ L V); reflexivity|]. split; [intros k old v L V; apply (one k old v _ _ L V); reflexivity|].
  split; [vm_compute; discriminate|]. split.
  - right. exists "model_config.". eexists. exists "lambdaa". eexists. split; [left; reflexivity|]. split; [reflexivity|]. split; [reflexivity|]. cbn. left. eauto.
  - split; vm_compute; [discriminate|reflexivity].
Qed.

(** ** The sampler of a started program *)
(** Each of its settings is the one of the configuration, else the default of the constructor; the variant for two categories is taken
    exactly when the model has two. *)
Theorem C95_sampler ck d c r : start ck d c = Some r ->
  reflects (l_sampler c) (l_exp c) (r_sampler r) /\
  exists C, look "num_categories" (r_section r) = Some (LInt C) /\
    match r_sampler r with SGwg _ _ | SGwgAdapt _ _ => Z.to_nat C = 2 | SGwgCat _ => Z.to_nat C <> 2 | _ => True end.
Proof.
  intros H. destruct (start_sampler _ _ _ _ H) as (sc & m & C & Hs & Hc & Hm & Hb). destruct (reflected _ _ _ _ Hs Hb) as (R & A & B & D). split; [exact R|].
  apply as_nat_some in Hc. destruct Hc as (z & Hc & ->). exists z. rewrite Hm. split; [exact Hc|]. destruct (r_sampler r); try exact I; [eapply A|eapply B|eapply D]; reflexivity.
Qed.
Example C95_sampler_case repr : exists c r,
  configure repr shipped_modules (shipped_files "") (local_args "potts" "path_auxiliary" None [("sampler_config.adaptive", LBool false); ("sampler_config.num_flips", LInt 7)]) = Some c /\
  start (fun _ => None) 1 c = Some r /\ r_sampler r = SPath "SQRT" true 7 None.
Proof. eexists. eexists. split; [vm_compute; reflexivity|]. split; [lazy; reflexivity|]. reflexivity. Qed.

(** A program on several devices splits what it runs evenly: the graphs of a combinatorial problem when there are enough of them,
    otherwise the chains; else it is refused. *)
Theorem C95_devices ck d c r : start ck d c = Some r -> (1 < d)%nat -> look "run_parallel" (l_exp c) = Some (LBool true) ->
  exists b m, look "batch_size" (l_exp c) = Some (LInt b) /\ look "num_models" (l_exp c) = Some (LInt m) /\
    exists q, (if (String.eqb (r_evaluator r) "co_eval" && negb (String.eqb (r_experiment r) "EBM_Experiment") && Nat.leb d (Z.to_nat m))%bool then Z.to_nat m else Z.to_nat b) = q * d.
Proof. apply start_devices. Qed.
Example C95_devices_case repr : exists args c r,
  configure repr shipped_modules (shipped_files "") args = Some c /\ start (fun _ => None) 8 c = Some r /\ r_evaluator r = "co_eval" /\ look "num_models" (l_exp c) = Some (LInt 128) /\
  start (fun _ => None) 9 c = None.
Proof.
  exists [("model_config", LStr "discs/models/configs/maxcut_config.py"); ("sampler_config", LStr "discs/samplers/configs/dlmc_config.py");
    ("config", LStr "discs/experiment/configs/maxcut/er.py"); ("model_config.graph_type", LStr "er"); ("model_config.cfg_str", LStr "r-0.15-n-256-300")].
  eexists. eexists. split; [vm_compute; reflexivity|]. split; [lazy -[Rdiv IZR pow]; reflexivity|]. split; [reflexivity|]. split; [reflexivity|]. lazy -[Rdiv IZR pow]. reflexivity.
Qed.

Print Assumptions C95_jobs.
Print Assumptions C95_jobs_count.
Print Assumptions C95_no_jobs.
Print Assumptions C95_units.
Print Assumptions C95_arguments.
Print Assumptions C95_defaults.
Print Assumptions C95_folder.
Print Assumptions C95_results_apart.
Print Assumptions C95_tuple.
Print Assumptions C95_unknown_key.
Print Assumptions C95_wrong_type.
Print Assumptions C95_classical.
Print Assumptions C95_graph.
Print Assumptions C95_infilling.
Print Assumptions C95_shipped.
Print Assumptions C95_shipped_jobs.
Print Assumptions C95_sweeps_run_refuted.
Print Assumptions C95_sweep_model_refuted.
Print Assumptions C95_local_graph_refuted.
Print Assumptions C95_local_folder_refuted.
Print Assumptions C95_class.
Print Assumptions C95_class_refuted.
Print Assumptions C95_sampler.
Print Assumptions C95_devices.
Print Assumptions C95_accepted.
Print Assumptions C95_files.
