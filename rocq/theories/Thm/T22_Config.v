(** C76 - C77: merging of configuration files, sampler labels in result tables. *)
From Coq Require Import String List Bool ZArith.
From Verif.Spec Require Import ConfigSpec.
From Verif.Model Require Import Config.
From Verif.Proof Require Import ConfigProof.
Import ListNotations.
Local Open Scope string_scope.

(** ** C76 Merging *)

(** Classical models: the experiment file wins over the common defaults; the model and sampler files win over
    sections of the experiment file. *)
Theorem C76_classical gc ef mf sf : dict_config ef -> dict mf -> dict sf ->
  get "graph_type" mf = None -> get "bert_model" mf = None -> get "graph_type" (c_model ef) = None -> get "bert_model" (c_model ef) = None ->
  exists c, get_main_config gc ef mf sf = Some c /\
    (forall k, get k (c_exp c) = first_of [get k (c_exp ef); get k (c_exp common_config)]) /\
    (forall k, get k (c_model c) = first_of [get k mf; get k (c_model ef); get k (c_model common_config)]) /\
    (forall k, get k (c_sampler c) = first_of [get k sf; get k (c_sampler ef); get k (c_sampler common_config)]).
Proof. intros. apply classical_main; assumption. Qed.

(** Graph models: what every key ends up as.  The order of priority of the model section is turned round (the
    experiment file and the file of the graph type win over the model file), and experiment.num_models is always
    that of the model. *)
Theorem C76_graph gc ef mf sf g n s gm c : dict_config ef -> dict mf -> dict sf -> dict gm ->
  get "graph_type" mf = Some g -> truthy g = true -> get "name" mf = Some n -> get "cfg_str" mf = Some s -> gc n g s = Some gm ->
  get "bert_model" mf = None -> get "bert_model" gm = None -> get "bert_model" (c_model ef) = None ->
  get_main_config gc ef mf sf = Some c ->
    (forall k, get k (c_model c) = first_of [get k (c_model ef); get k gm; get k mf; get k (c_model common_config)]) /\
    (forall k, get k (c_sampler c) = first_of [get k (c_sampler ef); get k sf; get k (c_sampler common_config)]) /\
    (forall k, get k (c_exp c) = if String.eqb k "num_models" then get k (c_model c)
       else first_of [get k (c_exp ef); get k co_default; get k (c_exp common_config)]).
Proof. intros; eapply graph_main; eauto. Qed.

(** Text infilling. *)
Theorem C76_infilling gc ef mf sf b : dict_config ef -> dict mf -> dict sf ->
  get "graph_type" mf = None -> get "bert_model" mf = Some b -> truthy b = true ->
  exists c, get_main_config gc ef mf sf = Some c /\
    (forall k, get k (c_model c) = first_of [get k (c_model ef); get k mf; get k (c_model common_config)]) /\
    (forall k, get k (c_sampler c) = first_of [get k (c_sampler ef); get k sf; get k (c_sampler common_config)]) /\
    (forall k, get k (c_exp c) = first_of [get k (c_exp ef); get k (c_exp common_config)]).
Proof. intros; eapply infill_main; eauto. Qed.

(** A graph model with an experiment file that has only an experiment section and does not name the experiment
    (every shipped one): the combinatorial experiment and evaluator are used, the sampler is the one asked for,
    and the model is the one asked for wherever the file of the graph type is silent. *)
Theorem C76_graph_experiment gc ef mf sf g n s gm c : dict_config ef -> dict mf -> dict sf -> dict gm ->
  get "graph_type" mf = Some g -> truthy g = true -> get "name" mf = Some n -> get "cfg_str" mf = Some s -> gc n g s = Some gm ->
  get "bert_model" mf = None -> get "bert_model" gm = None ->
  c_model ef = [] -> c_sampler ef = [] -> get "name" (c_exp ef) = None -> get "evaluator" (c_exp ef) = None ->
  get_main_config gc ef mf sf = Some c ->
    get "name" (c_exp c) = Some (VStr "CO_Experiment") /\ get "evaluator" (c_exp c) = Some (VStr "co_eval") /\
    (forall k v, get k sf = Some v -> get k (c_sampler c) = Some v) /\
    (forall k v, get k mf = Some v -> get k gm = None -> get k (c_model c) = Some v) /\
    (forall k v, get k (c_exp ef) = Some v -> k <> "num_models" -> get k (c_exp c) = Some v).
Proof.
  intros He Hm Hs Hg' Hg Ht Hn Hc Hgc Hb Hb1 E1 E2 E3 E4 H.
  destruct (graph_main gc ef mf sf He Hm Hs g n s gm Hg Ht Hn Hc Hgc Hg' Hb Hb1 ltac:(rewrite E1; reflexivity) c H) as (A & B & D).
  rewrite (D "name"), (D "evaluator"), E3, E4. repeat split; try reflexivity.
  - intros k v Hv. rewrite B, E2, Hv. reflexivity.
  - intros k v Hv Hgm. rewrite A, E1, Hgm, Hv. reflexivity.
  - intros k v Hv Hk. rewrite D, Hv. destruct (String.eqb_spec k "num_models"); [contradiction | reflexivity].
Qed.

(** With --config left at its default (the common file), every graph model loses its name, its sampler and the
    combinatorial experiment: the program then fails to import a model with an empty name. *)
Theorem C76_default_experiment gc mf sf g n s gm c : dict mf -> dict sf -> dict gm ->
  get "graph_type" mf = Some g -> truthy g = true -> get "name" mf = Some n -> get "cfg_str" mf = Some s -> gc n g s = Some gm ->
  get "bert_model" mf = None -> get "bert_model" gm = None ->
  get_main_config gc common_config mf sf = Some c ->
    get "name" (c_model c) = Some (VStr "") /\ get "name" (c_sampler c) = Some (VStr "") /\
    get "name" (c_exp c) = Some (VStr "Sampling_Experiment") /\ get "evaluator" (c_exp c) = Some (VStr "ess_eval").
Proof.
  intros Hm Hs Hg' Hg Ht Hn Hc Hgc Hb Hb1 H.
  assert (He : dict_config common_config) by (unfold dict_config, dict; simpl; repeat split; repeat constructor; simpl; intuition discriminate).
  destruct (graph_main gc common_config mf sf He Hm Hs g n s gm Hg Ht Hn Hc Hgc Hg' Hb Hb1 eq_refl c H) as (A & B & D).
  rewrite A, B, !D. repeat split; reflexivity.
Qed.

(** So "the model and sampler asked for are the ones run" is false of the shipped files. *)
Theorem C76_files_used_refuted : exists c, get_main_config ertest_configs common_config mis_file dlmc_file = Some c /\
  get "name" (c_model c) <> get "name" mis_file /\ get "name" (c_sampler c) <> get "name" dlmc_file.
Proof. eexists. split; [vm_compute; reflexivity |]. split; vm_compute; discriminate. Qed.

(** A penalty given on the command line (--model_config.penalty) is dropped for the satlib graphs, whatever it is. *)
Theorem C76_penalty_refuted : forall v, v <> VNum 10001 4 ->
  exists mf c, get "penalty" mf = Some v /\ get "name" mf = Some (VStr "mis") /\
    get_main_config satlib_configs ertest_exp mf dlmc_file = Some c /\ get "penalty" (c_model c) = Some (VNum 10001 4).
Proof.
  intros v Hv. exists (set "penalty" v (set "graph_type" (VStr "satlib") mis_file)).
  eexists. split; [reflexivity | split; [reflexivity | split; reflexivity]].
Qed.

(** A model file whose graph_type is the empty string: the experiment file is not read at all. *)
Theorem C76_empty_graph_type gc ef mf sf : dict mf -> get "graph_type" mf = Some (VStr "") -> get "bert_model" mf = None ->
  exists c, get_main_config gc ef mf sf = Some c /\ c_exp c = c_exp common_config.
Proof.
  intros Hm Hg Hb. unfold get_main_config, has, get_true. rewrite Hg, Hb. cbn [negb andb c_model c_sampler c_exp].
  rewrite (get_update "graph_type" _ Hm), Hg. cbn [first_of truthy String.eqb negb].
  cbn [c_model]. rewrite (get_update "bert_model" _ Hm), Hb. eexists. split; reflexivity.
Qed.

(** A local run saves under the model's directory name, and changes nothing else. *)
Theorem C76_save_dir c c' : update_save_dir true c = Some c' ->
  exists folder, first_of [get "save_dir_name" (c_model c); get "name" (c_model c)] = Some (VStr folder) /\
    get "save_root" (c_exp c') = Some (VStr ("./discs/results/" ++ folder)) /\
    c_model c' = c_model c /\ c_sampler c' = c_sampler c /\ (forall k, k <> "save_root" -> get k (c_exp c') = get k (c_exp c)).
Proof. exact (save_dir_main c c'). Qed.

(** Outside local runs the configured directory is kept. *)
Theorem C76_save_dir_remote c : update_save_dir false c = Some c.
Proof. reflexivity. Qed.

(** The shipped files for maximum independent set on the ertest graphs. *)
Example C76_case : exists c, get_main_config ertest_configs ertest_exp mis_file dlmc_file = Some c /\
  get "name" (c_model c) = Some (VStr "mis") /\ get "name" (c_sampler c) = Some (VStr "dlmc") /\
  get "name" (c_exp c) = Some (VStr "CO_Experiment") /\ get "num_models" (c_exp c) = Some (VNum 128 0) /\
  get "batch_size" (c_exp c) = Some (VNum 32 0) /\ get "window_size" (c_exp c) = Some (VNum 10 0) /\
  (exists c', update_save_dir true c = Some c' /\ get "save_root" (c_exp c') = Some (VStr "./discs/results/mis")).
Proof.
  eexists; split; [vm_compute; reflexivity |]. repeat split; try reflexivity.
  eexists; split; vm_compute; reflexivity.
Qed.
Example C76_dicts : dict_config ertest_exp /\ dict_config lm_exp /\ dict mis_file /\ dict infill_file /\ dict dlmc_file /\ dict satlib_section.
Proof. unfold dict_config, dict; simpl; repeat split; repeat constructor; simpl; intuition discriminate. Qed.
Example C76_infill_case : exists c, get_main_config ertest_configs lm_exp infill_file dlmc_file = Some c /\
  get "name" (c_exp c) = Some (VStr "Text_Infilling_Experiment") /\ get "name" (c_model c) = Some (VStr "text_infilling").
Proof. eexists; split; [vm_compute; reflexivity | split; reflexivity]. Qed.
Example C76_classical_case : exists c,
  get_main_config ertest_configs (mk [] [] [("batch_size", VNum 7 0)]) [("name", VStr "ising"); ("mu", VNum 5 1)] dlmc_file = Some c /\
  get "batch_size" (c_exp c) = Some (VNum 7 0) /\ get "name" (c_exp c) = Some (VStr "Sampling_Experiment") /\ get "name" (c_model c) = Some (VStr "ising").
Proof. eexists; split; [vm_compute; reflexivity | repeat split; reflexivity]. Qed.

(** ** C77 Labels *)

(** The label depends only on the sampler's name, its solver, its balancing function and whether there is an
    "adaptive" key, so runs that differ in anything else (step sizes, number of flips, block size, target rate)
    share a label. *)
Theorem C77_label_depends s s' : get "name" s = get "name" s' -> get "solver" s = get "solver" s' ->
  get "balancing_fn_type" s = get "balancing_fn_type" s' -> (get "adaptive" s = None <-> get "adaptive" s' = None) ->
  sampler_label s = sampler_label s'.
Proof. exact (label_depends s s'). Qed.

(** "Adaptive and non-adaptive runs have different labels" fails for every sampler. *)
Theorem C77_adaptive_refuted s : sampler_label (set "adaptive" (VBool true) s) = sampler_label (set "adaptive" (VBool false) s).
Proof. apply label_depends; rewrite !get_set; try reflexivity. split; discriminate. Qed.

(** For the shipped samplers, equal labels mean the same sampler, balancing function, use of the forward Euler
    solver, and presence of the "adaptive" key. *)
Theorem C77_labels_distinct s s' n n' so so' bo bo' l :
  In n shipped_samplers -> In n' shipped_samplers ->
  get "name" s = Some (VStr n) -> get "name" s' = Some (VStr n') ->
  get "solver" s = option_map (fun b : bool => VStr (if b then "euler_forward" else "interpolate")) so ->
  get "solver" s' = option_map (fun b : bool => VStr (if b then "euler_forward" else "interpolate")) so' ->
  get "balancing_fn_type" s = option_map VStr bo -> get "balancing_fn_type" s' = option_map VStr bo' ->
  (bo = None \/ exists f, bo = Some f /\ In f ["RATIO"; "MAX"; "MIN"; "SQRT"]) ->
  (bo' = None \/ exists f, bo' = Some f /\ In f ["RATIO"; "MAX"; "MIN"; "SQRT"]) ->
  sampler_label s = Some l -> sampler_label s' = Some l ->
  n = n' /\ (get "adaptive" s = None <-> get "adaptive" s' = None) /\ (so = Some true <-> so' = Some true) /\ bo = bo'.
Proof. exact (labels_distinct s s' n n' so so' bo bo' l). Qed.

(** A misspelt balancing function is labelled as the square root. *)
Theorem C77_unknown_balancing_refuted : exists s, get "balancing_fn_type" s = Some (VStr "ratio") /\ sampler_label s = Some "a_dlmc(sqrt)".
Proof. exists (set "balancing_fn_type" (VStr "ratio") dlmc_file). split; reflexivity. Qed.

Example C77_case : sampler_label dlmc_file = Some "a_dlmc(sqrt)" /\
  sampler_label (set "solver" (VStr "euler_forward") (set "balancing_fn_type" (VStr "MAX") dlmc_file)) = Some "a_dlmcf(max)" /\
  sampler_label [("name", VStr "gibbs")] = Some "gibbs".
Proof. repeat split; reflexivity. Qed.

Print Assumptions C76_classical.
Print Assumptions C76_graph.
Print Assumptions C76_infilling.
Print Assumptions C76_graph_experiment.
Print Assumptions C76_default_experiment.
Print Assumptions C76_files_used_refuted.
Print Assumptions C76_penalty_refuted.
Print Assumptions C76_empty_graph_type.
Print Assumptions C76_save_dir.
Print Assumptions C76_save_dir_remote.
Print Assumptions C77_label_depends.
Print Assumptions C77_adaptive_refuted.
Print Assumptions C77_labels_distinct.
Print Assumptions C77_unknown_balancing_refuted.
