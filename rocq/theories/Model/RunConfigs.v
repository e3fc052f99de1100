(** The configuration files shipped with the repository as data: discs/models/configs, discs/samplers/configs,
    discs/experiment/configs and the sweep files of discs/run_configs, transcribed value by value. *)
From Coq Require Import String Ascii List Bool ZArith.
From Verif.Model Require Import Utils Loaders Launch.
Import ListNotations.
Local Open Scope string_scope.
Local Open Scope Z_scope.

(** ** Model files *)
(** models/configs/bernoulli_config.py 5-17; the folder follows from init_sigma = 0.5 of the file. *)
Definition bernoulli_model : table lit :=
   [("shape", LTuple [10000]); ("num_categories", LInt 2); ("init_sigma", LFloat 5 1); ("name", LStr "bernoulli");
    ("save_dir_name", LStr "bernoulli_hightemp")].
(** models/configs/categorical_config.py 4-14. *)
Definition categorical_model : table lit :=
   [("shape", LTuple [2000]); ("num_categories", LInt 4); ("init_sigma", LFloat 15 1); ("name", LStr "categorical");
    ("save_dir_name", LStr "categorical_4")].
(** models/configs/fhmm_config.py 5-15. *)
Definition fhmm_model : table lit :=
   [("shape", LTuple [200; 50]); ("num_categories", LInt 2); ("sigma", LInt 2); ("alpha", LFloat 1 1);
    ("beta", LFloat 8 1); ("name", LStr "fhmm"); ("save_dir_name", LStr "fhmm")].
(** models/configs/ising_config.py 5-20; the folder follows from lambdaa = 0.5 of the file. *)
Definition ising_model : table lit :=
   [("shape", LTuple [50; 50]); ("num_categories", LInt 2); ("lambdaa", LFloat 5 1); ("external_field_type", LInt 1);
    ("mu", LFloat 5 1); ("init_sigma", LFloat 15 1); ("name", LStr "ising");
    ("save_dir_name", LStr "ising_hightemp")].
(** models/configs/potts_config.py 5-17. *)
Definition potts_model : table lit :=
   [("shape", LTuple [30; 30]); ("lambdaa", LInt 1); ("init_sigma", LFloat 15 1); ("num_categories", LInt 4);
    ("external_field_type", LInt 1); ("mu", LFloat 5 1); ("name", LStr "potts"); ("save_dir_name", LStr "potts_4")].
(** models/configs/maxclique_config.py 4-14. *)
Definition maxclique_model : table lit :=
   [("name", LStr "maxclique"); ("graph_type", LStr "rb"); ("cfg_str", LStr "_"); ("data_root", LStr "./sco/");
    ("save_dir_name", LStr "maxclique")].
(** models/configs/maxcut_config.py 4-14. *)
Definition maxcut_model : table lit :=
   [("name", LStr "maxcut"); ("graph_type", LStr "ba"); ("cfg_str", LStr "r-ba-4-n-16-20");
    ("data_root", LStr "./sco/"); ("save_dir_name", LStr "maxcut")].
(** models/configs/mis_config.py 4-15. *)
Definition mis_model : table lit :=
   [("name", LStr "mis"); ("graph_type", LStr "ertest"); ("cfg_str", LStr "r-800"); ("data_root", LStr "./sco/");
    ("penalty", LFloat 1001 3); ("save_dir_name", LStr "mis")].
(** models/configs/normcut_config.py 4-15. *)
Definition normcut_model : table lit :=
   [("name", LStr "normcut"); ("graph_type", LStr "nets"); ("cfg_str", LStr "r-INCEPTION");
    ("data_root", LStr "./sco/"); ("stype", LStr "quad"); ("save_dir_name", LStr "normcut")].
(** models/configs/rbm_config.py 5-12. *)
Definition rbm_model : table lit :=
   [("name", LStr "rbm"); ("visualize", LBool true); ("data_path", LStr "./RBM_DATA/fashion_mnist-4-50/");
    ("num_categories", LInt 4)].
(** models/configs/resnet_config.py 6-13. *)
Definition resnet_model : table lit :=
   [("name", LStr "resnet"); ("visualize", LBool true); ("data_path", LStr "./BINARY_EBM/dynamic_mnist-64/");
    ("num_categories", LInt 2)].
(** models/configs/text_infilling_config.py 5-18. *)
Definition text_infilling_model : table lit :=
   [("shape", LTuple [4]); ("num_categories", LInt 30522); ("name", LStr "text_infilling");
    ("bert_model", LStr "./text_infilling_models/bert-base-uncased"); ("data_root", LStr "./text_infilling_data/");
    ("random_init_sample", LBool false); ("num_of_sentences", LInt 10); ("min_sentence_len", LInt 15);
    ("max_sentence_len", LInt 25); ("save_dir_name", LStr "text_infilling")].

(** ** Sampler files *)
(** samplers/configs/blockgibbs_config.py 5-10. *)
Definition blockgibbs_sampler : table lit :=
   [("block_size", LInt 2); ("name", LStr "blockgibbs")].
(** samplers/configs/dlmc_config.py 5-16. *)
Definition dlmc_sampler : table lit :=
   [("name", LStr "dlmc"); ("adaptive", LBool true); ("target_acceptance_rate", LFloat 574 3);
    ("balancing_fn_type", LStr "SQRT"); ("schedule_step", LInt 200); ("reset_z_est", LInt 20);
    ("solver", LStr "interpolate"); ("n", LFloat 3 0)].
(** samplers/configs/dmala_config.py 5-15. *)
Definition dmala_sampler : table lit :=
   [("name", LStr "dmala"); ("adaptive", LBool true); ("target_acceptance_rate", LFloat 574 3);
    ("balancing_fn_type", LStr "SQRT"); ("schedule_step", LInt 100); ("reset_z_est", LInt 20);
    ("step_size", LFloat 2 1)].
(** samplers/configs/gibbs_config.py 5-9. *)
Definition gibbs_sampler : table lit :=
   [("name", LStr "gibbs")].
(** samplers/configs/gwg_config.py 5-13. *)
Definition gwg_sampler : table lit :=
   [("name", LStr "gwg"); ("num_flips", LInt 1); ("adaptive", LBool true); ("target_acceptance_rate", LFloat 574 3);
    ("balancing_fn_type", LStr "SQRT")].
(** samplers/configs/hammingball_config.py 5-10. *)
Definition hammingball_sampler : table lit :=
   [("name", LStr "hammingball"); ("block_size", LInt 10)].
(** samplers/configs/locallybalanced_config.py 5-10. *)
Definition locallybalanced_sampler : table lit :=
   [("balancing_fn_type", LStr "SQRT"); ("name", LStr "locallybalanced")].
(** samplers/configs/path_auxiliary_config.py 6-16. *)
Definition path_auxiliary_sampler : table lit :=
   [("name", LStr "path_auxiliary"); ("use_fast_path", LBool true); ("num_flips", LInt 1); ("adaptive", LBool true);
    ("target_acceptance_rate", LFloat 574 3); ("balancing_fn_type", LStr "SQRT"); ("approx_with_grad", LBool true)].
(** samplers/configs/randomwalk_config.py 5-11. *)
Definition randomwalk_sampler : table lit :=
   [("adaptive", LBool true); ("target_acceptance_rate", LFloat 237 3); ("name", LStr "randomwalk")].

(** ** Experiment files *)
(** A file with an experiment section only. *)
Definition exp_only (e : table lit) : lconfig := {| l_model := []; l_sampler := []; l_exp := e |}.
(** experiment/configs/maxclique/rb.py 5-19. *)
Definition maxclique_rb_exp : lconfig := exp_only
   [("batch_size", LInt 16); ("t_schedule", LStr "exp_decay"); ("chain_length", LInt 1001);
    ("log_every_steps", LInt 100); ("init_temperature", LFloat 1 0); ("decay_rate", LFloat 1 1);
    ("final_temperature", LFloat 1 3); ("save_root", LStr "")].
(** experiment/configs/maxclique/twitter.py 5-19. *)
Definition maxclique_twitter_exp : lconfig := exp_only
   [("batch_size", LInt 16); ("t_schedule", LStr "exp_decay"); ("chain_length", LInt 1001);
    ("log_every_steps", LInt 100); ("init_temperature", LFloat 1 0); ("decay_rate", LFloat 5 2);
    ("final_temperature", LFloat 1 2); ("save_root", LStr "")].
(** experiment/configs/maxcut/ba.py 6-20. *)
Definition maxcut_ba_exp : lconfig := exp_only
   [("batch_size", LInt 32); ("t_schedule", LStr "exp_decay"); ("chain_length", LInt 50000);
    ("log_every_steps", LInt 100); ("init_temperature", LFloat 1 0); ("decay_rate", LFloat 1 1);
    ("final_temperature", LFloat 1 6); ("save_root", LStr "")].
(** experiment/configs/maxcut/er.py 5-19. *)
Definition maxcut_er_exp : lconfig := exp_only
   [("batch_size", LInt 16); ("t_schedule", LStr "linear"); ("chain_length", LInt 10000);
    ("log_every_steps", LInt 100); ("init_temperature", LFloat 1 0); ("decay_rate", LFloat 1 1);
    ("final_temperature", LFloat 5 1); ("save_root", LStr "")].
(** experiment/configs/maxcut/optsicom.py 5-19. *)
Definition maxcut_optsicom_exp : lconfig := exp_only
   [("batch_size", LInt 32); ("t_schedule", LStr "exp_decay"); ("chain_length", LInt 25000);
    ("log_every_steps", LInt 100); ("init_temperature", LFloat 1 0); ("decay_rate", LFloat 5 2);
    ("final_temperature", LFloat 1 3); ("save_root", LStr "")].
(** experiment/configs/mis/er_density.py 5-20. *)
Definition mis_er_density_exp : lconfig := exp_only
   [("batch_size", LInt 32); ("t_schedule", LStr "exp_decay"); ("chain_length", LInt 400000);
    ("log_every_steps", LInt 100); ("save_every_steps", LInt 100); ("decay_rate", LFloat 5 3);
    ("final_temperature", LFloat 1 4); ("init_temperature", LInt 1); ("save_root", LStr "")].
(** experiment/configs/mis/ertest.py 5-20. *)
Definition mis_ertest_exp : lconfig := exp_only
   [("batch_size", LInt 32); ("t_schedule", LStr "exp_decay"); ("chain_length", LInt 50000);
    ("log_every_steps", LInt 100); ("save_every_steps", LInt 100); ("init_temperature", LInt 1);
    ("decay_rate", LFloat 1 2); ("final_temperature", LFloat 1 4); ("save_root", LStr "")].
(** experiment/configs/mis/satlib.py 5-19. *)
Definition mis_satlib_exp : lconfig := exp_only
   [("batch_size", LInt 32); ("t_schedule", LStr "exp_decay"); ("chain_length", LInt 1000000);
    ("log_every_steps", LInt 100); ("init_temperature", LInt 1); ("decay_rate", LFloat 5 3);
    ("final_temperature", LFloat 1 5); ("save_root", LStr "")].
(** experiment/configs/normcut/gap_rand.py 6-22. *)
Definition normcut_gap_rand_exp : lconfig := exp_only
   [("batch_size", LInt 8); ("t_schedule", LStr "exp_decay"); ("chain_length", LInt 500000);
    ("log_every_steps", LInt 100); ("save_every_steps", LInt 100); ("init_temperature", LInt 1);
    ("decay_rate", LFloat 5 3); ("final_temperature", LFloat 1 7); ("save_root", LStr "")].
(** experiment/configs/normcut/nets.py 6-22. *)
Definition normcut_nets_exp : lconfig := exp_only
   [("batch_size", LInt 32); ("t_schedule", LStr "exp_decay"); ("chain_length", LInt 800000);
    ("log_every_steps", LInt 100); ("save_every_steps", LInt 100); ("init_temperature", LInt 2);
    ("decay_rate", LFloat 15 2); ("final_temperature", LFloat 1 7); ("save_root", LStr "")].
(** experiment/configs/lm_experiment.py 5-21. *)
Definition lm_exp : lconfig := exp_only
   [("evaluator", LStr "lm_eval"); ("name", LStr "Text_Infilling_Experiment"); ("batch_size", LInt 1);
    ("chain_length", LInt 50); ("max_n_grams", LInt 4); ("num_same_resample", LInt 25); ("topk_num", LInt 5);
    ("use_topk", LBool false); ("run_parallel", LBool false); ("save_root", LStr "")].

(** The files by path below [root] (xm_launcher.py 61-82: "/workdir/"; run_sampling_local.sh: "", as the path is relative). *)
Definition shipped_files (root : string) : files :=
  {| f_model := map (fun f => (root ++ "discs/models/configs/" ++ fst f ++ "_config.py", snd f))%string
       [("bernoulli", bernoulli_model); ("categorical", categorical_model); ("fhmm", fhmm_model);
        ("ising", ising_model); ("potts", potts_model); ("maxclique", maxclique_model); ("maxcut", maxcut_model);
        ("mis", mis_model); ("normcut", normcut_model); ("rbm", rbm_model); ("resnet", resnet_model);
        ("text_infilling", text_infilling_model)];
     f_sampler := map (fun f => (root ++ "discs/samplers/configs/" ++ fst f ++ "_config.py", snd f))%string
       [("blockgibbs", blockgibbs_sampler); ("dlmc", dlmc_sampler); ("dmala", dmala_sampler);
        ("gibbs", gibbs_sampler); ("gwg", gwg_sampler); ("hammingball", hammingball_sampler);
        ("locallybalanced", locallybalanced_sampler); ("path_auxiliary", path_auxiliary_sampler);
        ("randomwalk", randomwalk_sampler)];
     f_exp := (root ++ "discs/common/configs.py", common_file)%string :: (root ++ "discs/experiment/configs/lm_experiment.py", lm_exp)%string ::
       map (fun f => (root ++ "discs/experiment/configs/" ++ fst f ++ ".py", snd f))%string
       [("maxclique/rb", maxclique_rb_exp); ("maxclique/twitter", maxclique_twitter_exp);
        ("maxcut/ba", maxcut_ba_exp); ("maxcut/er", maxcut_er_exp); ("maxcut/optsicom", maxcut_optsicom_exp);
        ("mis/er_density", mis_er_density_exp); ("mis/ertest", mis_ertest_exp); ("mis/satlib", mis_satlib_exp);
        ("normcut/gap_rand", normcut_gap_rand_exp); ("normcut/nets", normcut_nets_exp)] |}.

(** ** Graph modules *)
(** extra_cfg['r'] (common/utils.py 184-192); [None] is the KeyError. *)
Definition rand_type (cfg : string) : option string :=
  option_map string_of_list_ascii (option_map snd (find (fun kv => text_eq (fst kv) (list_ascii_of_string "r")) (parse_cfg_str (list_ascii_of_string cfg)))).
(** models/configs/maxclique/rb.py 4-23. *)
Definition rb_module : table lit :=
  [("num_models", LInt 512); ("name", LStr "maxclique"); ("max_num_nodes", LInt 475); ("max_num_edges", LInt 90585); ("num_instances", LInt 500);
   ("num_categories", LInt 2); ("shape", LTuple [0]); ("rand_type", LStr ""); ("penalty", LFloat 1 0)].
(** models/configs/maxclique/twitter.py 4-22. *)
Definition twitter_module : table lit :=
  [("num_models", LInt 200); ("max_num_nodes", LInt 247); ("max_num_edges", LInt 12174); ("num_instances", LInt 196);
   ("num_categories", LInt 2); ("shape", LTuple [0]); ("rand_type", LStr ""); ("penalty", LFloat 1 0)].
(** models/configs/maxcut/ba.py 7-31. *)
Definition ba_module (r : string) : table lit :=
  let ne := if ends_with "1024-1100" r then (1100, 4384) else if ends_with "512-600" r then (600, 2384)
            else if ends_with "256-300" r then (300, 1184) else (0, 0) in
  [("num_models", LInt 1024); ("max_num_nodes", LInt (fst ne)); ("max_num_edges", LInt (snd ne)); ("num_instances", LInt 1000);
   ("num_categories", LInt 2); ("shape", LTuple [0]); ("rand_type", LStr r)].
(** models/configs/maxcut/er.py 5-31. *)
Definition er_module (r : string) : table lit :=
  let ne := if ends_with "1024-1100" r then (1100, 91239) else if ends_with "512-600" r then (600, 27132)
            else if ends_with "256-300" r then (300, 6839) else (0, 0) in
  [("num_models", LInt 128); ("max_num_nodes", LInt (fst ne)); ("max_num_edges", LInt (snd ne));
   ("num_categories", LInt 2); ("shape", LTuple [0]); ("rand_type", LStr r); ("num_instances", LInt 1000)].
(** models/configs/maxcut/optsicom.py 5-19. *)
Definition optsicom_module (r : string) : table lit :=
  [("num_models", LInt 1); ("max_num_nodes", LInt 0); ("max_num_edges", LInt 0);
   ("num_categories", LInt 2); ("shape", LTuple [0]); ("rand_type", LStr r)].
(** models/configs/mis/er_density.py 7-21. *)
Definition er_density_module (r : string) : table lit :=
  [("num_models", LInt 32); ("max_num_nodes", LInt 0); ("max_num_edges", LInt 0); ("num_instances", LInt 0);
   ("num_categories", LInt 2); ("shape", LTuple [0]); ("rand_type", LStr r)].
(** models/configs/mis/ertest.py 7-30. *)
Definition ertest_module (r : string) : table lit :=
  let '(n, e, i) := if String.eqb r "800" then (800, 47885, 128) else if String.eqb r "10k" then (10915, 1190799, 16) else (0, 0, 0) in
  [("num_models", LInt 128); ("max_num_nodes", LInt n); ("max_num_edges", LInt e); ("num_instances", LInt i);
   ("num_categories", LInt 2); ("shape", LTuple [0]); ("rand_type", LStr r)].
(** models/configs/mis/satlib.py 6-23. *)
Definition satlib_module : table lit :=
  [("num_models", LInt 512); ("max_num_nodes", LInt 1347); ("max_num_edges", LInt 5978); ("num_instances", LInt 500);
   ("num_categories", LInt 2); ("shape", LTuple [0]); ("rand_type", LStr ""); ("penalty", LFloat 10001 4)].
(** models/configs/normcut/gap_rand.py 6-19. *)
Definition gap_rand_module : table lit :=
  [("num_models", LInt 5); ("max_num_nodes", LInt 1000); ("max_num_edges", LInt 50369); ("num_instances", LInt 5);
   ("num_categories", LInt 3); ("shape", LTuple [0]); ("rand_type", LStr "test-1000"); ("penalty", LFloat 1 0); ("tolerance", LFloat 3 2)].
(** models/configs/normcut/nets.py 7-21. *)
Definition nets_module (r : string) : table lit :=
  [("num_models", LInt 1); ("max_num_nodes", LInt 0); ("max_num_edges", LInt 0); ("num_instances", LInt 0);
   ("num_categories", LInt 3); ("shape", LTuple [0]); ("rand_type", LStr r); ("penalty", LFloat 5 4); ("tolerance", LFloat 3 2)].
(** main_sampling.py 38-42 with the modules above: importlib.import_module by model name and graph type. *)
Definition shipped_modules : graph_modules := fun n g s =>
  match n, g, s with
  | LStr n, LStr g, LStr s =>
      let is a b := (String.eqb n a && String.eqb g b)%bool in
      if is "maxclique" "rb" then Some rb_module
      else if is "maxclique" "twitter" then Some twitter_module
      else if is "maxcut" "ba" then option_map ba_module (rand_type s)
      else if is "maxcut" "er" then option_map er_module (rand_type s)
      else if is "maxcut" "optsicom" then option_map optsicom_module (rand_type s)
      else if is "mis" "er_density" then option_map er_density_module (rand_type s)
      else if is "mis" "ertest" then option_map ertest_module (rand_type s)
      else if is "mis" "satlib" then Some satlib_module
      else if is "normcut" "gap_rand" then Some gap_rand_module
      else if is "normcut" "nets" then option_map nets_module (rand_type s)
      else None
  | _, _, _ => None
  end.

(** ** Sweep files *)
(** run_configs/classical_models/bernoulli/chain_length_sweep.py 4-59. *)
Definition bernoulli_chain_length_sweep : job_config :=
  {| j_model := "bernoulli"; j_sampler := "path_auxiliary"; j_graph := None; j_sweep :=
   [
    [("config.experiment.chain_length", [LInt 100; LInt 1000; LInt 10000; LInt 100000]);
     ("sampler_config.name", [LStr "randomwalk"; LStr "blockgibbs"; LStr "hammingball"])];
    [("config.experiment.chain_length", [LInt 100; LInt 1000; LInt 10000; LInt 100000]);
     ("sampler_config.name", [LStr "dmala"; LStr "path_auxiliary"; LStr "gwg"]);
     ("sampler_config.balancing_fn_type", [LStr "SQRT"])];
    [("config.experiment.chain_length", [LInt 100; LInt 1000; LInt 10000; LInt 100000]);
     ("sampler_config.name", [LStr "dlmc"]); ("sampler_config.solver", [LStr "interpolate"; LStr "euler_forward"]);
     ("sampler_config.balancing_fn_type", [LStr "SQRT"])]] |}.
(** run_configs/classical_models/bernoulli/estimation_error.py 6-54. *)
Definition bernoulli_estimation_error : job_config :=
  {| j_model := "bernoulli"; j_sampler := "path_auxiliary"; j_graph := None; j_sweep :=
   [
    [("config.experiment.save_every_steps", [LInt 1]); ("model_config.shape", [LStr "(1000,)"]);
     ("model_config.init_sigma", [LFloat 5 1; LFloat 15 1]);
     ("sampler_config.name", [LStr "randomwalk"; LStr "blockgibbs"; LStr "hammingball"])];
    [("config.experiment.save_every_steps", [LInt 1]); ("model_config.shape", [LStr "(1000,)"]);
     ("model_config.init_sigma", [LFloat 5 1; LFloat 15 1]);
     ("sampler_config.name", [LStr "dmala"; LStr "path_auxiliary"; LStr "gwg"]);
     ("sampler_config.balancing_fn_type", [LStr "SQRT"; LStr "RATIO"])];
    [("config.experiment.save_every_steps", [LInt 1]); ("model_config.shape", [LStr "(1000,)"]);
     ("model_config.init_sigma", [LFloat 5 1; LFloat 15 1]); ("sampler_config.name", [LStr "dlmc"]);
     ("sampler_config.balancing_fn_type", [LStr "SQRT"; LStr "RATIO"]);
     ("sampler_config.solver", [LStr "interpolate"; LStr "euler_forward"])]] |}.
(** run_configs/classical_models/bernoulli/lbf_sweep.py 4-42. *)
Definition bernoulli_lbf_sweep : job_config :=
  {| j_model := "bernoulli"; j_sampler := "path_auxiliary"; j_graph := None; j_sweep :=
   [
    [("config.experiment.chain_length", [LInt 100000]);
     ("sampler_config.name", [LStr "dmala"; LStr "path_auxiliary"; LStr "gwg"]);
     ("sampler_config.balancing_fn_type", [LStr "SQRT"; LStr "RATIO"; LStr "MAX"; LStr "MIN"])];
    [("config.experiment.chain_length", [LInt 100000]); ("sampler_config.name", [LStr "dlmc"]);
     ("sampler_config.solver", [LStr "interpolate"; LStr "euler_forward"]);
     ("sampler_config.balancing_fn_type", [LStr "SQRT"; LStr "RATIO"; LStr "MAX"; LStr "MIN"])]] |}.
(** run_configs/classical_models/bernoulli/model_config_sweep.py 5-41. *)
Definition bernoulli_model_config_sweep : job_config :=
  {| j_model := "bernoulli"; j_sampler := "path_auxiliary"; j_graph := None; j_sweep :=
   [
    [("model_config.init_sigma", [LFloat 5 1; LFloat 15 1]);
     ("sampler_config.name", [LStr "randomwalk"; LStr "blockgibbs"; LStr "hammingball"])];
    [("model_config.init_sigma", [LFloat 5 1; LFloat 15 1]);
     ("sampler_config.name", [LStr "dmala"; LStr "path_auxiliary"; LStr "gwg"]);
     ("sampler_config.balancing_fn_type", [LStr "SQRT"; LStr "RATIO"])];
    [("model_config.init_sigma", [LFloat 5 1; LFloat 15 1]); ("sampler_config.name", [LStr "dlmc"]);
     ("sampler_config.balancing_fn_type", [LStr "SQRT"; LStr "RATIO"]);
     ("sampler_config.solver", [LStr "interpolate"; LStr "euler_forward"])]] |}.
(** run_configs/classical_models/bernoulli/shape_sweep.py 4-62. *)
Definition bernoulli_shape_sweep : job_config :=
  {| j_model := "bernoulli"; j_sampler := "path_auxiliary"; j_graph := None; j_sweep :=
   [
    [("config.experiment.chain_length", [LInt 1000000]);
     ("model_config.shape", [LStr "(2000,)"; LStr "(10000,)"; LStr "(100000,)"; LStr "(500000,)"]);
     ("sampler_config.name", [LStr "randomwalk"; LStr "blockgibbs"; LStr "hammingball"])];
    [("config.experiment.chain_length", [LInt 1000000]);
     ("model_config.shape", [LStr "(2000,)"; LStr "(10000,)"; LStr "(100000,)"; LStr "(500000,)"]);
     ("sampler_config.name", [LStr "dmala"; LStr "path_auxiliary"; LStr "gwg"]);
     ("sampler_config.balancing_fn_type", [LStr "SQRT"])];
    [("config.experiment.chain_length", [LInt 1000000]);
     ("model_config.shape", [LStr "(2000,)"; LStr "(10000,)"; LStr "(100000,)"; LStr "(500000,)"]);
     ("sampler_config.name", [LStr "dlmc"]); ("sampler_config.solver", [LStr "interpolate"; LStr "euler_forward"]);
     ("sampler_config.balancing_fn_type", [LStr "SQRT"])]] |}.
(** run_configs/classical_models/categorical/chain_length_sweep.py 4-59. *)
Definition categorical_chain_length_sweep : job_config :=
  {| j_model := "categorical"; j_sampler := "path_auxiliary"; j_graph := None; j_sweep :=
   [
    [("config.experiment.chain_length", [LInt 100; LInt 1000; LInt 10000; LInt 100000]);
     ("sampler_config.name", [LStr "randomwalk"; LStr "blockgibbs"; LStr "hammingball"])];
    [("config.experiment.chain_length", [LInt 100; LInt 1000; LInt 10000; LInt 100000]);
     ("sampler_config.name", [LStr "dmala"; LStr "path_auxiliary"; LStr "gwg"]);
     ("sampler_config.balancing_fn_type", [LStr "SQRT"])];
    [("config.experiment.chain_length", [LInt 100; LInt 1000; LInt 10000; LInt 100000]);
     ("sampler_config.name", [LStr "dlmc"]); ("sampler_config.solver", [LStr "interpolate"; LStr "euler_forward"]);
     ("sampler_config.balancing_fn_type", [LStr "SQRT"])]] |}.
(** run_configs/classical_models/categorical/lbf_sweep.py 4-42. *)
Definition categorical_lbf_sweep : job_config :=
  {| j_model := "categorical"; j_sampler := "path_auxiliary"; j_graph := None; j_sweep :=
   [
    [("config.experiment.chain_length", [LInt 100000]);
     ("sampler_config.name", [LStr "dmala"; LStr "path_auxiliary"; LStr "gwg"]);
     ("sampler_config.balancing_fn_type", [LStr "SQRT"; LStr "RATIO"; LStr "MAX"; LStr "MIN"])];
    [("config.experiment.chain_length", [LInt 100000]); ("sampler_config.name", [LStr "dlmc"]);
     ("sampler_config.solver", [LStr "interpolate"; LStr "euler_forward"]);
     ("sampler_config.balancing_fn_type", [LStr "SQRT"; LStr "RATIO"; LStr "MAX"; LStr "MIN"])]] |}.
(** run_configs/classical_models/categorical/model_config_sweep.py 4-43. *)
Definition categorical_model_config_sweep : job_config :=
  {| j_model := "categorical"; j_sampler := "path_auxiliary"; j_graph := None; j_sweep :=
   [
    [("sampler_config.name", [LStr "randomwalk"; LStr "blockgibbs"; LStr "hammingball"]);
     ("model_config.init_sigma", [LFloat 15 1]); ("model_config.num_categories", [LInt 4; LInt 8])];
    [("sampler_config.name", [LStr "dmala"; LStr "path_auxiliary"; LStr "gwg"]);
     ("model_config.init_sigma", [LFloat 15 1]); ("model_config.num_categories", [LInt 4; LInt 8]);
     ("sampler_config.balancing_fn_type", [LStr "SQRT"; LStr "RATIO"])];
    [("sampler_config.name", [LStr "dlmc"]); ("sampler_config.solver", [LStr "interpolate"; LStr "euler_forward"]);
     ("model_config.init_sigma", [LFloat 15 1]); ("model_config.num_categories", [LInt 4; LInt 8]);
     ("sampler_config.balancing_fn_type", [LStr "SQRT"; LStr "RATIO"])]] |}.
(** run_configs/classical_models/categorical/num_categories_sweep.py 4-47. *)
Definition categorical_num_categories_sweep : job_config :=
  {| j_model := "categorical"; j_sampler := "path_auxiliary"; j_graph := None; j_sweep :=
   [
    [("config.experiment.chain_length", [LInt 1000000]);
     ("sampler_config.name", [LStr "randomwalk"; LStr "blockgibbs"; LStr "hammingball"]);
     ("model_config.num_categories", [LInt 4; LInt 16; LInt 64; LInt 256])];
    [("config.experiment.chain_length", [LInt 1000000]);
     ("sampler_config.name", [LStr "dmala"; LStr "path_auxiliary"; LStr "gwg"]);
     ("model_config.num_categories", [LInt 4; LInt 16; LInt 64; LInt 256]);
     ("sampler_config.balancing_fn_type", [LStr "SQRT"])];
    [("config.experiment.chain_length", [LInt 1000000]); ("sampler_config.name", [LStr "dlmc"]);
     ("sampler_config.solver", [LStr "interpolate"; LStr "euler_forward"]);
     ("model_config.num_categories", [LInt 4; LInt 16; LInt 64; LInt 256]);
     ("sampler_config.balancing_fn_type", [LStr "SQRT"])]] |}.
(** run_configs/classical_models/categorical/shape_sweep.py 4-62. *)
Definition categorical_shape_sweep : job_config :=
  {| j_model := "categorical"; j_sampler := "path_auxiliary"; j_graph := None; j_sweep :=
   [
    [("config.experiment.chain_length", [LInt 1000000]);
     ("model_config.shape", [LStr "(250,)"; LStr "(2000,)"; LStr "(32000,)"; LStr "(512000,)"]);
     ("sampler_config.name", [LStr "randomwalk"; LStr "blockgibbs"; LStr "hammingball"])];
    [("config.experiment.chain_length", [LInt 1000000]);
     ("model_config.shape", [LStr "(250,)"; LStr "(2000,)"; LStr "(32000,)"; LStr "(512000,)"]);
     ("sampler_config.name", [LStr "dmala"; LStr "path_auxiliary"; LStr "gwg"]);
     ("sampler_config.balancing_fn_type", [LStr "SQRT"])];
    [("config.experiment.chain_length", [LInt 1000000]);
     ("model_config.shape", [LStr "(250,)"; LStr "(2000,)"; LStr "(32000,)"; LStr "(512000,)"]);
     ("sampler_config.name", [LStr "dlmc"]); ("sampler_config.solver", [LStr "interpolate"; LStr "euler_forward"]);
     ("sampler_config.balancing_fn_type", [LStr "SQRT"])]] |}.
(** run_configs/classical_models/fhmm/binary_sweep.py 5-44. *)
Definition fhmm_binary_sweep : job_config :=
  {| j_model := "fhmm"; j_sampler := "path_auxiliary"; j_graph := None; j_sweep :=
   [
    [("model_config.num_categories", [LInt 2]); ("model_config.shape", [LStr "(200, 50)"; LStr "(1000, 10)"]);
     ("sampler_config.name", [LStr "randomwalk"; LStr "blockgibbs"; LStr "hammingball"])];
    [("model_config.num_categories", [LInt 2]); ("model_config.shape", [LStr "(200, 50)"; LStr "(1000, 10)"]);
     ("sampler_config.name", [LStr "dmala"; LStr "path_auxiliary"; LStr "gwg"]);
     ("sampler_config.balancing_fn_type", [LStr "SQRT"; LStr "RATIO"])];
    [("model_config.num_categories", [LInt 2]); ("model_config.shape", [LStr "(200, 50)"; LStr "(1000, 10)"]);
     ("sampler_config.name", [LStr "dlmc"]); ("sampler_config.balancing_fn_type", [LStr "SQRT"; LStr "RATIO"]);
     ("sampler_config.solver", [LStr "interpolate"; LStr "euler_forward"])]] |}.
(** run_configs/classical_models/fhmm/categ_sweep.py 6-45. *)
Definition fhmm_categ_sweep : job_config :=
  {| j_model := "fhmm"; j_sampler := "path_auxiliary"; j_graph := None; j_sweep :=
   [
    [("sampler_config.name", [LStr "randomwalk"; LStr "blockgibbs"; LStr "hammingball"]);
     ("model_config.num_categories", [LInt 4; LInt 8]); ("model_config.shape", [LStr "(200, 10)"])];
    [("sampler_config.name", [LStr "dmala"; LStr "path_auxiliary"; LStr "gwg"]);
     ("sampler_config.balancing_fn_type", [LStr "SQRT"; LStr "RATIO"]);
     ("model_config.num_categories", [LInt 4; LInt 8]); ("model_config.shape", [LStr "(200, 10)"])];
    [("sampler_config.name", [LStr "dlmc"]); ("sampler_config.balancing_fn_type", [LStr "SQRT"; LStr "RATIO"]);
     ("sampler_config.solver", [LStr "interpolate"; LStr "euler_forward"]);
     ("model_config.num_categories", [LInt 4; LInt 8]); ("model_config.shape", [LStr "(200, 10)"])]] |}.
(** run_configs/classical_models/ising/chian_length_sweep.py 6-66. *)
Definition ising_chian_length_sweep : job_config :=
  {| j_model := "ising"; j_sampler := "path_auxiliary"; j_graph := None; j_sweep :=
   [
    [("config.experiment.chain_length", [LInt 100; LInt 1000; LInt 10000; LInt 100000]);
     ("sampler_config.name", [LStr "randomwalk"; LStr "blockgibbs"; LStr "hammingball"]);
     ("model_config.mu", [LFloat 5 1]); ("model_config.lambdaa", [LFloat 5 1]);
     ("model_config.init_sigma", [LFloat 15 1])];
    [("config.experiment.chain_length", [LInt 100; LInt 1000; LInt 10000; LInt 100000]);
     ("sampler_config.name", [LStr "dmala"; LStr "path_auxiliary"; LStr "gwg"]); ("model_config.mu", [LFloat 5 1]);
     ("model_config.lambdaa", [LFloat 5 1]); ("model_config.init_sigma", [LFloat 15 1]);
     ("sampler_config.balancing_fn_type", [LStr "SQRT"])];
    [("config.experiment.chain_length", [LInt 100; LInt 1000; LInt 10000; LInt 100000]);
     ("sampler_config.name", [LStr "dlmc"]); ("model_config.mu", [LFloat 5 1]);
     ("model_config.lambdaa", [LFloat 5 1]); ("model_config.init_sigma", [LFloat 15 1]);
     ("sampler_config.balancing_fn_type", [LStr "SQRT"]);
     ("sampler_config.solver", [LStr "interpolate"; LStr "euler_forward"])]] |}.
(** run_configs/classical_models/ising/lamdasweep_bigger.py 6-105. *)
Definition ising_lamdasweep_bigger : job_config :=
  {| j_model := "ising"; j_sampler := "path_auxiliary"; j_graph := None; j_sweep :=
   [
    [("config.experiment.chain_length", [LInt 1000000]);
     ("sampler_config.name", [LStr "randomwalk"; LStr "blockgibbs"; LStr "hammingball"]);
     ("model_config.shape", [LStr "(100, 100)"]); ("model_config.mu", [LInt 0]);
     ("model_config.init_sigma", [LInt 0]);
     ("model_config.lambdaa", [LFloat 1607 4; LFloat 2007 4; LFloat 2407 4; LFloat 2807 4; LFloat 3207 4; LFloat 3607 4; LFloat 4007 4; LFloat 4407 4; LFloat 4807 4; LFloat 5207 4; LFloat 5607 4; LFloat 6007 4; LFloat 6407 4; LFloat 6807 4; LFloat 7207 4; LFloat 7607 4])];
    [("config.experiment.chain_length", [LInt 1000000]);
     ("sampler_config.name", [LStr "dmala"; LStr "path_auxiliary"; LStr "gwg"]);
     ("model_config.shape", [LStr "(100, 100)"]); ("model_config.mu", [LInt 0]);
     ("model_config.init_sigma", [LInt 0]);
     ("model_config.lambdaa", [LFloat 1607 4; LFloat 2007 4; LFloat 2407 4; LFloat 2807 4; LFloat 3207 4; LFloat 3607 4; LFloat 4007 4; LFloat 4407 4; LFloat 4807 4; LFloat 5207 4; LFloat 5607 4; LFloat 6007 4; LFloat 6407 4; LFloat 6807 4; LFloat 7207 4; LFloat 7607 4]);
     ("sampler_config.balancing_fn_type", [LStr "SQRT"; LStr "RATIO"])];
    [("config.experiment.chain_length", [LInt 1000000]); ("model_config.shape", [LStr "(100, 100)"]);
     ("sampler_config.name", [LStr "dlmc"]); ("model_config.mu", [LInt 0]); ("model_config.init_sigma", [LInt 0]);
     ("model_config.lambdaa", [LFloat 1607 4; LFloat 2007 4; LFloat 2407 4; LFloat 2807 4; LFloat 3207 4; LFloat 3607 4; LFloat 4007 4; LFloat 4407 4; LFloat 4807 4; LFloat 5207 4; LFloat 5607 4; LFloat 6007 4; LFloat 6407 4; LFloat 6807 4; LFloat 7207 4; LFloat 7607 4]);
     ("sampler_config.balancing_fn_type", [LStr "SQRT"; LStr "RATIO"]);
     ("sampler_config.solver", [LStr "interpolate"; LStr "euler_forward"])]] |}.
(** run_configs/classical_models/ising/lamdasweep_small.py 6-102. *)
Definition ising_lamdasweep_small : job_config :=
  {| j_model := "ising"; j_sampler := "path_auxiliary"; j_graph := None; j_sweep :=
   [
    [("config.experiment.chain_length", [LInt 400000]);
     ("sampler_config.name", [LStr "randomwalk"; LStr "blockgibbs"; LStr "hammingball"]);
     ("model_config.mu", [LInt 0]); ("model_config.init_sigma", [LInt 0]);
     ("model_config.lambdaa", [LFloat 1607 4; LFloat 2007 4; LFloat 2407 4; LFloat 2807 4; LFloat 3207 4; LFloat 3607 4; LFloat 4007 4; LFloat 4407 4; LFloat 4807 4; LFloat 5207 4; LFloat 5607 4; LFloat 6007 4; LFloat 6407 4; LFloat 6807 4; LFloat 7207 4; LFloat 7607 4])];
    [("config.experiment.chain_length", [LInt 400000]);
     ("sampler_config.name", [LStr "dmala"; LStr "path_auxiliary"; LStr "gwg"]); ("model_config.mu", [LInt 0]);
     ("model_config.init_sigma", [LInt 0]);
     ("model_config.lambdaa", [LFloat 1607 4; LFloat 2007 4; LFloat 2407 4; LFloat 2807 4; LFloat 3207 4; LFloat 3607 4; LFloat 4007 4; LFloat 4407 4; LFloat 4807 4; LFloat 5207 4; LFloat 5607 4; LFloat 6007 4; LFloat 6407 4; LFloat 6807 4; LFloat 7207 4; LFloat 7607 4]);
     ("sampler_config.balancing_fn_type", [LStr "SQRT"; LStr "RATIO"])];
    [("config.experiment.chain_length", [LInt 400000]); ("sampler_config.name", [LStr "dlmc"]);
     ("model_config.mu", [LInt 0]); ("model_config.init_sigma", [LInt 0]);
     ("model_config.lambdaa", [LFloat 1607 4; LFloat 2007 4; LFloat 2407 4; LFloat 2807 4; LFloat 3207 4; LFloat 3607 4; LFloat 4007 4; LFloat 4407 4; LFloat 4807 4; LFloat 5207 4; LFloat 5607 4; LFloat 6007 4; LFloat 6407 4; LFloat 6807 4; LFloat 7207 4; LFloat 7607 4]);
     ("sampler_config.balancing_fn_type", [LStr "SQRT"; LStr "RATIO"]);
     ("sampler_config.solver", [LStr "interpolate"; LStr "euler_forward"])]] |}.
(** run_configs/classical_models/ising/lbf_sweep.py 6-50. *)
Definition ising_lbf_sweep : job_config :=
  {| j_model := "ising"; j_sampler := "path_auxiliary"; j_graph := None; j_sweep :=
   [
    [("config.experiment.chain_length", [LInt 100000]);
     ("sampler_config.name", [LStr "dmala"; LStr "path_auxiliary"; LStr "gwg"]); ("model_config.mu", [LFloat 5 1]);
     ("model_config.lambdaa", [LFloat 5 1]); ("model_config.init_sigma", [LFloat 15 1]);
     ("sampler_config.balancing_fn_type", [LStr "SQRT"; LStr "RATIO"; LStr "MAX"; LStr "MIN"])];
    [("config.experiment.chain_length", [LInt 100000]); ("sampler_config.name", [LStr "dlmc"]);
     ("model_config.mu", [LFloat 5 1]); ("model_config.lambdaa", [LFloat 5 1]);
     ("model_config.init_sigma", [LFloat 15 1]);
     ("sampler_config.balancing_fn_type", [LStr "SQRT"; LStr "RATIO"; LStr "MAX"; LStr "MIN"]);
     ("sampler_config.solver", [LStr "interpolate"; LStr "euler_forward"])]] |}.
(** run_configs/classical_models/ising/model_config_sweep.py 6-85. *)
Definition ising_model_config_sweep : job_config :=
  {| j_model := "ising"; j_sampler := "path_auxiliary"; j_graph := None; j_sweep :=
   [
    [("config.experiment.chain_length", [LInt 100000]);
     ("sampler_config.name", [LStr "randomwalk"; LStr "blockgibbs"; LStr "hammingball"]);
     ("model_config.mu", [LFloat 5 1]); ("model_config.lambdaa", [LFloat 5 1]);
     ("model_config.init_sigma", [LFloat 15 1])];
    [("config.experiment.chain_length", [LInt 100000]);
     ("sampler_config.name", [LStr "randomwalk"; LStr "blockgibbs"; LStr "hammingball"]);
     ("model_config.mu", [LInt 1]); ("model_config.lambdaa", [LInt 1]); ("model_config.init_sigma", [LInt 3])];
    [("config.experiment.chain_length", [LInt 100000]);
     ("sampler_config.name", [LStr "dmala"; LStr "path_auxiliary"; LStr "gwg"]); ("model_config.mu", [LFloat 5 1]);
     ("model_config.lambdaa", [LFloat 5 1]); ("model_config.init_sigma", [LFloat 15 1]);
     ("sampler_config.balancing_fn_type", [LStr "SQRT"; LStr "RATIO"])];
    [("config.experiment.chain_length", [LInt 100000]);
     ("sampler_config.name", [LStr "dmala"; LStr "path_auxiliary"; LStr "gwg"]); ("model_config.mu", [LInt 1]);
     ("model_config.lambdaa", [LInt 1]); ("model_config.init_sigma", [LInt 3]);
     ("sampler_config.balancing_fn_type", [LStr "SQRT"; LStr "RATIO"])];
    [("config.experiment.chain_length", [LInt 100000]); ("sampler_config.name", [LStr "dlmc"]);
     ("model_config.mu", [LFloat 5 1]); ("model_config.lambdaa", [LFloat 5 1]);
     ("model_config.init_sigma", [LFloat 15 1]); ("sampler_config.balancing_fn_type", [LStr "SQRT"; LStr "RATIO"]);
     ("sampler_config.solver", [LStr "interpolate"; LStr "euler_forward"])];
    [("config.experiment.chain_length", [LInt 100000]); ("sampler_config.name", [LStr "dlmc"]);
     ("model_config.mu", [LInt 1]); ("model_config.lambdaa", [LInt 1]); ("model_config.init_sigma", [LInt 3]);
     ("sampler_config.balancing_fn_type", [LStr "SQRT"; LStr "RATIO"]);
     ("sampler_config.solver", [LStr "interpolate"; LStr "euler_forward"])]] |}.
(** run_configs/classical_models/ising/shape_sweep.py 8-71. *)
Definition ising_shape_sweep : job_config :=
  {| j_model := "ising"; j_sampler := "path_auxiliary"; j_graph := None; j_sweep :=
   [
    [("config.experiment.chain_length", [LInt 1000000]);
     ("model_config.shape", [LStr "(25, 25)"; LStr "(50, 50)"; LStr "(100, 100)"; LStr "(250, 250)"]);
     ("sampler_config.name", [LStr "randomwalk"; LStr "blockgibbs"; LStr "hammingball"]);
     ("model_config.mu", [LFloat 5 1]); ("model_config.lambdaa", [LFloat 5 1]);
     ("model_config.init_sigma", [LFloat 15 1])];
    [("config.experiment.chain_length", [LInt 1000000]);
     ("model_config.shape", [LStr "(25, 25)"; LStr "(50, 50)"; LStr "(100, 100)"; LStr "(250, 250)"]);
     ("sampler_config.name", [LStr "dmala"; LStr "path_auxiliary"; LStr "gwg"]); ("model_config.mu", [LFloat 5 1]);
     ("model_config.lambdaa", [LFloat 5 1]); ("model_config.init_sigma", [LFloat 15 1]);
     ("sampler_config.balancing_fn_type", [LStr "SQRT"])];
    [("config.experiment.chain_length", [LInt 1000000]);
     ("model_config.shape", [LStr "(25, 25)"; LStr "(50, 50)"; LStr "(100, 100)"; LStr "(250, 250)"]);
     ("sampler_config.name", [LStr "dlmc"]); ("model_config.mu", [LFloat 5 1]);
     ("model_config.lambdaa", [LFloat 5 1]); ("model_config.init_sigma", [LFloat 15 1]);
     ("sampler_config.balancing_fn_type", [LStr "SQRT"]);
     ("sampler_config.solver", [LStr "interpolate"; LStr "euler_forward"])]] |}.
(** run_configs/classical_models/potts/chain_length_sweep.py 6-42. *)
Definition potts_chain_length_sweep : job_config :=
  {| j_model := "potts"; j_sampler := "path_auxiliary"; j_graph := None; j_sweep :=
   [
    [("config.experiment.chain_length", [LInt 100; LInt 1000; LInt 10000; LInt 100000]);
     ("sampler_config.name", [LStr "randomwalk"; LStr "blockgibbs"; LStr "hammingball"])];
    [("config.experiment.chain_length", [LInt 100; LInt 1000; LInt 10000; LInt 100000]);
     ("sampler_config.name", [LStr "dmala"; LStr "path_auxiliary"; LStr "gwg"]);
     ("sampler_config.balancing_fn_type", [LStr "SQRT"])];
    [("config.experiment.chain_length", [LInt 100; LInt 1000; LInt 10000; LInt 100000]);
     ("sampler_config.name", [LStr "dlmc"]); ("sampler_config.balancing_fn_type", [LStr "SQRT"]);
     ("sampler_config.solver", [LStr "interpolate"; LStr "euler_forward"])]] |}.
(** run_configs/classical_models/potts/lbf_sweep.py 6-44. *)
Definition potts_lbf_sweep : job_config :=
  {| j_model := "potts"; j_sampler := "path_auxiliary"; j_graph := None; j_sweep :=
   [
    [("config.experiment.chain_length", [LInt 100000]);
     ("sampler_config.name", [LStr "dmala"; LStr "path_auxiliary"; LStr "gwg"]);
     ("sampler_config.balancing_fn_type", [LStr "SQRT"; LStr "RATIO"; LStr "MAX"; LStr "MIN"])];
    [("config.experiment.chain_length", [LInt 100000]); ("sampler_config.name", [LStr "dlmc"]);
     ("sampler_config.balancing_fn_type", [LStr "SQRT"; LStr "RATIO"; LStr "MAX"; LStr "MIN"]);
     ("sampler_config.solver", [LStr "interpolate"; LStr "euler_forward"])]] |}.
(** run_configs/classical_models/potts/model_config_sweep.py 6-45. *)
Definition potts_model_config_sweep : job_config :=
  {| j_model := "potts"; j_sampler := "path_auxiliary"; j_graph := None; j_sweep :=
   [
    [("config.experiment.chain_length", [LInt 100000]);
     ("sampler_config.name", [LStr "randomwalk"; LStr "blockgibbs"; LStr "hammingball"]);
     ("model_config.num_categories", [LInt 4; LInt 8])];
    [("config.experiment.chain_length", [LInt 100000]);
     ("sampler_config.name", [LStr "dmala"; LStr "path_auxiliary"; LStr "gwg"]);
     ("model_config.num_categories", [LInt 4; LInt 8]);
     ("sampler_config.balancing_fn_type", [LStr "SQRT"; LStr "RATIO"])];
    [("config.experiment.chain_length", [LInt 100000]); ("sampler_config.name", [LStr "dlmc"]);
     ("model_config.num_categories", [LInt 4; LInt 8]);
     ("sampler_config.balancing_fn_type", [LStr "SQRT"; LStr "RATIO"]);
     ("sampler_config.solver", [LStr "interpolate"; LStr "euler_forward"])]] |}.
(** run_configs/classical_models/potts/num_categories_sweep.py 4-47. *)
Definition potts_num_categories_sweep : job_config :=
  {| j_model := "categorical"; j_sampler := "path_auxiliary"; j_graph := None; j_sweep :=
   [
    [("config.experiment.chain_length", [LInt 1000000]);
     ("sampler_config.name", [LStr "randomwalk"; LStr "blockgibbs"; LStr "hammingball"]);
     ("model_config.num_categories", [LInt 4; LInt 16; LInt 64; LInt 256])];
    [("config.experiment.chain_length", [LInt 1000000]);
     ("sampler_config.name", [LStr "dmala"; LStr "path_auxiliary"; LStr "gwg"]);
     ("model_config.num_categories", [LInt 4; LInt 16; LInt 64; LInt 256]);
     ("sampler_config.balancing_fn_type", [LStr "SQRT"])];
    [("config.experiment.chain_length", [LInt 1000000]); ("sampler_config.name", [LStr "dlmc"]);
     ("sampler_config.solver", [LStr "interpolate"; LStr "euler_forward"]);
     ("model_config.num_categories", [LInt 4; LInt 16; LInt 64; LInt 256]);
     ("sampler_config.balancing_fn_type", [LStr "SQRT"])]] |}.
(** run_configs/classical_models/potts/shape_sweep.py 8-62. *)
Definition potts_shape_sweep : job_config :=
  {| j_model := "potts"; j_sampler := "path_auxiliary"; j_graph := None; j_sweep :=
   [
    [("config.experiment.chain_length", [LInt 1000000]);
     ("sampler_config.name", [LStr "randomwalk"; LStr "blockgibbs"; LStr "hammingball"]);
     ("model_config.shape", [LStr "(10, 10)"; LStr "(30, 30)"; LStr "(100, 100)"; LStr "(300, 300)"])];
    [("config.experiment.chain_length", [LInt 1000000]);
     ("sampler_config.name", [LStr "dmala"; LStr "path_auxiliary"; LStr "gwg"]);
     ("sampler_config.balancing_fn_type", [LStr "SQRT"]);
     ("model_config.shape", [LStr "(10, 10)"; LStr "(30, 30)"; LStr "(100, 100)"; LStr "(300, 300)"])];
    [("config.experiment.chain_length", [LInt 1000000]); ("sampler_config.name", [LStr "dlmc"]);
     ("sampler_config.balancing_fn_type", [LStr "SQRT"]);
     ("sampler_config.solver", [LStr "interpolate"; LStr "euler_forward"]);
     ("model_config.shape", [LStr "(10, 10)"; LStr "(30, 30)"; LStr "(100, 100)"; LStr "(300, 300)"])]] |}.
(** run_configs/co/maxclique/rb_sampler_sweep.py 4-74. *)
Definition maxclique_rb_sampler_sweep : job_config :=
  {| j_model := "maxclique"; j_sampler := "path_auxiliary"; j_graph := Some "rb"; j_sweep :=
   [
    [("sampler_config.name", [LStr "randomwalk"; LStr "blockgibbs"; LStr "hammingball"]);
     ("config.experiment.log_every_steps", [LInt 100]); ("config.experiment.decay_rate", [LFloat 1 1]);
     ("config.experiment.t_schedule", [LStr "exp_decay"]); ("config.experiment.batch_size", [LInt 16]);
     ("config.experiment.init_temperature", [LFloat 1 0]); ("config.experiment.chain_length", [LInt 20001])];
    [("sampler_config.name", [LStr "dmala"; LStr "path_auxiliary"]);
     ("config.experiment.log_every_steps", [LInt 100]); ("sampler_config.balancing_fn_type", [LStr "SQRT"]);
     ("config.experiment.decay_rate", [LFloat 1 1]); ("config.experiment.t_schedule", [LStr "exp_decay"]);
     ("config.experiment.batch_size", [LInt 16]); ("config.experiment.init_temperature", [LFloat 1 0]);
     ("config.experiment.chain_length", [LInt 20001])];
    [("sampler_config.name", [LStr "gwg"]); ("config.experiment.log_every_steps", [LInt 100]);
     ("sampler_config.balancing_fn_type", [LStr "SQRT"]); ("config.experiment.decay_rate", [LFloat 1 1]);
     ("config.experiment.t_schedule", [LStr "exp_decay"]); ("config.experiment.batch_size", [LInt 16]);
     ("config.experiment.init_temperature", [LFloat 1 0]); ("config.experiment.chain_length", [LInt 20001]);
     ("sampler_config.adaptive", [LBool false])];
    [("sampler_config.name", [LStr "dlmc"]); ("config.experiment.log_every_steps", [LInt 100]);
     ("sampler_config.balancing_fn_type", [LStr "SQRT"]); ("config.experiment.decay_rate", [LFloat 1 1]);
     ("config.experiment.t_schedule", [LStr "exp_decay"]); ("config.experiment.batch_size", [LInt 16]);
     ("config.experiment.init_temperature", [LFloat 1 0]); ("config.experiment.chain_length", [LInt 20001]);
     ("sampler_config.solver", [LStr "interpolate"; LStr "euler_forward"])]] |}.
(** run_configs/co/maxclique/twitter_sampler_sweep.py 4-54. *)
Definition maxclique_twitter_sampler_sweep : job_config :=
  {| j_model := "maxclique"; j_sampler := "path_auxiliary"; j_graph := Some "twitter"; j_sweep :=
   [
    [("sampler_config.name", [LStr "randomwalk"; LStr "blockgibbs"; LStr "hammingball"]);
     ("config.experiment.log_every_steps", [LInt 100])];
    [("sampler_config.name", [LStr "dmala"; LStr "path_auxiliary"]);
     ("config.experiment.log_every_steps", [LInt 100]); ("sampler_config.balancing_fn_type", [LStr "SQRT"])];
    [("sampler_config.adaptive", [LBool false]); ("sampler_config.name", [LStr "gwg"]);
     ("config.experiment.log_every_steps", [LInt 100]); ("sampler_config.balancing_fn_type", [LStr "SQRT"])];
    [("sampler_config.name", [LStr "dlmc"]); ("config.experiment.log_every_steps", [LInt 100]);
     ("sampler_config.balancing_fn_type", [LStr "SQRT"]);
     ("sampler_config.solver", [LStr "interpolate"; LStr "euler_forward"])]] |}.
(** run_configs/co/maxcut/ba_sampler_sweep.py 4-94. *)
Definition maxcut_ba_sampler_sweep : job_config :=
  {| j_model := "maxcut"; j_sampler := "path_auxiliary"; j_graph := Some "ba"; j_sweep :=
   [
    [("sampler_config.name", [LStr "randomwalk"; LStr "blockgibbs"; LStr "hammingball"]);
     ("model_config.cfg_str", [LStr "r-ba-4-n-1024-1100"; LStr "r-ba-4-n-512-600"; LStr "r-ba-4-n-256-300"; LStr "r-ba-4-n-128-150"; LStr "r-ba-4-n-64-75"; LStr "r-ba-4-n-32-40"; LStr "r-ba-4-n-16-20"]);
     ("config.experiment.log_every_steps", [LInt 100]); ("config.experiment.chain_length", [LInt 100000])];
    [("sampler_config.name", [LStr "dmala"; LStr "path_auxiliary"]);
     ("model_config.cfg_str", [LStr "r-ba-4-n-1024-1100"; LStr "r-ba-4-n-512-600"; LStr "r-ba-4-n-256-300"; LStr "r-ba-4-n-128-150"; LStr "r-ba-4-n-64-75"; LStr "r-ba-4-n-32-40"; LStr "r-ba-4-n-16-20"]);
     ("config.experiment.log_every_steps", [LInt 100]); ("sampler_config.balancing_fn_type", [LStr "SQRT"]);
     ("config.experiment.chain_length", [LInt 100000])];
    [("sampler_config.name", [LStr "gwg"]);
     ("model_config.cfg_str", [LStr "r-ba-4-n-1024-1100"; LStr "r-ba-4-n-512-600"; LStr "r-ba-4-n-256-300"; LStr "r-ba-4-n-128-150"; LStr "r-ba-4-n-64-75"; LStr "r-ba-4-n-32-40"; LStr "r-ba-4-n-16-20"]);
     ("config.experiment.log_every_steps", [LInt 100]); ("sampler_config.balancing_fn_type", [LStr "SQRT"]);
     ("sampler_config.adaptive", [LBool false]); ("config.experiment.chain_length", [LInt 100000])];
    [("sampler_config.name", [LStr "dlmc"]);
     ("model_config.cfg_str", [LStr "r-ba-4-n-1024-1100"; LStr "r-ba-4-n-512-600"; LStr "r-ba-4-n-256-300"; LStr "r-ba-4-n-128-150"; LStr "r-ba-4-n-64-75"; LStr "r-ba-4-n-32-40"; LStr "r-ba-4-n-16-20"]);
     ("config.experiment.log_every_steps", [LInt 100]); ("sampler_config.balancing_fn_type", [LStr "SQRT"]);
     ("sampler_config.solver", [LStr "interpolate"; LStr "euler_forward"]);
     ("config.experiment.chain_length", [LInt 100000])]] |}.
(** run_configs/co/maxcut/er_sampler_sweep.py 4-93. *)
Definition maxcut_er_sampler_sweep : job_config :=
  {| j_model := "maxcut"; j_sampler := "path_auxiliary"; j_graph := Some "er"; j_sweep :=
   [
    [("config.experiment.chain_length", [LInt 50000]);
     ("sampler_config.name", [LStr "randomwalk"; LStr "blockgibbs"; LStr "hammingball"]);
     ("model_config.cfg_str", [LStr "r-er-0.15-n-1024-1100"; LStr "r-er-0.15-n-512-600"; LStr "r-er-0.15-n-256-300"]);
     ("config.experiment.log_every_steps", [LInt 100])];
    [("config.experiment.chain_length", [LInt 50000]); ("sampler_config.name", [LStr "dmala"]);
     ("model_config.cfg_str", [LStr "r-er-0.15-n-1024-1100"; LStr "r-er-0.15-n-512-600"; LStr "r-er-0.15-n-256-300"]);
     ("config.experiment.log_every_steps", [LInt 100]); ("sampler_config.balancing_fn_type", [LStr "SQRT"])];
    [("config.experiment.chain_length", [LInt 50000]); ("sampler_config.adaptive", [LBool false]);
     ("sampler_config.name", [LStr "gwg"]);
     ("model_config.cfg_str", [LStr "r-er-0.15-n-1024-1100"; LStr "r-er-0.15-n-512-600"; LStr "r-er-0.15-n-256-300"]);
     ("config.experiment.log_every_steps", [LInt 100]); ("sampler_config.balancing_fn_type", [LStr "SQRT"])];
    [("config.experiment.chain_length", [LInt 50000]); ("sampler_config.name", [LStr "dlmc"]);
     ("model_config.cfg_str", [LStr "r-er-0.15-n-1024-1100"; LStr "r-er-0.15-n-512-600"; LStr "r-er-0.15-n-256-300"]);
     ("config.experiment.log_every_steps", [LInt 100]); ("sampler_config.balancing_fn_type", [LStr "SQRT"]);
     ("sampler_config.solver", [LStr "interpolate"; LStr "euler_forward"])];
    [("config.experiment.chain_length", [LInt 50000]); ("sampler_config.name", [LStr "path_auxiliary"]);
     ("sampler_config.approx_with_grad", [LBool true]);
     ("model_config.cfg_str", [LStr "r-er-0.15-n-1024-1100"; LStr "r-er-0.15-n-512-600"; LStr "r-er-0.15-n-256-300"]);
     ("config.experiment.log_every_steps", [LInt 100]); ("sampler_config.balancing_fn_type", [LStr "SQRT"])]] |}.
(** run_configs/co/maxcut/optsicom_sampler_sweep.py 4-74. *)
Definition maxcut_optsicom_sampler_sweep : job_config :=
  {| j_model := "maxcut"; j_sampler := "path_auxiliary"; j_graph := Some "optsicom"; j_sweep :=
   [
    [("sampler_config.name", [LStr "randomwalk"; LStr "blockgibbs"; LStr "hammingball"]);
     ("model_config.cfg_str", [LStr "r-b"]); ("config.experiment.log_every_steps", [LInt 100]);
     ("config.experiment.num_models", [LInt 10]); ("config.experiment.batch_size", [LInt 16])];
    [("config.experiment.num_models", [LInt 10]); ("config.experiment.batch_size", [LInt 16]);
     ("sampler_config.name", [LStr "dmala"; LStr "path_auxiliary"]); ("model_config.cfg_str", [LStr "r-b"]);
     ("config.experiment.log_every_steps", [LInt 100]); ("sampler_config.balancing_fn_type", [LStr "SQRT"])];
    [("config.experiment.num_models", [LInt 10]); ("config.experiment.batch_size", [LInt 16]);
     ("sampler_config.name", [LStr "gwg"]); ("model_config.cfg_str", [LStr "r-b"]);
     ("config.experiment.log_every_steps", [LInt 100]); ("sampler_config.balancing_fn_type", [LStr "SQRT"]);
     ("sampler_config.adaptive", [LBool false])];
    [("config.experiment.num_models", [LInt 10]); ("config.experiment.batch_size", [LInt 16]);
     ("sampler_config.name", [LStr "dlmc"]); ("model_config.cfg_str", [LStr "r-b"]);
     ("config.experiment.log_every_steps", [LInt 100]); ("sampler_config.balancing_fn_type", [LStr "SQRT"]);
     ("sampler_config.solver", [LStr "interpolate"; LStr "euler_forward"])]] |}.
(** run_configs/co/mis/er_800_015_penalty.py 4-70. *)
Definition mis_er_800_015_penalty : job_config :=
  {| j_model := "mis"; j_sampler := "path_auxiliary"; j_graph := Some "ertest"; j_sweep :=
   [
    [("config.experiment.decay_rate", [LFloat 5 2]); ("config.experiment.chain_length", [LInt 50000]);
     ("sampler_config.name", [LStr "randomwalk"; LStr "blockgibbs"; LStr "hammingball"]);
     ("model_config.cfg_str", [LStr "r-800"]); ("config.experiment.log_every_steps", [LInt 100]);
     ("model_config.penalty", [LFloat 1001 3; LFloat 101 2; LFloat 11 1; LInt 2])];
    [("config.experiment.decay_rate", [LFloat 5 2]); ("config.experiment.chain_length", [LInt 50000]);
     ("sampler_config.name", [LStr "dmala"; LStr "path_auxiliary"]); ("model_config.cfg_str", [LStr "r-800"]);
     ("config.experiment.log_every_steps", [LInt 100]); ("sampler_config.balancing_fn_type", [LStr "SQRT"]);
     ("model_config.penalty", [LFloat 1001 3; LFloat 101 2; LFloat 11 1; LInt 2])];
    [("config.experiment.decay_rate", [LFloat 5 2]); ("config.experiment.chain_length", [LInt 50000]);
     ("sampler_config.name", [LStr "gwg"]); ("model_config.cfg_str", [LStr "r-800"]);
     ("config.experiment.log_every_steps", [LInt 100]); ("sampler_config.balancing_fn_type", [LStr "SQRT"]);
     ("sampler_config.adaptive", [LBool false]);
     ("model_config.penalty", [LFloat 1001 3; LFloat 101 2; LFloat 11 1; LInt 2])];
    [("config.experiment.decay_rate", [LFloat 5 2]); ("config.experiment.chain_length", [LInt 50000]);
     ("sampler_config.name", [LStr "dlmc"]); ("model_config.cfg_str", [LStr "r-800"]);
     ("config.experiment.log_every_steps", [LInt 100]); ("sampler_config.balancing_fn_type", [LStr "SQRT"]);
     ("sampler_config.solver", [LStr "interpolate"; LStr "euler_forward"]);
     ("model_config.penalty", [LFloat 1001 3; LFloat 101 2; LFloat 11 1; LInt 2])]] |}.
(** run_configs/co/mis/er_density_penalty.py 4-90. *)
Definition mis_er_density_penalty : job_config :=
  {| j_model := "mis"; j_sampler := "path_auxiliary"; j_graph := Some "er_density"; j_sweep :=
   [
    [("config.experiment.decay_rate", [LFloat 5 2]); ("config.experiment.chain_length", [LInt 50000]);
     ("sampler_config.name", [LStr "randomwalk"; LStr "blockgibbs"; LStr "hammingball"]);
     ("model_config.cfg_str", [LStr "r-0.05"; LStr "r-0.10"; LStr "r-0.20"; LStr "r-0.25"]);
     ("config.experiment.log_every_steps", [LInt 100]);
     ("model_config.penalty", [LFloat 1001 3; LFloat 101 2; LFloat 11 1; LInt 2])];
    [("config.experiment.decay_rate", [LFloat 5 2]); ("config.experiment.chain_length", [LInt 50000]);
     ("sampler_config.name", [LStr "dmala"; LStr "path_auxiliary"]);
     ("model_config.cfg_str", [LStr "r-0.05"; LStr "r-0.10"; LStr "r-0.20"; LStr "r-0.25"]);
     ("config.experiment.log_every_steps", [LInt 100]); ("sampler_config.balancing_fn_type", [LStr "SQRT"]);
     ("model_config.penalty", [LFloat 1001 3; LFloat 101 2; LFloat 11 1; LInt 2])];
    [("config.experiment.decay_rate", [LFloat 5 2]); ("config.experiment.chain_length", [LInt 50000]);
     ("sampler_config.name", [LStr "gwg"]);
     ("model_config.cfg_str", [LStr "r-0.05"; LStr "r-0.10"; LStr "r-0.20"; LStr "r-0.25"]);
     ("config.experiment.log_every_steps", [LInt 100]); ("sampler_config.balancing_fn_type", [LStr "SQRT"]);
     ("sampler_config.adaptive", [LBool false]);
     ("model_config.penalty", [LFloat 1001 3; LFloat 101 2; LFloat 11 1; LInt 2])];
    [("config.experiment.decay_rate", [LFloat 5 2]); ("config.experiment.chain_length", [LInt 50000]);
     ("sampler_config.name", [LStr "dlmc"]);
     ("model_config.cfg_str", [LStr "r-0.05"; LStr "r-0.10"; LStr "r-0.20"; LStr "r-0.25"]);
     ("config.experiment.log_every_steps", [LInt 100]); ("sampler_config.balancing_fn_type", [LStr "SQRT"]);
     ("sampler_config.solver", [LStr "interpolate"; LStr "euler_forward"]);
     ("model_config.penalty", [LFloat 1001 3; LFloat 101 2; LFloat 11 1; LInt 2])]] |}.
(** run_configs/co/mis/er_density_sampler_sweep.py 4-86. *)
Definition mis_er_density_sampler_sweep : job_config :=
  {| j_model := "mis"; j_sampler := "path_auxiliary"; j_graph := Some "er_density"; j_sweep :=
   [
    [("config.experiment.decay_rate", [LFloat 5 2]); ("config.experiment.chain_length", [LInt 50000]);
     ("sampler_config.name", [LStr "randomwalk"; LStr "blockgibbs"; LStr "hammingball"]);
     ("model_config.cfg_str", [LStr "r-0.05"; LStr "r-0.10"; LStr "r-0.20"; LStr "r-0.25"]);
     ("config.experiment.log_every_steps", [LInt 100])];
    [("config.experiment.decay_rate", [LFloat 5 2]); ("config.experiment.chain_length", [LInt 50000]);
     ("sampler_config.name", [LStr "dmala"; LStr "path_auxiliary"]);
     ("model_config.cfg_str", [LStr "r-0.05"; LStr "r-0.10"; LStr "r-0.20"; LStr "r-0.25"]);
     ("config.experiment.log_every_steps", [LInt 100]); ("sampler_config.balancing_fn_type", [LStr "SQRT"])];
    [("config.experiment.decay_rate", [LFloat 5 2]); ("config.experiment.chain_length", [LInt 50000]);
     ("sampler_config.name", [LStr "gwg"]);
     ("model_config.cfg_str", [LStr "r-0.05"; LStr "r-0.10"; LStr "r-0.20"; LStr "r-0.25"]);
     ("config.experiment.log_every_steps", [LInt 100]); ("sampler_config.balancing_fn_type", [LStr "SQRT"]);
     ("sampler_config.adaptive", [LBool false])];
    [("config.experiment.decay_rate", [LFloat 5 2]); ("config.experiment.chain_length", [LInt 50000]);
     ("sampler_config.name", [LStr "dlmc"]);
     ("model_config.cfg_str", [LStr "r-0.05"; LStr "r-0.10"; LStr "r-0.20"; LStr "r-0.25"]);
     ("config.experiment.log_every_steps", [LInt 100]); ("sampler_config.balancing_fn_type", [LStr "SQRT"]);
     ("sampler_config.solver", [LStr "interpolate"; LStr "euler_forward"])]] |}.
(** run_configs/co/mis/ertest_sampler_sweep.py 4-58. *)
Definition mis_ertest_sampler_sweep : job_config :=
  {| j_model := "mis"; j_sampler := "path_auxiliary"; j_graph := Some "ertest"; j_sweep :=
   [
    [("sampler_config.name", [LStr "randomwalk"; LStr "blockgibbs"; LStr "hammingball"]);
     ("model_config.cfg_str", [LStr "r-10k"; LStr "r-800"]); ("config.experiment.log_every_steps", [LInt 100])];
    [("sampler_config.name", [LStr "dmala"; LStr "path_auxiliary"]);
     ("model_config.cfg_str", [LStr "r-10k"; LStr "r-800"]); ("config.experiment.log_every_steps", [LInt 100]);
     ("sampler_config.balancing_fn_type", [LStr "SQRT"])];
    [("sampler_config.name", [LStr "gwg"]); ("model_config.cfg_str", [LStr "r-10k"; LStr "r-800"]);
     ("config.experiment.log_every_steps", [LInt 100]); ("sampler_config.balancing_fn_type", [LStr "SQRT"]);
     ("sampler_config.adaptive", [LBool false])];
    [("sampler_config.name", [LStr "dlmc"]); ("model_config.cfg_str", [LStr "r-10k"; LStr "r-800"]);
     ("config.experiment.log_every_steps", [LInt 100]); ("sampler_config.balancing_fn_type", [LStr "SQRT"]);
     ("sampler_config.solver", [LStr "interpolate"; LStr "euler_forward"])]] |}.
(** run_configs/co/mis/satlib_sampler_sweep.py 4-70. *)
Definition mis_satlib_sampler_sweep : job_config :=
  {| j_model := "mis"; j_sampler := "path_auxiliary"; j_graph := Some "satlib"; j_sweep :=
   [
    [("sampler_config.name", [LStr "randomwalk"; LStr "blockgibbs"; LStr "hammingball"]);
     ("config.experiment.log_every_steps", [LInt 100]); ("config.experiment.decay_rate", [LFloat 5 2]);
     ("config.experiment.final_temperature", [LFloat 1 5]); ("config.experiment.init_temperature", [LInt 1]);
     ("config.experiment.chain_length", [LInt 500000])];
    [("sampler_config.name", [LStr "dmala"; LStr "path_auxiliary"]);
     ("config.experiment.log_every_steps", [LInt 100]); ("config.experiment.decay_rate", [LFloat 5 2]);
     ("config.experiment.final_temperature", [LFloat 1 5]); ("config.experiment.init_temperature", [LInt 1]);
     ("config.experiment.chain_length", [LInt 500000]); ("sampler_config.balancing_fn_type", [LStr "SQRT"])];
    [("sampler_config.adaptive", [LBool false]); ("sampler_config.name", [LStr "gwg"]);
     ("config.experiment.log_every_steps", [LInt 100]); ("config.experiment.decay_rate", [LFloat 5 2]);
     ("config.experiment.final_temperature", [LFloat 1 5]); ("config.experiment.init_temperature", [LInt 1]);
     ("config.experiment.chain_length", [LInt 500000]); ("sampler_config.balancing_fn_type", [LStr "SQRT"])];
    [("sampler_config.name", [LStr "dlmc"]); ("config.experiment.log_every_steps", [LInt 100]);
     ("config.experiment.decay_rate", [LFloat 5 2]); ("config.experiment.final_temperature", [LFloat 1 5]);
     ("config.experiment.init_temperature", [LInt 1]); ("config.experiment.chain_length", [LInt 500000]);
     ("sampler_config.balancing_fn_type", [LStr "SQRT"]);
     ("sampler_config.solver", [LStr "interpolate"; LStr "euler_forward"])]] |}.
(** run_configs/co/normcut/alexnet.py 5-143. *)
Definition normcut_alexnet : job_config :=
  {| j_model := "normcut"; j_sampler := "path_auxiliary"; j_graph := Some "nets"; j_sweep :=
   [
    [("config.experiment.batch_size", [LInt 32]); ("config.experiment.chain_length", [LInt 500000]);
     ("config.experiment.decay_rate", [LFloat 5 2]); ("config.experiment.init_temperature", [LInt 5]);
     ("sampler_config.name", [LStr "randomwalk"; LStr "blockgibbs"; LStr "hammingball"]);
     ("model_config.cfg_str", [LStr "r-ALEXNET"]); ("model_config.stype", [LStr "quad"]);
     ("config.experiment.log_every_steps", [LInt 100])];
    [("config.experiment.batch_size", [LInt 32]); ("config.experiment.chain_length", [LInt 500000]);
     ("config.experiment.decay_rate", [LFloat 5 2]); ("config.experiment.init_temperature", [LInt 5]);
     ("model_config.cfg_str", [LStr "r-ALEXNET"]); ("sampler_config.name", [LStr "dmala"]);
     ("model_config.stype", [LStr "quad"]); ("config.experiment.log_every_steps", [LInt 100]);
     ("sampler_config.adaptive", [LBool true; LBool false])];
    [("config.experiment.batch_size", [LInt 32]); ("config.experiment.chain_length", [LInt 500000]);
     ("config.experiment.decay_rate", [LFloat 5 2]); ("config.experiment.init_temperature", [LInt 5]);
     ("model_config.cfg_str", [LStr "r-ALEXNET"]); ("sampler_config.name", [LStr "path_auxiliary"]);
     ("model_config.stype", [LStr "quad"]); ("config.experiment.log_every_steps", [LInt 100]);
     ("sampler_config.adaptive", [LBool true])];
    [("config.experiment.batch_size", [LInt 32]); ("config.experiment.chain_length", [LInt 500000]);
     ("config.experiment.decay_rate", [LFloat 5 2]); ("config.experiment.init_temperature", [LInt 5]);
     ("model_config.cfg_str", [LStr "r-ALEXNET"]); ("sampler_config.name", [LStr "path_auxiliary"]);
     ("model_config.stype", [LStr "quad"]); ("config.experiment.log_every_steps", [LInt 100]);
     ("sampler_config.adaptive", [LBool false]); ("sampler_config.num_flips", [LInt 2])];
    [("config.experiment.batch_size", [LInt 32]); ("config.experiment.chain_length", [LInt 500000]);
     ("config.experiment.decay_rate", [LFloat 5 2]); ("config.experiment.init_temperature", [LInt 5]);
     ("model_config.cfg_str", [LStr "r-ALEXNET"]); ("sampler_config.name", [LStr "gwg"]);
     ("model_config.stype", [LStr "quad"]); ("config.experiment.log_every_steps", [LInt 100])];
    [("config.experiment.batch_size", [LInt 32]); ("config.experiment.chain_length", [LInt 500000]);
     ("config.experiment.decay_rate", [LFloat 5 2]); ("config.experiment.init_temperature", [LInt 5]);
     ("model_config.cfg_str", [LStr "r-ALEXNET"]); ("sampler_config.name", [LStr "dlmc"]);
     ("model_config.stype", [LStr "quad"]); ("config.experiment.log_every_steps", [LInt 100]);
     ("sampler_config.solver", [LStr "interpolate"]); ("sampler_config.adaptive", [LBool false]);
     ("sampler_config.n", [LInt 500])];
    [("config.experiment.batch_size", [LInt 32]); ("config.experiment.chain_length", [LInt 500000]);
     ("config.experiment.decay_rate", [LFloat 5 2]); ("config.experiment.init_temperature", [LInt 5]);
     ("model_config.cfg_str", [LStr "r-ALEXNET"]); ("sampler_config.name", [LStr "dlmc"]);
     ("model_config.stype", [LStr "quad"]); ("config.experiment.log_every_steps", [LInt 100]);
     ("sampler_config.solver", [LStr "euler_forward"]); ("sampler_config.adaptive", [LBool false]);
     ("sampler_config.n", [LInt 10000])];
    [("config.experiment.batch_size", [LInt 32]); ("config.experiment.chain_length", [LInt 500000]);
     ("config.experiment.decay_rate", [LFloat 5 2]); ("config.experiment.init_temperature", [LInt 5]);
     ("model_config.cfg_str", [LStr "r-ALEXNET"]); ("sampler_config.name", [LStr "dlmc"]);
     ("model_config.stype", [LStr "quad"]); ("config.experiment.log_every_steps", [LInt 100]);
     ("sampler_config.solver", [LStr "interpolate"; LStr "euler_forward"]);
     ("sampler_config.adaptive", [LBool true])]] |}.
(** run_configs/co/normcut/gap_rand_sampler_sweep.py 5-61. *)
Definition normcut_gap_rand_sampler_sweep : job_config :=
  {| j_model := "normcut"; j_sampler := "path_auxiliary"; j_graph := Some "gap_rand"; j_sweep :=
   [
    [("sampler_config.name", [LStr "randomwalk"; LStr "blockgibbs"; LStr "hammingball"]);
     ("model_config.cfg_str", [LStr "r-INCEPTION"; LStr "r-VGG"; LStr "r-RESNET"; LStr "r-AlexNet"; LStr "r-MNIST"; LStr "r-BABELFISH"; LStr "r-NMT"; LStr "r-TRANSFORMER"; LStr "r-TTS"]);
     ("model_config.stype", [LStr "quad"; LStr "span"]); ("config.experiment.log_every_steps", [LInt 100])];
    [
     ("model_config.cfg_str", [LStr "r-INCEPTION"; LStr "r-VGG"; LStr "r-RESNET"; LStr "r-AlexNet"; LStr "r-MNIST"; LStr "r-BABELFISH"; LStr "r-NMT"; LStr "r-TRANSFORMER"; LStr "r-TTS"]);
     ("sampler_config.name", [LStr "dmala"; LStr "path_auxiliary"; LStr "gwg"; LStr "dlmc"]);
     ("model_config.stype", [LStr "quad"; LStr "span"]); ("config.experiment.log_every_steps", [LInt 100]);
     ("sampler_config.balancing_fn_type", [LStr "SQRT"])]] |}.
(** run_configs/co/normcut/inception.py 5-135. *)
Definition normcut_inception : job_config :=
  {| j_model := "normcut"; j_sampler := "path_auxiliary"; j_graph := Some "nets"; j_sweep :=
   [
    [("config.experiment.batch_size", [LInt 32]); ("config.experiment.chain_length", [LInt 800000]);
     ("config.experiment.decay_rate", [LFloat 15 2]);
     ("sampler_config.name", [LStr "randomwalk"; LStr "blockgibbs"; LStr "hammingball"]);
     ("model_config.cfg_str", [LStr "r-INCEPTION"]); ("model_config.stype", [LStr "quad"]);
     ("config.experiment.log_every_steps", [LInt 100])];
    [("config.experiment.batch_size", [LInt 32]); ("config.experiment.chain_length", [LInt 800000]);
     ("config.experiment.decay_rate", [LFloat 15 2]); ("model_config.cfg_str", [LStr "r-INCEPTION"]);
     ("sampler_config.name", [LStr "dmala"]); ("model_config.stype", [LStr "quad"]);
     ("config.experiment.log_every_steps", [LInt 100]); ("sampler_config.adaptive", [LBool true; LBool false])];
    [("config.experiment.batch_size", [LInt 32]); ("config.experiment.chain_length", [LInt 800000]);
     ("config.experiment.decay_rate", [LFloat 15 2]); ("model_config.cfg_str", [LStr "r-INCEPTION"]);
     ("sampler_config.name", [LStr "path_auxiliary"]); ("model_config.stype", [LStr "quad"]);
     ("config.experiment.log_every_steps", [LInt 100]); ("sampler_config.adaptive", [LBool true])];
    [("config.experiment.batch_size", [LInt 32]); ("config.experiment.chain_length", [LInt 800000]);
     ("config.experiment.decay_rate", [LFloat 15 2]); ("model_config.cfg_str", [LStr "r-INCEPTION"]);
     ("sampler_config.name", [LStr "path_auxiliary"]); ("model_config.stype", [LStr "quad"]);
     ("config.experiment.log_every_steps", [LInt 100]); ("sampler_config.adaptive", [LBool false]);
     ("sampler_config.num_flips", [LInt 2])];
    [("config.experiment.batch_size", [LInt 32]); ("config.experiment.chain_length", [LInt 800000]);
     ("config.experiment.decay_rate", [LFloat 15 2]); ("model_config.cfg_str", [LStr "r-INCEPTION"]);
     ("sampler_config.name", [LStr "gwg"]); ("model_config.stype", [LStr "quad"]);
     ("config.experiment.log_every_steps", [LInt 100])];
    [("config.experiment.batch_size", [LInt 32]); ("config.experiment.chain_length", [LInt 800000]);
     ("config.experiment.decay_rate", [LFloat 15 2]); ("model_config.cfg_str", [LStr "r-INCEPTION"]);
     ("sampler_config.name", [LStr "dlmc"]); ("model_config.stype", [LStr "quad"]);
     ("config.experiment.log_every_steps", [LInt 100]); ("sampler_config.solver", [LStr "interpolate"]);
     ("sampler_config.adaptive", [LBool false]); ("sampler_config.n", [LInt 500])];
    [("config.experiment.batch_size", [LInt 32]); ("config.experiment.chain_length", [LInt 800000]);
     ("config.experiment.decay_rate", [LFloat 15 2]); ("model_config.cfg_str", [LStr "r-INCEPTION"]);
     ("sampler_config.name", [LStr "dlmc"]); ("model_config.stype", [LStr "quad"]);
     ("config.experiment.log_every_steps", [LInt 100]); ("sampler_config.solver", [LStr "euler_forward"]);
     ("sampler_config.adaptive", [LBool false]); ("sampler_config.n", [LInt 10000])];
    [("config.experiment.batch_size", [LInt 32]); ("config.experiment.chain_length", [LInt 800000]);
     ("config.experiment.decay_rate", [LFloat 15 2]); ("model_config.cfg_str", [LStr "r-INCEPTION"]);
     ("sampler_config.name", [LStr "dlmc"]); ("model_config.stype", [LStr "quad"]);
     ("config.experiment.log_every_steps", [LInt 100]);
     ("sampler_config.solver", [LStr "interpolate"; LStr "euler_forward"]);
     ("sampler_config.adaptive", [LBool true])]] |}.
(** run_configs/co/normcut/mnist.py 5-143. *)
Definition normcut_mnist : job_config :=
  {| j_model := "normcut"; j_sampler := "path_auxiliary"; j_graph := Some "nets"; j_sweep :=
   [
    [("config.experiment.batch_size", [LInt 32]); ("config.experiment.chain_length", [LInt 500000]);
     ("config.experiment.decay_rate", [LFloat 5 2]); ("config.experiment.init_temperature", [LInt 5]);
     ("sampler_config.name", [LStr "randomwalk"; LStr "blockgibbs"; LStr "hammingball"]);
     ("model_config.cfg_str", [LStr "r-MNIST"]); ("model_config.stype", [LStr "quad"]);
     ("config.experiment.log_every_steps", [LInt 100])];
    [("config.experiment.batch_size", [LInt 32]); ("config.experiment.chain_length", [LInt 500000]);
     ("config.experiment.decay_rate", [LFloat 5 2]); ("config.experiment.init_temperature", [LInt 5]);
     ("model_config.cfg_str", [LStr "r-MNIST"]); ("sampler_config.name", [LStr "dmala"]);
     ("model_config.stype", [LStr "quad"]); ("config.experiment.log_every_steps", [LInt 100]);
     ("sampler_config.adaptive", [LBool true; LBool false])];
    [("config.experiment.batch_size", [LInt 32]); ("config.experiment.chain_length", [LInt 500000]);
     ("config.experiment.decay_rate", [LFloat 5 2]); ("config.experiment.init_temperature", [LInt 5]);
     ("model_config.cfg_str", [LStr "r-MNIST"]); ("sampler_config.name", [LStr "path_auxiliary"]);
     ("model_config.stype", [LStr "quad"]); ("config.experiment.log_every_steps", [LInt 100]);
     ("sampler_config.adaptive", [LBool true])];
    [("config.experiment.batch_size", [LInt 32]); ("config.experiment.chain_length", [LInt 500000]);
     ("config.experiment.decay_rate", [LFloat 5 2]); ("config.experiment.init_temperature", [LInt 5]);
     ("model_config.cfg_str", [LStr "r-MNIST"]); ("sampler_config.name", [LStr "path_auxiliary"]);
     ("model_config.stype", [LStr "quad"]); ("config.experiment.log_every_steps", [LInt 100]);
     ("sampler_config.adaptive", [LBool false]); ("sampler_config.num_flips", [LInt 2])];
    [("config.experiment.batch_size", [LInt 32]); ("config.experiment.chain_length", [LInt 500000]);
     ("config.experiment.decay_rate", [LFloat 5 2]); ("config.experiment.init_temperature", [LInt 5]);
     ("model_config.cfg_str", [LStr "r-MNIST"]); ("sampler_config.name", [LStr "gwg"]);
     ("model_config.stype", [LStr "quad"]); ("config.experiment.log_every_steps", [LInt 100])];
    [("config.experiment.batch_size", [LInt 32]); ("config.experiment.chain_length", [LInt 500000]);
     ("config.experiment.decay_rate", [LFloat 5 2]); ("config.experiment.init_temperature", [LInt 5]);
     ("model_config.cfg_str", [LStr "r-MNIST"]); ("sampler_config.name", [LStr "dlmc"]);
     ("model_config.stype", [LStr "quad"]); ("config.experiment.log_every_steps", [LInt 100]);
     ("sampler_config.solver", [LStr "interpolate"]); ("sampler_config.adaptive", [LBool false]);
     ("sampler_config.n", [LInt 500])];
    [("config.experiment.batch_size", [LInt 32]); ("config.experiment.chain_length", [LInt 500000]);
     ("config.experiment.decay_rate", [LFloat 5 2]); ("config.experiment.init_temperature", [LInt 5]);
     ("model_config.cfg_str", [LStr "r-MNIST"]); ("sampler_config.name", [LStr "dlmc"]);
     ("model_config.stype", [LStr "quad"]); ("config.experiment.log_every_steps", [LInt 100]);
     ("sampler_config.solver", [LStr "euler_forward"]); ("sampler_config.adaptive", [LBool false]);
     ("sampler_config.n", [LInt 10000])];
    [("config.experiment.batch_size", [LInt 32]); ("config.experiment.chain_length", [LInt 500000]);
     ("config.experiment.decay_rate", [LFloat 5 2]); ("config.experiment.init_temperature", [LInt 5]);
     ("model_config.cfg_str", [LStr "r-MNIST"]); ("sampler_config.name", [LStr "dlmc"]);
     ("model_config.stype", [LStr "quad"]); ("config.experiment.log_every_steps", [LInt 100]);
     ("sampler_config.solver", [LStr "interpolate"; LStr "euler_forward"]);
     ("sampler_config.adaptive", [LBool true])]] |}.
(** run_configs/co/normcut/resnet.py 5-135. *)
Definition normcut_resnet : job_config :=
  {| j_model := "normcut"; j_sampler := "path_auxiliary"; j_graph := Some "nets"; j_sweep :=
   [
    [("config.experiment.batch_size", [LInt 32]); ("config.experiment.chain_length", [LInt 800000]);
     ("config.experiment.decay_rate", [LFloat 1 1]);
     ("sampler_config.name", [LStr "randomwalk"; LStr "blockgibbs"; LStr "hammingball"]);
     ("model_config.cfg_str", [LStr "r-RESNET"]); ("model_config.stype", [LStr "quad"]);
     ("config.experiment.log_every_steps", [LInt 100])];
    [("config.experiment.batch_size", [LInt 32]); ("config.experiment.chain_length", [LInt 800000]);
     ("config.experiment.decay_rate", [LFloat 1 1]); ("model_config.cfg_str", [LStr "r-RESNET"]);
     ("sampler_config.name", [LStr "dmala"]); ("model_config.stype", [LStr "quad"]);
     ("config.experiment.log_every_steps", [LInt 100]); ("sampler_config.adaptive", [LBool true; LBool false])];
    [("config.experiment.batch_size", [LInt 32]); ("config.experiment.chain_length", [LInt 800000]);
     ("config.experiment.decay_rate", [LFloat 1 1]); ("model_config.cfg_str", [LStr "r-RESNET"]);
     ("sampler_config.name", [LStr "path_auxiliary"]); ("model_config.stype", [LStr "quad"]);
     ("config.experiment.log_every_steps", [LInt 100]); ("sampler_config.adaptive", [LBool true])];
    [("config.experiment.batch_size", [LInt 32]); ("config.experiment.chain_length", [LInt 800000]);
     ("config.experiment.decay_rate", [LFloat 1 1]); ("model_config.cfg_str", [LStr "r-RESNET"]);
     ("sampler_config.name", [LStr "path_auxiliary"]); ("model_config.stype", [LStr "quad"]);
     ("config.experiment.log_every_steps", [LInt 100]); ("sampler_config.adaptive", [LBool false]);
     ("sampler_config.num_flips", [LInt 2])];
    [("config.experiment.batch_size", [LInt 32]); ("config.experiment.chain_length", [LInt 800000]);
     ("config.experiment.decay_rate", [LFloat 1 1]); ("model_config.cfg_str", [LStr "r-RESNET"]);
     ("sampler_config.name", [LStr "gwg"]); ("model_config.stype", [LStr "quad"]);
     ("config.experiment.log_every_steps", [LInt 100])];
    [("config.experiment.batch_size", [LInt 32]); ("config.experiment.chain_length", [LInt 800000]);
     ("config.experiment.decay_rate", [LFloat 1 1]); ("model_config.cfg_str", [LStr "r-RESNET"]);
     ("sampler_config.name", [LStr "dlmc"]); ("model_config.stype", [LStr "quad"]);
     ("config.experiment.log_every_steps", [LInt 100]); ("sampler_config.solver", [LStr "interpolate"]);
     ("sampler_config.adaptive", [LBool false]); ("sampler_config.n", [LInt 500])];
    [("config.experiment.batch_size", [LInt 32]); ("config.experiment.chain_length", [LInt 800000]);
     ("config.experiment.decay_rate", [LFloat 1 1]); ("model_config.cfg_str", [LStr "r-RESNET"]);
     ("sampler_config.name", [LStr "dlmc"]); ("model_config.stype", [LStr "quad"]);
     ("config.experiment.log_every_steps", [LInt 100]); ("sampler_config.solver", [LStr "euler_forward"]);
     ("sampler_config.adaptive", [LBool false]); ("sampler_config.n", [LInt 10000])];
    [("config.experiment.batch_size", [LInt 32]); ("config.experiment.chain_length", [LInt 800000]);
     ("config.experiment.decay_rate", [LFloat 1 1]); ("model_config.cfg_str", [LStr "r-RESNET"]);
     ("sampler_config.name", [LStr "dlmc"]); ("model_config.stype", [LStr "quad"]);
     ("config.experiment.log_every_steps", [LInt 100]);
     ("sampler_config.solver", [LStr "interpolate"; LStr "euler_forward"]);
     ("sampler_config.adaptive", [LBool true])]] |}.
(** run_configs/co/normcut/vgg.py 5-143. *)
Definition normcut_vgg : job_config :=
  {| j_model := "normcut"; j_sampler := "path_auxiliary"; j_graph := Some "nets"; j_sweep :=
   [
    [("config.experiment.batch_size", [LInt 32]); ("config.experiment.chain_length", [LInt 800000]);
     ("config.experiment.decay_rate", [LFloat 5 2]); ("config.experiment.init_temperature", [LInt 5]);
     ("sampler_config.name", [LStr "randomwalk"; LStr "blockgibbs"; LStr "hammingball"]);
     ("model_config.cfg_str", [LStr "r-VGG"]); ("model_config.stype", [LStr "quad"]);
     ("config.experiment.log_every_steps", [LInt 100])];
    [("config.experiment.batch_size", [LInt 32]); ("config.experiment.chain_length", [LInt 800000]);
     ("config.experiment.decay_rate", [LFloat 5 2]); ("config.experiment.init_temperature", [LInt 5]);
     ("model_config.cfg_str", [LStr "r-VGG"]); ("sampler_config.name", [LStr "dmala"]);
     ("model_config.stype", [LStr "quad"]); ("config.experiment.log_every_steps", [LInt 100]);
     ("sampler_config.adaptive", [LBool true; LBool false])];
    [("config.experiment.batch_size", [LInt 32]); ("config.experiment.chain_length", [LInt 800000]);
     ("config.experiment.decay_rate", [LFloat 5 2]); ("config.experiment.init_temperature", [LInt 5]);
     ("model_config.cfg_str", [LStr "r-VGG"]); ("sampler_config.name", [LStr "path_auxiliary"]);
     ("model_config.stype", [LStr "quad"]); ("config.experiment.log_every_steps", [LInt 100]);
     ("sampler_config.adaptive", [LBool true])];
    [("config.experiment.batch_size", [LInt 32]); ("config.experiment.chain_length", [LInt 800000]);
     ("config.experiment.decay_rate", [LFloat 5 2]); ("config.experiment.init_temperature", [LInt 5]);
     ("model_config.cfg_str", [LStr "r-VGG"]); ("sampler_config.name", [LStr "path_auxiliary"]);
     ("model_config.stype", [LStr "quad"]); ("config.experiment.log_every_steps", [LInt 100]);
     ("sampler_config.adaptive", [LBool false]); ("sampler_config.num_flips", [LInt 2])];
    [("config.experiment.batch_size", [LInt 32]); ("config.experiment.chain_length", [LInt 800000]);
     ("config.experiment.decay_rate", [LFloat 5 2]); ("config.experiment.init_temperature", [LInt 5]);
     ("model_config.cfg_str", [LStr "r-VGG"]); ("sampler_config.name", [LStr "gwg"]);
     ("model_config.stype", [LStr "quad"]); ("config.experiment.log_every_steps", [LInt 100])];
    [("config.experiment.batch_size", [LInt 32]); ("config.experiment.chain_length", [LInt 800000]);
     ("config.experiment.decay_rate", [LFloat 5 2]); ("config.experiment.init_temperature", [LInt 5]);
     ("model_config.cfg_str", [LStr "r-VGG"]); ("sampler_config.name", [LStr "dlmc"]);
     ("model_config.stype", [LStr "quad"]); ("config.experiment.log_every_steps", [LInt 100]);
     ("sampler_config.solver", [LStr "interpolate"]); ("sampler_config.adaptive", [LBool false]);
     ("sampler_config.n", [LInt 500])];
    [("config.experiment.batch_size", [LInt 32]); ("config.experiment.chain_length", [LInt 800000]);
     ("config.experiment.decay_rate", [LFloat 5 2]); ("config.experiment.init_temperature", [LInt 5]);
     ("model_config.cfg_str", [LStr "r-VGG"]); ("sampler_config.name", [LStr "dlmc"]);
     ("model_config.stype", [LStr "quad"]); ("config.experiment.log_every_steps", [LInt 100]);
     ("sampler_config.solver", [LStr "euler_forward"]); ("sampler_config.adaptive", [LBool false]);
     ("sampler_config.n", [LInt 10000])];
    [("config.experiment.batch_size", [LInt 32]); ("config.experiment.chain_length", [LInt 800000]);
     ("config.experiment.decay_rate", [LFloat 5 2]); ("config.experiment.init_temperature", [LInt 5]);
     ("model_config.cfg_str", [LStr "r-VGG"]); ("sampler_config.name", [LStr "dlmc"]);
     ("model_config.stype", [LStr "quad"]); ("config.experiment.log_every_steps", [LInt 100]);
     ("sampler_config.solver", [LStr "interpolate"; LStr "euler_forward"]);
     ("sampler_config.adaptive", [LBool true])]] |}.
(** run_configs/ebm/binray_ebm/logz.py 6-56. *)
Definition binray_ebm_logz : job_config :=
  {| j_model := "resnet"; j_sampler := "path_auxiliary"; j_graph := None; j_sweep :=
   [
    [("config.experiment.name", [LStr "EBM_Experiment"]); ("config.experiment.chain_length", [LInt 10000]);
     ("model_config.data_path", [LStr "/gcs/xcloud-shared/kgoshvadi/data/BINARY_EBM/caltech-64/"; LStr "/gcs/xcloud-shared/kgoshvadi/data/BINARY_EBM/dynamic_mnist-64/"; LStr "/gcs/xcloud-shared/kgoshvadi/data/BINARY_EBM/omniglot-64/"]);
     ("sampler_config.name", [LStr "randomwalk"; LStr "blockgibbs"; LStr "hammingball"])];
    [("config.experiment.name", [LStr "EBM_Experiment"]); ("config.experiment.chain_length", [LInt 10000]);
     ("model_config.data_path", [LStr "/gcs/xcloud-shared/kgoshvadi/data/BINARY_EBM/caltech-64/"; LStr "/gcs/xcloud-shared/kgoshvadi/data/BINARY_EBM/dynamic_mnist-64/"; LStr "/gcs/xcloud-shared/kgoshvadi/data/BINARY_EBM/omniglot-64/"]);
     ("sampler_config.name", [LStr "path_auxiliary"; LStr "gwg"; LStr "dmala"]);
     ("sampler_config.balancing_fn_type", [LStr "SQRT"])];
    [("config.experiment.name", [LStr "EBM_Experiment"]); ("config.experiment.chain_length", [LInt 10000]);
     ("model_config.data_path", [LStr "/gcs/xcloud-shared/kgoshvadi/data/BINARY_EBM/caltech-64/"; LStr "/gcs/xcloud-shared/kgoshvadi/data/BINARY_EBM/dynamic_mnist-64/"; LStr "/gcs/xcloud-shared/kgoshvadi/data/BINARY_EBM/omniglot-64/"]);
     ("sampler_config.name", [LStr "dlmc"]); ("sampler_config.balancing_fn_type", [LStr "SQRT"]);
     ("sampler_config.solver", [LStr "interpolate"; LStr "euler_forward"])]] |}.
(** run_configs/ebm/binray_ebm/sampler_sweep.py 6-59. *)
Definition binray_ebm_sampler_sweep : job_config :=
  {| j_model := "resnet"; j_sampler := "path_auxiliary"; j_graph := None; j_sweep :=
   [
    [("config.experiment.chain_length", [LInt 10000]); ("config.experiment.save_samples", [LBool true]);
     ("config.experiment.save_every_steps", [LInt 1000]);
     ("model_config.data_path", [LStr "/gcs/xcloud-shared/kgoshvadi/data/BINARY_EBM/caltech-64/"; LStr "/gcs/xcloud-shared/kgoshvadi/data/BINARY_EBM/dynamic_mnist-64/"; LStr "/gcs/xcloud-shared/kgoshvadi/data/BINARY_EBM/omniglot-64/"]);
     ("sampler_config.name", [LStr "randomwalk"; LStr "blockgibbs"; LStr "hammingball"])];
    [("config.experiment.chain_length", [LInt 10000]); ("config.experiment.save_samples", [LBool true]);
     ("config.experiment.save_every_steps", [LInt 1000]);
     ("model_config.data_path", [LStr "/gcs/xcloud-shared/kgoshvadi/data/BINARY_EBM/caltech-64/"; LStr "/gcs/xcloud-shared/kgoshvadi/data/BINARY_EBM/dynamic_mnist-64/"; LStr "/gcs/xcloud-shared/kgoshvadi/data/BINARY_EBM/omniglot-64/"]);
     ("sampler_config.name", [LStr "path_auxiliary"; LStr "gwg"; LStr "dmala"]);
     ("sampler_config.balancing_fn_type", [LStr "SQRT"])];
    [("config.experiment.chain_length", [LInt 10000]); ("config.experiment.save_samples", [LBool true]);
     ("config.experiment.save_every_steps", [LInt 1000]);
     ("model_config.data_path", [LStr "/gcs/xcloud-shared/kgoshvadi/data/BINARY_EBM/caltech-64/"; LStr "/gcs/xcloud-shared/kgoshvadi/data/BINARY_EBM/dynamic_mnist-64/"; LStr "/gcs/xcloud-shared/kgoshvadi/data/BINARY_EBM/omniglot-64/"]);
     ("sampler_config.name", [LStr "dlmc"]); ("sampler_config.balancing_fn_type", [LStr "SQRT"]);
     ("sampler_config.solver", [LStr "interpolate"; LStr "euler_forward"])]] |}.
(** run_configs/ebm/lm/base_bert_sampler_sweep.py 6-122. *)
Definition lm_base_bert_sampler_sweep : job_config :=
  {| j_model := "text_infilling"; j_sampler := "path_auxiliary"; j_graph := None; j_sweep :=
   [
    [("config.experiment.chain_length", [LInt 50]); ("config.experiment.use_topk", [LBool true]);
     ("config.experiment.num_same_resample", [LInt 25]);
     ("model_config.data_root", [LStr "/gcs/xcloud-shared/kgoshvadi/data/text_infilling_data/"]);
     ("model_config.bert_model", [LStr "/gcs/xcloud-shared/kgoshvadi/data/text_infilling_models/bert-base-uncased/"]);
     ("sampler_config.name", [LStr "randomwalk"])];
    [("config.experiment.chain_length", [LInt 50]); ("config.experiment.use_topk", [LBool true]);
     ("config.experiment.num_same_resample", [LInt 25]);
     ("model_config.data_root", [LStr "/gcs/xcloud-shared/kgoshvadi/data/text_infilling_data/"]);
     ("model_config.bert_model", [LStr "/gcs/xcloud-shared/kgoshvadi/data/text_infilling_models/bert-base-uncased/"]);
     ("sampler_config.adaptive", [LBool true; LBool false]); ("sampler_config.name", [LStr "dmala"]);
     ("sampler_config.balancing_fn_type", [LStr "SQRT"; LStr "RATIO"])];
    [("config.experiment.chain_length", [LInt 50]); ("config.experiment.use_topk", [LBool true]);
     ("config.experiment.num_same_resample", [LInt 25]);
     ("model_config.data_root", [LStr "/gcs/xcloud-shared/kgoshvadi/data/text_infilling_data/"]);
     ("model_config.bert_model", [LStr "/gcs/xcloud-shared/kgoshvadi/data/text_infilling_models/bert-base-uncased/"]);
     ("sampler_config.adaptive", [LBool true; LBool false]); ("sampler_config.name", [LStr "path_auxiliary"]);
     ("sampler_config.balancing_fn_type", [LStr "SQRT"; LStr "RATIO"])];
    [("config.experiment.chain_length", [LInt 50]); ("config.experiment.use_topk", [LBool true]);
     ("config.experiment.num_same_resample", [LInt 25]);
     ("model_config.data_root", [LStr "/gcs/xcloud-shared/kgoshvadi/data/text_infilling_data/"]);
     ("model_config.bert_model", [LStr "/gcs/xcloud-shared/kgoshvadi/data/text_infilling_models/bert-base-uncased/"]);
     ("sampler_config.name", [LStr "gwg"]); ("sampler_config.adaptive", [LBool true]);
     ("sampler_config.balancing_fn_type", [LStr "SQRT"; LStr "RATIO"])];
    [("config.experiment.chain_length", [LInt 50]); ("config.experiment.use_topk", [LBool true]);
     ("config.experiment.num_same_resample", [LInt 25]);
     ("model_config.data_root", [LStr "/gcs/xcloud-shared/kgoshvadi/data/text_infilling_data/"]);
     ("model_config.bert_model", [LStr "/gcs/xcloud-shared/kgoshvadi/data/text_infilling_models/bert-base-uncased/"]);
     ("sampler_config.name", [LStr "dlmc"]); ("sampler_config.adaptive", [LBool true]);
     ("sampler_config.solver", [LStr "interpolate"; LStr "euler_forward"]);
     ("sampler_config.balancing_fn_type", [LStr "SQRT"; LStr "RATIO"])];
    [("config.experiment.chain_length", [LInt 50]); ("config.experiment.use_topk", [LBool true]);
     ("config.experiment.num_same_resample", [LInt 25]);
     ("model_config.data_root", [LStr "/gcs/xcloud-shared/kgoshvadi/data/text_infilling_data/"]);
     ("model_config.bert_model", [LStr "/gcs/xcloud-shared/kgoshvadi/data/text_infilling_models/bert-base-uncased/"]);
     ("sampler_config.name", [LStr "dlmc"]); ("sampler_config.adaptive", [LBool false]);
     ("sampler_config.solver", [LStr "interpolate"]); ("sampler_config.n", [LInt 500]);
     ("sampler_config.balancing_fn_type", [LStr "SQRT"; LStr "RATIO"])];
    [("config.experiment.chain_length", [LInt 50]); ("config.experiment.use_topk", [LBool true]);
     ("config.experiment.num_same_resample", [LInt 25]);
     ("model_config.data_root", [LStr "/gcs/xcloud-shared/kgoshvadi/data/text_infilling_data/"]);
     ("model_config.bert_model", [LStr "/gcs/xcloud-shared/kgoshvadi/data/text_infilling_models/bert-base-uncased/"]);
     ("sampler_config.name", [LStr "dlmc"]); ("sampler_config.adaptive", [LBool false]);
     ("sampler_config.solver", [LStr "euler_forward"]);
     ("sampler_config.balancing_fn_type", [LStr "SQRT"; LStr "RATIO"]); ("sampler_config.n", [LInt 10000])]] |}.
(** run_configs/ebm/lm/large_bert_sampler_sweep.py 6-118. *)
Definition lm_large_bert_sampler_sweep : job_config :=
  {| j_model := "text_infilling"; j_sampler := "path_auxiliary"; j_graph := None; j_sweep :=
   [
    [("config.experiment.chain_length", [LInt 50]); ("config.experiment.use_topk", [LBool true]);
     ("config.experiment.num_same_resample", [LInt 25]);
     ("model_config.data_root", [LStr "/gcs/xcloud-shared/kgoshvadi/data/text_infilling_data/"]);
     ("model_config.bert_model", [LStr "/gcs/xcloud-shared/kgoshvadi/data/text_infilling_models/bert-large-uncased/"]);
     ("sampler_config.name", [LStr "randomwalk"])];
    [("config.experiment.chain_length", [LInt 50]); ("config.experiment.use_topk", [LBool true]);
     ("config.experiment.num_same_resample", [LInt 25]);
     ("model_config.data_root", [LStr "/gcs/xcloud-shared/kgoshvadi/data/text_infilling_data/"]);
     ("model_config.bert_model", [LStr "/gcs/xcloud-shared/kgoshvadi/data/text_infilling_models/bert-large-uncased/"]);
     ("sampler_config.adaptive", [LBool true; LBool false]); ("sampler_config.name", [LStr "dmala"])];
    [("config.experiment.chain_length", [LInt 50]); ("config.experiment.use_topk", [LBool true]);
     ("config.experiment.num_same_resample", [LInt 25]);
     ("model_config.data_root", [LStr "/gcs/xcloud-shared/kgoshvadi/data/text_infilling_data/"]);
     ("model_config.bert_model", [LStr "/gcs/xcloud-shared/kgoshvadi/data/text_infilling_models/bert-large-uncased/"]);
     ("sampler_config.adaptive", [LBool true]); ("sampler_config.name", [LStr "path_auxiliary"])];
    [("config.experiment.chain_length", [LInt 50]); ("config.experiment.use_topk", [LBool true]);
     ("config.experiment.num_same_resample", [LInt 25]);
     ("model_config.data_root", [LStr "/gcs/xcloud-shared/kgoshvadi/data/text_infilling_data/"]);
     ("model_config.bert_model", [LStr "/gcs/xcloud-shared/kgoshvadi/data/text_infilling_models/bert-large-uncased/"]);
     ("sampler_config.adaptive", [LBool false]); ("sampler_config.name", [LStr "path_auxiliary"]);
     ("sampler_config.num_flips", [LInt 2])];
    [("config.experiment.chain_length", [LInt 50]); ("config.experiment.use_topk", [LBool true]);
     ("config.experiment.num_same_resample", [LInt 25]);
     ("model_config.data_root", [LStr "/gcs/xcloud-shared/kgoshvadi/data/text_infilling_data/"]);
     ("model_config.bert_model", [LStr "/gcs/xcloud-shared/kgoshvadi/data/text_infilling_models/bert-large-uncased/"]);
     ("sampler_config.name", [LStr "dlmc"; LStr "gwg"]); ("sampler_config.adaptive", [LBool true])];
    [("config.experiment.chain_length", [LInt 50]); ("config.experiment.use_topk", [LBool true]);
     ("config.experiment.num_same_resample", [LInt 25]);
     ("model_config.data_root", [LStr "/gcs/xcloud-shared/kgoshvadi/data/text_infilling_data/"]);
     ("model_config.bert_model", [LStr "/gcs/xcloud-shared/kgoshvadi/data/text_infilling_models/bert-large-uncased/"]);
     ("sampler_config.name", [LStr "dlmc"]); ("sampler_config.adaptive", [LBool false]);
     ("sampler_config.solver", [LStr "interpolate"]); ("sampler_config.n", [LInt 500])];
    [("config.experiment.chain_length", [LInt 50]); ("config.experiment.use_topk", [LBool true]);
     ("config.experiment.num_same_resample", [LInt 25]);
     ("model_config.data_root", [LStr "/gcs/xcloud-shared/kgoshvadi/data/text_infilling_data/"]);
     ("model_config.bert_model", [LStr "/gcs/xcloud-shared/kgoshvadi/data/text_infilling_models/bert-large-uncased/"]);
     ("sampler_config.name", [LStr "dlmc"]); ("sampler_config.adaptive", [LBool false]);
     ("sampler_config.solver", [LStr "euler_forward"]); ("sampler_config.n", [LInt 10000])]] |}.
(** run_configs/ebm/rbm/sampler_sweep.py 6-119. *)
Definition rbm_sampler_sweep : job_config :=
  {| j_model := "rbm"; j_sampler := "path_auxiliary"; j_graph := None; j_sweep :=
   [
    [("config.experiment.save_samples", [LBool true]); ("model_config.num_categories", [LInt 2]);
     ("model_config.data_path", [LStr "/gcs/xcloud-shared/kgoshvadi/data/RBM_DATA/mnist-2-200/"; LStr "/gcs/xcloud-shared/kgoshvadi/data/RBM_DATA/mnist-2-25/"]);
     ("sampler_config.name", [LStr "randomwalk"; LStr "blockgibbs"; LStr "hammingball"])];
    [("config.experiment.save_samples", [LBool true]); ("model_config.num_categories", [LInt 2]);
     ("model_config.data_path", [LStr "/gcs/xcloud-shared/kgoshvadi/data/RBM_DATA/mnist-2-200/"; LStr "/gcs/xcloud-shared/kgoshvadi/data/RBM_DATA/mnist-2-25/"]);
     ("sampler_config.name", [LStr "path_auxiliary"; LStr "gwg"; LStr "dmala"]);
     ("sampler_config.balancing_fn_type", [LStr "SQRT"; LStr "RATIO"])];
    [("config.experiment.save_samples", [LBool true]); ("model_config.num_categories", [LInt 2]);
     ("model_config.data_path", [LStr "/gcs/xcloud-shared/kgoshvadi/data/RBM_DATA/mnist-2-200/"; LStr "/gcs/xcloud-shared/kgoshvadi/data/RBM_DATA/mnist-2-25/"]);
     ("sampler_config.name", [LStr "dlmc"]); ("sampler_config.balancing_fn_type", [LStr "SQRT"; LStr "RATIO"]);
     ("sampler_config.solver", [LStr "interpolate"; LStr "euler_forward"])];
    [("config.experiment.save_samples", [LBool true]); ("model_config.num_categories", [LInt 4]);
     ("model_config.data_path", [LStr "/gcs/xcloud-shared/kgoshvadi/data/RBM_DATA/fashion_mnist-4-50/"]);
     ("sampler_config.name", [LStr "randomwalk"; LStr "blockgibbs"; LStr "hammingball"])];
    [("config.experiment.save_samples", [LBool true]); ("model_config.num_categories", [LInt 4]);
     ("model_config.data_path", [LStr "/gcs/xcloud-shared/kgoshvadi/data/RBM_DATA/fashion_mnist-4-50/"]);
     ("sampler_config.name", [LStr "path_auxiliary"; LStr "gwg"; LStr "dmala"]);
     ("sampler_config.balancing_fn_type", [LStr "SQRT"; LStr "RATIO"])];
    [("config.experiment.save_samples", [LBool true]); ("model_config.num_categories", [LInt 4]);
     ("model_config.data_path", [LStr "/gcs/xcloud-shared/kgoshvadi/data/RBM_DATA/fashion_mnist-4-50/"]);
     ("sampler_config.name", [LStr "dlmc"]); ("sampler_config.balancing_fn_type", [LStr "SQRT"; LStr "RATIO"]);
     ("sampler_config.solver", [LStr "interpolate"; LStr "euler_forward"])];
    [("config.experiment.save_samples", [LBool true]); ("model_config.num_categories", [LInt 8]);
     ("model_config.data_path", [LStr "/gcs/xcloud-shared/kgoshvadi/data/RBM_DATA/fashion_mnist-8-50/"]);
     ("sampler_config.name", [LStr "randomwalk"; LStr "blockgibbs"; LStr "hammingball"])];
    [("config.experiment.save_samples", [LBool true]); ("model_config.num_categories", [LInt 8]);
     ("model_config.data_path", [LStr "/gcs/xcloud-shared/kgoshvadi/data/RBM_DATA/fashion_mnist-8-50/"]);
     ("sampler_config.name", [LStr "path_auxiliary"; LStr "gwg"; LStr "dmala"]);
     ("sampler_config.balancing_fn_type", [LStr "SQRT"; LStr "RATIO"])];
    [("config.experiment.save_samples", [LBool true]); ("model_config.num_categories", [LInt 8]);
     ("model_config.data_path", [LStr "/gcs/xcloud-shared/kgoshvadi/data/RBM_DATA/fashion_mnist-8-50/"]);
     ("sampler_config.name", [LStr "dlmc"]); ("sampler_config.balancing_fn_type", [LStr "SQRT"; LStr "RATIO"]);
     ("sampler_config.solver", [LStr "interpolate"; LStr "euler_forward"])]] |}.
(** All files of discs/run_configs, with their names. *)
Definition shipped_sweeps : list (string * job_config) :=
   [("classical_models/bernoulli/chain_length_sweep", bernoulli_chain_length_sweep);
    ("classical_models/bernoulli/estimation_error", bernoulli_estimation_error);
    ("classical_models/bernoulli/lbf_sweep", bernoulli_lbf_sweep);
    ("classical_models/bernoulli/model_config_sweep", bernoulli_model_config_sweep);
    ("classical_models/bernoulli/shape_sweep", bernoulli_shape_sweep);
    ("classical_models/categorical/chain_length_sweep", categorical_chain_length_sweep);
    ("classical_models/categorical/lbf_sweep", categorical_lbf_sweep);
    ("classical_models/categorical/model_config_sweep", categorical_model_config_sweep);
    ("classical_models/categorical/num_categories_sweep", categorical_num_categories_sweep);
    ("classical_models/categorical/shape_sweep", categorical_shape_sweep);
    ("classical_models/fhmm/binary_sweep", fhmm_binary_sweep);
    ("classical_models/fhmm/categ_sweep", fhmm_categ_sweep);
    ("classical_models/ising/chian_length_sweep", ising_chian_length_sweep);
    ("classical_models/ising/lamdasweep_bigger", ising_lamdasweep_bigger);
    ("classical_models/ising/lamdasweep_small", ising_lamdasweep_small);
    ("classical_models/ising/lbf_sweep", ising_lbf_sweep);
    ("classical_models/ising/model_config_sweep", ising_model_config_sweep);
    ("classical_models/ising/shape_sweep", ising_shape_sweep);
    ("classical_models/potts/chain_length_sweep", potts_chain_length_sweep);
    ("classical_models/potts/lbf_sweep", potts_lbf_sweep);
    ("classical_models/potts/model_config_sweep", potts_model_config_sweep);
    ("classical_models/potts/num_categories_sweep", potts_num_categories_sweep);
    ("classical_models/potts/shape_sweep", potts_shape_sweep);
    ("co/maxclique/rb_sampler_sweep", maxclique_rb_sampler_sweep);
    ("co/maxclique/twitter_sampler_sweep", maxclique_twitter_sampler_sweep);
    ("co/maxcut/ba_sampler_sweep", maxcut_ba_sampler_sweep); ("co/maxcut/er_sampler_sweep", maxcut_er_sampler_sweep);
    ("co/maxcut/optsicom_sampler_sweep", maxcut_optsicom_sampler_sweep);
    ("co/mis/er_800_015_penalty", mis_er_800_015_penalty); ("co/mis/er_density_penalty", mis_er_density_penalty);
    ("co/mis/er_density_sampler_sweep", mis_er_density_sampler_sweep);
    ("co/mis/ertest_sampler_sweep", mis_ertest_sampler_sweep);
    ("co/mis/satlib_sampler_sweep", mis_satlib_sampler_sweep); ("co/normcut/alexnet", normcut_alexnet);
    ("co/normcut/gap_rand_sampler_sweep", normcut_gap_rand_sampler_sweep);
    ("co/normcut/inception", normcut_inception); ("co/normcut/mnist", normcut_mnist);
    ("co/normcut/resnet", normcut_resnet); ("co/normcut/vgg", normcut_vgg); ("ebm/binray_ebm/logz", binray_ebm_logz);
    ("ebm/binray_ebm/sampler_sweep", binray_ebm_sampler_sweep);
    ("ebm/lm/base_bert_sampler_sweep", lm_base_bert_sampler_sweep);
    ("ebm/lm/large_bert_sampler_sweep", lm_large_bert_sampler_sweep); ("ebm/rbm/sampler_sweep", rbm_sampler_sweep)].
