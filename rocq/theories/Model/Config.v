(** Model of experiment/main_sampling.py (merging of the configuration files) and of the sampler label in
    common/experiment_saver.py.

    Simplifications: a ConfigDict section is an association list from keys to values; only the three sections
    used by the programs (model, sampler, experiment) are kept; values are strings, numbers, booleans and
    opaque tuples; the type checks ConfigDict makes on overwriting are in Model/Launch.v. *)
From Coq Require Import String List Bool ZArith.
Import ListNotations.
Local Open Scope string_scope.

(** Values stored in the configuration files of discs/models/configs, discs/samplers/configs, discs/experiment/configs. *)
Inductive val := VStr (s : string) | VNum (z : Z) (scale : nat) | VBool (b : bool) | VTuple (l : list Z).

(** Python truth value, used by main_sampling.py 37 and 50. *)
Definition truthy (v : val) : bool :=
  match v with
  | VStr s => negb (String.eqb s "")
  | VNum z _ => negb (Z.eqb z 0)
  | VBool b => b
  | VTuple l => match l with [] => false | _ => true end
  end.

(** One section of a ConfigDict. *)
Definition section := list (string * val).

(** config.get(key, None), main_sampling.py 37 and 50. *)
Fixpoint get (k : string) (s : section) : option val :=
  match s with [] => None | (k', v) :: s' => if String.eqb k k' then Some v else get k s' end.

(** config[key] = value, main_sampling.py 24 and 48. *)
Fixpoint set (k : string) (v : val) (s : section) : section :=
  match s with
  | [] => [(k, v)]
  | (k', v') :: s' => if String.eqb k k' then (k, v) :: s' else (k', v') :: set k v s'
  end.

(** section.update(other), main_sampling.py 35, 36, 42, 46. *)
Definition update (s o : section) : section := fold_left (fun s kv => set (fst kv) (snd kv) s) o s.

(** The whole configuration; a section missing from an experiment file is an empty one. *)
Record config := mk { c_model : section; c_sampler : section; c_exp : section }.

(** config.update(other), main_sampling.py 34, 47, 51: sections are updated recursively. *)
Definition merge (c o : config) : config :=
  mk (update (c_model c) (c_model o)) (update (c_sampler c) (c_sampler o)) (update (c_exp c) (c_exp o)).

(** common/configs.py 6-39. *)
Definition common_config : config :=
  mk [("name", VStr ""); ("data_root", VStr "sco")]
     [("name", VStr "")]
     [("name", VStr "Sampling_Experiment"); ("evaluator", VStr "ess_eval"); ("num_models", VNum 1 0);
      ("batch_size", VNum 100 0); ("chain_length", VNum 100000 0); ("ess_ratio", VNum 5 1);
      ("run_parallel", VBool true); ("get_additional_metrics", VBool false); ("shuffle_buffer_size", VNum 0 0);
      ("log_every_steps", VNum 1000 0); ("plot_every_steps", VNum 10 0); ("save_root", VStr "./discs/results");
      ("fig_folder", VStr ""); ("save_every_steps", VNum 10000 0); ("save_samples", VBool false);
      ("get_estimation_error", VBool false); ("use_tqdm", VBool false); ("co_opt_prob", VBool false);
      ("window_size", VNum 10 0); ("window_stride", VNum 10 0)].

(** experiment/configs/co_experiment.py 5-11. *)
Definition co_default : section :=
  [("evaluator", VStr "co_eval"); ("name", VStr "CO_Experiment"); ("co_opt_prob", VBool true)].

(** main_sampling.py 38-42: the module discs.models.configs.<name>.<graph_type> and its get_model_config;
    [None] when the import or the call fails. *)
Definition graph_configs := val -> val -> val -> option section.

Definition has (k : string) (s : section) : bool := match get k s with Some _ => true | None => false end.
Definition get_true (k : string) (s : section) : bool := match get k s with Some v => truthy v | None => false end.

(** main_sampling.py 37-48; [None] is an exception. *)
Definition graph_part (gc : graph_configs) (ef : config) (c : config) : option config :=
  match get "name" (c_model c), get "graph_type" (c_model c), get "cfg_str" (c_model c) with
  | Some n, Some g, Some s =>
      match gc n g s with
      | Some gm =>
          let c1 := mk (update (c_model c) gm) (c_sampler c) (c_exp c) in
          let c2 := mk (c_model c1) (c_sampler c1) (update (c_exp c1) co_default) in
          let c3 := merge c2 ef in
          match get "num_models" (c_model c3) with
          | Some m => Some (mk (c_model c3) (c_sampler c3) (set "num_models" m (c_exp c3)))
          | None => None
          end
      | None => None
      end
  | _, _, _ => None
  end.

(** main_sampling.py 27-53.  [ef], [mf], [sf] are the values of the flags --config, --model_config and
    --sampler_config. *)
Definition get_main_config (gc : graph_configs) (ef : config) (mf sf : section) : option config :=
  let c0 := common_config in
  let c1 := if (negb (has "graph_type" mf) && negb (has "bert_model" mf))%bool then merge c0 ef else c0 in
  let c2 := mk (update (c_model c1) mf) (update (c_sampler c1) sf) (c_exp c1) in
  match (if get_true "graph_type" (c_model c2) then graph_part gc ef c2 else Some c2) with
  | None => None
  | Some c3 => Some (if get_true "bert_model" (c_model c3) then merge c3 ef else c3)
  end.

(** main_sampling.py 20-24 (a save_dir_name or a model name that is not a string makes the concatenation fail). *)
Definition update_save_dir (run_local : bool) (c : config) : option config :=
  if run_local then
    match (match get "save_dir_name" (c_model c) with Some v => Some v | None => get "name" (c_model c) end) with
    | Some (VStr folder) => Some (mk (c_model c) (c_sampler c) (set "save_root" (VStr ("./discs/results/" ++ folder)) (c_exp c)))
    | _ => None
    end
  else Some c.

(** common/experiment_saver.py 54-71: results['sampler']. *)
Definition sampler_label (s : section) : option string :=
  match get "name" s with
  | Some (VStr name) =>
      let r0 := if has "adaptive" s then "a_" ++ name else name in
      let r1 := match get "solver" s with
                | Some (VStr v) => if String.eqb v "euler_forward" then r0 ++ "f" else r0
                | _ => r0
                end in
      let r2 := match get "balancing_fn_type" s with
                | None => r1
                | Some (VStr v) =>
                    if String.eqb v "RATIO" then r1 ++ "(ratio)"
                    else if String.eqb v "MAX" then r1 ++ "(max)"
                    else if String.eqb v "MIN" then r1 ++ "(min)"
                    else r1 ++ "(sqrt)"
                | Some _ => r1 ++ "(sqrt)"
                end in
      Some r2
  | _ => None
  end.

(** ** Files shipped with the repository, used as concrete cases. *)

(** models/configs/mis_config.py 4-15 (penalty 1.001 is 1001 thousandths). *)
Definition mis_file : section :=
  [("name", VStr "mis"); ("graph_type", VStr "ertest"); ("cfg_str", VStr "r-800"); ("data_root", VStr "./sco/");
   ("penalty", VNum 1001 3); ("save_dir_name", VStr "mis")].

(** models/configs/mis/ertest.py 7-30 for r-800; other modules are not needed by the examples. *)
Definition ertest_configs : graph_configs := fun n g s =>
  match n, g, s with
  | VStr "mis", VStr "ertest", VStr "r-800" =>
      Some [("num_models", VNum 128 0); ("max_num_nodes", VNum 800 0); ("max_num_edges", VNum 47885 0);
            ("num_instances", VNum 128 0); ("num_categories", VNum 2 0); ("shape", VTuple [0%Z]); ("rand_type", VStr "800")]
  | _, _, _ => None
  end.

(** models/configs/mis/satlib.py 6-23, which ignores the configuration string (penalty 1.0001). *)
Definition satlib_section : section :=
  [("num_models", VNum 512 0); ("max_num_nodes", VNum 1347 0); ("max_num_edges", VNum 5978 0); ("num_instances", VNum 500 0);
   ("num_categories", VNum 2 0); ("shape", VTuple [0%Z]); ("rand_type", VStr ""); ("penalty", VNum 10001 4)].
Definition satlib_configs : graph_configs := fun n g _ =>
  match n, g with VStr "mis", VStr "satlib" => Some satlib_section | _, _ => None end.

(** experiment/configs/mis/ertest.py 5-20. *)
Definition ertest_exp : config :=
  mk [] [] [("batch_size", VNum 32 0); ("t_schedule", VStr "exp_decay"); ("chain_length", VNum 50000 0);
            ("log_every_steps", VNum 100 0); ("save_every_steps", VNum 100 0); ("init_temperature", VNum 1 0);
            ("decay_rate", VNum 1 2); ("final_temperature", VNum 1 4); ("save_root", VStr "")].

(** experiment/configs/lm_experiment.py 5-21. *)
Definition lm_exp : config :=
  mk [] [] [("evaluator", VStr "lm_eval"); ("name", VStr "Text_Infilling_Experiment"); ("batch_size", VNum 1 0);
            ("chain_length", VNum 50 0); ("max_n_grams", VNum 4 0); ("num_same_resample", VNum 25 0); ("topk_num", VNum 5 0);
            ("use_topk", VBool false); ("run_parallel", VBool false); ("save_root", VStr "")].

(** models/configs/text_infilling_config.py 5-18. *)
Definition infill_file : section :=
  [("shape", VTuple [4%Z]); ("num_categories", VNum 30522 0); ("name", VStr "text_infilling");
   ("bert_model", VStr "./text_infilling_models/bert-base-uncased"); ("data_root", VStr "./text_infilling_data/");
   ("random_init_sample", VBool false); ("num_of_sentences", VNum 10 0); ("min_sentence_len", VNum 15 0);
   ("max_sentence_len", VNum 25 0); ("save_dir_name", VStr "text_infilling")].

(** samplers/configs/dlmc_config.py 5-16. *)
Definition dlmc_file : section :=
  [("name", VStr "dlmc"); ("adaptive", VBool true); ("target_acceptance_rate", VNum 574 3);
   ("balancing_fn_type", VStr "SQRT"); ("schedule_step", VNum 200 0); ("reset_z_est", VNum 20 0);
   ("solver", VStr "interpolate"); ("n", VNum 30 1)].

(** samplers/configs: the names of the nine shipped samplers (blockgibbs 8, dlmc 7, dmala 7, gibbs 6, gwg 7,
    hammingball 7, locallybalanced 8, path_auxiliary 8, randomwalk 8). *)
Definition shipped_samplers : list string :=
  ["blockgibbs"; "dlmc"; "dmala"; "gibbs"; "gwg"; "hammingball"; "locallybalanced"; "path_auxiliary"; "randomwalk"].
