(** Model of the start of a program, experiment/main_sampling.py 56-88: the model, sampler, experiment and evaluator are imported by
    name and constructed from the configuration, and the assertions on the number of devices of experiment/sampling.py 48-91 and
    721-725 are made.  Deep models first load the settings stored with their checkpoint (models/deep_ebm.py 27-43).

    Simplifications: a constructor is given by the keys it reads without a default; reading graph files, checkpoints and the
    language model succeeds (the sizes taken from graph files are in Model/Loaders.v); the stored settings are a table per path. *)
From Coq Require Import String List Bool ZArith Reals Arith.
From Verif.Model Require Import Launch FullRun.
Import ListNotations.
Local Open Scope string_scope.

(** ** Settings of the sampler *)
Definition as_str (o : option lit) : option string := match o with Some (LStr s) => Some s | _ => None end.
Definition as_bool (o : option lit) : option bool := match o with Some (LBool b) => Some b | _ => None end.
Definition as_int (o : option lit) : option Z := match o with Some (LInt z) => Some z | _ => None end.
Definition as_nat (o : option lit) : option nat := option_map Z.to_nat (as_int o).
Definition real_of (z : Z) (scale : nat) : R := (IZR z / 10 ^ scale)%R.
Definition as_real (o : option lit) : option R :=
  match o with Some (LFloat z s) => Some (real_of z s) | Some (LInt z) => Some (IZR z) | _ => None end.
(** config.sampler and config.experiment.co_opt_prob as the constructors read them (gibbs.py 14-16, blockgibbs.py 17-19,
    hammingball.py 39-46, randomwalk.py 14-18, gwg.py 14-21, path_auxiliary.py 46-52, dmala.py 68-76, dlmc.py 59-68,
    locallybalanced.py 22-26). *)
Definition sampler_settings (c : lconfig) : option sconf :=
  let s := l_sampler c in
  match as_str (look "name" s), as_bool (look "co_opt_prob" (l_exp c)) with
  | Some n, Some co =>
      Some {| sc_name := n; sc_adaptive := as_bool (look "adaptive" s); sc_target := as_real (look "target_acceptance_rate" s);
              sc_num_flips := as_nat (look "num_flips" s); sc_block_size := as_nat (look "block_size" s);
              sc_balancing := as_str (look "balancing_fn_type" s); sc_fast_path := as_bool (look "use_fast_path" s);
              sc_approx := as_bool (look "approx_with_grad" s); sc_step_size := as_real (look "step_size" s);
              sc_schedule := as_nat (look "schedule_step" s); sc_reset := as_int (look "reset_z_est" s); sc_n := as_real (look "n" s);
              sc_solver := as_str (look "solver" s); sc_co_opt := co |}
  | _, _ => None
  end.

(** ** Keys read without a default *)
Definition has_keys (ks : list string) (s : table lit) : bool := forallb (fun k => l_has k s) ks.
(** bernoulli.py 12-14, categorical.py 13-16, fhmm.py 13-20, ising.py 12-16, potts.py 12-18, comb_ebm.py 13-15 with
    common/utils.py 195-205 and graph_gen.py 9-37, maxclique.py 11-15, maxcut.py 12-15, mis.py 11-15, normcut.py 12-22, rbm.py 107-121,
    resnet.py 84-97 and 138-144, text_infilling.py 17-25; [None]: no such module in discs/models. *)
Definition model_keys (name : string) : option (list string) :=
  let graph := ["graph_type"; "rand_type"; "data_root"; "num_models"; "max_num_nodes"; "max_num_edges"; "shape"] in
  if String.eqb name "bernoulli" then Some ["shape"; "init_sigma"]
  else if String.eqb name "categorical" then Some ["shape"; "init_sigma"; "num_categories"]
  else if String.eqb name "fhmm" then Some ["shape"; "num_categories"; "sigma"; "alpha"; "beta"]
  else if String.eqb name "ising" then Some ["shape"; "lambdaa"; "init_sigma"; "mu"]
  else if String.eqb name "potts" then Some ["shape"; "lambdaa"; "num_categories"; "mu"; "init_sigma"]
  else if String.eqb name "maxclique" then Some graph
  else if String.eqb name "maxcut" then Some graph
  else if String.eqb name "mis" then Some graph
  else if String.eqb name "normcut" then Some (graph ++ ["penalty"; "num_categories"; "tolerance"])%list
  else if String.eqb name "rbm" then Some ["num_visible"; "num_hidden"; "num_categories"; "shape"]
  else if String.eqb name "resnet" then Some ["num_categories"; "shape"; "n_channels"; "image_shape"]
  else if String.eqb name "text_infilling" then Some ["bert_model"; "data_root"; "num_categories"; "random_init_sample"]
  else None.
(** sampling.py 17-207 and the classes at 209, 349, 478, 683; [None]: no such class. *)
Definition experiment_keys (name : string) : option (list string) :=
  let base := ["evaluator"; "num_models"; "batch_size"; "chain_length"; "run_parallel"; "save_root"] in
  if String.eqb name "Sampling_Experiment" then
    Some (base ++ ["ess_ratio"; "get_additional_metrics"; "get_estimation_error"; "save_samples"; "save_every_steps"])%list
  else if String.eqb name "Text_Infilling_Experiment" then
    Some (base ++ ["ess_ratio"; "get_additional_metrics"; "num_same_resample"; "topk_num"; "use_topk"])%list
  else if String.eqb name "CO_Experiment" then
    Some (base ++ ["ess_ratio"; "get_additional_metrics"; "t_schedule"; "init_temperature"; "decay_rate"; "final_temperature";
                   "log_every_steps"; "save_samples"])%list
  else if String.eqb name "EBM_Experiment" then Some base
  else None.
(** discs/evaluators: ess_eval.py 11-50, co_eval.py 9-14, lm_eval.py 104-123 (max_n_grams), bernoulli_eval.py 86-98. *)
Definition evaluator_keys (name : string) : option (list string) :=
  if String.eqb name "ess_eval" then Some ["ess_ratio"; "chain_length"]
  else if String.eqb name "co_eval" then Some []
  else if String.eqb name "lm_eval" then Some ["max_n_grams"]
  else if String.eqb name "bernoulli_eval" then Some ["window_stride"; "window_size"]
  else None.

(** ** Checkpoints *)
(** The model settings stored in config.yaml, by data_path; [None]: the path does not exist. *)
Definition checkpoints := string -> option (table lit).
Definition deep (name : string) : bool := (String.eqb name "rbm" || String.eqb name "resnet")%bool.
(** deep_ebm.py 13-16 and 27-43: config.update of the model section, with the type checks; [None] is an exception. *)
Definition load_settings (ck : checkpoints) (m : table lit) : option (table lit) :=
  match look "data_path" m with
  | Some (LStr p) => if String.eqb p "" then Some m else match ck p with Some y => assign_all m y | None => None end
  | Some _ => None
  | None => Some m
  end.
(** rbm.py 206-212, resnet.py 155-160: the class is chosen by num_categories before the checkpoint is read; true = the binary class;
    [None] is an exception (resnet.py 155-160 gives no object for more than two categories, rbm.py 211 asserts). *)
Definition binary_class (name : string) (m : table lit) : option bool :=
  match look "num_categories" m with
  | Some (LInt z) => if Z.eqb z 2 then Some true else if (Z.ltb 2 z && String.eqb name "rbm")%bool then Some false else None
  | _ => None
  end.
(** The model section after main_sampling.py 61-62, and for deep models the class. *)
Definition build_model (ck : checkpoints) (m : table lit) : option (table lit * option bool) :=
  match as_str (look "name" m) with
  | None => None
  | Some n =>
      match model_keys n with
      | None => None
      | Some ks =>
          if deep n then
            match binary_class n m, load_settings ck m with
            | Some b, Some m' => if has_keys ks m' then Some (m', Some b) else None
            | _, _ => None
            end
          else if has_keys ks m then Some (m, None) else None
      end
  end.

(** ** Devices *)
(** xm_launcher.py 57, 83, 85-89: GPUs of a job. *)
Definition gpus (j : job_config) : nat :=
  let n := match j_graph j with
           | Some g => if String.eqb g "" then 4 else 8
           | None => if String.eqb (j_model j) "text_infilling" then 8 else 4
           end in
  match j_graph j with
  | Some g => if (String.eqb (j_model j) "maxcut" && String.eqb g "optsicom")%bool then 2 else n
  | None => n
  end.
(** sampling.py 23-24, 51-91, 721-723: the assertions for [d] local devices. *)
Definition devices_fit (d : nat) (exp : string) (e : table lit) : bool :=
  match as_bool (look "run_parallel" e), as_nat (look "batch_size" e), as_nat (look "num_models" e), as_str (look "evaluator" e) with
  | Some par, Some b, Some m, Some ev =>
      if (Nat.eqb d 1 || negb par)%bool then true
      else if (negb (String.eqb exp "EBM_Experiment") && String.eqb ev "co_eval" && Nat.leb d m)%bool then Nat.eqb (m mod d) 0
      else Nat.eqb (b mod d) 0
  | _, _, _, _ => false
  end.

(** ** main_sampling.py 56-88 *)
Record started_run := { r_model : string; r_section : table lit; r_class : option bool; r_sampler : sampler; r_experiment : string; r_evaluator : string }.
Definition start (ck : checkpoints) (d : nat) (c : lconfig) : option started_run :=
  match as_str (look "name" (l_model c)), build_model ck (l_model c), sampler_settings c,
        as_str (look "name" (l_exp c)), as_str (look "evaluator" (l_exp c)) with
  | Some n, Some (m, cl), Some sc, Some x, Some ev =>
      match as_nat (look "num_categories" m), look "shape" m with
      | Some C, Some _ =>
          match build_sampler sc C, experiment_keys x, evaluator_keys ev with
          | Some k, Some xk, Some evk =>
              if (has_keys xk (l_exp c) && has_keys evk (l_exp c) && devices_fit d x (l_exp c))%bool
              then Some {| r_model := n; r_section := m; r_class := cl; r_sampler := k; r_experiment := x; r_evaluator := ev |} else None
          | _, _, _ => None
          end
      | _, _ => None
      end
  | _, _, _, _, _ => None
  end.
