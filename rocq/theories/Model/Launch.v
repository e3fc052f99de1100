(** Model of discs/xm_launcher.py (the jobs of a sweep file and their command lines), of discs/experiment/run_sampling_local.sh,
    and of how experiment/main_sampling.py takes a command line: the files named on it, the overrides of their keys, and the
    merging with the type checks of ConfigDict.

    Simplifications: the text of a number on the command line is read back as the same number; a text given for a number, a
    truth value or a dictionary is refused; a tuple is a tuple of natural numbers written with parentheses; what Python's
    repr prints is a parameter; flags of the launcher that do not begin with "config." play no part; resources, containers
    and the queue of the cluster are outside.  ml_collections (config_flags, ConfigDict) is modelled from its documentation:
    an override of a key the file does not have is refused, a value of another type is refused, an integer is accepted for a
    float. *)
From Coq Require DecimalString.
From Coq Require Import String Ascii List Bool ZArith.
From Verif.Model Require Import Config Utils Tools Loaders.
Import ListNotations.
Local Open Scope string_scope.

(** ** Values with their Python types *)
(** LFloat z s is z / 10^s; the values in discs/run_configs, discs/models/configs, discs/samplers/configs, discs/experiment/configs. *)
Inductive lit := LStr (s : string) | LInt (z : Z) | LFloat (z : Z) (scale : nat) | LBool (b : bool) | LTuple (l : list Z).
(** The value without the distinction of integers and floats, as used in Model/Config.v for main_sampling.py 27-53. *)
Definition to_val (v : lit) : val :=
  match v with LStr s => VStr s | LInt z => VNum z 0 | LFloat z s => VNum z s | LBool b => VBool b | LTuple l => VTuple l end.

(** A Python dictionary: d.get(k) and d[k] = v (xm_launcher.py 148-153). *)
Definition table (V : Type) := list (string * V).
Fixpoint look {V} (k : string) (d : table V) : option V :=
  match d with [] => None | (k', v) :: d' => if String.eqb k k' then Some v else look k d' end.
Fixpoint put {V} (k : string) (v : V) (d : table V) : table V :=
  match d with [] => [(k, v)] | (k', v') :: d' => if String.eqb k k' then (k, v) :: d' else (k', v') :: put k v d' end.
(** d.update(o) (xm_launcher.py 85, 149). *)
Definition put_all {V} (d o : table V) : table V := fold_left (fun d kv => put (fst kv) (snd kv) d) o d.

(** ** The launcher *)
(** A sweep file (discs/run_configs): model, default sampler, graph type, list of sweeps. *)
Record job_config := { j_model : string; j_sampler : string; j_graph : option string; j_sweep : list (table (list lit)) }.

(** xm_launcher.py 58-83: default arguments of all jobs of a sweep file. *)
Definition default_args (j : job_config) : table lit :=
  let a0 := [("model_config", LStr ("/workdir/discs/models/configs/" ++ j_model j ++ "_config.py"));
             ("sampler_config", LStr ("/workdir/discs/samplers/configs/" ++ j_sampler j ++ "_config.py"))] in
  match j_graph j with
  | Some g =>
      if String.eqb g "" then put "config" (LStr "/workdir/discs/common/configs.py") a0
      else put "model_config.data_root" (LStr "/gcs/xcloud-shared/hadai/data/sco")
            (put "model_config.graph_type" (LStr g)
              (put "config" (LStr ("/workdir/discs/experiment/configs/" ++ j_model j ++ "/" ++ g ++ ".py")) a0))
  | None =>
      if String.eqb (j_model j) "text_infilling" then put "config" (LStr "/workdir/discs/experiment/configs/lm_experiment.py") a0
      else put "config" (LStr "/workdir/discs/common/configs.py") a0
  end.
(** xm_launcher.py 85-91 and 122: [extra] are the launcher's own flags that begin with "config.". *)
Definition executable_args (j : job_config) (extra : table lit) (save_dir : string) : table lit :=
  put "config.experiment.save_root" (LStr save_dir) (put_all (default_args j) extra).

(** str.removeprefix as in xm_launcher.py 158-163: [None] when the prefix is not there. *)
Definition after (p s : string) : option string :=
  if prefix p s then Some (substring (String.length p) (String.length s - String.length p) s) else None.
Definition short_key (k : string) : string :=
  match after "config.experiment." k with
  | Some r => r
  | None => match after "model_config." k with Some r => r | None => match after "sampler_config." k with Some r => r | None => k end end
  end.
(** xm_launcher.py 164-166: the last three parts of a path; [None] is the IndexError. *)
Definition short_path (s : string) : option string :=
  match rev (split_on "/"%char (list_ascii_of_string s)) with
  | c :: b :: a :: _ => Some (string_of_list_ascii a ++ "/" ++ string_of_list_ascii b ++ "/" ++ string_of_list_ascii c)
  | _ => None
  end.
Definition short_value (v : lit) : option lit :=
  match v with LStr s => if prefix "/gcs" s then option_map LStr (short_path s) else Some v | _ => Some v end.
(** str.replace('/', '-'), xm_launcher.py 169. *)
Definition dashes (s : string) : string :=
  string_of_list_ascii (map (fun c => if Ascii.eqb c "/"%char then "-"%char else c) (list_ascii_of_string s)).
(** xm_launcher.py 155-169. *)
Fixpoint sweep_parts (repr : lit -> string) (kw : table lit) : option (list string) :=
  match kw with
  | [] => Some []
  | (k, v) :: kw' =>
      match short_value v, sweep_parts repr kw' with
      | Some v', Some ps => Some ((short_key k ++ "=" ++ repr v') :: ps)
      | _, _ => None
      end
  end.
Definition sweep_str (repr : lit -> string) (kw : table lit) : option string :=
  option_map (fun ps => dashes (String.concat "," ps)) (sweep_parts repr kw).
(** The number of a work unit as printed (xm_launcher.py 172). *)
Definition id_text (n : nat) : string := DecimalString.NilZero.string_of_uint (Nat.to_uint n).

(** xm_launcher.py 147-176: the command line of work unit [id] for the swept values [kw]; [None] is an exception. *)
Definition make_job (repr : lit -> string) (j : job_config) (extra : table lit) (save_dir : string) (id : nat) (kw : table lit) : option (table lit) :=
  let a1 := put_all (executable_args j extra save_dir) kw in
  let a2 := match look "sampler_config.name" a1 with
            | Some v => put "sampler_config" (LStr ("/workdir/discs/samplers/configs/" ++ (match v with LStr s => s | _ => repr v end) ++ "_config.py")) a1
            | None => a1
            end in
  match sweep_str repr kw, look "config.experiment.save_root" a2 with
  | Some t, Some (LStr root) => Some (put "config.experiment.save_root" (LStr (root ++ "/" ++ id_text id ++ "_" ++ t)) a2)
  | _, _ => None
  end.

(** xm_launcher.py 178-187 (get_sweeps: Model/Tools.v): all swept values; [None] is an exception (np.hstack of nothing, an
    empty sweep).  The jobs are numbered from 1. *)
Fixpoint all_or_none {A} (l : list (option A)) : option (list A) :=
  match l with [] => Some [] | Some a :: l' => option_map (cons a) (all_or_none l') | None :: _ => None end.
Definition all_sweeps (sweeps : list (table (list lit))) : option (list (table lit)) :=
  match sweeps with [] => None | _ => option_map (@concat (table lit)) (all_or_none (map get_sweeps sweeps)) end.
Definition launch (repr : lit -> string) (j : job_config) (extra : table lit) (save_dir : string) : option (list (table lit)) :=
  match all_sweeps (j_sweep j) with
  | None => None
  | Some l => all_or_none (map (fun nk => make_job repr j extra save_dir (fst nk) (snd nk)) (combine (seq 1 (List.length l)) l))
  end.

(** ** The command line of main_sampling.py *)
(** A file given to --config: the sections of an experiment file (common/configs.py 6-39, experiment/configs). *)
Record lconfig := { l_model : table lit; l_sampler : table lit; l_exp : table lit }.
(** The files by path. *)
Record files := { f_model : table (table lit); f_sampler : table (table lit); f_exp : table lconfig }.

(** A tuple of numbers as text, "(30, 30)" or "(2000,)" (sweep files, model_config.shape). *)
Definition digit (c : ascii) : option Z :=
  let n := nat_of_ascii c in if (Nat.leb 48 n && Nat.leb n 57)%bool then Some (Z.of_nat (n - 48)) else None.
Fixpoint digits (acc : Z) (w : list ascii) : option Z :=
  match w with [] => Some acc | c :: w' => match digit c with Some d => digits (10 * acc + d) w' | None => None end end.
Definition number (w : list ascii) : option Z :=
  match w with [] => None | c :: w' => if Ascii.eqb c " " then match w' with [] => None | _ => digits 0 w' end else digits 0 w end.
Definition tuple_of (s : string) : option (list Z) :=
  match list_ascii_of_string s with
  | o :: r =>
      match rev r with
      | c :: q =>
          if (Ascii.eqb o "(" && Ascii.eqb c ")")%bool then
            let ws := split_on ","%char (rev q) in
            match rev ws with
            | [] :: (w :: ws') => all_or_none (map number (rev (w :: ws')))
            | _ :: _ :: _ => all_or_none (map number ws)
            | _ => None
            end
          else None
      | [] => None
      end
  | [] => None
  end.

(** config_flags: the value [v] on the command line for a key whose value in the file is [old]. *)
Definition as_flag (repr : lit -> string) (old v : lit) : option lit :=
  match old, v with
  | LStr _, LStr _ => Some v
  | LStr _, _ => Some (LStr (repr v))
  | LInt _, LInt _ => Some v
  | LFloat _ _, LInt z => Some (LFloat z 0)
  | LFloat _ _, LFloat _ _ => Some v
  | LBool _, LBool _ => Some v
  | LTuple _, LTuple _ => Some v
  | LTuple _, LStr s => option_map LTuple (tuple_of s)
  | _, _ => None
  end.
(** One override: the key must be in the file. *)
Definition override (repr : lit -> string) (k : string) (v : lit) (s : table lit) : option (table lit) :=
  match look k s with
  | None => None
  | Some old => option_map (fun v' => put k v' s) (as_flag repr old v)
  end.
(** The three flags of main_sampling.py 13-17 after the overrides so far. *)
Record flagged := { g_model : table lit; g_sampler : table lit; g_conf : lconfig }.
Definition with_model (f : flagged) (m : table lit) : flagged := {| g_model := m; g_sampler := g_sampler f; g_conf := g_conf f |}.
Definition with_sampler (f : flagged) (s : table lit) : flagged := {| g_model := g_model f; g_sampler := s; g_conf := g_conf f |}.
Definition with_conf (f : flagged) (c : lconfig) : flagged := {| g_model := g_model f; g_sampler := g_sampler f; g_conf := c |}.
(** One argument; the three that name the files are taken by [open_files]; any other flag is unknown. *)
Definition take_arg (repr : lit -> string) (f : flagged) (kv : string * lit) : option flagged :=
  let (k, v) := kv in
  if (String.eqb k "config" || String.eqb k "model_config" || String.eqb k "sampler_config")%bool then Some f
  else match after "model_config." k with
       | Some r => option_map (with_model f) (override repr r v (g_model f))
       | None =>
       match after "sampler_config." k with
       | Some r => option_map (with_sampler f) (override repr r v (g_sampler f))
       | None =>
       match after "config.experiment." k with
       | Some r => option_map (fun e => with_conf f {| l_model := l_model (g_conf f); l_sampler := l_sampler (g_conf f); l_exp := e |}) (override repr r v (l_exp (g_conf f)))
       | None =>
       match after "config.model." k with
       | Some r => option_map (fun e => with_conf f {| l_model := e; l_sampler := l_sampler (g_conf f); l_exp := l_exp (g_conf f) |}) (override repr r v (l_model (g_conf f)))
       | None =>
       match after "config.sampler." k with
       | Some r => option_map (fun e => with_conf f {| l_model := l_model (g_conf f); l_sampler := e; l_exp := l_exp (g_conf f) |}) (override repr r v (l_sampler (g_conf f)))
       | None => None
       end end end end end.
Fixpoint take_args (repr : lit -> string) (f : flagged) (args : table lit) : option flagged :=
  match args with [] => Some f | kv :: args' => match take_arg repr f kv with Some f' => take_args repr f' args' | None => None end end.
(** main_sampling.py 13-17: the files named by the three flags. *)
Definition find_file {A} (fs : table A) (o : option lit) : option A := match o with Some (LStr p) => look p fs | _ => None end.
Definition open_files (fs : files) (args : table lit) : option flagged :=
  match find_file (f_model fs) (look "model_config" args), find_file (f_sampler fs) (look "sampler_config" args), find_file (f_exp fs) (look "config" args) with
  | Some m, Some s, Some c => Some {| g_model := m; g_sampler := s; g_conf := c |}
  | _, _, _ => None
  end.
Definition read_flags (repr : lit -> string) (fs : files) (args : table lit) : option flagged :=
  match open_files fs args with Some f => take_args repr f args | None => None end.

(** ** Merging with the type checks of ConfigDict (main_sampling.py 27-53) *)
(** The value stored when [v] is assigned to a field holding [old]: same type, a truth value for an integer, an integer for a float. *)
Definition retype (old v : lit) : option lit :=
  match old, v with
  | LStr _, LStr _ | LInt _, LInt _ | LInt _, LBool _ | LFloat _ _, LFloat _ _ | LBool _, LBool _ | LTuple _, LTuple _ => Some v
  | LFloat _ _, LInt z => Some (LFloat z 0)
  | _, _ => None
  end.
Definition assign (k : string) (v : lit) (s : table lit) : option (table lit) :=
  match look k s with
  | None => Some (put k v s)
  | Some old => option_map (fun v' => put k v' s) (retype old v)
  end.
(** section.update(other), main_sampling.py 35, 36, 42, 46. *)
Fixpoint assign_all (s o : table lit) : option (table lit) :=
  match o with [] => Some s | (k, v) :: o' => match assign k v s with Some s' => assign_all s' o' | None => None end end.
Definition lmerge (c o : lconfig) : option lconfig :=
  match assign_all (l_model c) (l_model o), assign_all (l_sampler c) (l_sampler o), assign_all (l_exp c) (l_exp o) with
  | Some m, Some s, Some e => Some {| l_model := m; l_sampler := s; l_exp := e |}
  | _, _, _ => None
  end.

(** common/configs.py 6-39. *)
Definition common_file : lconfig :=
  {| l_model := [("name", LStr ""); ("data_root", LStr "sco")];
     l_sampler := [("name", LStr "")];
     l_exp := [("name", LStr "Sampling_Experiment"); ("evaluator", LStr "ess_eval"); ("num_models", LInt 1);
      ("batch_size", LInt 100); ("chain_length", LInt 100000); ("ess_ratio", LFloat 5 1);
      ("run_parallel", LBool true); ("get_additional_metrics", LBool false); ("shuffle_buffer_size", LInt 0);
      ("log_every_steps", LInt 1000); ("plot_every_steps", LInt 10); ("save_root", LStr "./discs/results");
      ("fig_folder", LStr ""); ("save_every_steps", LInt 10000); ("save_samples", LBool false);
      ("get_estimation_error", LBool false); ("use_tqdm", LBool false); ("co_opt_prob", LBool false);
      ("window_size", LInt 10); ("window_stride", LInt 10)] |}.
(** experiment/configs/co_experiment.py 5-11. *)
Definition co_file : table lit := [("evaluator", LStr "co_eval"); ("name", LStr "CO_Experiment"); ("co_opt_prob", LBool true)].

(** discs/models/configs/<name>/<graph_type>.py get_model_config(cfg_str); [None] when the module is missing or the call raises. *)
Definition graph_modules := lit -> lit -> lit -> option (table lit).
Definition l_has (k : string) (s : table lit) : bool := match look k s with Some _ => true | None => false end.
Definition l_true (k : string) (s : table lit) : bool := match look k s with Some v => truthy (to_val v) | None => false end.

(** main_sampling.py 37-48. *)
Definition l_graph_part (gm : graph_modules) (ef c : lconfig) : option lconfig :=
  match look "name" (l_model c), look "graph_type" (l_model c), look "cfg_str" (l_model c) with
  | Some n, Some g, Some s =>
      match gm n g s with
      | Some sec =>
          match assign_all (l_model c) sec, assign_all (l_exp c) co_file with
          | Some m, Some e =>
              match lmerge {| l_model := m; l_sampler := l_sampler c; l_exp := e |} ef with
              | Some c3 =>
                  match look "num_models" (l_model c3) with
                  | Some k => option_map (fun e' => {| l_model := l_model c3; l_sampler := l_sampler c3; l_exp := e' |}) (assign "num_models" k (l_exp c3))
                  | None => None
                  end
              | None => None
              end
          | _, _ => None
          end
      | None => None
      end
  | _, _, _ => None
  end.
(** main_sampling.py 27-53. *)
Definition l_main_config (gm : graph_modules) (ef : lconfig) (mf sf : table lit) : option lconfig :=
  match (if (negb (l_has "graph_type" mf) && negb (l_has "bert_model" mf))%bool then lmerge common_file ef else Some common_file) with
  | None => None
  | Some c1 =>
      match assign_all (l_sampler c1) sf, assign_all (l_model c1) mf with
      | Some s, Some m =>
          let c2 := {| l_model := m; l_sampler := s; l_exp := l_exp c1 |} in
          match (if l_true "graph_type" m then l_graph_part gm ef c2 else Some c2) with
          | None => None
          | Some c3 => if l_true "bert_model" (l_model c3) then lmerge c3 ef else Some c3
          end
      | _, _ => None
      end
  end.

(** The configuration a command line gives: main_sampling.py 13-17 and 27-53. *)
Definition configure (repr : lit -> string) (gm : graph_modules) (fs : files) (args : table lit) : option lconfig :=
  match read_flags repr fs args with
  | Some f => l_main_config gm (g_conf f) (g_model f) (g_sampler f)
  | None => None
  end.

(** ** experiment/run_sampling_local.sh 4-32 *)
(** The command line for the variables model, sampler and graph_type ([None]: not set), with further [overrides] typed by the
    user after it; --run_local is not a key of the files. *)
Definition local_args (model sampler : string) (graph_type : option string) (overrides : table lit) : table lit :=
  let g := match graph_type with None => "default_value" | Some g => if String.eqb g "" then "default_value" else g end in
  let exp := if String.eqb g "default_value" then "discs/common/configs.py" else "discs/experiment/configs/" ++ model ++ "/" ++ g ++ ".py" in
  let exp := if String.eqb model "text_infilling" then "discs/experiment/configs/lm_experiment.py" else exp in
  ([("model_config", LStr ("discs/models/configs/" ++ model ++ "_config.py")%string);
   ("sampler_config", LStr ("discs/samplers/configs/" ++ sampler ++ "_config.py")%string);
   ("config", LStr exp)] ++ overrides)%list.
