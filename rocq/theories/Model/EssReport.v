(** Model of how the effective sample sizes of a run reach the report: common/experiment_saver.py 80-83, 91-95 and
    plot_results/plot_results.py 372-377, 415-437.
    Simplified: how numpy prints one row of two numbers and how float() reads a text without white space are inputs. *)
From Coq Require Import Reals String Ascii List Bool Arith.
From Verif.Model Require Import Launch Report Experiment EssEval.
Import ListNotations.
Local Open Scope string_scope.

(** ** Writing *)
(** experiment/sampling.py 20, 23-24. *)
Definition parallel (devices : nat) (run_parallel : bool) : bool := (negb (Nat.eqb devices 1) && run_parallel)%bool.
(** experiment/sampling.py 296-297, 303 and 121: under pmap the evaluator gets one array more around the chain, so each of the four
    results has shape (1, 2) in place of (2,); experiment_saver.py 80-83 and 91-95 write str() of it.  [row]: the two numbers as printed. *)
Definition metric_text (par : bool) (row : string) : string := if par then "[[" ++ row ++ "]]" else "[" ++ row ++ "]".

(** ** Reading *)
(** str.strip(), float(): white space of ASCII. *)
Definition blank (c : ascii) : bool := (Nat.eqb (nat_of_ascii c) 32 || ((9 <=? nat_of_ascii c)%nat && (nat_of_ascii c <=? 13)%nat))%bool.
Fixpoint drop_blanks (l : list ascii) : list ascii := match l with c :: l' => if blank c then drop_blanks l' else l | [] => [] end.
Definition strip (s : string) : string := string_of_list_ascii (rev (drop_blanks (rev (drop_blanks (list_ascii_of_string s))))).
Section Reading.
(** float() on a text without white space around it; [None] is the ValueError. *)
Context (to_num : string -> option R).
Definition py_float (s : string) : option R := to_num (strip s).
(** plot_results.py 372-377 [extract_floats]. *)
Definition extract_floats (s : string) : option (R * R) :=
  let t := strip (substring 2 (String.length s - 4) s) in
  match py_float (upto " " t), py_float (past " " t) with Some a, Some b => Some (a, b) | _, _ => None end.
(** plot_results.py 426-433: the factor of ESS_EE. *)
Definition ess_scale (d : table string) : option R :=
  match look "chain_length" d with
  | None => Some 50000%R
  | Some t => option_map (fun f => IZR (Int_part (f / 2))) (py_float t)
  end.
(** plot_results.py 424-437: one row of results.csv, its columns ESS_EE and ESS_T. *)
Definition ess_row (d : table string) (acc : option (table R)) (row : string * string) : option (table R) :=
  match acc, extract_floats (fst row), ess_scale d, extract_floats (snd row) with
  | Some r, Some e, Some f, Some t =>
      Some (put "ess_clock_std" (snd t) (put "ess_clock" (fst t) (put "ess_ee_std" (snd e * f)%R (put "ess_ee" (fst e * f)%R r))))
  | _, _, _, _ => None
  end.
(** plot_results.py 422-437: the whole file. *)
Definition ess_results (d : table string) (rows : list (string * string)) : option (table R) := fold_left (ess_row d) rows (Some []).
(** plot_results.py 396-400 and 415-437: what the tool loads for a folder; a file that cannot be opened is passed over. *)
Definition ess_load (csv : string -> option (list (string * string))) (folder : string) : option (option (table R)) :=
  match csv folder, get_experiment_config folder with
  | None, _ => Some None
  | Some rows, Some d => match process_keys d with Some d' => option_map Some (ess_results (del "save_samples" d') rows) | None => None end
  | Some _, None => None
  end.
End Reading.
