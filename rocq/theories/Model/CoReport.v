(** Model of how the results of a combinatorial-optimisation run reach the report: experiment/sampling.py 608-616 and 654-657,
    common/experiment_saver.py 121-129 and plot_results/plot_results.py 407-413.
    Simplified: the time of every step is an input; the samples are not read by the report. *)
From Coq Require Import Reals String List Bool Arith.
From Verif.Base Require Import RSum.
From Verif.Model Require Import Launch Experiment GraphRun.
Import ListNotations.
Local Open Scope string_scope.

(** sampling.py 542 (665), 608-616: only the steps of the second loop are timed. *)
Definition mixing_time (L : nat) (ess_ratio : R) (cost : nat -> R) : R :=
  rsum (filter snd (sampling_steps L ess_ratio)) (fun s => cost (fst s)).
(** numpy.mean and numpy.std; [None] is nan, for an empty array. *)
Definition np_mean (l : list R) : option R := match l with [] => None | _ => Some (rsum l (fun v => v) / INR (List.length l))%R end.
Definition np_std (l : list R) : option R :=
  match np_mean l with None => None | Some m => Some (sqrt (rsum l (fun v => (v - m) ^ 2) / INR (List.length l)))%R end.
(** plot_results.py 407-413; [None] is the IndexError of trajectory[-1] when no step was logged. *)
Definition co_results {X} (s : saved X) (time : R) : option (table (option R)) :=
  match rev (s_trajectory s) with
  | [] => None
  | row :: _ => Some [("best_ratio_mean", np_mean (s_best s)); ("running_time", Some (2 * time)%R); ("best_ratio_std", np_std row)]
  end.
