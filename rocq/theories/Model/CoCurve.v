(** Model of the curves of combinatorial-optimisation runs: discs/plot_results/plot_co_through_time.py 31-88 and 181-231.
    Simplified: the numbers on the time axis are exact, but how many there are is computed in doubles; labels, limits, reference lines and
    the drawing (lines 41-48, 66-178) are left out; results.pkl is an input, and the older results.csv (lines 215-226) is left out. *)
From Coq Require Import Reals String List Bool ZArith Arith.
From Coq.Floats Require Import SpecFloat.
From Verif.Model Require Import Launch Report GraphRun CoReport.
Import ListNotations.
Local Open Scope string_scope.

(** ** numpy.arange *)
(** A whole number as a double, and ceil of a positive double. *)
Definition double (z : Z) : spec_float := binary_normalize 53 1024 z 0 false.
Definition ceil_double (f : spec_float) : Z :=
  match f with S754_finite false m e => if (0 <=? e)%Z then (Z.pos m * 2 ^ e)%Z else (- (- Z.pos m / 2 ^ (- e)))%Z | _ => 0%Z end.
(** len(np.arange(0, 1, 1 / n)), which is ceil((1 - 0) / (1 / n)) (plot_co_through_time.py 61). *)
Definition arange_length (n : Z) : Z := ceil_double (SFdiv 53 1024 (double 1) (SFdiv 53 1024 (double 1) (double n))).

(** ** The axes *)
(** plot_co_through_time.py 207-213 and 57: the interval, from the settings of the folder; [to_int] is int(). *)
Definition curve_interval (to_int : string -> option Z) (d : table string) : option nat :=
  match look "log_every_steps" d with None => Some 1000%nat | Some t => option_map Z.to_nat (to_int t) end.
(** plot_co_through_time.py 55-58. *)
Definition curve_steps (log n : nat) : list nat := map (fun i => (1 + i * log)%nat) (seq 0 n).
(** plot_co_through_time.py 60-63; [None] is the ValueError of plt.plot (69-75) for axes of different lengths. *)
Definition curve_times (n : nat) (T : R) : option (list R) :=
  if Z.eqb (arange_length (Z.of_nat n)) (Z.of_nat n) then Some (map (fun i => (INR i / INR n * T)%R) (seq 0 n)) else None.

(** ** The curves *)
(** plot_co_through_time.py 199-205: mean over the instances, and deviation of what is not negative. *)
Definition curve_values (row : list R) : option R * option R := (np_mean row, np_std (map (fun v => Rmax v 0) row)).
(** plot_co_through_time.py 53-88 and 191-231: both curves of a run; [None] is an exception.  Without rows np.mean gives one number, which has no len(). *)
Definition co_curve {X} (to_int : string -> option Z) (d : table string) (s : saved X) (time : R)
  : option (list (nat * (option R * option R)) * list (R * (option R * option R))) :=
  match s_trajectory s with
  | [] => None
  | rows =>
      match curve_interval to_int d, curve_times (List.length rows) (2 * time) with
      | Some log, Some ts => Some (combine (curve_steps log (List.length rows)) (map curve_values rows), combine ts (map curve_values rows))
      | _, _ => None
      end
  end.
