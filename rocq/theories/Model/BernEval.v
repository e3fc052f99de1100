(** Model of evaluators/bernoulli_eval.py: errors of the sampled mean and variance.

    Samples are a list over time of a list over chains of a list of coordinates (the array of shape
    (time, batch, coordinates), model shape flattened).  [None] is a result that is not a number (mean of no
    samples, variance of one sample).  The population mean and variance are those of Model/Factorised.v
    ([bern_expected], [bern_var]); they have no batch axis and are broadcast over the chains. *)
From Coq Require Import Reals List Arith.
From Verif.Base Require Import RSum.
From Verif.Model Require Import Factorised.
Import ListNotations.
Local Open Scope R_scope.

(** bernoulli_eval.py 14 and 29: jnp.mean(samples, axis=0) at one entry; 0/0 without samples. *)
Definition col_mean (c : list R) : option R :=
  match c with [] => None | _ => Some (rsum c (fun v => v) / INR (length c)) end.

(** bernoulli_eval.py 12-18 at one entry; 0/0 with one sample. *)
Definition col_var (c : list R) : option R :=
  match col_mean c with
  | None => None
  | Some m => if Nat.eqb (length c) 1 then None else Some (rsum c (fun v => (v - m) ^ 2) / (INR (length c) - 1))
  end.

(** bernoulli_eval.py 24-25 and 20-22: mean and maximum over all entries of the squared differences. *)
Definition mse (l : list (R * R)) : R := rsum l (fun p => (fst p - snd p) ^ 2) / INR (length l).
Definition max_mse (l : list (R * R)) : R := fold_right (fun p m => Rmax ((fst p - snd p) ^ 2) m) 0 l.

(** The values over time of coordinate [i] of chain [b]. *)
Definition column (samples : list (list (list R))) (b i : nat) : list R :=
  map (fun t => nth i (nth b t []) 0) samples.

(** The entries of the array after the time axis is gone. *)
Definition entries (samples : list (list (list R))) (dim : nat) : list (nat * nat) :=
  list_prod (seq 0 (length (hd [] samples))) (seq 0 dim).

Fixpoint all_some {A} (l : list (option A)) : option (list A) :=
  match l with
  | [] => Some []
  | Some a :: l' => match all_some l' with Some r => Some (a :: r) | None => None end
  | None :: _ => None
  end.

(** bernoulli_eval.py 37-46. *)
Definition compute_error (theta : list R) (samples : list (list (list R))) : option (R * R * R * R) :=
  let es := entries samples (length theta) in
  let mean_p := bern_expected theta in
  let var_p := bern_var theta in
  match all_some (map (fun e => col_mean (column samples (fst e) (snd e))) es),
        all_some (map (fun e => col_var (column samples (fst e) (snd e))) es) with
  | Some ms, Some vs =>
      let pm := combine ms (map (fun e => nth (snd e) mean_p 0) es) in
      let pv := combine (map (fun e => nth (snd e) var_p 0) es) vs in
      Some (mse pm, max_mse pm, mse pv, max_mse pv)
  | _, _ => None
  end.

(** bernoulli_eval.py 57: the last state of the chains, as samples of a single chain. *)
Definition last_samples (samples : list (list (list R))) : list (list (list R)) :=
  map (fun row => [row]) (last samples []).

(** bernoulli_eval.py 48-75. *)
Definition evaluate (theta : list R) (samples : list (list (list R))) : option (list R) :=
  match compute_error theta samples, compute_error theta (last_samples samples) with
  | Some (am, mm, av, mv), Some (aml, _, avl, _) => Some [am; mm; av; mv; aml; avl]
  | _, _ => None
  end.

(** bernoulli_eval.py 89-92: the windows of the mixing plot; the starts are range(0, len, stride). *)
Fixpoint windows {A} (starts : list nat) (chain : list A) (size : nat) : list (list A) :=
  match starts with
  | [] => []
  | start :: starts' =>
      if (length chain - start <? size)%nat then []
      else firstn size (skipn start chain) :: windows starts' chain size
  end.
Definition range_step (n stride : nat) : list nat := map (fun k => (k * stride)%nat) (seq 0 ((n + stride - 1) / stride)).
Definition plot_windows {A} (chain : list A) (size stride : nat) : list (list A) := windows (range_step (length chain) stride) chain size.
