(** Model of discs/evaluators/ess_eval.py and of the chain of mapped samples it is given (experiment/sampling.py 286-304,
    341-346).  tfp.mcmc.effective_sample_size is not part of the repository: it is written here from its documentation with the
    defaults the call at ess_eval.py 36-38 leaves in place (filter_threshold 0, no maximal lag, no pairs, one chain at a time). *)
From Coq Require Import Reals List Arith ZArith.
From Verif.Base Require Import RSum.
From Verif.Model Require Import Experiment.
Import ListNotations.
Local Open Scope R_scope.

(** tfp.stats.auto_correlation(center=True): deviations from the mean of the series. *)
Definition chain_mean (c : list R) : R := rsum c (fun v => v) / INR (length c).
Definition dev (c : list R) (i : nat) : R := nth i c 0 - chain_mean c.
(** ... auto-covariance at lag [k], averaged over the N - k pairs. *)
Definition auto_cov (c : list R) (k : nat) : R :=
  rsum (seq 0 (length c - k)) (fun i => dev c i * dev c (i + k)) / INR (length c - k).
(** auto_cov / auto_cov[:1], for a positive variance. *)
Definition auto_corr (c : list R) (k : nat) : R := auto_cov c k / auto_cov c 0.
(** mask = auto_corr < 0, cumulated: everything from the first negative lag on is dropped. *)
Fixpoint until_negative (r : nat -> R) (ks : list nat) : list nat :=
  match ks with
  | [] => []
  | k :: ks' => if Rlt_dec (r k) 0 then [] else k :: until_negative r ks'
  end.
Definition kept_lags (c : list R) : list nat := until_negative (auto_corr c) (seq 0 (length c)).
(** N / (-1 + 2 * sum (N - k) / N * auto_corr); a constant series gives 0/0, [None]. *)
Definition ess_series (c : list R) : option R :=
  if Req_EM_T (auto_cov c 0) 0 then None
  else Some (INR (length c) / (-1 + 2 * rsum (kept_lags c) (fun k => INR (length c - k) / INR (length c) * auto_corr c k))).

(** ess_eval.py 39: nan_to_num(nan=1.0). *)
Definition ess_chain (c : list R) : R := match ess_series c with Some e => e | None => 1 end.
(** ess_eval.py 40-42: mean and standard deviation over the chains. *)
Definition ess_mean (es : list R) : R := rsum es (fun e => e) / INR (length es).
Definition ess_std (es : list R) : R := sqrt (rsum es (fun e => (e - ess_mean es) ^ 2) / INR (length es)).
(** [rows]: one row of mapped samples per mixing step; one series per chain (axis 0 is time). *)
Definition series (rows : list (list R)) (j : nat) : list R := map (fun row => nth j row 0) rows.
Definition ess_of_chains (B : nat) (rows : list (list R)) : list R := map (fun j => ess_chain (series rows j)) (seq 0 B).
Definition get_ess (B : nat) (rows : list (list R)) : R * R := (ess_mean (ess_of_chains B rows), ess_std (ess_of_chains B rows)).

(** sampling.py 341-346: one distance per chain. *)
Definition map_batch (x0 : list Z) (xs : list (list Z)) : list R := map (mapped_sample x0) xs.
(** ess_eval.py 19-29 with sampling.py 296-305: the whole report for a run. *)
Definition ess_report (L : nat) (ratio : R) (B : nat) (x0 : list Z) (step : nat -> list (list Z) -> list (list Z)) (init : list (list Z))
    (time : R) (calls : nat) : (R * R) * (R * R) * (R * R) * (R * R) :=
  let e := get_ess B (snd (sampling_run L ratio step (map_batch x0) init)) in
  (e, (ess_per_step (fst e) L ratio, ess_per_step (snd e) L ratio), (fst e / time, snd e / time),
   (ess_per_call (fst e) calls ratio, ess_per_call (snd e) calls ratio)).
