(** Model of the experiment loops, discs/experiment/sampling.py, discs/evaluators/ess_eval.py and
    discs/common/experiment_saver.py. *)
From Coq Require Import String Reals List Arith ZArith.
From Verif.Base Require Import RSum Dist.
Import ListNotations.
Local Open Scope R_scope.

(** ** Loop structure *)
(** Python's int() on a non-negative real. *)
Definition int_of (r : R) : nat := Z.to_nat (up r - 1).
(** sampling.py 240: int(chain_length * ess_ratio) + 1.  (The product is a double in Python; here a real.) *)
Definition burn_in_length (L : nat) (ess_ratio : R) : nat := int_of (INR L * ess_ratio) + 1.
(** Python range(a, b). *)
Definition range (a b : nat) : list nat := seq a (b - a).
(** sampling.py 241-293: the steps performed in order, with the flag "appended to the ESS chain". *)
Definition sampling_steps (L : nat) (ess_ratio : R) : list (nat * bool) :=
  let b := burn_in_length L ess_ratio in
  map (fun s => (s, false)) (range 1 b) ++ map (fun s => (s, true)) (range b (1 + L)).
(** sampling.py 251-255 and 277-281: steps whose samples are saved. *)
Definition saved_steps (L save_every : nat) (ess_ratio : R) : list nat :=
  filter (fun s => Nat.eqb (s mod save_every) 0) (map fst (sampling_steps L ess_ratio)).
(** The run itself: any transition, x threaded through; the ESS chain collects the mapped new samples (286-292). *)
Definition sampling_run {X Y} (L : nat) (ess_ratio : R) (step : nat -> X -> X) (mapped : X -> Y) (x0 : X) : X * list Y :=
  fold_left (fun (acc : X * list Y) (s : nat * bool) =>
      let x' := step (fst s) (fst acc) in
      (x', if snd s then snd acc ++ [mapped x'] else snd acc))
    (sampling_steps L ess_ratio) (x0, []).

(** ess_eval.py 11-29: ESS per M-H step and per likelihood call. *)
Definition ess_per_step (ess : R) (L : nat) (ess_ratio : R) : R := ess / (INR L * ess_ratio).
Definition ess_per_call (ess : R) (num_ll_calls : nat) (ess_ratio : R) : R := ess / (INR num_ll_calls * ess_ratio).

(** sampling.py 142-147 [_get_hop]: batch of integer samples. *)
Definition get_hop (batch_size num_models : nat) (x new_x : list (list Z)) : R :=
  rsum (combine x new_x) (fun rr => rsum (combine (fst rr) (snd rr)) (fun ab => Rabs (IZR (fst ab) - IZR (snd ab))))
  / INR batch_size / INR num_models.
(** sampling.py 341-346 [_get_mapped_samples]: distance to a reference sample. *)
Definition mapped_sample (x0 x : list Z) : R := rsum (combine x x0) (fun ab => Rabs (IZR (fst ab) - IZR (snd ab))).

(** ** Combinatorial optimisation bookkeeping, one instance *)
(** jnp.max over the chains of an instance. *)
Fixpoint lmax (d : R) (l : list R) : R := match l with [] => d | [v] => v | v :: l' => Rmax v (lmax d l') end.
(** jnp.argmax: the first index of the maximum. *)
Fixpoint argmax_from (k : nat) (best : R) (besti : nat) (l : list R) : nat :=
  match l with
  | [] => besti
  | v :: l' => if Rlt_dec best v then argmax_from (S k) v k l' else argmax_from (S k) best besti l'
  end.
Definition argmax (l : list R) : nat := match l with [] => 0%nat | v :: l' => argmax_from 1 v 0 l' end.

Section Book.
Variable X : Type.
(** sampling.py 568-593 (and 618-643): state (best_ratio, best_sample), one logged step with the evaluations of the chains
    and the chains themselves. *)
Definition co_update (ref : R) (dflt : X) (st : R * X) (step : list R * list X) : R * X :=
  let ratio := lmax 0 (fst step) / ref in
  let is_better := if Rlt_dec (fst st) ratio then true else false in
  (Rmax ratio (fst st), if is_better then nth (argmax (fst step)) (snd step) dflt else snd st).
(** sampling.py 659-680: start values. *)
Definition co_init (zeros : X) : R * X := (- IZR 1000000000, zeros).
(** A run over all steps 1..; only multiples of log_every_steps are evaluated. *)
Definition co_logged (log_every : nat) (steps : list (nat * (list R * list X))) : list (list R * list X) :=
  map snd (filter (fun s => Nat.eqb (fst s mod log_every) 0) steps).
Definition co_run (ref : R) (zeros : X) (log_every : nat) (steps : list (nat * (list R * list X))) : R * X :=
  fold_left (co_update ref zeros) (co_logged log_every steps) (co_init zeros).
(** The trajectory of best ratios appended to [chain]. *)
Fixpoint co_trace (ref : R) (zeros : X) (st : R * X) (ls : list (list R * list X)) : list R :=
  match ls with [] => [] | s :: ls' => let st' := co_update ref zeros st s in fst st' :: co_trace ref zeros st' ls' end.
End Book.
Arguments co_update {X}. Arguments co_init {X}. Arguments co_logged {X}. Arguments co_run {X}. Arguments co_trace {X}.

(** ** Saving *)
(** A directory: file name to content; experiment_saver.py 24-33 opens '<key>.pkl' for writing, replacing it. *)
Definition dir (A : Type) := string -> option A.
Definition dump {A} (d : dir A) (key : string) (v : A) : dir A := fun k => if String.eqb k key then Some v else d k.
(** sampling.py 481-484 and 652-657 with experiment_saver.py 121-129: every batch is saved under the key 'results'. *)
Definition save_batches {A} (d : dir A) (batches : list A) : dir A := fold_left (fun d b => dump d "results" b) batches d.

(** ** Temperature schedules, sampling.py 504-522; the two optax schedules by their documentation *)
Definition constant_schedule (init : R) (step : nat) : R := INR step * 0 + init.
(** optax.linear_schedule(init, end, transition_steps) *)
Definition linear_schedule (init final : R) (L step : nat) : R :=
  if Nat.leb L 0 then init else (init - final) * (1 - INR (Nat.min step L) / INR L) + final.
(** optax.exponential_decay(init, transition_steps, decay_rate, end_value) *)
Definition exp_schedule (init final decay : R) (L step : nat) : R :=
  if Nat.leb L 0 then init
  else if Req_EM_T decay 0 then init
  else
    let decayed := if Nat.leb step 0 then init else init * Rpower decay (INR step / INR L) in
    if Rlt_dec decay 1 then Rmax decayed final else Rmin decayed final.

(** ** Annealed importance sampling, sampling.py 724-775, one chain *)
Section AIS.
Variable A : Type.
(** 747-766: the weight is updated with the new temperature before the move. [f t] is the energy at temperature t/L. *)
Definition ais_step (f_old f_new : A -> R) (K : A -> dist A) (s : A * R) : dist (A * R) :=
  let lw := snd s + f_new (fst s) - f_old (fst s) in dmap (fun x' => (x', lw)) (K (fst s)).
Fixpoint ais_run (f : nat -> A -> R) (K : nat -> A -> dist A) (n t : nat) (s : A * R) : dist (A * R) :=
  match n with
  | O => ret s
  | S n' => bind (ais_step (f t) (f (S t)) (K (S t)) s) (ais_run f K n' (S t))
  end.
(** The chain from an initial law, weight 0 (735). *)
Definition ais_chain (init : dist A) (f : nat -> A -> R) (K : nat -> A -> dist A) (n : nat) : dist (A * R) :=
  bind init (fun x => ais_run f K n 0 (x, 0)).
End AIS.
Arguments ais_step {A}. Arguments ais_run {A}. Arguments ais_chain {A}.
(** 768-772: logsumexp(log_w) - log(batch_size). *)
Definition logz (log_w : list R) : R := ln (rsum log_w exp) - ln (INR (List.length log_w)).

(** resnet.py 111-123 [ImageEBM.forward] given the network output and the base log-probability; the temperature enters only
    when data_mean is present. *)
Definition ebm_forward {A} (net : A -> R) (base : option (A -> R)) (beta : option R) (x : A) : R :=
  match base with
  | None => net x
  | Some b => match beta with None => net x + b x | Some t => b x * (1 - t) + (net x + b x) * t end
  end.
(** resnet.py 115-117, the guard 1e-20 as a parameter. *)
Definition base_logprob (guard : R) (mean : list R) (x : list nat) : R :=
  rsum (combine x mean) (fun p => INR (fst p) * ln (snd p + guard) + (1 - INR (fst p)) * ln (1 + (- snd p + guard))).
(** resnet.py 91-94 with rbm.py 173-179 [build_init_dist]: every pixel is 1 with probability its data mean. *)
Definition init_samples (mean : list R) : dist (list nat) := indep (map (fun m => dmap (fun b : bool => if b then 1%nat else 0%nat) (bernoulli m)) mean).
