(** What a run over many graph instances should report.  Of the model only the record of settings is used. *)
From Coq Require Import Reals List Arith.
From Verif.Spec Require Import GraphSpec.
From Verif.Model Require Import GraphRun.
Import ListNotations.

(** The steps at which values are looked at: the multiples of [log] up to [L]. *)
Definition looked_at (log L t : nat) : Prop := (1 <= t <= L)%nat /\ Nat.divide log t.
(** [best] is the largest of the values seen, relative to [ref]; -10^9 stands for "nothing better seen". *)
Definition best_seen (ref best : R) (seen : R -> Prop) : Prop :=
  (forall v, seen v -> (v / ref <= best)%R) /\ (best = (- 10 ^ 9)%R \/ exists v, seen v /\ best = (v / ref)%R).
(** The samples of the [j]-th instance of a group among all [b] chains of every instance, listed instance by instance. *)
Definition shown {X} (log L b j : nat) (visits : nat -> list X) (t : nat) (x : X) : Prop :=
  looked_at log L t /\ exists c, (c < b)%nat /\ nth_error (visits t) (j * b + c) = Some x.
(** Their values, [value T x] being that of a sample at a temperature. *)
Definition seen {X} (value : R -> X -> R) (temperature : nat -> R) (log L b j : nat) (visits : nat -> list X) (v : R) : Prop :=
  exists t x, shown log L b j visits t x /\ v = value (temperature t) x.
(** The instances are worked off in groups of [m]; [o] is the first of the last group. *)
Definition last_group (n m o : nat) : Prop := Nat.divide m o /\ (o < n <= o + m)%nat.
(** How chains and instances may be spread over [d] devices: not at all, or the instances evenly; or the chains evenly when there is a
    single instance altogether. *)
Definition spreads (parallel : bool) (d batch models instances : nat) : Prop :=
  parallel = false \/ d = 1%nat \/ (0 < d /\ Nat.divide d models)%nat \/ (0 < d /\ Nat.divide d batch /\ models = 1 /\ instances = 1)%nat.

(** A reported number for a problem "find a large feasible node set", relative to [ref]: at least what every feasible sample shows,
    and backed by a feasible set inside a sample. *)
Definition honest (feasible : list nat -> Prop) (n : nat) (ref best : R) (sample : (nat -> bool) -> Prop) : Prop :=
  (forall x, sample x -> feasible (selected n x) -> (INR (length (selected n x)) / ref <= best)%R) /\
  exists x S, sample x /\ feasible S /\ incl S (selected n x) /\ (best <= INR (length S) / ref)%R.

(** Temperatures of a run are positive. *)
Definition heated (temperature : nat -> R) : Prop := forall t, (0 < temperature t)%R.
(** Settings with which a run of CO_Experiment on [d] devices works and its values mean something: steps are looked at, there are chains
    and instances, the instances spread evenly over the devices, temperatures are positive, violating a constraint costs at least what
    a node brings. *)
Definition ready (d : nat) (k : co_conf) (penalty : R) : Prop :=
  (0 < k_log k <= k_length k)%nat /\ (0 < k_batch k)%nat /\ (0 < k_models k)%nat /\ k_group k = k_models k /\ (0 <= k_ratio k <= 1)%R /\
  (0 < d /\ Nat.divide d (k_models k))%nat /\ heated (k_schedule k) /\ (1 <= penalty)%R.
(** The samples the reported number of the [i]-th instance is computed from, [o] being the first of the last group. *)
Definition samples {X} (k : co_conf) (o : nat) (visits : nat -> nat -> list X) (i : nat) (x : X) : Prop :=
  exists t, shown (k_log k) (k_length k) (k_batch k) (i - o) (visits (o / k_models k)%nat) t x.
(** The requirements on the settings for a run over [n] instances on [d] devices. *)
Definition works (d : nat) (k : co_conf) (n : nat) : Prop :=
  (0 < k_log k <= k_length k)%nat /\ (0 < k_batch k)%nat /\ (0 < k_models k)%nat /\ k_group k = k_models k /\ (0 <= k_ratio k <= 1)%R /\
  spreads (k_parallel k) d (k_batch k) (k_models k) n /\ heated (k_schedule k).
(** What is sampled and fed in: a data set of at most [n] instances, and samples for all chains of all instances of a group. *)
Definition fed {A X} (k : co_conf) (n : nat) (gs : list A) (visits : nat -> nat -> list X) : Prop :=
  gs <> [] /\ (length gs <= n)%nat /\ forall q t, length (visits q t) = (k_models k * k_batch k)%nat.
