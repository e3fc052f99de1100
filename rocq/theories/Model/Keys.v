(** The random keys with which the programs draw: experiment/sampling.py, the steps of the samplers, the initialisations of the models.
    A draw is one call of a jax.random function that consumes a key (normal, uniform, bernoulli, categorical, randint, choice, shuffle); what such a
    call derives from its key inside the library is not modelled.  Keys are the derivation terms of Model/Utils.v. *)
From Coq Require Import List Arith Bool.
From Verif.Model Require Import Utils.
Import ListNotations.

(** ** What JAX computes from a derivation (library, trusted) *)
(** The two ways jax.random derives keys with the default threefry generator.  [Original]: jax_threefry_partitionable off (the default before JAX 0.5), every
    split and fold_in of a key is a key of its own.  [FoldLike]: jax_threefry_partitionable on (the default since JAX 0.5), the i-th part of a split is the
    hash of the key and i, whatever the number of parts, and so is fold_in(key, i) (jax/_src/prng.py: _threefry_split_foldlike, _threefry_fold_in). *)
Inductive derivation := Original | FoldLike.
Inductive label := Part (num i : nat) | Folded (data : nat) | Child (i : nat).
Definition part_label (m : derivation) (num i : nat) : label := match m with Original => Part num i | FoldLike => Child i end.
Definition fold_label (m : derivation) (data : nat) : label := match m with Original => Folded data | FoldLike => Child data end.
Fixpoint seed (k : key) : nat := match k with Root s => s | FoldIn k _ => seed k | Split k _ _ => seed k end.
(** Latest derivation first. *)
Fixpoint path (m : derivation) (k : key) : list label :=
  match k with Root _ => [] | FoldIn k d => fold_label m d :: path m k | Split k n i => part_label m n i :: path m k end.
(** The key as a number: two derivations give the same random numbers when their names agree. *)
Definition name (m : derivation) (k : key) : nat * list label := (seed k, path m k).

(** ** One step of a sampler *)
(** common/math_util.py 93-107 (while loop, one draw a round), samplers/hammingball.py 108-121 (one draw a chain): use the first half, go on with the second. *)
Fixpoint loop_keys (k : key) (rounds : nat) : list key :=
  match rounds with O => [] | S r => Split k 2 0 :: loop_keys (Split k 2 1) r end.

Inductive stepper :=
| KGibbs            (* gibbs.py *)
| KBlockGibbs       (* blockgibbs.py 17-72 *)
| KLocallyBalanced  (* locallybalanced.py *)
| KRandomWalk       (* randomwalk.py *)
| KHammingBall (batch : nat)
| KGwg              (* gwg.py, all but the adaptive binary one *)
| KAdaptiveGwg      (* gwg.py 104-118 *)
| KPathAux (many : bool) (* path_auxiliary.py; more than two categories? *)
| KDmala | KDlmc | KRbmGibbs (* blockgibbs.py 75-89 *).

(** The keys of the draws of one call of [step] with key [k]; [rounds]: rounds of the loop of multinomial in the adaptive sampler. *)
Definition step_keys (s : stepper) (rounds : nat) (k : key) : list key :=
  match s with
  (* gibbs.py 50, 56; blockgibbs.py 58, 68; locallybalanced.py 72: one categorical draw with the key of the step *)
  | KGibbs | KBlockGibbs | KLocallyBalanced => [k]
  (* randomwalk.py 28-33, 38-45, 57 *)
  | KRandomWalk => [Split (Split k 2 0) 2 0; Split (Split k 2 0) 2 1; Split k 2 1]
  (* hammingball.py 71-79 (radius; 54-62: value and index of every chain), 108-121 *)
  | KHammingBall batch =>
      Split k 3 0 :: Split (Split k 3 1) 2 1 :: map (Split (Split (Split k 3 1) 2 0) batch) (seq 0 batch) ++ loop_keys (Split k 3 2) batch
  (* gwg.py 26-36, 66-72, 147-152; math_util.py 76-82 *)
  | KGwg => [Split k 2 0; Split k 2 1]
  (* gwg.py 26-36, 114-116; math_util.py 93-118 *)
  | KAdaptiveGwg => loop_keys (Split k 2 0) rounds ++ [Split k 2 1]
  (* path_auxiliary.py 19-29, 106-108 (gumbel noise: math_util.py 24), 112-113, 125-126 *)
  | KPathAux many => Split k 2 0 :: (if many then [Split (Split k 2 0) 2 0] else []) ++ [Split k 2 1]
  (* dmala.py 88, 102, 114, 131, 153; dlmc.py 80, 100, 111, 135, 175; blockgibbs.py 82-84 *)
  | KDmala | KDlmc | KRbmGibbs => [Split k 2 0; Split k 2 1]
  end.

(** ** Initialisation of a model *)
(** fhmm.py 53-57, 134-142: the key of row l is the first half of the key of row l-1. *)
Fixpoint row_keys (k : key) (rows : nat) : list key := match rows with O => [] | S r => Split k 2 0 :: row_keys (Split k 2 0) r end.
Definition sample_x_keys (k : key) (l : nat) : list key := k :: row_keys k (l - 1).

Inductive initialiser :=
| INone                 (* parameters are loaded: deep_ebm.py 29-43, text_infilling.py, the graph models *)
| IOne                  (* bernoulli.py 19, categorical.py 21, ising.py 25, potts.py 33: one draw *)
| IBinaryFhmm (l : nat)  (* fhmm.py 37-49 *)
| ICategFhmm (l : nat)   (* fhmm.py 113-130 *)
| INet                  (* rbm.py 131-133, resnet.py 107-109 *).
(** The keys drawn with in [make_init_params]. *)
Definition init_keys (p : initialiser) (k : key) : list key :=
  match p with
  | INone => []
  | IOne => [k]
  | IBinaryFhmm l => sample_x_keys (Split k 4 0) l ++ [Split k 4 1; Split k 4 2; Split k 4 3]
  | ICategFhmm l => Split k 4 0 :: sample_x_keys (Split k 4 0) l ++ [Split k 4 1; Split k 4 2; Split k 4 3]
  | INet => [Split k 2 0; Split k 2 1]
  end.

(** [get_init_samples]: one draw (bernoulli.py 24, categorical.py 27, ising.py 40, potts.py 50, fhmm.py 67, 105, comb_ebm.py 49, maxcut.py 25, rbm.py 125, resnet.py 101) or,
    normcut.py 33-43, two draws a sample. *)
Inductive starter := POne | PNormcut.
Definition start_keys (p : starter) (num_samples : nat) (k : key) : list key :=
  match p with
  | POne => [k]
  | PNormcut => flat_map (fun i => [Split (Split k num_samples i) 2 0; Split (Split k num_samples i) 2 1]) (seq 0 num_samples)
  end.

(** ** Runs *)
(** sampling.py 250, 288 and 558, 614: burn-in steps, then mixing steps. *)
Definition step_numbers (burn_in_length chain_length : nat) : list nat := seq 1 (burn_in_length - 1) ++ seq burn_in_length (1 + chain_length - burn_in_length).

(** One step with key [k]: one call of [step] with the key, or [n] calls (devices, instances) with its parts. *)
Definition call_keys (s : stepper) (rounds : nat -> nat) (width : option nat) (k : key) : list key :=
  match width with
  | None => step_keys s (rounds 0) k
  | Some n => flat_map (fun i => step_keys s (rounds i) (Split k n i)) (seq 0 n)
  end.
(** rng = fold_in(rng, step) at every step (251-252, 289-290, 561-562, 617-618, 738). *)
Fixpoint chain_keys (s : stepper) (rounds : nat -> nat -> nat) (width : option nat) (k : key) (steps : list nat) : list key :=
  match steps with
  | [] => []
  | t :: ts => call_keys s (rounds t) width (FoldIn k t) ++ chain_keys s rounds width (FoldIn k t) ts
  end.

(** sampling.py 26-46: parameters and initial samples ([make_init_state] draws nothing: abstractsampler.py 34-36). *)
Definition initial_keys (p : initialiser) (num_models : nat) (x : starter) (num_samples : nat) (rnd : key) : list key :=
  init_keys p (Split (Split rnd 3 0) num_models 0) ++ start_keys x num_samples (Split rnd 3 1).

(** Sampling_Experiment (209-346), one model; [devices]: the product of bshape, 1 for the empty shape.
    236-237: the point of the ESS map; 240-246: PRNGKey(10) chooses the saved chains and starts the chain. *)
Definition sampling_keys (p : initialiser) (s : stepper) (rounds : nat -> nat -> nat) (devices : nat) (burn len : nat) (rnd : key) : list key :=
  initial_keys p 1 POne 1 rnd ++ [Split rnd 2 0; Root 10] ++ chain_keys s rounds (Some devices) (Root 10) (step_numbers burn len).

(** CO_Experiment (478-680): one group of instances; [instances]: the product of bshape. *)
Definition co_keys (x : starter) (num_samples : nat) (s : stepper) (rounds : nat -> nat -> nat) (instances : nat) (burn len : nat) (rnd : key) : list key :=
  initial_keys INone 1 x num_samples rnd ++ chain_keys s rounds (Some instances) rnd (step_numbers burn len).

(** EBM_Experiment (683-775); [devices] = None without run_parallel. *)
Definition ebm_keys (p : initialiser) (s : stepper) (rounds : nat -> nat -> nat) (devices : option nat) (len : nat) (rnd : key) : list key :=
  init_keys p (Split rnd 3 0) ++ [Split rnd 3 1] ++ chain_keys s rounds devices rnd (seq 1 len).

(** 186-192: [_get_chains_and_evaluations] takes [rnd_key] and calls [preprocess] with rnd_key=0; 167: PRNGKey. *)
Definition experiment_key (rnd_key : nat) : key := Root 0.
