(** Model of a whole run of EBM_Experiment (experiment/sampling.py 683-775): an image model is annealed from its pixel means to its full
    energy, any sampler object moves the samples, and the logarithm of the mean importance weight is kept after every step. *)
From Coq Require Import Reals List Arith.
From Verif.Base Require Import RSum Dist.
From Verif.Model Require Import FullRun Experiment GraphRun.
Import ListNotations.
Local Open Scope R_scope.

(** models/resnet.py 111-133 at temperature step [t] of [L] (sampling.py 690, 750-755), binary pixels; [net]: the output of the network,
    [grad t]: the gradient array at that temperature, [guard]: the 1e-20 of line 116-117. *)
Definition ais_target (guard : R) (net : list nat -> R) (mean : option (list R)) (grad : nat -> list nat -> nat -> R) (d L t : nat) : target :=
  {| t_fw := ebm_forward net (match mean with Some m => Some (base_logprob guard m) | None => None end) (Some (INR t / INR L));
     t_grad := grad t; t_lr := fun _ _ => 0; t_sig := None; t_mask := None; t_dim := d; t_C := 2 |}.

(** resnet.py 84-102 and 143-149 with rbm.py 173-179. *)
Definition ais_start (mean : option (list R)) (d : nat) : dist (list nat) := match mean with Some m => init_samples m | None => init_half d end.

(** The samples, the state and the log-weights of one device. *)
Definition dev : Type := (list (list nat) * sstate) * list R.
(** sampling.py 749-766 on one device: the weights take the new energy minus the old one of the samples before the move. *)
Definition dev_weights (old new : target) (o : dev) : list R :=
  map (fun p => snd p + t_fw new (fst p) - t_fw old (fst p)) (combine (fst (fst o)) (snd o)).
Definition dev_step (guard dg : R) (old new : target) (k : sampler) (o : dev) : dist dev :=
  dmap (fun o' => (o', dev_weights old new o)) (sampler_step guard dg new k (fst o)).
(** sampling.py 746-773 for [n] steps after step [t]: the list logz_finals.  768-772: all weights, in the order of the devices. *)
Fixpoint ais_values (guard dg : R) (T : nat -> target) (k : sampler) (n t : nat) (ds : list dev) : dist (list R) :=
  match n with
  | O => ret []
  | S n' => bind (indep (map (dev_step guard dg (T t) (T (S t)) k) ds)) (fun ds' =>
              dmap (cons (logz (concat (map snd ds')))) (ais_values guard dg T k n' (S t) ds'))
  end.

(** sampling.py 707-716, 741-744: the batch on the devices, the state on each of them, weights zero; a batch size that is not a multiple
    of the number of devices fails.  [devices] = None without run_parallel. *)
Definition deal (k : sampler) (devices : option nat) (B : nat) (xs : list (list nat)) : option (list dev) :=
  match devices with
  | None => Some [((xs, init_state k), repeat 0 B)]
  | Some n => if Nat.eqb (B mod n) 0 then Some (map (fun i => ((row (B / n) i xs, init_state k), repeat 0 (B / n))) (seq 0 n)) else None
  end.
(** What saver.save_logz (775) receives, for chain_length [L] and batch_size [B]. *)
Definition ais_experiment (guard dg lg : R) (net : list nat -> R) (mean : option (list R)) (grad : nat -> list nat -> nat -> R) (d : nat)
    (k : sampler) (devices : option nat) (B L : nat) : dist (list R) :=
  bind (init_batch B (ais_start mean d)) (fun xs =>
    match deal k devices B xs with
    | Some ds => ais_values guard dg (ais_target lg net mean grad d L) k L 0 ds
    | None => []
    end).
