(** Model of the training objective: discs/learning/rbm/main_rbm_training.py (RBMTrainer),
    discs/learning/binary_ebm/main_binary_training.py (EBMTrainer) and discs/learning/train.py (Trainer).  [f] is
    model.forward at some parameters.  jax.value_and_grad is taken to be the derivative (trusted). *)
From Coq Require Import Reals List Arith.
From Verif.Base Require Import RSum Dist.
From Verif.Spec Require Import Chain.
From Verif.Model Require Import RBM.
Import ListNotations.
Local Open Scope R_scope.

(** jnp.mean of a vector. *)
Definition avg (l : list R) : R := rsum l (fun v => v) / INR (length l).

(** Element-wise difference of two vectors under broadcasting; [None] is a shape error. *)
Definition vsub (a b : list R) : option (list R) :=
  if Nat.eqb (length a) (length b) then Some (map (fun p => fst p - snd p) (combine a b))
  else match a, b with
       | [u], _ => Some (map (fun v => u - v) b)
       | _, [v] => Some (map (fun u => u - v) a)
       | _, _ => None
       end.

(** main_rbm_training.py 56-66 and main_binary_training.py 46-56: jnp.mean(ll_negative - ll_positive); the mean of an empty
    vector is not a number.  EBMTrainer stores p_control and energy_l2 (39-40) but its loss reads neither. *)
Definition pcd_loss {A} (f : A -> R) (pos neg : list A) : option R :=
  match vsub (map f neg) (map f pos) with
  | Some (v :: l) => Some (avg (v :: l))
  | _ => None
  end.

(** train.py 129-130: jax.lax.pmean of the gradients of the shards. *)
Definition pmean (grads : list R) : R := avg grads.

(** main_rbm_training.py 74-86 (and main_binary_training.py 63-72): the negative samples are the stored chains after pcd_steps
    sampler steps at the current parameters. *)
Definition pcd_batch {A} (step : A -> dist A) (pcd_steps : nat) (xs : list A) : dist (list A) :=
  run_seq (fun _ => batch_step step) pcd_steps 0 xs.

(** rbm.py 42-53 along a line of parameters: weights w + t dw, biases b_v + t db_v and b_h + t db_h. *)
Definition rbm_line (nv nh : nat) (w dw : nat -> nat -> R) (bv dbv bh dbh : nat -> R) (t : R) (v : list nat) : R :=
  rbm_call nv nh (fun i j => w i j + t * dw i j) (fun i => bv i + t * dbv i) (fun j => bh j + t * dbh j) v.
