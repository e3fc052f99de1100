(** Model of discs/models/rbm.py and of the RBM block sampler, one chain.  Arrays of the network are functions of indices;
    a visible or hidden vector is a list of 0/1 (binary) or category numbers (categorical visible). *)
From Coq Require Import Reals List Arith.
From Verif.Base Require Import RSum Cube Dist.
Import ListNotations.
Local Open Scope R_scope.

(** jax.nn.softplus and jax.nn.sigmoid. *)
Definition softplus (z : R) : R := ln (1 + exp z).
Definition sigmoid (z : R) : R := exp z / (1 + exp z).
(** Entry of a sample as a float. *)
Definition at_ (v : list nat) (i : nat) : R := INR (nth i v 0%nat).

(** jax.random.bernoulli on a vector of probabilities. *)
Definition bern_vec (ps : list R) : dist (list nat) := indep (map (fun p => dmap (fun b : bool => if b then 1%nat else 0%nat) (bernoulli p)) ps).

Section Binary.
Variables (nv nh : nat) (w : nat -> nat -> R) (b_v b_h : nat -> R).
(** rbm.py 51, 56: v @ w + b_h. *)
Definition pre_h (v : list nat) (j : nat) : R := rsum (seq 0 nv) (fun i => at_ v i * w i j) + b_h j.
(** 60: h @ w.T + b_v. *)
Definition pre_v (h : list nat) (i : nat) : R := rsum (seq 0 nh) (fun j => at_ h j * w i j) + b_v i.
(** 42-53 [NNBinary.__call__]. *)
Definition rbm_call (v : list nat) : R :=
  rsum (seq 0 nh) (fun j => softplus (pre_h v j)) + rsum (seq 0 nv) (fun i => at_ v i * b_v i).
(** 55-57 and 59-61. *)
Definition step_h (v : list nat) : dist (list nat) := bern_vec (map (fun j => sigmoid (pre_h v j)) (seq 0 nh)).
Definition step_v (h : list nat) : dist (list nat) := bern_vec (map (fun i => sigmoid (pre_v h i)) (seq 0 nv)).
(** discs/samplers/blockgibbs.py 81-85 [RBMBlockGibbsSampler.step]. *)
Definition rbm_block_step (v : list nat) : dist (list nat) := bind (step_h v) step_v.
End Binary.

(** 24-28: the initial visible bias from the data mean. *)
Definition bias_from_mean (m : R) : R := ln (m / (1 - m)).

Section Categ.
Variables (nv nh C : nat) (w : nat -> nat -> nat -> R) (b_v : nat -> nat -> R) (b_h : nat -> R).
(** jax.nn.one_hot of the sample, 133-135. *)
Definition hot (v : list nat) (i c : nat) : R := if Nat.eqb (nth i v 0%nat) c then 1 else 0.
(** 94-102 [NNCategorical.__call__]. *)
Definition cat_pre (v : list nat) (j : nat) : R := rsum (seq 0 nv) (fun i => rsum (seq 0 C) (fun c => hot v i c * w j i c)) + b_h j.
Definition cat_rbm_call (v : list nat) : R :=
  rsum (seq 0 nh) (fun j => softplus (cat_pre v j)) + rsum (seq 0 nv) (fun i => rsum (seq 0 C) (fun c => hot v i c * b_v i c)).
End Categ.

(** Shape of  expand_dims(v, -3) * w  in 94-102 when the network is initialised, 123-128: there v holds the categories themselves,
    shape (1, num_visible), so the product broadcasts (1, 1, num_visible) against (num_hidden, num_visible, num_categories).
    Broadcasting of two dimensions; [None] is a shape error. *)
Definition bcast (a b : nat) : option nat := if Nat.eqb a b then Some a else if Nat.eqb a 1 then Some b else if Nat.eqb b 1 then Some a else None.
Fixpoint bcast_shape (a b : list nat) : option (list nat) :=
  match a, b with
  | [], [] => Some []
  | x :: a', y :: b' => match bcast x y, bcast_shape a' b' with Some z, Some s => Some (z :: s) | _, _ => None end
  | _, _ => None
  end.
Definition cat_init_shape (nv nh C : nat) : option (list nat) := bcast_shape [1; 1; nv]%nat [nh; nv; C].
