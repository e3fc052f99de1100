(** The log-density each family of samplers sees when it is run on a lattice model (samplers/*.py with
    models/ising.py, models/potts.py). *)
From Coq Require Import Reals List Arith.
From Verif.Base Require Import RSum Cube.
From Verif.Model Require Import Lattice.
Local Open Scope R_scope.

(** gibbs.py 35, 40 and gwg.py 98-100: a flat row of [h * w] sites seen as an [h, w] array (row-major reshape). *)
Definition unflat (w : nat) (x : list nat) : nat -> nat -> nat := fun i j => nth (i * w + j) x 0%nat.

(** gibbs.py 34/40, blockgibbs.py 49, randomwalk.py 29/31, hammingball.py 102: [model.forward] on the int32 sample. *)
Definition ising_ll_forward (h w : nat) (wh wv b : arr2) (x : list nat) : R :=
  ising_forward as_int h w wh wv b (of_bits (unflat w x)).

(** gwg.py 28/32, path_auxiliary.py 72, dmala.py 59, dlmc.py 51: the value part of [model.get_value_and_grad], which
    converts the sample to float32 first (ising.py 69-70). *)
Definition ising_ll_value_and_grad (h w : nat) (wh wv b : arr2) (x : list nat) : R :=
  ising_forward as_float h w wh wv b (of_bits (unflat w x)).

(** Potts: [forward] on the int32 sample takes the one-hot encoding itself (potts.py 61-62); the gradient samplers
    encode before the call (gwg.py 25, path_auxiliary.py 16, dmala.py 87, dlmc.py 79) and [get_value_and_grad]
    (potts.py 85-86) converts to float32. *)
Definition potts_ll_forward (h w C : nat) (wh wv b : arr3) (x : list nat) : R :=
  potts_forward h w C wh wv b (unflat w x).
Definition potts_ll_value_and_grad (h w C : nat) (wh wv b : arr3) (x : list nat) : R :=
  potts_forward_onehot as_float h w C wh wv b (one_hot2 (unflat w x)).
