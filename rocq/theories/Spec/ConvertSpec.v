(** Specification vocabulary for the conversion of checkpoints: what the layers compute in each framework. *)
From Coq Require Import Reals List Arith.
From Verif.Base Require Import RSum.
Import ListNotations.
Local Open Scope R_scope.

(** Entry of an image at a position shifted by the padding; zero outside. *)
Definition padded (H W pad : nat) (img : nat -> nat -> R) (y x : nat) : R :=
  if ((pad <=? y) && (y <? H + pad) && (pad <=? x) && (x <? W + pad))%nat%bool then img (y - pad)%nat (x - pad)%nat else 0.

(** torch.nn.Conv2d: images by channel, row, column; weights by output channel, input channel, row, column. *)
Definition torch_conv (I KH KW H W stride pad : nat) (weight : nat -> nat -> nat -> nat -> R) (bias : nat -> R)
    (img : nat -> nat -> nat -> R) (o y x : nat) : R :=
  bias o + rsum (seq 0 I) (fun i => rsum (seq 0 KH) (fun h => rsum (seq 0 KW) (fun w =>
    weight o i h w * padded H W pad (img i) (y * stride + h) (x * stride + w)))).

(** flax.linen.Conv: images by row, column, channel; kernel by row, column, input feature, output feature. *)
Definition flax_conv (I KH KW H W stride pad : nat) (kernel : nat -> nat -> nat -> nat -> R) (bias : nat -> R)
    (img : nat -> nat -> nat -> R) (y x o : nat) : R :=
  rsum (seq 0 KH) (fun h => rsum (seq 0 KW) (fun w => rsum (seq 0 I) (fun i =>
    padded H W pad (fun a b => img a b i) (y * stride + h) (x * stride + w) * kernel h w i o))) + bias o.

(** torch.nn.Linear and flax.linen.Dense. *)
Definition torch_linear (I : nat) (weight : nat -> nat -> R) (bias : nat -> R) (v : nat -> R) (o : nat) : R :=
  rsum (seq 0 I) (fun i => weight o i * v i) + bias o.
Definition flax_dense (I : nat) (kernel : nat -> nat -> R) (bias : nat -> R) (v : nat -> R) (o : nat) : R :=
  rsum (seq 0 I) (fun i => v i * kernel i o) + bias o.

(** The names of the parameters of the torch network the checkpoints come from: an input projection, residual
    blocks with two convolutions and an optional shortcut, a linear output; and the data mean. *)
From Coq Require Import String.
Local Open Scope string_scope.
Inductive torch_name : list string -> Prop :=
| tn_mean : torch_name ["mean"]
| tn_proj p : In p ["weight"; "bias"] -> torch_name ["net"; "proj"; p]
| tn_linear p : In p ["weight"; "bias"] -> torch_name ["net"; "energy_linear"; p]
| tn_block layer m p : In m ["conv1"; "conv2"; "shortcut_conv"] -> In p ["weight"; "bias"] -> torch_name ["net"; "net"; layer; m; p].
