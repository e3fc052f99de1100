(** Model of discs/models/resnet.py: the residual network of the binary image model, for one image, from the flattened parameter
    dictionary (as pt2params.py 34 and 73 see it).  Real numbers; nn.Conv, nn.Dense and nn.activation.swish are written out after
    the flax documentation; [None]: an exception (missing parameter, wrong shape).
    Simplifications: an image smaller than the kernel counts as an exception; arrays that JAX would broadcast in the addition of
    the two branches (a dimension of size 1 against another) count as an exception; [conv3x3] and the shortcut with negative
    stride (15-18, 45-48), which the network never asks for, are left out. *)
From Coq Require Import Reals String List Arith Bool.
From Verif.Base Require Import RSum XFloat.
From Verif.Model Require Import Convert Experiment.
Import ListNotations.
Local Open Scope R_scope.

(** Height, width, channels and entries of one image of the batch. *)
Record tensor := { rows : nat; cols : nat; chans : nat; val : nat -> nat -> nat -> R }.

Definition ob {A B} (o : option A) (f : A -> option B) : option B := match o with Some a => f a | None => None end.

(** nn.activation.swish: x * sigmoid(x). *)
Definition swish (x : R) : R := x * / (1 + exp (- x)).
Definition map_val (f : R -> R) (x : tensor) : tensor := {| rows := rows x; cols := cols x; chans := chans x; val := fun r c i => f (val x r c i) |}.

(** Number of positions of a kernel of size [k] with step [stride] in [n] pixels with [pad] zeros on both sides. *)
Definition out_size (k pad stride n : nat) : nat := ((n + 2 * pad - k) / stride + 1)%nat.
Definition at_padded (x : tensor) (pad r c i : nat) : R :=
  if ((pad <=? r) && (r <? rows x + pad) && (pad <=? c) && (c <? cols x + pad))%nat then val x (r - pad)%nat (c - pad)%nat i else 0.
(** resnet.py 19-25 [conv3x3] and 49-52 (the shortcut: kernel 1, default padding SAME, which is no padding for kernel 1):
    nn.Conv with its parameters; a parameter of another shape raises. *)
Definition conv (features k stride pad : nat) (kernel bias : arr) (x : tensor) : option tensor :=
  if (shape_eqb (shape kernel) [k; k; chans x; features] && shape_eqb (shape bias) [features]
      && (k <=? rows x + 2 * pad) && (k <=? cols x + 2 * pad))%nat
  then Some {| rows := out_size k pad stride (rows x); cols := out_size k pad stride (cols x); chans := features;
               val := fun r c o => rsum (seq 0 k) (fun h => rsum (seq 0 k) (fun w => rsum (seq 0 (chans x)) (fun i =>
                        at_padded x pad (r * stride + h) (c * stride + w) i * at_ kernel [h; w; i; o]))) + at_ bias [o] |}
  else None.
Definition conv_named (ps : params) (path : list string) (features k stride pad : nat) (x : tensor) : option tensor :=
  match lookup (path ++ ["kernel"%string]) ps, lookup (path ++ ["bias"%string]) ps with
  | Some kernel, Some bias => conv features k stride pad kernel bias x
  | _, _ => None
  end.
(** 54, 56: the sum of two arrays. *)
Definition add (x y : tensor) : option tensor :=
  if (Nat.eqb (rows x) (rows y) && Nat.eqb (cols x) (cols y) && Nat.eqb (chans x) (chans y))%nat
  then Some {| rows := rows x; cols := cols x; chans := chans x; val := fun r c i => val x r c i + val y r c i |} else None.

(** 37-58 [BasicBlock.__call__] (expansion 1, out_nonlin True); flax names the two convolutions Conv_0 and Conv_1. *)
Definition needs_shortcut (planes stride : nat) (x : tensor) : bool := negb (Nat.eqb stride 1) || negb (Nat.eqb (chans x) planes).
Definition basic_block (ps : params) (name : string) (planes stride : nat) (x : tensor) : option tensor :=
  ob (conv_named ps [name; "Conv_0"%string] planes 3 stride 1 x) (fun h =>
  ob (conv_named ps [name; "Conv_1"%string] planes 3 1 1 (map_val swish h)) (fun o =>
  ob (if needs_shortcut planes stride x then conv_named ps [name; "shortcut_conv"%string] planes 1 stride 0 x else Some x) (fun sc =>
  ob (add o sc) (fun y => Some (map_val swish y))))).

(** 72-75: two blocks with stride 2, six with stride 1. *)
Definition plan : list (string * nat) :=
  [("BasicBlock_0", 2); ("BasicBlock_1", 2); ("BasicBlock_2", 1); ("BasicBlock_3", 1); ("BasicBlock_4", 1); ("BasicBlock_5", 1);
   ("BasicBlock_6", 1); ("BasicBlock_7", 1)]%string%nat.
Fixpoint blocks (ps : params) (planes : nat) (pl : list (string * nat)) (x : tensor) : option tensor :=
  match pl with [] => Some x | (name, stride) :: pl' => ob (basic_block ps name planes stride x) (blocks ps planes pl') end.

(** 69: the pixels row by row, one channel. *)
Definition image (H W : nat) (x : list R) : tensor := {| rows := H; cols := W; chans := 1; val := fun r c _ => nth (r * W + c) x 0 |}.
(** 76: the mean over the positions. *)
Definition pool (x : tensor) (i : nat) : R :=
  rsum (seq 0 (rows x)) (fun r => rsum (seq 0 (cols x)) (fun c => val x r c i)) / (INR (rows x) * INR (cols x)).
(** 77-78: nn.Dense(1), squeezed. *)
Definition dense1 (kernel bias : arr) (n : nat) (v : nat -> R) : option R :=
  if (shape_eqb (shape kernel) [n; 1] && shape_eqb (shape bias) [1])%nat
  then Some (rsum (seq 0 n) (fun i => v i * at_ kernel [i; 0%nat]) + at_ bias [0%nat]) else None.
(** 68-78 [ResnetBinary.__call__]; the reshape raises for another number of pixels. *)
Definition resnet (ps : params) (planes H W : nat) (x : list R) : option R :=
  if Nat.eqb (length x) (H * W) then
    ob (conv_named ps ["Conv_0"%string] planes 3 1 1 (image H W x)) (fun t =>
    ob (blocks ps planes plan t) (fun t =>
      match lookup ["Dense_0"; "kernel"]%string ps, lookup ["Dense_0"; "bias"]%string ps with
      | Some kernel, Some bias => dense1 kernel bias (chans t) (pool t)
      | _, _ => None
      end))
  else None.

(** 111-123 [ImageEBM.forward] for one image of zeros and ones: the network plus the base log-probability of the data mean (guard
    1e-20), with the temperature of annealing when one is given. *)
Definition image_forward (ps : params) (planes H W : nat) (data_mean : option (list R)) (beta : option R) (x : list nat) : option R :=
  ob (resnet ps planes H W (map INR x)) (fun e => Some (ebm_forward (fun _ => e) (option_map (base_logprob (/ 10 ^ 20)) data_mean) beta x)).

(** 114-117, one pixel [x] of mean [m], in arithmetic with rounded sums [rnd]: x * log(m + 1e-20) + (1 - x) * log1p(-m + 1e-20). *)
Definition base_pixel (rnd : R -> R) (m x : R) : xf :=
  xadd (xmul (Fin x) (xlog (Fin (rnd (m + / 10 ^ 20))))) (xmul (Fin (1 - x)) (xlog1p (Fin (rnd (- m + / 10 ^ 20))))).
(** learning/binary_ebm/main_binary_training.py 96: the mean of a pixel over the training images, as it is (compare
    learning/train.py 55, used for the RBMs, which clips to [0.01, 0.99]). *)
Definition pixel_mean (values : list R) : R := rsum values (fun v => v) / INR (length values).
