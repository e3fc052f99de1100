(** Model of discs/learning/raw_torch_dataset.py and of load_numpyds in discs/learning/train.py 38-43.  An image is its list of
    pixels, a data set a list of images.  The contents of the files are inputs; np.random.shuffle is an arbitrary function
    [shuf]; np.random.binomial is a law.  Types of array elements and the fields written to args are not modelled. *)
From Coq Require Import String ZArith Reals List Arith.
From Verif.Base Require Import RSum Dist.
Import ListNotations.
Local Open Scope R_scope.

Notation image := (list R) (only parsing).
Definition splits := (list image * list image * list image)%type.

(** Bound of a python slice of a sequence of [len] elements. *)
Definition py_bound (len : nat) (i : Z) : nat := if (i <? 0)%Z then Z.to_nat (Z.max 0 (Z.of_nat len + i)) else Nat.min len (Z.to_nat i).
(** l[a:], l[:b] and l[a:b]. *)
Definition py_from {A} (l : list A) (a : Z) : list A := skipn (py_bound (length l) a) l.
Definition py_upto {A} (l : list A) (b : Z) : list A := firstn (py_bound (length l) b) l.
Definition py_slice {A} (l : list A) (a b : Z) : list A := firstn (py_bound (length l) b - py_bound (length l) a) (skipn (py_bound (length l) a) l).

(** np.random.binomial(1, x) of one image and of a data set. *)
Definition binarize (x : image) : dist image := indep (map (fun p => dmap (fun b : bool => if b then 1 else 0) (bernoulli p)) x).
Definition binarize_all (xs : list image) : dist (list image) := indep (map binarize xs).

(** Element (n, k) of x.reshape((-1, A * B), order='F') for x of shape (N, A, B): both sides are read with the first index
    running fastest. *)
Definition reshape_F (N A : nat) (x : nat -> nat -> nat -> R) (n k : nat) : R :=
  let q := (n + N * k)%nat in x (q mod N)%nat ((q / N) mod A)%nat (q / (N * A))%nat.
(** 97-98 and 132-133 [reshape_data]: to (-1, s, s) in C order, then to (-1, s * s) in F order; s is 28. *)
Definition reshape_data (s : nat) (xs : list image) : list image :=
  map (fun n => map (reshape_F (length xs) s (fun n i j => nth (s * i + j) (nth n xs []) 0) n) (seq 0 (s * s))) (seq 0 (length xs)).

(** Contents of the files. *)
Record files := {
  static_train : list image; static_valid : list image; static_test : list image;
  mnist_train : list image; mnist_test : list image;              (* bytes 0..255 *)
  omni_data : list image; omni_testdata : list image;             (* after .T *)
  cal_train : list image; cal_val : list image; cal_test : list image;
  hist_train : list image; hist_val : list image; hist_test : list image;
  frey : list image                                               (* after .T *)
}.

(** 15-35 [load_static_mnist]. *)
Definition load_static_mnist (F : files) : dist splits := ret (static_train F, static_valid F, static_test F).

(** 38-85 [load_dynamic_mnist]: only validation and test images are binarised. *)
Definition load_dynamic_mnist (F : files) : dist splits :=
  let x_train := map (map (fun b => b / 255)) (mnist_train F) in
  let x_test := map (map (fun b => b / 255)) (mnist_test F) in
  bind (binarize_all (py_slice x_train 50000 60000)) (fun v => dmap (fun t => (py_slice x_train 0 50000, v, t)) (binarize_all x_test)).

(** 88-120 [load_omniglot]. *)
Definition load_omniglot (n_validation : Z) (shuf : list image -> list image) (F : files) : dist splits :=
  let train_data := shuf (reshape_data 28 (omni_data F)) in
  let x_test := reshape_data 28 (omni_testdata F) in
  bind (binarize_all (py_from train_data (- n_validation))) (fun v => dmap (fun t => (py_upto train_data (- n_validation), v, t)) (binarize_all x_test)).

(** 123-143 [load_caltech101silhouettes]. *)
Definition load_caltech (shuf1 shuf2 : list image -> list image) (F : files) : dist splits :=
  let inv xs := map (map (fun v => 1 - v)) (reshape_data 28 xs) in
  ret (shuf1 (inv (cal_train F)), shuf2 (inv (cal_val F)), inv (cal_test F)).

(** 146-166 [load_histopathologyGray]. *)
Definition load_histopathology (F : files) : dist splits :=
  let cl := map (map (fun v => Rmin (1 - 1 / 512) (Rmax (1 / 512) v))) in
  ret (cl (hist_train F), cl (hist_val F), cl (hist_test F)).

(** 169-195 [load_freyfaces]. *)
Definition load_freyfaces (TRAIN VAL TEST : Z) (shuf : list image -> list image) (F : files) : dist splits :=
  let data := shuf (map (map (fun b => b / 256)) (frey F)) in
  ret (py_slice data 0 TRAIN, py_slice data TRAIN (TRAIN + VAL), py_slice data (TRAIN + VAL) (TRAIN + VAL + TEST)).

(** 198-216 [load_raw_dataset]; [None] is the ValueError.  [shuf0] is the shuffle of line 214. *)
Definition load_raw_dataset (shuf0 shuf1 shuf2 : list image -> list image) (F : files) (name : string) : option (dist splits) :=
  let fin := dmap (fun s : splits => (shuf0 (fst (fst s)), snd (fst s), snd s)) in
  if String.eqb name "static_mnist" then Some (fin (load_static_mnist F))
  else if String.eqb name "dynamic_mnist" then Some (fin (load_dynamic_mnist F))
  else if String.eqb name "omniglot" then Some (fin (load_omniglot 1345 shuf1 F))
  else if String.eqb name "caltech" then Some (fin (load_caltech shuf1 shuf2 F))
  else if String.eqb name "histopathology" then Some (fin (load_histopathology F))
  else if String.eqb name "freyfaces" then Some (fin (load_freyfaces 1565 200 200 shuf1 F))
  else None.

(** train.py 38-43 [load_numpyds]: the training images are what the binary EBM is trained on, without further processing
    (main_binary_training.py 90-92, 108-110). *)
Definition load_numpyds (shuf0 shuf1 shuf2 : list image -> list image) (F : files) (name : string) : option (dist (list image)) :=
  option_map (dmap (fun s : splits => fst (fst s))) (load_raw_dataset shuf0 shuf1 shuf2 F name).

(** learning/rbm/main_rbm_training.py 37-42 [data_preprocess]: pixel / 255 > uniform noise, so a pixel is one with probability
    pixel / 255. *)
Definition rbm_preprocess (x : image) : dist image := binarize (map (fun b => b / 255) x).

(** discs/models/rbm.py 42-53 on a vector of floats (gray levels are accepted by the network like binary pixels). *)
Definition rbm_float (nv nh : nat) (w : nat -> nat -> R) (b_v b_h : nat -> R) (x : image) : R :=
  rsum (seq 0 nh) (fun j => ln (1 + exp (rsum (seq 0 nv) (fun i => nth i x 0 * w i j) + b_h j))) + rsum (seq 0 nv) (fun i => nth i x 0 * b_v i).
