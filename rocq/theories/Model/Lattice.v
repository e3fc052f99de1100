(** Model of discs/models/ising.py and discs/models/potts.py, one sample (the batch axis is never mixed).
    A [h, w] array is a function of row and column. *)
From Coq Require Import Reals List Lra Lia Arith ZArith.
From Verif.Base Require Import RSum.
Import ListNotations.
Local Open Scope R_scope.

Definition arr2 := nat -> nat -> R.

(** Sum over an [h, w] array (reshape to a row and sum over it). *)
Definition sum2 (h w : nat) (f : arr2) : R := rsum (seq 0 h) (fun i => rsum (seq 0 w) (fun j => f i j)).

(** [m.at[region].set(v)]: the value written is converted to the element type of [m] by [cast]. *)
Definition set_at (cast : R -> R) (region : nat -> nat -> bool) (v : arr2) (m : arr2) : arr2 :=
  fun i j => if region i j then cast (v i j) else m i j.

(** Element types: float keeps the value, int32 truncates toward zero. *)
Definition trunc (r : R) : Z := if Rle_dec 0 r then Int_part r else (- Int_part (- r))%Z.
Definition as_float (r : R) : R := r.
Definition as_int (r : R) : R := IZR (trunc r).

(** ising.py 46-67 [forward].  [cast] is the element type of x: zeros_like(x) (51) has it. *)
Definition ising_message (cast : R -> R) (h w : nat) (wh wv : arr2) (x : arr2) : arr2 :=
  let m0 := fun _ _ => 0 in
  let m1 := set_at cast (fun i _ => Nat.ltb i (h - 1)) (fun i j => m0 i j + (2 * x (S i) j - 1) * wv i j) m0 in
  let m2 := set_at cast (fun i _ => Nat.ltb 0 i) (fun i j => m1 i j + (2 * x (i - 1)%nat j - 1) * wv (i - 1)%nat j) m1 in
  let m3 := set_at cast (fun _ j => Nat.ltb j (w - 1)) (fun i j => m2 i j + (2 * x i (S j) - 1) * wh i j) m2 in
  set_at cast (fun _ j => Nat.ltb 0 j) (fun i j => m3 i j + (2 * x i (j - 1)%nat - 1) * wh i (j - 1)%nat) m3.

Definition ising_forward (cast : R -> R) (h w : nat) (wh wv b : arr2) (x : arr2) : R :=
  - sum2 h w (fun i j => (2 * x i j - 1) * (ising_message cast h w wh wv x i j / 2 + b i j)).

(** ising.py 18-37 [make_init_params]; [u] is the uniform draw. *)
Definition ising_wh (lambdaa : R) : arr2 := fun _ _ => - lambdaa * 1.
Definition ising_b (h w : nat) (init_sigma mu : R) (u : arr2) : arr2 := fun i j =>
  (2 * u i j - 1) * init_sigma
  + mu * (if Rlt_dec ((INR i / INR h - / 2) ^ 2 + (INR j / INR w - / 2) ^ 2) (/ 2 / PI) then 1 else -1).

(** Integer samples as arrays. *)
Definition of_bits (x : nat -> nat -> nat) : arr2 := fun i j => INR (x i j).

(** potts.py 59-83 [forward]; arrays carry a last axis of categories. *)
Definition arr3 := nat -> nat -> nat -> R.
(** 61-62: jax.nn.one_hot (float). *)
Definition one_hot2 (x : nat -> nat -> nat) : arr3 := fun i j c => if Nat.eqb (x i j) c then 1 else 0.

Definition set_at3 (cast : R -> R) (region : nat -> nat -> bool) (v : arr3) (m : arr3) : arr3 :=
  fun i j c => if region i j then cast (v i j c) else m i j c.

Definition potts_message (cast : R -> R) (h w : nat) (wh wv : arr3) (x : arr3) : arr3 :=
  let m0 := fun _ _ _ => 0 in
  let m1 := set_at3 cast (fun _ j => Nat.ltb j (w - 1)) (fun i j c => m0 i j c + x i (S j) c * wh i j c) m0 in
  let m2 := set_at3 cast (fun _ j => Nat.ltb 0 j) (fun i j c => m1 i j c + x i (j - 1)%nat c * wh i (j - 1)%nat c) m1 in
  let m3 := set_at3 cast (fun i _ => Nat.ltb i (h - 1)) (fun i j c => m2 i j c + x (S i) j c * wv i j c) m2 in
  set_at3 cast (fun i _ => Nat.ltb 0 i) (fun i j c => m3 i j c + x (i - 1)%nat j c * wv (i - 1)%nat j c) m3.

(** On a one-hot array whose element type is [cast]. *)
Definition potts_forward_onehot (cast : R -> R) (h w C : nat) (wh wv b : arr3) (x : arr3) : R :=
  - rsum (seq 0 h) (fun i => rsum (seq 0 w) (fun j => rsum (seq 0 C) (fun c =>
      x i j c * (potts_message cast h w wh wv x i j c / 2 + b i j c)))).

(** On integer samples. *)
Definition potts_forward (h w C : nat) (wh wv b : arr3) (x : nat -> nat -> nat) : R :=
  potts_forward_onehot as_float h w C wh wv b (one_hot2 x).

(** potts.py 26-46 [make_init_params]: one draw per site and category; [indices] runs over (h, w, C) and 36-42 use its
    first two rows only. *)
Definition potts_w (lambdaa : R) : arr3 := fun _ _ _ => - lambdaa * 1.
Definition potts_b (h w : nat) (init_sigma mu : R) (u : arr3) : arr3 := fun i j c =>
  (2 * u i j c - 1) * init_sigma
  + mu * (if Rlt_dec ((INR i / INR h - / 2) ^ 2 + (INR j / INR w - / 2) ^ 2) (/ 2 / PI) then 1 else -1).
