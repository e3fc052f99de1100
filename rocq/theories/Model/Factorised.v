(** Model of discs/models/bernoulli.py and discs/models/categorical.py, one sample; arrays are flattened (the code
    itself flattens before summing). *)
From Coq Require Import Reals List Arith.
From Verif.Base Require Import RSum Cube.
Import ListNotations.
Local Open Scope R_scope.

(** bernoulli.py 33-37 [forward]. *)
Definition bern_forward (theta : list R) (x : list R) : R := rsum (combine x theta) (fun p => fst p * snd p).
(** Integer samples. *)
Definition bern_forward_int (theta : list R) (x : list nat) : R := bern_forward theta (map INR x).

(** bernoulli.py 57-61 [logratio_in_neighborhood] (the array). *)
Definition bern_logratio (theta : list R) (x : list nat) : list R :=
  map (fun p => (1 - 2 * INR (fst p)) * snd p) (combine x theta).

(** bernoulli.py 63-65 and 67-69. *)
Definition bern_expected (theta : list R) : list R := map (fun t => exp t / (exp t + 1)) theta.
Definition bern_var (theta : list R) : list R := map (fun p => p * (1 - p)) (bern_expected theta).

(** categorical.py 37-45 [forward]: parameters are one row of C numbers per site. *)
Definition one_hot (C : nat) (v : nat) : list R := map (fun c => if Nat.eqb v c then 1 else 0) (seq 0 C).
Definition cat_forward_onehot (theta : list (list R)) (x : list (list R)) : R :=
  rsum (combine x theta) (fun p => rsum (combine (fst p) (snd p)) (fun q => fst q * snd q)).
Definition cat_forward (C : nat) (theta : list (list R)) (x : list nat) : R :=
  cat_forward_onehot theta (map (one_hot C) x).
