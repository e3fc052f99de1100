(** Vocabulary for annealed importance sampling of image models: the partition function that is to be estimated. *)
From Coq Require Import Reals List Arith.
From Verif.Base Require Import RSum Cube Dist.
From Verif.Model Require Import Langevin FullRun.
Import ListNotations.
Local Open Scope R_scope.

(** Independent pixels with the given means. *)
Definition pixels (mean : list R) (x : list nat) : R := rprod (combine x mean) (fun p => if Nat.eqb (fst p) 1 then snd p else 1 - snd p).
(** The normalising constant of the pixel distribution reweighted by exp (beta * net); at beta = 1 that of the image model. *)
Definition partition (mean : list R) (net : list nat -> R) (beta : R) : R :=
  rsum (states (length mean) 2) (fun x => exp (beta * net x) * pixels mean x).
(** [data_mean] of a data set with values in the unit interval, for [d] pixels. *)
Definition image_mean (d : nat) (mean : list R) : Prop := length mean = d /\ Forall (fun m => 0 <= m <= 1) mean.
(** The constant added to the means is there, or no mean is 0 or 1. *)
Definition logs_defined (lg : R) (mean : list R) : Prop := 0 < lg \/ lg = 0 /\ Forall (fun m => 0 < m < 1) mean.
(** Energies of images between - M and M. *)
Definition bounded_by (d : nat) (net : list nat -> R) (M : R) : Prop := forall x, In x (states d 2) -> Rabs (net x) <= M.
(** Probability of an event of the saved list. *)
Definition prob {A} (l : dist A) (P : A -> Prop) (dec : forall a, {P a} + {~ P a}) : R := E l (fun a => if dec a then 1 else 0).
(** What the constants added inside the logarithms of the means ([lg]), in the acceptance rule and in the Langevin proposals ([eps] per
    step) contribute after [n] of [L] steps. *)
Definition mean_shift (lg : R) (d : nat) : R := (1 + 2 * lg) ^ d - 1.
Definition ais_error (lg eps M : R) (d n L : nat) : R :=
  (2 * mean_shift lg d + INR n * eps * (1 + mean_shift lg d)) * exp (INR n / INR L * M).
(** The logarithm of the mean of the exponentials, and the list of these over the chains after each of [L] steps. *)
Definition log_mean_exp (l : list R) : R := ln (rsum l exp / INR (length l)).
Definition per_step (L : nat) (chains : list (list R)) : list R := map (fun i => log_mean_exp (map (fun r => nth i r 0) chains)) (seq 0 L).
(** The devices share the batch evenly. *)
Definition shared (devices : option nat) (B : nat) : Prop := match devices with None => True | Some n => (0 < n)%nat /\ Nat.divide n B end.
(** Objects that change their own settings. *)
Definition adaptive (k : sampler) : Prop :=
  match k with
  | SWalk rate => rate <> None
  | SGwgAdapt _ _ => True
  | SPath _ _ _ rate => rate <> None
  | SDmala _ c _ | SDlmc _ c _ _ => lc_adaptive c = true
  | _ => False
  end.
