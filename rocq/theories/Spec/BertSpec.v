(** Specification vocabulary for the infilling network. *)
From Coq Require Import Reals List Arith.
From Verif.Base Require Import RSum.
From Verif.Model Require Import Bert.
Import ListNotations.

(** The sentence [ids'] shows the tokens [xs] at the positions [pos] and the tokens of [ids] elsewhere. *)
Definition filled (ids : nat -> nat) (pos xs : list nat) (ids' : nat -> nat) : Prop :=
  length xs = length pos /\ (forall i, (i < length pos)%nat -> ids' (nth i pos 0%nat) = nth i xs 0%nat) /\ (forall p, ~ In p pos -> ids' p = ids p).

(** Bounds computed from the prediction head alone: of a feature, of the logit of token [v], of all logits. *)
Definition feature_bound (B : bert) (j : nat) : R := (sqrt (INR (hidden B)) * Rabs (t_scale B j) + Rabs (t_bias B j))%R.
Definition logit_bound (B : bert) (v : nat) : R := (rsum (seq 0 (hidden B)) (fun j => feature_bound B j * Rabs (kernel B j v)) + Rabs (d_bias B v))%R.
Definition max_bound (B : bert) : R := rsum (seq 0 (vocab B)) (logit_bound B).
