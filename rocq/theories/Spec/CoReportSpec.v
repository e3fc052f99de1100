(** What the report should show of a combinatorial-optimisation run. *)
From Coq Require Import Reals List Arith.
From Verif.Base Require Import RSum.
Import ListNotations.
Local Open Scope R_scope.

(** [m] is the mean and [s] the standard deviation of the numbers. *)
Definition mean_of (l : list R) (m : R) : Prop := (0 < length l)%nat /\ m * INR (length l) = rsum l (fun v => v).
Definition spread_of (l : list R) (s : R) : Prop := 0 <= s /\ exists m, mean_of l m /\ (s ^ 2 + m ^ 2) * INR (length l) = rsum l (fun v => v * v).
(** The time of the steps [a+1 .. b]. *)
Definition time_between (cost : nat -> R) (a b : nat) : R := rsum (seq (S a) (b - a)) cost.
