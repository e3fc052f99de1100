(** Specification vocabulary for training. *)
From Coq Require Import Reals List.
From Verif.Base Require Import RSum.
Import ListNotations.
Local Open Scope R_scope.

(** [a] is a weighted mean of the values [ps]. *)
Definition convex_combination (ps : list R) (a : R) : Prop :=
  exists ws, length ws = length ps /\ Forall (Rle 0) ws /\ rsum ws (fun w => w) = 1 /\ a = rsum (combine ws ps) (fun wp => fst wp * snd wp).
