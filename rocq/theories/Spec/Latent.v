(** Specification vocabulary for hidden Markov chains. *)
From Coq Require Import Reals List Arith.
From Verif.Base Require Import RSum.
Import ListNotations.
Local Open Scope R_scope.

(** The probability of a hidden path of several independent chains: *)
(** First row by [p0], then every chain moves independently by [tr]. *)
Fixpoint path_steps (tr : nat -> nat -> R) (row : list nat) (rows : list (list nat)) : R :=
  match rows with [] => 1 | r :: rs => rprod (combine row r) (fun ab => tr (fst ab) (snd ab)) * path_steps tr r rs end.
Definition path_prob (p0 : nat -> R) (tr : nat -> nat -> R) (rows : list (list nat)) : R :=
  match rows with [] => 1 | r :: rs => rprod r p0 * path_steps tr r rs end.

(** Bernoulli weight of a 0/1 value. *)
Definition one_with (p : R) (x : nat) : R := if Nat.eqb x 1 then p else 1 - p.
(** A binary chain that keeps its value with probability [beta]. *)
Definition stay (beta : R) (a b : nat) : R := if Nat.eqb a b then beta else 1 - beta.
(** A chain over n categories that keeps its value with probability [q] and otherwise moves uniformly. *)
Definition stay_cat (n : nat) (q : R) (a b : nat) : R := if Nat.eqb a b then q else (1 - q) / (INR n - 1).
