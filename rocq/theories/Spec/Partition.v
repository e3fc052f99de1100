(** Balanced partitions of the nodes of a graph, without reference to the energy. *)
From Coq Require Import Reals List Arith.
Local Open Scope R_scope.

(** Number of nodes below [n] in part [c]. *)
Definition part_count (n : nat) (x : nat -> nat) (c : nat) : nat := length (filter (fun i => Nat.eqb (x i) c) (seq 0 n)).
(** Number of edges joining different parts. *)
Definition cut_count (es : list (nat * nat)) (x : nat -> nat) : nat := length (filter (fun e => negb (Nat.eqb (x (fst e)) (x (snd e)))) es).
(** Every node below [n] is in one of the parts 0 .. C-1. *)
Definition assigned (n C : nat) (x : nat -> nat) : Prop := forall i, (i < n)%nat -> (x i < C)%nat.
(** Every part has between [lo] and [hi] nodes. *)
Definition balanced (n C : nat) (lo hi : R) (x : nat -> nat) : Prop := forall c, (c < C)%nat -> lo <= INR (part_count n x c) <= hi.
(** Distance from the interval. *)
Definition off (lo hi v : R) : R := Rmax 0 (Rmax (v - hi) (lo - v)).
