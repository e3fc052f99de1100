(** The external field the lattice models start with, in words: a disc in the middle of the unit square covering half of its
    area, and a coupling that counts neighbours with equal values. *)
From Coq Require Import Reals List Arith.
From Verif.Spec Require Import Grid.
Local Open Scope R_scope.

(** Distance of the point of row [i], column [j] from the middle of the unit square. *)
Definition from_middle (h w i j : nat) : R := sqrt ((INR i / INR h - 1 / 2) ^ 2 + (INR j / INR w - 1 / 2) ^ 2).
(** Inside the disc of area 1/2. *)
Definition in_disc (h w i j : nat) : Prop := exists r, 0 < r /\ PI * r ^ 2 = 1 / 2 /\ from_middle h w i j < r.
(** Neighbouring pairs of the open grid with equal values, and with different values. *)
Definition pairs (h w : nat) := v_edges h w ++ h_edges h w.
Definition equal_pairs (h w : nat) (x : nat -> nat -> nat) : nat :=
  length (filter (fun e => Nat.eqb (x (fst (fst e)) (snd (fst e))) (x (fst (snd e)) (snd (snd e)))) (pairs h w)).
Definition unequal_pairs (h w : nat) (x : nat -> nat -> nat) : nat :=
  length (filter (fun e => negb (Nat.eqb (x (fst (fst e)) (snd (fst e))) (x (fst (snd e)) (snd (snd e))))) (pairs h w)).
(** All rows moved down by one, the last one to the top. *)
Definition shift_rows (h : nat) (x : nat -> nat -> nat) : nat -> nat -> nat := fun i j => x ((i + (h - 1)) mod h)%nat j.
