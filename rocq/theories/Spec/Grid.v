(** Specification of nearest-neighbour energies on an open rectangular grid.  Self-contained. *)
From Coq Require Import Reals List Arith.
From Verif.Base Require Import RSum.
Import ListNotations.
Local Open Scope R_scope.

Definition cells (h w : nat) : list (nat * nat) := list_prod (seq 0 h) (seq 0 w).
(** [below a c]: cell [c] is directly below [a];  [right_of a c]: directly to the right. *)
Definition below (a c : nat * nat) : bool := andb (Nat.eqb (fst c) (S (fst a))) (Nat.eqb (snd c) (snd a)).
Definition right_of (a c : nat * nat) : bool := andb (Nat.eqb (fst c) (fst a)) (Nat.eqb (snd c) (S (snd a))).

(** Vertical and horizontal edges of the grid: each unordered pair of neighbours occurs once, first the upper /
    left cell. *)
Definition v_edges (h w : nat) := filter (fun p => below (fst p) (snd p)) (list_prod (cells h w) (cells h w)).
Definition h_edges (h w : nat) := filter (fun p => right_of (fst p) (snd p)) (list_prod (cells h w) (cells h w)).

(** - (field term + coupling terms): [field c], [vert a c], [horiz a c] are the contributions of a cell and of
    a vertical / horizontal edge. *)
Definition grid_energy (h w : nat) (field : nat * nat -> R) (vert horiz : nat * nat -> nat * nat -> R) : R :=
  - (rsum (cells h w) field + rsum (v_edges h w) (fun e => vert (fst e) (snd e)) + rsum (h_edges h w) (fun e => horiz (fst e) (snd e))).

(** The array with one entry replaced. *)
Definition put2 (x : nat -> nat -> R) (i j : nat) (t : R) : (nat -> nat -> R) := fun i' j' => if andb (Nat.eqb i' i) (Nat.eqb j' j) then t else x i' j'.
Definition put3 (x : nat -> nat -> nat -> R) (i j c : nat) (t : R) : (nat -> nat -> nat -> R) :=
  fun i' j' c' => if andb (andb (Nat.eqb i' i) (Nat.eqb j' j)) (Nat.eqb c' c) then t else x i' j' c'.
Definition flip2 (x : nat -> nat -> nat) (i j : nat) : nat -> nat -> nat :=
  fun i' j' => if andb (Nat.eqb i' i) (Nat.eqb j' j) then (1 - x i' j')%nat else x i' j'.
Definition set2 (x : nat -> nat -> nat) (i j v : nat) : nat -> nat -> nat :=
  fun i' j' => if andb (Nat.eqb i' i) (Nat.eqb j' j) then v else x i' j'.
(** 0/1 configurations. *)
Definition binary (x : nat -> nat -> nat) : Prop := forall i j, (x i j < 2)%nat.
