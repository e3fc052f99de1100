(** Graph vocabulary used to state the combinatorial properties.  Self-contained.
    A graph is given by its node count and a list of edges (pairs), nodes are 0 .. n-1. *)
From Coq Require Import Reals List Arith.
From Verif.Base Require Import RSum.
Import ListNotations.

Definition adjacent (es : list (nat * nat)) (u v : nat) : Prop := In (u, v) es \/ In (v, u) es.
(** Every edge joins two different existing nodes. *)
Definition loopless (n : nat) (es : list (nat * nat)) : Prop :=
  forall u v, In (u, v) es -> (u < n)%nat /\ (v < n)%nat /\ u <> v.
(** No edge is listed twice, in either direction. *)
Definition simple (n : nat) (es : list (nat * nat)) : Prop :=
  loopless n es /\ NoDup (map (fun e => (Nat.min (fst e) (snd e), Nat.max (fst e) (snd e))) es).

(** Node sets as duplicate-free lists of existing nodes. *)
Definition node_set (n : nat) (S : list nat) : Prop := NoDup S /\ forall v, In v S -> (v < n)%nat.
Definition independent (n : nat) (es : list (nat * nat)) (S : list nat) : Prop :=
  node_set n S /\ forall u v, In u S -> In v S -> ~ adjacent es u v.
Definition clique (n : nat) (es : list (nat * nat)) (S : list nat) : Prop :=
  node_set n S /\ forall u v, In u S -> In v S -> u <> v -> adjacent es u v.

(** The node set selected by a 0/1 vector. *)
Definition selected (n : nat) (x : nat -> bool) : list nat := filter x (seq 0 n).
Definition vec (x : nat -> bool) : nat -> R := fun i => if x i then 1%R else 0%R.
(** Total weight of the edges joining the two sides of a cut. *)
Definition cut_value (es : list (nat * nat * R)) (x : nat -> bool) : R :=
  rsum es (fun e => if xorb (x (fst (fst e))) (x (snd (fst e))) then snd e else 0%R).
(** One coordinate replaced / flipped. *)
Definition put1 {A} (x : nat -> A) (i : nat) (t : A) : nat -> A := fun j => if Nat.eqb j i then t else x j.
Definition flip1 (x : nat -> bool) (i : nat) : nat -> bool := put1 x i (negb (x i)).
