(** Specification vocabulary for satisfiability and for the graphs a generator should return. *)
From Coq Require Import List Arith ZArith Bool.
From Verif.Spec Require Import GraphSpec.
Import ListNotations.

(** DIMACS literals: [l] is variable [l] when positive, the negation of variable [-l] otherwise. *)
Definition lit_true (rho : nat -> bool) (l : Z) : bool := if Z.ltb 0 l then rho (Z.to_nat l) else negb (rho (Z.to_nat (- l))).
(** Every clause holds some true literal. *)
Definition satisfies (rho : nat -> bool) (cnf : list (list Z)) : Prop := forall c, In c cnf -> exists l, In l c /\ lit_true rho l = true.
(** A formula over variables 1..nv with exactly three literals in each clause. *)
Definition three_cnf (nv : nat) (cnf : list (list Z)) : Prop :=
  forall c, In c cnf -> length c = 3 /\ forall l, In l c -> (l <> 0 /\ Z.abs l <= Z.of_nat nv)%Z.

(** Undirected reachability. *)
Inductive reach (es : list (nat * nat)) : nat -> nat -> Prop :=
| reach_refl u : reach es u u
| reach_step u v x : reach es u v -> adjacent es v x -> reach es u x.

(** The graph with node list [ns] has between [lo] and [hi] nodes, numbered 0, 1, ..., edges between nodes only, and is connected. *)
Definition good_graph (lo hi : nat) (ns : list nat) (es : list (nat * nat)) : Prop :=
  lo <= length ns <= hi /\ NoDup ns /\ (forall v, In v ns <-> v < length ns)
  /\ (forall u v, In (u, v) es -> u < length ns /\ v < length ns)
  /\ (forall u v, u < length ns -> v < length ns -> reach es u v).
