(** Model of discs/graph_loader/common.py 105-138 [GraphGenerator.get_iterator].
    The stream of (graph, solution) pairs is a list of items of any type A; graph2edges (modelled in CombOpt.v) is applied
    later and does not affect the iteration. *)
From Coq Require Import List Arith.
Import ListNotations.

(** An entry of a batch: (idx, graph, sol), or (-1, dummy graph, dummy sol). *)
Inductive entry (A : Type) := Real (idx : nat) (a : A) | Dummy.
Arguments Real {A}. Arguments Dummy {A}.

Section Iter.
Variable A : Type.

(** 121-127: the loop over the generator; [idx] counts all items, a process keeps those with idx mod P = r.
    Returns the batches yielded and the final buffer. *)
Fixpoint fill (local P r idx : nat) (buffer : list (entry A)) (gs : list A) : list (list (entry A)) * list (entry A) :=
  match gs with
  | [] => ([], buffer)
  | g :: gs' =>
      if Nat.eqb (idx mod P) r then
        let buffer' := buffer ++ [Real idx g] in
        if Nat.eqb (length buffer') local
        then let (out, b) := fill local P r (S idx) [] gs' in (buffer' :: out, b)
        else fill local P r (S idx) buffer' gs'
      else fill local P r (S idx) buffer gs'
  end.

(** 129-138: the remaining batches, padded with dummies. *)
Fixpoint pad_batches (local count : nat) (buffer : list (entry A)) : list (list (entry A)) :=
  match count with
  | 0 => []
  | S c => (buffer ++ repeat Dummy (local - length buffer)) :: pad_batches local c []
  end.

(** 115-117. *)
Definition total_batches (num_instances batch_size : nat) : nat :=
  num_instances / batch_size + (if Nat.eqb (num_instances mod batch_size) 0 then 0 else 1).

(** 105-138 for process [r] of [P] (P = 1, r = 0 without sharding); [None] is the failing assertion of line 113. *)
Definition get_iterator (num_instances batch_size P r : nat) (gs : list A) : option (list (list (entry A))) :=
  if Nat.eqb (batch_size mod P) 0 then
    let local := batch_size / P in
    let (out, buffer) := fill local P r 0 [] gs in
    Some (out ++ pad_batches local (total_batches num_instances batch_size - length out) buffer)
  else None.
End Iter.
Arguments fill {A}. Arguments pad_batches {A}. Arguments get_iterator {A}.
