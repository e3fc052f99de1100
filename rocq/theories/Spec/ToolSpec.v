(** Specification vocabulary for the tools: configuration strings, dictionaries. *)
From Coq Require Import String List Arith Ascii.
Import ListNotations.

(** The text form "k1-v1,k2-v2,..." of a list of pairs. *)
Fixpoint encode (kvs : list (list ascii * list ascii)) : list ascii :=
  match kvs with
  | [] => []
  | [(k, v)] => k ++ "-"%char :: v
  | (k, v) :: kvs' => k ++ "-"%char :: v ++ ","%char :: encode kvs'
  end.
(** The value stored under a key. *)
Fixpoint lookup {V} (k : list ascii) (d : list (list ascii * V)) : option V :=
  match d with [] => None | (k', v) :: d' => if list_eq_dec ascii_dec k' k then Some v else lookup k d' end.

(** Two result dictionaries (lists of items) agree on everything but the values of [key], "results" and "name". *)
Definition agree_outside {V} (key : string) (d1 d2 : list (string * V)) : Prop :=
  forall k v, k <> key -> k <> "results"%string -> k <> "name"%string -> (In (k, v) d1 <-> In (k, v) d2).
Definition share {A} (clusters : list (list A)) (i j : A) : Prop := exists c, In c clusters /\ In i c /\ In j c.

(** [g] is a run of [n] consecutive words of [s]. *)
Definition occurs {W} (n : nat) (g s : list W) : Prop := List.length g = n /\ exists pre post, s = pre ++ g ++ post.

(** Number of the nodes below [n] in group [g]. *)
Definition group_size (groups : nat -> nat) (n g : nat) : nat := List.length (filter (fun i => Nat.eqb (groups i) g) (seq 0 n)).
(** Number of edges whose ends are in different groups. *)
Definition cut_edges (groups : nat -> nat) (es : list (nat * nat)) : nat := List.length (filter (fun e => negb (Nat.eqb (groups (fst e)) (groups (snd e)))) es).
