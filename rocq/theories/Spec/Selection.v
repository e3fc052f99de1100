(** Specification vocabulary for sampling with and without replacement; independent of the models. *)
From Coq Require Import Reals List.
From Verif.Base Require Import RSum.
Import ListNotations.
Local Open Scope R_scope.

(** Probability of drawing exactly the sequence [path], one item after the other without replacement,
    when item [i] has weight [w i] and the weight available before the first draw is [total]. *)
Fixpoint seq_prob (w : nat -> R) (total : R) (path : list nat) : R :=
  match path with
  | [] => 1
  | i :: path' => w i / total * seq_prob w (total - w i) path'
  end.

(** [L] lists every ordered selection of [k] distinct items of [avail] exactly once. *)
Definition enumerates_selections (L : list (list nat)) (k : nat) (avail : list nat) : Prop :=
  NoDup L /\ forall p, In p L <-> (length p = k /\ NoDup p /\ incl p avail).
