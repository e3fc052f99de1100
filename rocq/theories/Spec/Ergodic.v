(** Convergence of a sampler run to its target.  Self-contained, like Chain.v. *)
From Coq Require Import Reals List.
From Verif.Base Require Import RSum Dist.
From Verif.Spec Require Import Chain.
Local Open Scope R_scope.

(** The average of [f] under the normalised weights [pi]. *)
Definition mean {A} (S : list A) (pi f : A -> R) : R := rsum S (fun y => pi y * f y) / rsum S pi.

(** From every start the law after [n] steps approaches the target, uniformly over test functions bounded by 1
    (convergence in total variation). *)
Definition converges {A} (S : list A) (pi : A -> R) (k : nat -> A -> dist A) : Prop :=
  forall eps, 0 < eps -> exists N, forall n x f, (N <= n)%nat -> In x S -> (forall y, In y S -> Rabs (f y) <= 1) ->
    Rabs (E (run_seq k n 0 x) f - mean S pi f) <= eps.

(** State [y] has positive probability after one [step] from [x]. *)
Definition can_move {A} (dec : forall a b : A, {a = b} + {a <> b}) (step : A -> dist A) (x y : A) : Prop :=
  0 < E (step x) (fun z => if dec z y then 1 else 0).
