(** Maximum likelihood, stated without reference to the training code. *)
From Coq Require Import Reals List.
From Verif.Base Require Import RSum Dist.
Local Open Scope R_scope.

(** Average negative log-likelihood of the data law under the normalised model, along a curve of parameters. *)
Definition neg_log_lik {A} (S : list A) (f : R -> A -> R) (data : dist A) (t : R) : R :=
  - E data (fun x => ln (exp (f t x) / rsum S (fun y => exp (f t y)))).

(** [g] is the derivative at [t] of a loss that is defined for all parameters. *)
Definition loss_grad (loss : R -> option R) (t g : R) : Prop :=
  exists L, (forall s, loss s = Some (L s)) /\ derivable_pt_lim L t g.
