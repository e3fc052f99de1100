(** Specification vocabulary for Markov chain claims.  Self-contained: it mentions only finite
    expectations, never a helper of the models. *)
From Coq Require Import Reals List.
From Verif.Base Require Import RSum Dist.
Local Open Scope R_scope.

(** [step] is reversible for the (unnormalised) weights [pi] on the finite space [S]: the stationary
    two-time correlations are symmetric. *)
Definition reversible {A} (S : list A) (pi : A -> R) (step : A -> dist A) : Prop :=
  forall f g : A -> R,
    rsum S (fun x => pi x * f x * E (step x) g) = rsum S (fun x => pi x * g x * E (step x) f).

(** [step] leaves [pi] invariant: one step from [pi] is again [pi], tested by every function. *)
Definition invariant {A} (S : list A) (pi : A -> R) (step : A -> dist A) : Prop :=
  forall f : A -> R, rsum S (fun x => pi x * E (step x) f) = rsum S (fun x => pi x * f x).

(** Invariance up to total weight [eps]: for test functions bounded by 1 the error is at most
    [eps] times the total weight. *)
Definition invariant_upto {A} (eps : R) (S : list A) (pi : A -> R) (step : A -> dist A) : Prop :=
  forall f : A -> R, (forall x, Rabs (f x) <= 1) ->
    Rabs (rsum S (fun x => pi x * E (step x) f) - rsum S (fun x => pi x * f x)) <= eps * rsum S pi.

(** [step] never leaves [S] and is a probability law at every state of [S]. *)
Definition proper {A} (S : list A) (step : A -> dist A) : Prop :=
  forall x, In x S -> is_prob (step x) /\ (forall y w, In (y, w) (step x) -> In y S).

(** [n] consecutive steps; step number [t], [t+1], ... may use a different kernel (a scan position). *)
Fixpoint run_seq {A} (k : nat -> A -> dist A) (n t : nat) (x : A) : dist A :=
  match n with
  | O => ret x
  | S n' => bind (k t x) (run_seq k n' (S t))
  end.

(** A batch of chains advanced independently, and the product target on batches. *)
Definition batch_step {A} (step : A -> dist A) (xs : list A) : dist (list A) := indep (map step xs).
Definition batch_pi {A} (pi : A -> R) (xs : list A) : R := rprod xs pi.
