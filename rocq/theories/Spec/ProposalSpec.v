(** Vocabulary for gradient-informed proposals; does not use the model. *)
From Coq Require Import Reals List Arith.
From Verif.Base Require Import RSum Cube.
Import ListNotations.
Local Open Scope R_scope.

(** pi(y) / pi(x) for pi = exp fw. *)
Definition ratio (fw : list nat -> R) (x y : list nat) : R := exp (fw y - fw x).

(** The energy changes by slope times step in each coordinate (true of Bernoulli, Ising, MIS, max-cut energies). *)
Definition first_order (fw : list nat -> R) (slope : list nat -> nat -> R) (d : nat) : Prop :=
  forall x i v, In x (states d 2) -> (i < d)%nat -> (v < 2)%nat ->
  fw (upd i v x) - fw x = (INR v - INR (nth i x 0%nat)) * slope x i.
(** One-hot version: the slopes of site i are stored at i*C .. i*C+C-1. *)
Definition first_order_onehot (fw : list nat -> R) (slope : list nat -> nat -> R) (d C : nat) : Prop :=
  forall x i v, In x (states d C) -> (i < d)%nat -> (v < C)%nat ->
  fw (upd i v x) - fw x = slope x (i * C + v)%nat - slope x (i * C + nth i x 0)%nat.

(** [wf] is the logarithm of [g] of the exponential. *)
Definition log_of (g wf : R -> R) : Prop := forall t, exp (wf t) = g (exp t).
(** Balancing function. *)
Definition balancing (g : R -> R) : Prop := forall t, 0 < t -> g t = t * g (/ t).

(** Independent coordinates. *)
Definition product_energy (fw : list nat -> R) (a : nat -> nat -> R) (d C : nat) : Prop :=
  forall x, In x (states d C) -> fw x = rsum (seq 0 d) (fun i => a i (nth i x 0%nat)).

(** Average over the chains of the acceptance probability min(1, e^l). *)
Definition mean_acceptance (logs : list R) : R := rsum logs (fun l => Rmin 1 (exp l)) / INR (length logs).

(** [r'] follows [r] in the direction of [drift], within [lo, hi]. *)
Definition follows (lo hi r drift r' : R) : Prop :=
  (0 < drift -> r < hi -> r < r') /\ (0 < drift -> r <= r') /\ (drift < 0 -> lo < r -> r' < r) /\ (drift < 0 -> r' <= r)
  /\ (drift = 0 -> r' = r) /\ Rabs (r' - r) <= Rabs drift /\ (lo <= r + drift <= hi -> r' = r + drift).
