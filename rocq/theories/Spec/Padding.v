(** Vocabulary for instances padded to a common size (C86).  Self-contained. *)
From Coq Require Import Reals List.
Import ListNotations.
Local Open Scope R_scope.

(** The log-density [fwD] of the padded problem only looks at the first [d] entries, where it is the log-density [fw] of the
    problem itself. *)
Definition pads (d : nat) (fwD fw : list nat -> R) : Prop := forall x, fwD x = fw (firstn d x).

(** Per-entry scores of the padded problem: those of the problem itself on the first [d] entries, none (0) on the padding. *)
Definition pads_scores (d : nat) (lrD lr : list nat -> nat -> R) : Prop :=
  forall x i, lrD x i = if Nat.ltb i d then lr (firstn d x) i else 0.

(** The mask array of the loaders: 1 on the first [d] entries, 0 on the padding. *)
Definition node_mask (d : nat) (i : nat) : R := if Nat.ltb i d then 1 else 0.
