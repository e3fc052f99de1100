(** Specification vocabulary for error estimates. *)
From Coq Require Import Reals List.
From Verif.Base Require Import RSum Dist.
Import ListNotations.
Local Open Scope R_scope.

(** Variance of a quantity under a law. *)
Definition Variance {A} (d : dist A) (h : A -> R) : R := E d (fun a => (h a - E d h) ^ 2).

(** The number in a result that may not be a number; used only where the theorems say that it is one. *)
Definition val (o : option R) : R := match o with Some v => v | None => 0 end.
Definition avg_mean_error (o : option (R * R * R * R)) : R := match o with Some (a, _, _, _) => a | None => 0 end.
