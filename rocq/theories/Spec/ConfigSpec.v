(** Specification vocabulary for configuration files. *)
From Coq Require Import String List.
Import ListNotations.

(** The keys of a dictionary occur once. *)
Definition dict {V} (s : list (string * V)) : Prop := NoDup (map fst s).

(** The first of several sources, in order of priority, that gives a value. *)
Fixpoint first_of {V} (l : list (option V)) : option V :=
  match l with [] => None | Some v :: _ => Some v | None :: l' => first_of l' end.
