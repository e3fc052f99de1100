(** Specification vocabulary for text infilling. *)
From Coq Require Import Reals List Arith.
From Verif.Base Require Import RSum.
Import ListNotations.

(** The text with its mask tokens replaced, from left to right, by the given tokens. *)
Fixpoint fill_masks {T} (is_mask : T -> bool) (toks x : list T) : list T :=
  match toks with
  | [] => []
  | t :: ts => if is_mask t then match x with v :: x' => v :: fill_masks is_mask ts x' | [] => t :: fill_masks is_mask ts [] end else t :: fill_masks is_mask ts x
  end.
(** Probability of class [v] under logits. *)
Definition softmax_prob (logits : list R) (v : nat) : R := (exp (nth v logits 0) / rsum logits exp)%R.
(** Input in which position [i] shows [row] and the other positions show their tokens. *)
Definition show_at {A} (row : A) (rows : list A) (i : nat) : list A := firstn i rows ++ row :: skipn (S i) rows.
