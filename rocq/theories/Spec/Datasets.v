(** What users expect of an image data set. *)
From Coq Require Import Reals List Permutation.
Import ListNotations.
Local Open Scope R_scope.

(** All pixels are zero or one. *)
Definition binary_images (xs : list (list R)) : Prop := forall x v, In x xs -> In v x -> v = 0 \/ v = 1.
(** All pixels are in the unit interval. *)
Definition unit_images (xs : list (list R)) : Prop := forall x v, In x xs -> In v x -> 0 <= v <= 1.
(** The parts contain each element of the source exactly once. *)
Definition partition_of {A} (src : list A) (parts : list (list A)) : Prop := Permutation (concat parts) src.
(** Affine (convex) in every pixel separately, over the unit interval. *)
Definition pixel_affine (f : list R -> R) : Prop :=
  forall pre v post, 0 <= v <= 1 -> f (pre ++ v :: post) = (1 - v) * f (pre ++ 0 :: post) + v * f (pre ++ 1 :: post).
Definition pixel_convex (f : list R -> R) : Prop :=
  forall pre v post, 0 <= v <= 1 -> f (pre ++ v :: post) <= (1 - v) * f (pre ++ 0 :: post) + v * f (pre ++ 1 :: post).
(** [w] is the level in [lo, hi] nearest to [v]. *)
Definition nearest_level (lo hi v w : R) : Prop := lo <= w <= hi /\ forall u, lo <= u <= hi -> Rabs (v - w) <= Rabs (v - u).
