(** Specification vocabulary for the graph data sets. *)
From Coq Require Import String Reals ZArith List Arith Permutation.
From Verif.Model Require Import CombOpt Loaders.
Import ListNotations.

(** A graph fits into arrays of the reported sizes. *)
Definition fits (s : sizes) (g : graph) : Prop := (length (g_nodes g) <= max_nodes s)%nat /\ (length (g_edges g) <= max_edges s)%nat.

(** Two directories with the same files, listed in any order. *)
Definition relisted {A} (d1 d2 : list (string * A)) : Prop := Permutation d1 d2 /\ NoDup (map fst d1).
Inductive same_data : dataset -> dataset -> Prop :=
| same_rand d1 d2 : relisted d1 d2 -> same_data (DRand d1) (DRand d2)
| same_er d1 d2 : relisted d1 d2 -> same_data (DErTest d1) (DErTest d2)
| same_sat d1 d2 : relisted d1 d2 -> same_data (DSat d1) (DSat d2)
| same_rb d1 d2 : relisted d1 d2 -> same_data (DRB d1) (DRB d2)
| same_twitter d1 d2 : relisted d1 d2 -> same_data (DTwitter d1) (DTwitter d2)
| same_gap d1 d2 : relisted d1 d2 -> same_data (DGap d1) (DGap d2).

(** The data sets whose sizes can be found by reading, with well-formed files. *)
Definition readable (d : dataset) : Prop :=
  match d with
  | DGap _ => False
  | DOptsicom _ gs => Forall (fun g => exists n m rows, optsicom_graph n m rows = Some g) gs
  | _ => True
  end.
(** As many reference values as graphs in every file. *)
Definition paired (d : dataset) : Prop :=
  match d with DTwitter dir => Forall (fun f => length (fst (snd f)) = length (snd (snd f))) dir | _ => True end.

(** The sum of the labels that are there. *)
Fixpoint label_sum (labels : list (option Z)) : Z := match labels with [] => 0%Z | Some z :: l => (z + label_sum l)%Z | None :: l => label_sum l end.
