(** Model of discs/samplers/gibbs.py and discs/samplers/blockgibbs.py (BlockGibbsSampler), per chain.
    Every quantity in both files is computed row by row (the batch axis is never mixed), and one
    independent categorical draw is made per row. *)
From Coq Require Import Reals List Lra Lia Arith.
From Verif.Base Require Import RSum Cube Dist.
From Verif.Model Require Import MathUtil.
Import ListNotations.
Local Open Scope R_scope.

(** Sampler state: abstractsampler.py 34-38, gibbs.py 18-22 / blockgibbs.py 26-30 add 'index'. *)
Record gstate := { g_steps : nat; g_index : nat; g_ll : nat }.
Definition g_init : gstate := {| g_steps := 0; g_index := 0; g_ll := 0 |}.

(** gibbs.py 24-29 [update_sampler_state] (abstractsampler.py 40-42 increments steps). *)
Definition gibbs_update (dim C : nat) (s : gstate) : gstate :=
  {| g_steps := S (g_steps s); g_index := ((g_index s + 1) mod dim)%nat; g_ll := (g_ll s + C)%nat |}.

(** [cur_sample.at[:, index].add(i) % num_categories] (gibbs.py 39 and 51). *)
Definition add_mod (C index i : nat) (x : list nat) : list nat :=
  map (fun v => v mod C)%nat (upd index (nth index x 0 + i)%nat x).

(** gibbs.py 37-49: scores of staying (line 34 value) and of the C-1 shifts (scan over 1..C-1, line 43). *)
Definition gibbs_scores (forward : list nat -> R) (C index : nat) (x : list nat) : list R :=
  forward x :: map (fun i => forward (add_mod C index i x)) (seq 1 (C - 1)).

(** gibbs.py 50-52 and 56: draw the shift and apply it. *)
Definition gibbs_step (forward : list nat -> R) (C index : nat) (x : list nat) : dist (list nat) :=
  dmap (fun val_change => add_mod C index val_change x) (categorical (gibbs_scores forward C index x)).

(** blockgibbs.py 15-24: categories_iter = product(range(C), repeat=b) (for b = 1 the same list). *)
Definition categories_iter (C b : nat) : list (list nat) := lists_over (seq 0 C) b.

(** [x.at[:, start + arange(b)].set(vals)], out-of-range indices dropped (blockgibbs.py 45-47, 61, 66). *)
Fixpoint scatter_block (start : nat) (vals : list nat) (x : list nat) : list nat :=
  match vals with
  | [] => x
  | v :: vals' => scatter_block (S start) vals' (upd start v x)
  end.

(** blockgibbs.py 42-55. *)
Definition block_scores (forward : list nat -> R) (C b start : nat) (x : list nat) : list R :=
  map (fun vals => forward (scatter_block start vals x)) (categories_iter C b).

(** blockgibbs.py 57-68; [jnp.take] of an in-range index. *)
Definition block_step (forward : list nat -> R) (C b start : nat) (x : list nat) : dist (list nat) :=
  dmap (fun sel => scatter_block start (nth sel (categories_iter C b) []) x)
       (categorical (block_scores forward C b start x)).

(** blockgibbs.py 32-37. *)
Definition block_update (dim C b : nat) (s : gstate) : gstate :=
  {| g_steps := S (g_steps s); g_index := ((g_index s + b) mod dim)%nat; g_ll := (g_ll s + C ^ b)%nat |}.
