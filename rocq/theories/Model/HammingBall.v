(** Model of discs/samplers/hammingball.py. *)
From Coq Require Import Reals List Lra Lia Arith.
From Verif.Base Require Import RSum Cube Dist.
From Verif.Model Require Import MathUtil Gibbs.
Import ListNotations.
Local Open Scope R_scope.

(** 16-32 [__init__] with hamming = 1: [1.0, comb(block_size, 1) * (C - 1)]; for C = 2 the factor is absent, i.e. 1. *)
Definition hamming_logit (b C : nat) : list R :=
  [1; if Nat.eqb C 2 then INR (comb b 1) else INR (comb b 1 * (C - 1))].

(** 65-67 and 94-97: entry at [idx] shifted by [v] modulo C; an index past the end writes nothing. *)
Definition shift_at (C idx v : nat) (x : list nat) : list nat := upd idx ((nth idx x 0 + v) mod C)%nat x.

(** 53-68 [compute_u]: uniform index of the block, uniform shift in 1..C-1. *)
Definition compute_u (C b start : nat) (x : list nat) : dist (list nat) :=
  bind (uniform (map (fun j => (start + j)%nat) (seq 0 b))) (fun idx =>
  bind (uniform (seq 1 (C - 1))) (fun v => ret (shift_at C idx v x))).

(** 82-99, 112: the current sample, then for every index of the block every shift. *)
Definition hb_candidates (C b start : nat) (u : list nat) : list (list nat) :=
  u :: flat_map (fun j => map (fun v => shift_at C (start + j) v u) (seq 1 (C - 1))) (seq 0 b).

(** 101-106: one candidate with probability softmax of the energies. *)
Definition hb_select (forward : list nat -> R) (C b start : nat) (u : list nat) : dist (list nat) :=
  dmap (fun sel => nth sel (hb_candidates C b start u) []) (categorical (map forward (hb_candidates C b start u))).

(** One chain given the radius (79, 108-121). *)
Definition hb_chain (forward : list nat -> R) (C b start rad : nat) (x : list nat) : dist (list nat) :=
  bind (if Nat.eqb rad 0 then ret x else compute_u C b start x) (hb_select forward C b start).

(** 70-123: [rad] (76) is a single draw for the whole batch; [logits] is [hamming_logit] in the code. *)
Definition hb_batch_step (logits : list R) (forward : list nat -> R) (C b start : nat) (xs : list (list nat)) : dist (list (list nat)) :=
  bind (categorical logits) (fun rad => indep (map (hb_chain forward C b start rad) xs)).
Definition hb_step (logits : list R) (forward : list nat -> R) (C b start : nat) (x : list nat) : dist (list nat) :=
  bind (categorical logits) (fun rad => hb_chain forward C b start rad x).

(** 39-46. *)
Definition hb_update (dim C b : nat) (s : gstate) : gstate :=
  {| g_steps := S (g_steps s); g_index := ((g_index s + b) mod dim)%nat; g_ll := (g_ll s + ((C - 1) * b + 1))%nat |}.
