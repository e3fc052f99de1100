(** Property theorems C03, C04, C05 (gibbs.py, blockgibbs.py). *)
From Coq Require Import Reals List Lra Lia Arith.
From Verif.Base Require Import RSum Cube Dist MH.
From Verif.Spec Require Import Chain.
From Verif.Model Require Import Gibbs.
From Verif.Proof Require Import GibbsProof ScanProof ChainProof.
Import ListNotations.
Local Open Scope R_scope.

Theorem C03_gibbs_reversible : forall (fw : list nat -> R) d C idx, (idx < d)%nat ->
  reversible (states d C) (fun x => exp (fw x)) (gibbs_step fw C idx).
Proof. exact gibbs_reversible. Qed.
Print Assumptions C03_gibbs_reversible.

Theorem C03_gibbs_invariant : forall (fw : list nat -> R) d C idx, (idx < d)%nat ->
  invariant (states d C) (fun x => exp (fw x)) (gibbs_step fw C idx).
Proof. exact gibbs_invariant. Qed.
Print Assumptions C03_gibbs_invariant.

(** The new value of the current coordinate has exactly the conditional law of the target. *)
Theorem C03_gibbs_conditional : forall (fw : list nat -> R) d C idx x v,
  (idx < d)%nat -> In x (states d C) -> (v < C)%nat ->
  E (gibbs_step fw C idx x) (fun y => if list_eq_dec Nat.eq_dec y (upd idx v x) then 1 else 0)
  = exp (fw (upd idx v x)) / rsum (seq 0 C) (fun u => exp (fw (upd idx u x))).
Proof. exact gibbs_conditional. Qed.
Print Assumptions C03_gibbs_conditional.

Theorem C03_gibbs_support : forall (fw : list nat -> R) d C idx, (idx < d)%nat -> forall x y w,
  In x (states d C) -> In (y, w) (gibbs_step fw C idx x) ->
  In y (states d C) /\ (forall j, j <> idx -> nth j y 0%nat = nth j x 0%nat).
Proof. exact gibbs_support. Qed.
Example C03_ex : (1 < 3)%nat /\ In [0; 2; 1]%nat (states 3 3).
Proof. split; [lia|]. apply in_states. split; auto. repeat constructor. Qed.
Print Assumptions C03_gibbs_support.

(** Any number of steps of a batch of chains, with the coordinate taken from the sampler state. *)
Theorem C03_gibbs_run_invariant : forall (fw : list nat -> R) d C B n, (0 < d)%nat ->
  invariant (lists_over (states d C) B) (batch_pi (fun x => exp (fw x)))
    (run_seq (fun t => batch_step (gibbs_step fw C (g_index (Nat.iter t (gibbs_update d C) g_init)))) n 0).
Proof.
  intros fw d C B n Hd. apply run_seq_invariant. intros t. apply batch_invariant. apply gibbs_invariant.
  rewrite gibbs_iter_state by auto. apply Nat.mod_upper_bound. lia.
Qed.
Print Assumptions C03_gibbs_run_invariant.

(** C04 *)
Theorem C04_gibbs_scan : forall d C n i, (i < d)%nat ->
  exists t, (n <= t < n + d)%nat /\ g_index (Nat.iter t (gibbs_update d C) g_init) = i /\
    forall t', (n <= t' < n + d)%nat -> g_index (Nat.iter t' (gibbs_update d C) g_init) = i -> t' = t.
Proof.
  intros d C n i Hi. destruct (residue_window d n i Hi) as (t & H1 & H2 & H3).
  exists t. split; [exact H1|]. rewrite gibbs_iter_state by lia. split; [exact H2|].
  intros t' Ht'. rewrite gibbs_iter_state by lia. exact (H3 t' Ht').
Qed.
Print Assumptions C04_gibbs_scan.

Theorem C04_gibbs_counters : forall d C n, (0 < d)%nat ->
  g_steps (Nat.iter n (gibbs_update d C) g_init) = n /\ g_ll (Nat.iter n (gibbs_update d C) g_init) = (n * C)%nat.
Proof. intros d C n Hd. rewrite gibbs_iter_state by exact Hd. exact (conj eq_refl eq_refl). Qed.
Print Assumptions C04_gibbs_counters.

(** A block step at start [s] can rewrite coordinate [i] iff s <= i < s + b (see C05_block_support). *)
Theorem C04_block_prefix_cover : forall d C b i, (0 < b)%nat -> (i < d)%nat ->
  exists t, (t < (d + b - 1) / b)%nat /\
    let s := g_index (Nat.iter t (block_update d C b) g_init) in (s <= i < s + b)%nat.
Proof.
  intros d C b i Hb Hi. destruct (block_prefix_cover d b i Hb Hi) as (t & H1 & H2).
  exists t. split; [exact H1|]. rewrite block_iter_state by lia. exact H2.
Qed.
Print Assumptions C04_block_prefix_cover.

Theorem C04_block_window_cover : forall d C b n i, (0 < b)%nat -> (i < d)%nat ->
  exists t, (n <= t < n + d / Nat.gcd d b)%nat /\
    let s := g_index (Nat.iter t (block_update d C b) g_init) in (s <= i < s + b)%nat.
Proof.
  intros d C b n i Hb Hi. destruct (block_window_cover d b n i Hb Hi) as (t & H1 & H2).
  exists t. split; [exact H1|]. rewrite block_iter_state by lia. exact H2.
Qed.
Example C04_block_ex : (0 < 2)%nat /\ (0 < 3)%nat /\
  map (fun t => g_index (Nat.iter t (block_update 3 2 2) g_init)) [0;1;2;3]%nat = [0;2;1;0]%nat.
Proof. repeat split; lia. Qed.
Print Assumptions C04_block_window_cover.

Theorem C04_block_counters : forall d C b n, (0 < d)%nat ->
  g_steps (Nat.iter n (block_update d C b) g_init) = n /\ g_ll (Nat.iter n (block_update d C b) g_init) = (n * C ^ b)%nat.
Proof. intros d C b n Hd. rewrite block_iter_state by exact Hd. exact (conj eq_refl eq_refl). Qed.
Print Assumptions C04_block_counters.

(** After the first pass, ceil(d/b) consecutive steps need not cover every coordinate. *)
Theorem C04_block_later_window_refuted : exists d C b n i, (0 < b)%nat /\ (i < d)%nat /\
  forall t, (n <= t < n + (d + b - 1) / b)%nat ->
    let s := g_index (Nat.iter t (block_update d C b) g_init) in ~ (s <= i < s + b)%nat.
Proof.
  exists 3%nat, 2%nat, 2%nat, 1%nat, 0%nat. split; [lia|]. split; [lia|]. intros t Ht. rewrite block_iter_state by lia.
  cbn [g_index]. cbn in Ht. assert (t = 1 \/ t = 2)%nat as [-> | ->] by lia; cbn; lia.
Qed.
Print Assumptions C04_block_later_window_refuted.

(** C05 *)
Theorem C05_block_reversible : forall (fw : list nat -> R) d C b start, (0 < C)%nat ->
  reversible (states d C) (fun x => exp (fw x)) (block_step fw C b start).
Proof. exact block_reversible. Qed.
Print Assumptions C05_block_reversible.

Theorem C05_block_invariant : forall (fw : list nat -> R) d C b start, (0 < C)%nat ->
  invariant (states d C) (fun x => exp (fw x)) (block_step fw C b start).
Proof. exact block_invariant. Qed.
Print Assumptions C05_block_invariant.

Theorem C05_block_support : forall (fw : list nat -> R) d C b start, (0 < C)%nat -> forall x y w,
  In x (states d C) -> In (y, w) (block_step fw C b start x) ->
  In y (states d C) /\ (forall j, ~ (start <= j < start + b)%nat -> nth j y 0%nat = nth j x 0%nat).
Proof. exact block_support. Qed.
(** a block sticking out past the last coordinate *)
Example C05_ex : (0 < 2)%nat /\ In [0; 1; 1]%nat (states 3 2) /\ scatter_block 2 [0; 1]%nat [0; 1; 1]%nat = [0; 1; 0]%nat.
Proof. split; [lia|]. split; [|reflexivity]. apply in_states. split; [reflexivity|repeat constructor]. Qed.
Print Assumptions C05_block_support.

Theorem C05_block_run_invariant : forall (fw : list nat -> R) d C b B n, (0 < C)%nat ->
  invariant (lists_over (states d C) B) (batch_pi (fun x => exp (fw x)))
    (run_seq (fun t => batch_step (block_step fw C b (g_index (Nat.iter t (block_update d C b) g_init)))) n 0).
Proof.
  intros fw d C b B n HC. apply run_seq_invariant. intros t. apply batch_invariant. apply block_invariant; exact HC.
Qed.
Print Assumptions C05_block_run_invariant.
