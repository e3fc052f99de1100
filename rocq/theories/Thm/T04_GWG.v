(** Property theorems C08, C09 (gwg.py). *)
From Coq Require Import Reals List Lra Lia Arith.
From Verif.Base Require Import RSum Cube Dist MH.
From Verif.Spec Require Import Chain.
From Verif.Model Require Import MathUtil GWG.
From Verif.Proof Require Import MathUtilProof GWGProof CatGWGProof.
Import ListNotations.
Local Open Scope R_scope.

(** ** C08 *)
(** Binary GWG with [k] flips drawn with replacement: for every energy [fw], score gradient [grad],
    balancing function [wf] and mask; acceptance guard idealised to 0. *)
Theorem C08_gwg_reversible : forall (fw : list nat -> R) (wf : R -> R) (grad : list nat -> nat -> R)
    (mask : option (nat -> R)) d k, (0 < d)%nat ->
  reversible (states d 2) (fun x => exp (fw x)) (gwg_step 0 fw wf grad mask k).
Proof. exact gwg_reversible. Qed.
Print Assumptions C08_gwg_reversible.

(** The step of the code (guard 1e-24). *)
Theorem C08_gwg_invariant_upto : forall (fw : list nat -> R) (wf : R -> R) (grad : list nat -> nat -> R)
    (mask : option (nat -> R)) d k, (0 < d)%nat ->
  invariant_upto (2 * / 10 ^ 24) (states d 2) (fun x => exp (fw x)) (gwg_step acc_guard fw wf grad mask k).
Proof. intros. exact (gwg_invariant_upto fw wf grad mask d k H acc_guard (Rlt_le _ _ acc_guard_pos)). Qed.
Print Assumptions C08_gwg_invariant_upto.

Theorem C08_gwg_proper : forall (fw : list nat -> R) (wf : R -> R) (grad : list nat -> nat -> R)
    (mask : option (nat -> R)) d k, (0 < d)%nat -> forall g,
  proper (states d 2) (gwg_step g fw wf grad mask k).
Proof.
  intros fw wf grad mask d k Hd g x Hx. split; [exact (gwg_is_prob fw wf grad mask d k Hd g x Hx)|].
  intros y w. exact (gwg_support fw wf grad mask d k g x y w Hx).
Qed.
Print Assumptions C08_gwg_proper.

(** Adaptive GWG at any radius value. *)
Theorem C08_adaptive_reversible : forall (fw : list nat -> R) (wf : R -> R) (grad : list nat -> nat -> R)
    (mask : option (nat -> R)) d radius, (0 < d)%nat ->
  reversible (states d 2) (fun x => exp (fw x)) (agwg_step 0 fw wf grad mask radius).
Proof. exact agwg_reversible. Qed.
Print Assumptions C08_adaptive_reversible.

Theorem C08_adaptive_invariant_upto : forall (fw : list nat -> R) (wf : R -> R) (grad : list nat -> nat -> R)
    (mask : option (nat -> R)) d radius, (0 < d)%nat ->
  invariant_upto (2 * / 10 ^ 24) (states d 2) (fun x => exp (fw x)) (agwg_step acc_guard fw wf grad mask radius).
Proof. intros. exact (agwg_invariant_upto fw wf grad mask d radius acc_guard H (Rlt_le _ _ acc_guard_pos)). Qed.
Print Assumptions C08_adaptive_invariant_upto.
Example C08_ex : In [0; 1; 1]%nat (states 3 2) /\ flip_idx [2; 0; 2]%nat [0; 1; 1]%nat = [1; 1; 0]%nat.
Proof. split; [apply in_states; split; [reflexivity|repeat constructor]|reflexivity]. Qed.

(** ** C09 *)
(** True for a batch of one chain. *)
Theorem C09_single_chain_reversible_partial : forall (fw : list nat -> R) (wf : R -> R) (grad : list nat -> nat -> R) d C,
  (0 < d)%nat -> (0 < C)%nat ->
  reversible (states d C) (fun x => exp (fw x)) (cgwg_single 0 fw wf grad C).
Proof. exact cgwg_single_reversible. Qed.
Print Assumptions C09_single_chain_reversible_partial.

Theorem C09_single_chain_invariant_upto_partial : forall (fw : list nat -> R) (wf : R -> R) (grad : list nat -> nat -> R) d C,
  (0 < d)%nat -> (0 < C)%nat ->
  invariant_upto (2 * / 10 ^ 24) (states d C) (fun x => exp (fw x)) (cgwg_single acc_guard fw wf grad C).
Proof. intros. exact (cgwg_single_invariant_upto fw wf grad d C H H0 acc_guard (Rlt_le _ _ acc_guard_pos)). Qed.
Print Assumptions C09_single_chain_invariant_upto_partial.

(** False for two chains, first form: two batches agree on chain 0 (same sample 0, same drawn index 1,
    hence same proposal 1) and the energy is flat, yet the log acceptance of chain 0 is 0 in one and -1e9 in the other. *)
Theorem C09_chains_interact_refuted : exists (fw : list nat -> R) wf grad C xs js xs' js',
  nth 0 xs [] = nth 0 xs' [] /\ nth 0 js 0%nat = nth 0 js' 0%nat /\ length xs = 2%nat /\ length xs' = 2%nat /\
  let x := nth 0 xs [] in let y := cgwg_y C x (nth 0 js 0%nat) in
  cgwg_log_acc fw wf grad C xs js x y = 0 /\ cgwg_log_acc fw wf grad C xs' js' x y = - 10 ^ 9.
Proof.
  exists (fun _ => 0), (fun s => s), (fun _ _ => 0), 3%nat, [[0]; [0]]%nat, [1; 1]%nat, [[0]; [1]]%nat, [1; 2]%nat.
  repeat split; apply cgwg_cross_chain.
Qed.
Print Assumptions C09_chains_interact_refuted.

(** Second form: with the exact gradient of a linear energy and the square-root balancing function, two
    chains started from the product target are not distributed as the product target after one step,
    with the guard of the code as well as with guard 0. *)
Theorem C09_two_chains_invariant_refuted : exists (fw : list nat -> R) wf grad d C,
  (forall x i c, In x (states d C) -> (i < d)%nat -> (c < C)%nat ->
     grad x (i * C + c)%nat - grad x (i * C + nth i x 0)%nat = fw (upd i c x) - fw x) /\
  forall guard, 0 <= guard <= / 1000 ->
  ~ invariant (lists_over (states d C) 2) (batch_pi (fun x => exp (fw x))) (cgwg_batch_step guard fw wf grad C).
Proof.
  exists w_fw, w_wf, w_grad, 1%nat, 3%nat. split; [|exact cgwg_pair_not_invariant].
  intros x i c Hx Hi Hc. assert (i = 0%nat) by lia. subst i. apply in_states in Hx. destruct Hx as [Hl HF].
  destruct x as [|a [|b x]]; try discriminate. reflexivity.
Qed.
Print Assumptions C09_two_chains_invariant_refuted.
