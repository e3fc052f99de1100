(** C87: the Langevin samplers under co_opt_prob. *)
From Coq Require Import String Reals List Lra Lia Arith ZArith.
From Verif.Base Require Import RSum Cube Dist XFloat.
From Verif.Spec Require Import Chain.
From Verif.Model Require Import MathUtil LocallyBalanced PathAux Langevin.
From Verif.Proof Require Import LangevinProof LangevinAdapt CoOptProof.
Import ListNotations.
Local Open Scope R_scope.

(** ** C87 *)
(** A batch of one chain, any state of the sampler: the kernel whose step size is a function of the chain's state ... *)
Theorem C87_one_chain : forall guard dg fw wf lr lz n c s x f, lc_co_opt c = true ->
  E (bin_batch_step guard dg fw (dmala_pfun wf lr) (chain_rates wf lr) lz n c s [x]) (fun o => f (fst o))
  = E (batch_step (dmala_bin_step guard dg fw (fun z => local_log_tau n (lz [chain_rates wf lr z])) wf lr) [x]) f.
Proof. intros. exact (co_single guard dg fw (dmala_pfun wf lr) (chain_rates wf lr) lz n c s x f H). Qed.
Print Assumptions C87_one_chain.

(** ... which is reversible for the target, although the two directions use different step sizes. *)
Theorem C87_one_chain_reversible : forall (fw : list nat -> R) wf lr lz n d,
  reversible (states d 2) (fun x => exp (fw x)) (dmala_bin_step 0 0 fw (fun z => local_log_tau n (lz [chain_rates wf lr z])) wf lr).
Proof. intros. apply bern_reversible. intros x. apply dmala_ps_ok. Qed.
Print Assumptions C87_one_chain_reversible.

(** Several chains whose total rate is the same in every state: independent chains with a constant step size. *)
Theorem C87_constant_rate : forall guard dg fw wf lr lz n c s d xs z0 f, lc_co_opt c = true ->
  (forall zs, length zs = length xs -> Forall (fun z => In z (states d 2)) zs -> lz (map (chain_rates wf lr) zs) = z0) ->
  Forall (fun x => In x (states d 2)) xs ->
  E (bin_batch_step guard dg fw (dmala_pfun wf lr) (chain_rates wf lr) lz n c s xs) (fun o => f (fst o))
  = E (batch_step (dmala_bin_step guard dg fw (fun _ => local_log_tau n z0) wf lr) xs) f.
Proof.
  intros guard dg fw wf lr lz n c s d xs z0 f Hc Hz Hxs. apply (co_constant guard dg fw (dmala_pfun wf lr) (chain_rates wf lr) lz n c s d xs z0 f Hc); auto.
  intros lt x Hx. apply in_states in Hx. unfold dmala_pfun. rewrite map_length, seq_length. tauto.
Qed.
Print Assumptions C87_constant_rate.

(** In general the chains of a batch influence each other ... *)
Theorem C87_independence_refuted : exists (fw : list nat -> R) wf lr, forall c s, lc_co_opt c = true ->
  let step := fun xs => dmap fst (bin_batch_step 0 0 fw (dmala_pfun wf lr) (chain_rates wf lr) dmala_log_z 3 c s xs) in
  exists x y y' f, In x (states 1 2) /\ In y (states 1 2) /\ In y' (states 1 2) /\
    E (step [x; y]) (fun xs => f (nth 0 xs [])) <> E (step [x; y']) (fun xs => f (nth 0 xs [])).
Proof.
  exists co_fw, co_wf, co_lr. intros c s Hc step. exists [0%nat], [0%nat], [1%nat], (fun x => INR (nth 0 x 0%nat)).
  assert (H : forall v, (v < 2)%nat -> In [v] (states 1 2)) by (intros v Hv; apply in_states; split; [reflexivity|apply Forall_cons; [exact Hv|apply Forall_nil]]).
  split; [apply H; lia|]. split; [apply H; lia|]. split; [apply H; lia|].
  destruct (co_dmala_influence c s Hc) as [H1 H2]. intros K. assert (K2 : 3 / 4 = 24 / 29) by (rewrite <- H1, <- H2; exact K). lra.
Qed.
Print Assumptions C87_independence_refuted.

(** ... and the product of the targets is not preserved: with two chains of one bit (log-odds ln 4, exact gradient, square-root
    balancing) one step moves the total weight by more than the stated fraction, in any sampler state and configuration with
    co_opt_prob, in exact arithmetic without the guards of the code. *)
Theorem C87_dmala_refuted : exists (fw : list nat -> R) wf lr d, (forall x i, In x (states d 2) -> (i < d)%nat ->
    lr x i = fw (upd i (1 - nth i x 0)%nat x) - fw x) /\ (forall r, wf r = r / 2) /\
  forall c s, lc_co_opt c = true ->
  ~ invariant_upto (1 / 250) (lists_over (states d 2) 2) (batch_pi (fun x => exp (fw x)))
     (fun xs => dmap fst (bin_batch_step 0 0 fw (dmala_pfun wf lr) (chain_rates wf lr) dmala_log_z 3 c s xs)).
Proof. exists co_fw, co_wf, co_lr, 1%nat. split; [exact co_lr_exact|]. split; [reflexivity|]. exact co_dmala_refuted. Qed.
Print Assumptions C87_dmala_refuted.

Theorem C87_dlmc_refuted : exists (fw : list nat -> R) wf lr d n, 0 < n /\ (forall x i, In x (states d 2) -> (i < d)%nat ->
    lr x i = fw (upd i (1 - nth i x 0)%nat x) - fw x) /\ (forall r, wf r = r / 2) /\
  forall c s, lc_co_opt c = true ->
  ~ invariant_upto (1 / 2500) (lists_over (states d 2) 2) (batch_pi (fun x => exp (fw x)))
     (fun xs => dmap fst (bin_batch_step 0 0 fw (dlmc_pfun "euler_forward" wf lr) (chain_rates wf lr) dlmc_log_z n c s xs)).
Proof. exists co_fw, co_wf, co_lr, 1%nat, (1 / 10). split; [lra|]. split; [exact co_lr_exact|]. split; [reflexivity|]. exact co_dlmc_refuted. Qed.
Print Assumptions C87_dlmc_refuted.

(** One chain of DLMC. *)
Theorem C87_dlmc_one_chain : forall guard dg fw wf lr lz n c s d x f solver, solver = "interpolate"%string \/ solver = "euler_forward"%string ->
  lc_co_opt c = true -> In x (states d 2) ->
  E (bin_batch_step guard dg fw (dlmc_pfun solver wf lr) (chain_rates wf lr) lz n c s [x]) (fun o => f (fst o))
  = E (batch_step (dlmc_bin_step guard dg fw solver (fun z => local_log_tau n (lz [chain_rates wf lr z])) wf lr) [x]) f.
Proof. intros guard dg fw wf lr lz n c s d x f solver Hs Hc Hx. exact (co_single_dlmc guard dg fw wf lr lz n c s d x f solver Hs Hc Hx). Qed.
Print Assumptions C87_dlmc_one_chain.

(** A configuration with co_opt_prob, and scores that are the same in every state (no energy differences). *)
Example C87_ex : lc_co_opt {| lc_adaptive := true; lc_co_opt := true; lc_target := 574 / 1000; lc_schedule := 100; lc_reset := 20 |} = true
  /\ forall zs, length zs = 2%nat -> Forall (fun z => In z (states 2 2)) zs ->
     dmala_log_z (map (chain_rates (fun r => r / 2) (fun _ _ => 0)) zs) = ln ((exp (0 / 2) + (exp (0 / 2) + 0) + (exp (0 / 2) + (exp (0 / 2) + 0) + 0)) / INR 2).
Proof.
  split; [reflexivity|]. intros [|z1 [|z2 [|? ?]]] Hl HF; try discriminate. pose proof (Forall_inv HF) as H1. pose proof (Forall_inv (Forall_inv_tail HF)) as H2.
  apply in_states in H1, H2. destruct H1 as [H1 _], H2 as [H2 _]. unfold dmala_log_z, chain_rates. cbn [map]. rewrite H1, H2. reflexivity.
Qed.
