(** C86: padding an instance to the common number of nodes. *)
From Coq Require Import String Reals List Lra Lia Arith ZArith.
From Verif.Base Require Import RSum Cube Dist.
From Verif.Spec Require Import Chain Ergodic Padding GraphSpec.
From Verif.Model Require Import MathUtil RandomWalk Gibbs GWG LocallyBalanced PathAux Langevin CombOpt Annealing.
From Verif.Proof Require Import MHKernel GibbsProof LangevinProof ErgodicProof ErgodicSamplers ErgodicMore PaddingProof PaddingCases.
Import ListNotations.
Local Open Scope R_scope.

(** ** C86 *)
(** The energies of the padded instance look at the real nodes only, where they are the energies of the instance itself: every
    graph, any padded number of nodes [N] and edges [M], every real bit vector. *)
Theorem C86_models : forall g M N pw coeff T, (length (g_nodes g) <= N)%nat -> let n := length (g_nodes g) in
  pads n (fun x => comb_forward (mis_objective N (graph2edges M pw g)) (mis_penalty coeff (graph2edges M pw g)) T (fun i => INR (nth i x 0%nat)))
         (fun x => comb_forward (mis_objective n (graph2edges 0 pw g)) (mis_penalty coeff (graph2edges 0 pw g)) T (fun i => INR (nth i x 0%nat)))
  /\ pads n (fun x => comb_forward (mis_objective N (graph2edges M pw g)) (clique_penalty N coeff (graph2edges M pw g)) T (fun i => INR (nth i x 0%nat)))
            (fun x => comb_forward (mis_objective n (graph2edges 0 pw g)) (clique_penalty n coeff (graph2edges 0 pw g)) T (fun i => INR (nth i x 0%nat)))
  /\ (loopless n (map ends (g_edges g)) ->
      pads n (fun x => comb_forward (maxcut_objective (graph2edges M 0 g)) no_penalty T (fun i => INR (nth i x 0%nat)))
             (fun x => comb_forward (maxcut_objective (graph2edges 0 0 g)) no_penalty T (fun i => INR (nth i x 0%nat)))).
Proof.
  intros g M N pw coeff T HN n. split; [exact (mis_pads g M N pw coeff T HN)|]. split; [exact (clique_pads g M N pw coeff T HN)|].
  intros Hl. exact (maxcut_pads g M T Hl).
Qed.
Print Assumptions C86_models.

(** The target: the real nodes have the same distribution in the padded problem. *)
Theorem C86_target : forall d e C (fwD fw : list nat -> R) f, (0 < C)%nat -> pads d fwD fw ->
  mean (states (d + e) C) (fun x => exp (fwD x)) (fun x => f (firstn d x)) = mean (states d C) (fun u => exp (fw u)) f.
Proof. exact padded_mean. Qed.
Print Assumptions C86_target.

(** Gibbs: a step at a real node is the step of the instance, a step at a padded node does nothing to the real ones, and [q]
    sweeps of the padded run are [q] sweeps of the instance. *)
Theorem C86_gibbs_site : forall d D C (fwD fw : list nat -> R) idx x f, pads d fwD fw -> (d <= D)%nat -> In x (states D C) ->
  E (gibbs_step fwD C idx x) (fun y => f (firstn d y)) = if Nat.ltb idx d then E (gibbs_step fw C idx (firstn d x)) f else f (firstn d x).
Proof. exact gibbs_lump. Qed.
Print Assumptions C86_gibbs_site.

Theorem C86_gibbs_sweeps : forall d D C (fwD fw : list nat -> R), pads d fwD fw -> (0 < d <= D)%nat -> forall q x f, In x (states D C) ->
  E (run_seq (fun t => gibbs_step fwD C (g_index (Nat.iter t (gibbs_update D C) g_init))) (q * D) 0 x) (fun y => f (firstn d y))
  = E (run_seq (fun t => gibbs_step fw C (g_index (Nat.iter t (gibbs_update d C) g_init))) (q * d) 0 (firstn d x)) f.
Proof. exact gibbs_sweep_lump. Qed.
Print Assumptions C86_gibbs_sweeps.

Theorem C86_block : forall d (fwD fw : list nat -> R) C b start x f, pads d fwD fw ->
  E (block_step fwD C b start x) (fun y => f (firstn d y)) = E (block_step fw C b start (firstn d x)) f.
Proof. exact block_lump. Qed.
Print Assumptions C86_block.

(** Langevin samplers at a given step size: whole runs, with any schedule of step sizes. *)
Theorem C86_dmala : forall d e guard dg (fwD fw : list nat -> R) (lt : nat -> R) wf lrD lr, pads d fwD fw -> pads_scores d lrD lr ->
  forall n t x f, In x (states (d + e) 2) ->
  E (run_seq (fun t => dmala_bin_step guard dg fwD (fun _ => lt t) wf lrD) n t x) (fun y => f (firstn d y))
  = E (run_seq (fun t => dmala_bin_step guard dg fw (fun _ => lt t) wf lr) n t (firstn d x)) f.
Proof. exact dmala_runs. Qed.
Print Assumptions C86_dmala.

Theorem C86_dlmc : forall d e guard dg (fwD fw : list nat -> R) solver (lt : nat -> R) wf lrD lr,
  solver = "interpolate"%string \/ solver = "euler_forward"%string -> pads d fwD fw -> pads_scores d lrD lr ->
  forall n t x f, In x (states (d + e) 2) ->
  E (run_seq (fun t => dlmc_bin_step guard dg fwD solver (fun _ => lt t) wf lrD) n t x) (fun y => f (firstn d y))
  = E (run_seq (fun t => dlmc_bin_step guard dg fw solver (fun _ => lt t) wf lr) n t (firstn d x)) f.
Proof. exact dlmc_runs. Qed.
Print Assumptions C86_dlmc.

(** The hypothesis on the scores: exact flip scores (for which the energy is affine in each bit) satisfy it. *)
Theorem C86_scores : forall d (fwD fw : list nat -> R), pads d fwD fw ->
  pads_scores d (paf_lr_grad_bin (flip_grad fwD)) (paf_lr_grad_bin (flip_grad fw)).
Proof. exact flip_scores_pad. Qed.
Print Assumptions C86_scores.

(** Random walk: the padded run moves the real nodes with a radius shrunk by the fraction of real nodes; at the same radius the
    laws differ. *)
Theorem C86_random_walk : forall guard d e C (fwD fw : list nat -> R) (radius : nat -> R), pads d fwD fw -> (0 < d)%nat -> (2 <= C)%nat ->
  (forall t, 0 <= radius t <= INR (d + e)) -> forall n t x f, In x (states (d + e) C) ->
  E (run_seq (fun t => rw_step guard fwD (radius t) (d + e) C) n t x) (fun y => f (firstn d y))
  = E (run_seq (fun t => rw_step guard fw (radius t * INR d / INR (d + e)) d C) n t (firstn d x)) f.
Proof. exact rw_runs. Qed.
Print Assumptions C86_random_walk.

Theorem C86_random_walk_refuted : exists (d e C : nat) (radius : R) (fwD fw : list nat -> R) x f,
  (0 < d)%nat /\ (0 < e)%nat /\ 1 <= radius <= INR d /\ pads d fwD fw /\ In x (states (d + e) C) /\
  E (rw_step acc_guard fwD radius (d + e) C x) (fun y => f (firstn d y)) <> E (rw_step acc_guard fw radius d C (firstn d x)) f.
Proof. exact rw_pad_refuted. Qed.
Print Assumptions C86_random_walk_refuted.

(** The local step size of the Langevin samplers (first step, or every step under co_opt_prob) is n divided by the average
    total rate PLUS the rate of the padded entries, so every real node of every chain flips with strictly smaller probability
    than without padding. *)
Theorem C86_local_step : forall n wf lrD lr d e xs, 0 < n -> (0 < d)%nat -> xs <> [] -> pads_scores d lrD lr -> Forall (fun x => length x = (d + e)%nat) xs ->
  let Z := rsum xs (fun x => rsum (seq 0 d) (fun i => exp (wf (lr (firstn d x) i)))) / INR (length xs) in
  0 < Z /\ exp (local_log_tau n (dmala_log_z (map (chain_rates wf lrD) xs))) = n / (Z + INR e * exp (wf 0)).
Proof. exact local_tau_pad. Qed.
Print Assumptions C86_local_step.

Theorem C86_local_step_smaller : forall n wf lrD lr d e xs x i, 0 < n -> (0 < e)%nat -> pads_scores d lrD lr -> Forall (fun x => length x = (d + e)%nat) xs ->
  In x xs -> (i < d)%nat ->
  nth i (dmala_pfun wf lrD (local_log_tau n (dmala_log_z (map (chain_rates wf lrD) xs))) x) 0
  < nth i (dmala_pfun wf lr (local_log_tau n (dmala_log_z (map (chain_rates wf lr) (map (firstn d) xs)))) (firstn d x)) 0.
Proof. exact local_step_diluted. Qed.
Print Assumptions C86_local_step_smaller.

Theorem C86_local_step_refuted : exists (d e : nat) (wf : R -> R) (fwD fw : list nat -> R) (lrD lr : list nat -> nat -> R) x f,
  (0 < d)%nat /\ (0 < e)%nat /\ pads d fwD fw /\ pads_scores d lrD lr /\ In x (states (d + e) 2) /\
  E (dmala_bin_step acc_guard log_guard fwD (fun x => local_log_tau 3 (dmala_log_z [chain_rates wf lrD x])) wf lrD x) (fun y => f (firstn d y))
  <> E (dmala_bin_step acc_guard log_guard fw (fun x => local_log_tau 3 (dmala_log_z [chain_rates wf lr x])) wf lr (firstn d x)) f.
Proof. exact local_step_refuted. Qed.
Print Assumptions C86_local_step_refuted.

(** The samplers that receive the mask: whatever bounded statistic of the real nodes is looked at, one step of the padded chain
    and one of the unpadded chain differ by at most 6 k e exp(-10^9) / m, with k the number of selected sites, e the number of
    padded nodes and m a lower bound of the proposal weights of the real nodes (exp(-10^9) is 0 in the arithmetic of the code). *)
Theorem C86_gwg : forall d e wf gradD grad m fwD fw guard k x f, (0 < d)%nat -> 0 < m -> pads d fwD fw ->
  (forall x i, (i < d)%nat -> gradD x i = grad (firstn d x) i) ->
  (forall u i, In u (states d 2) -> (i < d)%nat -> m <= exp (wf ((1 - 2 * INR (nth i u 0%nat)) * grad u i))) ->
  0 <= guard <= 1 -> (1 <= k)%nat -> In x (states (d + e) 2) -> (forall z, Rabs (f z) <= 1) ->
  Rabs (E (gwg_step guard fwD wf gradD (Some (node_mask d)) k x) (fun z => f (firstn d z))
        - E (gwg_step guard fw wf grad (Some (node_mask d)) k (firstn d x)) f) <= 6 * (INR k * (INR e * exp (- 10 ^ 9) / m)).
Proof.
  intros d e wf gradD grad m fwD fw guard k x f Hd Hm Hp Hgr Hmin Hg Hk Hx Hf.
  apply (gwg_masked_paf d e wf (paf_lr_grad_bin gradD) (paf_lr_grad_bin grad) m Hd); auto.
  intros z i Hi. unfold paf_lr_grad_bin. rewrite Hgr, nth_firstn_lt by auto. reflexivity.
Qed.
Print Assumptions C86_gwg.

Theorem C86_adaptive_gwg : forall d e wf m radius guard (fwD fw : list nat -> R), (1 <= d)%nat -> 0 < m -> radius <= INR d -> pads d fwD fw -> 0 <= guard <= 1 ->
  forall gradD grad x f, (forall x i, (i < d)%nat -> gradD x i = grad (firstn d x) i) ->
  (forall u i, In u (states d 2) -> (i < d)%nat -> m <= exp (wf ((1 - 2 * INR (nth i u 0%nat)) * grad u i))) ->
  In x (states (d + e) 2) -> (forall z, Rabs (f z) <= 1) ->
  Rabs (E (agwg_step guard fwD wf gradD (Some (node_mask d)) radius x) (fun z => f (firstn d z))
        - E (agwg_step guard fw wf grad (Some (node_mask d)) radius (firstn d x)) f)
    <= 6 * (INR (num_sites d radius) * (INR e * exp (- 10 ^ 9) / m)).
Proof. intros. apply agwg_masked; auto. Qed.
Print Assumptions C86_adaptive_gwg.

Theorem C86_path_auxiliary : forall d e wf lrD lr m fwD fw guard k x f, (0 < d)%nat -> 0 < m -> pads d fwD fw ->
  (forall x i, (i < d)%nat -> lrD x i = lr (firstn d x) i) ->
  (forall u i, In u (states d 2) -> (i < d)%nat -> m <= exp (wf (lr u i))) ->
  0 <= guard <= 1 -> (1 <= k <= d)%nat -> In x (states (d + e) 2) -> (forall z, Rabs (f z) <= 1) ->
  Rabs (E (pafs_step guard fwD wf lrD (Some (node_mask d)) k x) (fun z => f (firstn d z))
        - E (pafs_step guard fw wf lr (Some (node_mask d)) k (firstn d x)) f) <= 6 * (INR k * (INR e * exp (- 10 ^ 9) / m)).
Proof. intros. apply (pafs_masked d e wf lrD lr m); auto. Qed.
Print Assumptions C86_path_auxiliary.

Theorem C86_adaptive_path_auxiliary : forall d e wf m radius guard (fwD fw : list nat -> R), (1 <= d)%nat -> 0 < m -> radius <= INR d -> pads d fwD fw -> 0 <= guard <= 1 ->
  forall lrD lr x f, (forall x i, (i < d)%nat -> lrD x i = lr (firstn d x) i) ->
  (forall u i, In u (states d 2) -> (i < d)%nat -> m <= exp (wf (lr u i))) -> In x (states (d + e) 2) -> (forall z, Rabs (f z) <= 1) ->
  Rabs (E (apafs_step guard fwD wf lrD (Some (node_mask d)) radius x) (fun z => f (firstn d z))
        - E (apafs_step guard fw wf lr (Some (node_mask d)) radius (firstn d x)) f)
    <= 6 * (INR (num_sites d radius) * (INR e * exp (- 10 ^ 9) / m)).
Proof. intros. apply apafs_masked; auto. Qed.
Print Assumptions C86_adaptive_path_auxiliary.

(** The independent-set energy of one edge on two nodes, padded to five nodes and four edges: the padding entries do not matter. *)
Example C86_ex : let g := {| g_nodes := [0; 1]%nat; g_edges := [((0, 1)%nat, 1)] |} in
  let fwD := fun x => comb_forward (mis_objective 5 (graph2edges 4 0 g)) (mis_penalty 2 (graph2edges 4 0 g)) 1 (fun i => INR (nth i x 0%nat)) in
  pads 2 fwD (fun x => comb_forward (mis_objective 2 (graph2edges 0 0 g)) (mis_penalty 2 (graph2edges 0 0 g)) 1 (fun i => INR (nth i x 0%nat)))
  /\ fwD [1; 0; 1; 1; 0]%nat = 1 /\ fwD [1; 1; 0; 0; 1]%nat = 0
  /\ In [1; 0; 1; 1; 0]%nat (states (2 + 3) 2) /\ firstn 2 [1; 0; 1; 1; 0]%nat = [1; 0]%nat.
Proof.
  intros g fwD. split; [exact (proj1 (C86_models g 4 5 0 2 1 ltac:(cbn; lia)))|].
  split; [unfold fwD, comb_forward, mis_objective, mis_penalty; cbn; field|]. split; [unfold fwD, comb_forward, mis_objective, mis_penalty; cbn; field|].
  split; [apply in_states; split; [reflexivity|repeat constructor; lia]|reflexivity].
Qed.

(** A masked proposal with weights bounded below: constant scores 0, identity balancing function, m = 1. *)
Example C86_ex_masked : forall u i, In u (states 2 2) -> (i < 2)%nat -> 1 <= exp ((fun r => r) ((1 - 2 * INR (nth i u 0%nat)) * (fun (_ : list nat) (_ : nat) => 0) u i)).
Proof. intros u i _ _. rewrite Rmult_0_r, exp_0. lra. Qed.
