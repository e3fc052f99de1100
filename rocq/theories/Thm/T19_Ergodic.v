(** Property theorems C73: long runs and the target. *)
From Coq Require Import String Reals List Lra Lia Arith.
From Verif.Base Require Import RSum Cube Dist.
From Verif.Spec Require Import Chain Ergodic.
From Verif.Model Require Import MathUtil Gibbs RandomWalk LocallyBalanced GWG PathAux Langevin HammingBall.
From Verif.Proof Require Import MathUtilProof LangevinProof LBProof CatGWGProof HammingBallGeneral ErgodicSamplers ErgodicMore ErgodicPath ErgodicCat.
Import ListNotations.
Local Open Scope R_scope.

(** Gibbs: for every log-density, from every start, the sweep converges to the target in total variation. *)
Theorem C73_gibbs : forall fw d C, (0 < d)%nat -> (0 < C)%nat ->
  converges (states d C) (fun x => exp (fw x)) (fun t => gibbs_step fw C (g_index (Nat.iter t (gibbs_update d C) g_init))).
Proof. exact gibbs_state_converges. Qed.
Print Assumptions C73_gibbs.

(** ... with an explicit rate in terms of the range [D] of the log-density. *)
Theorem C73_gibbs_rate : forall fw d C D, (0 < d)%nat -> (0 < C)%nat ->
  (forall x y, In x (states d C) -> In y (states d C) -> Rabs (fw x - fw y) <= D) ->
  forall n x f, In x (states d C) -> (forall y, In y (states d C) -> Rabs (f y) <= 1) ->
  Rabs (E (run_seq (fun t => gibbs_step fw C (g_index (Nat.iter t (gibbs_update d C) g_init))) n 0 x) f
        - mean (states d C) (fun x => exp (fw x)) f) <= 2 * (1 - exp (- D) ^ d) ^ (n / d).
Proof. exact gibbs_state_rate. Qed.
Print Assumptions C73_gibbs_rate.

(** A non-flat target of range 1 on three binary sites, started in the corner [1;1;1]; test function "first site is 1". *)
Example C73_gibbs_rate_case :
  (forall x y, In x (states 3 2) -> In y (states 3 2) ->
     Rabs (INR (nth 0 x 0%nat) * INR (nth 1 x 0%nat) - INR (nth 0 y 0%nat) * INR (nth 1 y 0%nat)) <= 1) /\
  In [1;1;1]%nat (states 3 2) /\
  (forall y, In y (states 3 2) -> Rabs (INR (nth 0 y 0%nat)) <= 1).
Proof.
  split; [|split; [simpl; tauto|]].
  - intros x y Hx Hy. simpl in Hx, Hy.
    repeat (destruct Hx as [<-|Hx]; [repeat (destruct Hy as [<-|Hy]; [simpl; apply Rabs_le; lra|]); destruct Hy|]); destruct Hx.
  - intros y Hy. simpl in Hy. repeat (destruct Hy as [<-|Hy]; [simpl; apply Rabs_le; lra|]). destruct Hy.
Qed.

(** Block Gibbs, any block size, whether or not it divides the number of sites. *)
Theorem C73_block_gibbs : forall fw d C b, (0 < d)%nat -> (0 < C)%nat -> (0 < b)%nat ->
  converges (states d C) (fun x => exp (fw x)) (fun t => block_step fw C b (g_index (Nat.iter t (block_update d C b) g_init))).
Proof. exact block_state_converges. Qed.
Print Assumptions C73_block_gibbs.

Example C73_block_case : converges (states 3 2) (fun x => exp (INR (nth 0 x 0%nat)))
  (fun t => block_step (fun x => INR (nth 0 x 0%nat)) 2 2 (g_index (Nat.iter t (block_update 3 2 2) g_init))).
Proof. apply C73_block_gibbs; lia. Qed.

(** Random walk at a fixed radius strictly between 0 and the number of sites, exact acceptance rule. *)
Theorem C73_random_walk : forall fw d C radius, (2 <= C)%nat -> 0 < radius < INR d -> (0 < d)%nat ->
  converges (states d C) (fun x => exp (fw x)) (fun _ => rw_step 0 fw radius d C).
Proof. exact rw_converges. Qed.
Print Assumptions C73_random_walk.

(** The rule as coded: geometric approach down to a bias floor proportional to the acceptance guard 1e-24. *)
Theorem C73_random_walk_code_rate : forall fw d C radius D, (2 <= C)%nat -> 0 < radius < INR d -> (0 < d)%nat ->
  (forall x y, In x (states d C) -> In y (states d C) -> Rabs (fw x - fw y) <= D) -> / 10 ^ 24 < exp (- D) ->
  let e := (Rmin (radius / INR d) (1 - radius / INR d) / INR (C - 1)) ^ d * (exp (- D) - / 10 ^ 24) * INR (C ^ d) in
  forall n x f, In x (states d C) -> (forall y, In y (states d C) -> Rabs (f y) <= 1) ->
  Rabs (E (run_seq (fun _ => rw_step acc_guard fw radius d C) n 0 x) f - mean (states d C) (fun x => exp (fw x)) f)
  <= 2 * (1 - e) ^ n + 2 * / 10 ^ 24 / e.
Proof. exact rw_code_rate. Qed.
Print Assumptions C73_random_walk_code_rate.

Example C73_random_walk_case : 0 < 1 < INR 2 /\ / 10 ^ 24 < exp (- 0).
Proof. split; [simpl; lra|]. rewrite Ropp_0, exp_0. rewrite <- Rinv_1. apply Rinv_lt_contravar; [|apply Rlt_pow_R1; [lra|lia]].
  rewrite Rmult_1_l. apply pow_lt. lra. Qed.

(** At the largest radius the adaptation allows, two categories and a flat target, every move flips every site:
    the chain alternates between two states for ever. *)
Theorem C73_random_walk_refuted : exists fw radius, (1 <= radius <= INR 2) /\
  ~ converges (states 2 2) (fun x => exp (fw x)) (fun _ => rw_step 0 fw radius 2 2).
Proof.
  exists (fun _ => 0), (INR 2). split; [simpl; lra|]. apply (rw_full_radius_not_converges 2 0); lia.
Qed.
Print Assumptions C73_random_walk_refuted.

(** Discrete Langevin samplers with a step size that does not depend on past acceptances (fixed, or the local
    estimate of the current state), exact acceptance rule: every state can be reached in one step. *)
Theorem C73_dmala_binary : forall fw log_tau wf lr d,
  converges (states d 2) (fun x => exp (fw x)) (fun _ => dmala_bin_step 0 0 fw log_tau wf lr).
Proof. intros fw log_tau wf lr d. apply bern_converges. intros x Hx. apply dmala_ps_ok. exact Hx. Qed.
Print Assumptions C73_dmala_binary.

Theorem C73_dlmc_binary : forall fw solver log_tau wf lr d, solver = "interpolate"%string \/ solver = "euler_forward"%string ->
  converges (states d 2) (fun x => exp (fw x)) (fun _ => dlmc_bin_step 0 0 fw solver log_tau wf lr).
Proof. intros fw solver log_tau wf lr d Hs. apply bern_converges. intros x Hx. apply dlmc_ps_ok; [exact Hs|exact Hx]. Qed.
Print Assumptions C73_dlmc_binary.

Theorem C73_dmala_categorical : forall fw log_tau wf lr d C, (0 < C)%nat ->
  converges (states d C) (fun x => exp (fw x)) (fun _ => dmala_cat_step 0 fw log_tau wf lr C).
Proof. intros fw log_tau wf lr d C HC. apply cat_converges; [exact HC|]. intros x Hx. apply dmala_rows_ok. exact Hx. Qed.
Print Assumptions C73_dmala_categorical.

Theorem C73_dlmc_categorical : forall fw solver log_tau wf lr d C, (0 < C)%nat -> solver = "interpolate"%string \/ solver = "euler_forward"%string ->
  converges (states d C) (fun x => exp (fw x)) (fun _ => dlmc_cat_step 0 fw solver log_tau wf lr C).
Proof. intros fw solver log_tau wf lr d C HC Hs. apply cat_converges; [exact HC|]. intros x Hx. apply dlmc_rows_ok; [exact Hs|exact Hx]. Qed.
Print Assumptions C73_dlmc_categorical.

Example C73_langevin_case : converges (states 3 4) (fun x => exp (INR (nth 0 x 0%nat)))
  (fun _ => dlmc_cat_step 0 (fun x => INR (nth 0 x 0%nat)) "interpolate" (fun _ => -1) (fun t => t / 2) (fun x j => INR (j mod 4)) 4).
Proof. apply C73_dlmc_categorical; [lia|left; reflexivity]. Qed.

(** Gibbs with gradients, at least two flips per step and two sites: converges for every target. *)
Theorem C73_gwg_many_flips : forall fw wf grad mask d num_flips, (2 <= d)%nat -> (2 <= num_flips)%nat ->
  converges (states d 2) (fun x => exp (fw x)) (fun _ => gwg_step 0 fw wf grad mask num_flips).
Proof. intros fw wf grad mask d nf Hd Hn. apply gwg_multi_converges; lia. Qed.
Print Assumptions C73_gwg_many_flips.

(** One flip per step (the default): converges exactly when some proposal has acceptance probability below one. *)
Theorem C73_gwg_one_flip : forall fw wf grad mask d, (0 < d)%nat ->
  converges (states d 2) (fun x => exp (fw x)) (fun _ => gwg_step 0 fw wf grad mask 1) <->
  exists x i, In x (states d 2) /\ (i < d)%nat /\ gwg_log_acc fw wf grad mask x [i] < 0.
Proof. exact gwg_one_iff. Qed.
Print Assumptions C73_gwg_one_flip.

(** When no proposal can be rejected, the parity of the number of ones is almost deterministic: with the coded
    guard [g] its mean after [n] steps is [(-(1-2g))^n], that is, still 1/2 in modulus after 10^23 steps. *)
Theorem C73_gwg_flat_parity : forall g fw wf grad mask d n x, (0 < d)%nat -> 0 <= g <= 1 -> In x (states d 2) ->
  (forall y i, In y (states d 2) -> (i < d)%nat -> gwg_log_acc fw wf grad mask y [i] = 0) ->
  E (run_seq (fun _ => gwg_step g fw wf grad mask 1) n 0 x) (fun y => (-1) ^ list_sum y) = (- (1 - 2 * g)) ^ n * (-1) ^ list_sum x.
Proof. exact gwg_flat_run. Qed.
Print Assumptions C73_gwg_flat_parity.

Example C73_gwg_flat_case : forall y i, In y (states 2 2) -> (i < 2)%nat -> gwg_log_acc (fun _ => 0) (fun t => t / 2) (fun _ _ => 0) None y [i] = 0.
Proof.
  intros y i Hy Hi. unfold gwg_log_acc, gwg_ll, gwg_dist_at. simpl in Hy.
  repeat (destruct Hy as [<-|Hy]; [destruct i as [|[|i]]; [| |lia]; simpl;
    replace ((1 - 2 * 0) * 0 / 2) with 0 by field; replace ((1 - 2 * 1) * 0 / 2) with 0 by field; ring|]). destruct Hy.
Qed.

Theorem C73_gwg_refuted : exists fw wf grad, ~ converges (states 2 2) (fun x => exp (fw x)) (fun _ => gwg_step 0 fw wf grad None 1).
Proof.
  exists (fun _ => 0), (fun t => t / 2), (fun _ _ => 0). intros H. apply C73_gwg_one_flip in H; [|lia].
  destruct H as (x & i & Hx & Hi & Hlt). rewrite C73_gwg_flat_case in Hlt by assumption. lra.
Qed.
Print Assumptions C73_gwg_refuted.

(** Path-auxiliary sampler without adaptation and with an even number of flips: the parity of the number of ones
    never changes, so half of the space is unreachable, whatever the target. *)
Theorem C73_path_auxiliary_even : forall g fw wf lr mask d num_flips pi, (1 <= num_flips <= d)%nat -> Nat.Even num_flips ->
  ~ converges (states d 2) pi (fun _ => pafs_step g fw wf lr mask num_flips).
Proof. exact pafs_even_not_converges. Qed.
Print Assumptions C73_path_auxiliary_even.

Theorem C73_path_auxiliary_refuted : exists fw num_flips, (1 <= num_flips <= 3)%nat /\
  ~ converges (states 3 2) (fun x => exp (fw x)) (fun _ => pafs_step acc_guard fw (fun t => t / 2) (fun x i => fw (neighbor x i) - fw x) None num_flips).
Proof. exists (fun x => INR (nth 0 x 0%nat)), 2%nat. split; [lia|]. apply C73_path_auxiliary_even; [lia|exists 1%nat; reflexivity]. Qed.
Print Assumptions C73_path_auxiliary_refuted.

(** Locally balanced sampler: exactly one site is flipped at every step, so the parity alternates for ever; it
    converges to no distribution at all. *)
Theorem C73_locally_balanced : forall wf lr d pi, (0 < d)%nat -> ~ converges (states d 2) pi (fun _ => lb_move wf lr).
Proof. exact lb_not_converges. Qed.
Print Assumptions C73_locally_balanced.

Theorem C73_locally_balanced_refuted : exists fw,
  ~ converges (states 2 2) (fun x => exp (fw x)) (fun _ => lb_move (fun t => t / 2) (fun x i => fw (neighbor x i) - fw x)).
Proof. exists (fun x => INR (nth 0 x 0%nat)). apply C73_locally_balanced. lia. Qed.
Print Assumptions C73_locally_balanced_refuted.

(** Whatever the sampler: a run with a periodic schedule can only converge to a distribution every step keeps. *)
Theorem C73_limit_is_invariant : forall (S : list (list nat)) pi k m t,
  S <> [] -> 0 < rsum S pi -> (0 < m)%nat -> (forall s, k (m + s)%nat = k s) -> (forall s, proper S (k s)) ->
  converges S pi k -> invariant S pi (k t).
Proof. exact (@converges_invariant (list nat)). Qed.
Print Assumptions C73_limit_is_invariant.

Example C73_limit_case : forall t, invariant (states 3 2) (fun x => exp (INR (nth 0 x 0%nat))) (gibbs_step (fun x => INR (nth 0 x 0%nat)) 2 (t mod 3)).
Proof.
  intros t. apply (C73_limit_is_invariant _ _ (fun t => gibbs_step (fun x => INR (nth 0 x 0%nat)) 2 (t mod 3)) 3 t).
  - discriminate.
  - apply Z_pos. lia.
  - lia.
  - intros s. f_equal. rewrite <- (Nat.mod_add s 1 3) by lia. f_equal. lia.
  - intros s. exact (gibbs_proper (fun x => INR (nth 0 x 0%nat)) 3 2 ltac:(lia) s).
  - exact (gibbs_converges (fun x => INR (nth 0 x 0%nat)) 3 2 ltac:(lia) ltac:(lia)).
Qed.

(** Hamming ball: reaching every state is never the obstacle; a run converges exactly when every step of the scan
    keeps the target (C06 says when that is). *)
Theorem C73_hamming_ball : forall fw d C b, (1 <= b)%nat -> (2 <= C)%nat -> (1 <= d)%nat ->
  let k := fun t => hb_step (hamming_logit b C) fw C b (g_index (Nat.iter t (hb_update d C b) g_init)) in
  converges (states d C) (fun x => exp (fw x)) k <-> forall t, invariant (states d C) (fun x => exp (fw x)) (k t).
Proof. exact hb_run_converges_iff. Qed.
Print Assumptions C73_hamming_ball.

Theorem C73_hamming_block_one : forall fw d C, (1 <= d)%nat -> (2 <= C)%nat ->
  converges (states d C) (fun x => exp (fw x)) (fun t => hb_step (hamming_logit 1 C) fw C 1 (g_index (Nat.iter t (hb_update d C 1) g_init))).
Proof. exact hb_one_converges. Qed.
Print Assumptions C73_hamming_block_one.

(** Every block size of at least two, every category count: some target the run does not converge to. *)
Theorem C73_hamming_ball_refuted : forall d C b, (2 <= b <= d)%nat -> (2 <= C)%nat -> exists fw,
  ~ converges (states d C) (fun x => exp (fw x)) (fun t => hb_step (hamming_logit b C) fw C b (g_index (Nat.iter t (hb_update d C b) g_init))).
Proof. intros d C b Hb HC. exists (peak d). exact (hb_run_not_converges d C b Hb HC). Qed.
Print Assumptions C73_hamming_ball_refuted.

Example C73_hamming_case : (2 <= 10 <= 100)%nat /\
  converges (states 3 2) (fun x => exp (INR (nth 0 x 0%nat)))
    (fun t => hb_step (hamming_logit 1 2) (fun x => INR (nth 0 x 0%nat)) 2 1 (g_index (Nat.iter t (hb_update 3 2 1) g_init))).
Proof. split; [split; apply Nat.leb_le; reflexivity|]. apply C73_hamming_block_one; lia. Qed.

(** Path-auxiliary sampler with an odd number of flips: converges exactly when some path can be rejected. *)
Theorem C73_path_auxiliary_odd : forall fw wf lr mask d num_flips, (1 <= num_flips <= d)%nat -> Nat.Odd num_flips ->
  (num_flips < d)%nat \/ num_flips = 1%nat ->
  (converges (states d 2) (fun x => exp (fw x)) (fun _ => pafs_step 0 fw wf lr mask num_flips) <->
   exists x p l, In x (states d 2) /\ length p = num_flips /\ NoDup p /\ (forall i, In i p -> (i < d)%nat) /\
     pafs_log_acc fw wf lr mask x p = Some l /\ l < 0).
Proof. intros fw wf lr mask d k Hk Ho Hd. exact (pafs_odd_iff fw wf lr mask d k Hk Ho Hd). Qed.
Print Assumptions C73_path_auxiliary_odd.

(** Flipping all sites (at least two): only two states are ever visited, whatever the target. *)
Theorem C73_path_auxiliary_all_sites : forall g fw wf lr mask d pi, (2 <= d)%nat ->
  ~ converges (states d 2) pi (fun _ => pafs_step g fw wf lr mask d).
Proof. intros g fw wf lr mask d pi Hd. apply pafs_full_not_converges; [lia|exact Hd|reflexivity]. Qed.
Print Assumptions C73_path_auxiliary_all_sites.

(** Adaptive variants with the radius held fixed are the constant variants with that number of sites. *)
Theorem C73_adaptive_path_auxiliary : forall g fw wf lr mask d radius pi, (0 < d)%nat ->
  converges (states d 2) pi (fun _ => apafs_step g fw wf lr mask radius) <->
  converges (states d 2) pi (fun _ => pafs_step g fw wf lr mask (num_sites d radius)).
Proof.
  intros g fw wf lr mask d radius pi Hd. apply apafs_converges_iff; [|reflexivity].
  pose proof (GWGProof.num_sites_range d radius Hd). lia.
Qed.
Print Assumptions C73_adaptive_path_auxiliary.

Theorem C73_adaptive_gwg : forall g fw wf grad mask d radius pi, (0 < d)%nat ->
  converges (states d 2) pi (fun _ => agwg_step g fw wf grad mask radius) <->
  converges (states d 2) pi (fun _ => gwg_step g fw wf grad mask (num_sites d radius)).
Proof. exact agwg_converges_iff. Qed.
Print Assumptions C73_adaptive_gwg.

(** Four sites, three flips, target favouring a one on the first site, proposal uniform: paths that set the first
    site to zero can be rejected, so the sampler converges. *)
Example C73_path_odd_case : converges (states 4 2) (fun x => exp (INR (nth 0 x 0%nat)))
  (fun _ => pafs_step 0 (fun x => INR (nth 0 x 0%nat)) (fun t => t / 2) (fun _ _ => 0) None 3).
Proof.
  apply C73_path_auxiliary_odd; [lia|exists 1%nat; reflexivity|left; lia|].
  assert (Hin : In [0;1;2]%nat (NoReplProof.kperms 3 (seq 0 4))).
  { apply (kperms_ok 4 3 ltac:(lia)). split; [reflexivity|]. split; [repeat constructor; simpl; lia|]. intros i Hi. simpl in Hi. lia. }
  exists [1;1;1;0]%nat, [0;1;2]%nat. eexists. split; [simpl; tauto|]. split; [reflexivity|].
  split; [repeat constructor; simpl; lia|]. split; [intros i Hi; simpl in Hi; lia|].
  split; [apply (PathAuxProof.pafs_la _ _ _ _ 4 3 ltac:(lia)); [reflexivity|exact Hin]|].
  cbn -[exp ln Rdiv]. lra.
Qed.

(** Categorical variables with at least three categories.  Adaptive path-auxiliary at any fixed radius, and Gibbs with
    gradients run with a single chain: every target. *)
Theorem C73_categorical_path_auxiliary : forall fw wf lr mask d C radius, (1 <= d)%nat -> (3 <= C)%nat ->
  converges (states d C) (fun x => exp (fw x)) (fun _ => apafsc_step 0 fw wf lr mask C radius).
Proof. exact apafsc_converges. Qed.
Print Assumptions C73_categorical_path_auxiliary.

Theorem C73_categorical_gwg_one_chain : forall fw wf grad d C, (0 < d)%nat -> (3 <= C)%nat ->
  converges (states d C) (fun x => exp (fw x)) (fun _ => cgwg_single 0 fw wf grad C).
Proof. exact cgwg_single_converges. Qed.
Print Assumptions C73_categorical_gwg_one_chain.

Example C73_categorical_case : converges (states 4 3) (fun x => exp (INR (nth 0 x 0%nat)))
  (fun _ => apafsc_step 0 (fun x => INR (nth 0 x 0%nat)) (fun t => t / 2) (fun x j => INR (j mod 3)) None 3 4).
Proof. apply C73_categorical_path_auxiliary; lia. Qed.

(** Two chains of categorical Gibbs with gradients, and path-auxiliary with a constant number of sites: no convergence
    for some target, with the exact rule or with the guard of the code. *)
Theorem C73_categorical_gwg_refuted : forall g, 0 <= g <= / 1000 -> exists fw wf grad,
  ~ converges (lists_over (states 1 3) 2) (batch_pi (fun x => exp (fw x))) (fun _ => cgwg_batch_step g fw wf grad 3).
Proof. intros g Hg. exists w_fw, w_wf, w_grad. exact (cgwg_pair_not_converges g Hg). Qed.
Print Assumptions C73_categorical_gwg_refuted.

Theorem C73_categorical_path_auxiliary_refuted : forall g, 0 <= g <= / 1000 -> exists fw wf lr,
  ~ converges (states 1 3) (fun x => exp (fw x)) (fun _ => pafsc_step g fw wf lr None 3 1).
Proof. intros g Hg. exists w_fw, w_wf, PathAuxRefute.w_lr. exact (pafsc_not_converges g Hg). Qed.
Print Assumptions C73_categorical_path_auxiliary_refuted.
