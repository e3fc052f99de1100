(** Property theorems C06, C13, C54, C57 (hammingball.py, locallybalanced.py, step counters). *)
From Coq Require Import String Reals List Lra Lia Arith ZArith.
From Verif.Base Require Import RSum Cube Dist XFloat MH.
From Verif.Spec Require Import Chain.
From Verif.Model Require Import MathUtil Gibbs RandomWalk LocallyBalanced GWG PathAux Langevin HammingBall.
From Verif.Proof Require Import MHKernel MathUtilProof GibbsProof ChainProof HammingBallProof HammingBallGeneral LBProof StepsProof.
Import ListNotations.
Local Open Scope R_scope.

(** ** C06: Hamming ball *)
(** False: block of two binary sites.  The radius is drawn with logits 1 and (number of points at distance 1), i.e. with
    probabilities proportional to e and e^N instead of 1 and N. *)
Theorem C06_hamming_ball_refuted : exists (fw : list nat -> R) d C b start,
  (start + b <= d)%nat /\ ~ invariant (states d C) (fun x => exp (fw x)) (hb_step (hamming_logit b C) fw C b start).
Proof. exists hb_fw, 2%nat, 2%nat, 2%nat, 0%nat. split; [lia|exact hb_refuted]. Qed.
Print Assumptions C06_hamming_ball_refuted.

(** True for block size 1: then one step is a Gibbs update of the coordinate in the sampler state. *)
Theorem C06_block_one_is_gibbs_partial : forall (fw : list nat -> R) d C start x f,
  (start < d)%nat -> (2 <= C)%nat -> In x (states d C) ->
  E (hb_step (hamming_logit 1 C) fw C 1 start x) f = E (gibbs_step fw C start x) f.
Proof. intros fw d C start x f Hs HC Hx. refine (hb_block1_gibbs _ fw d C start x f Hs HC Hx _). discriminate. Qed.
Print Assumptions C06_block_one_is_gibbs_partial.

Theorem C06_block_one_invariant_partial : forall (fw : list nat -> R) d C start,
  (start < d)%nat -> (2 <= C)%nat -> invariant (states d C) (fun x => exp (fw x)) (hb_step (hamming_logit 1 C) fw C 1 start).
Proof.
  intros fw d C start Hs HC f. rewrite <- (gibbs_invariant fw d C start Hs f). apply rsum_ext. intros x Hx.
  f_equal. exact (C06_block_one_is_gibbs_partial fw d C start x f Hs HC Hx).
Qed.
Print Assumptions C06_block_one_invariant_partial.

(** What the radius law would have to be: with the two logits differing by the LOGARITHM of the number of points the step
    is reversible for every energy, block size, category count and start (also past the last coordinate). *)
Theorem C06_log_count_radius_reversible_partial : forall l0 l1 (fw : list nat -> R) d C b start,
  (1 <= b)%nat -> (2 <= C)%nat -> l1 = l0 + ln (INR (b * (C - 1))) ->
  reversible (states d C) (fun x => exp (fw x)) (hb_step [l0; l1] fw C b start).
Proof.
  intros l0 l1 fw d C b start Hb HC ->. apply (hb_uniform_reversible l0 _ fw d C b start Hb HC).
  rewrite exp_plus, exp_ln by (apply lt_0_INR; nia). ring.
Qed.
Print Assumptions C06_log_count_radius_reversible_partial.

(** The logits of the code are 1 and N and satisfy this only for N = 1. *)
Theorem C06_logits : forall b C, (1 <= b)%nat -> (2 <= C)%nat ->
  hamming_logit b C = [1; INR (b * (C - 1))] /\
  (INR (b * (C - 1)) = 1 + ln (INR (b * (C - 1))) <-> (b * (C - 1) = 1)%nat).
Proof. intros b C Hb HC. exact (conj (hamming_logit_eq b C Hb HC) (log_count_iff (b * (C - 1)) ltac:(nia))). Qed.
Print Assumptions C06_logits.

Theorem C06_proper : forall logits (fw : list nat -> R) C b start x, logits <> [] -> (1 <= b)%nat -> (2 <= C)%nat ->
  is_prob (hb_step logits fw C b start x).
Proof. intros. exact (is_prob_hb_step logits fw C b start x H0 H1 H). Qed.
Print Assumptions C06_proper.

(** Exactly when the step keeps the target, for any two logits: the radius law is the uniform one, or the target
    happens to satisfy a balance condition on every ball. *)
Theorem C06_invariant_iff : forall l0 l1 (fw : list nat -> R) d C b start, (1 <= b)%nat -> (2 <= C)%nat ->
  invariant (states d C) (fun x => exp (fw x)) (hb_step [l0; l1] fw C b start) <->
  l1 = l0 + ln (INR (b * (C - 1))) \/
  forall y, In y (states d C) ->
    rsum (hb_candidates C b start y) (fun u => exp (fw u) / rsum (hb_candidates C b start u) (fun z => exp (fw z))) = 1.
Proof. exact hb_invariant_exact. Qed.
Print Assumptions C06_invariant_iff.

(** With the logits 1 and 2 of the code for a block of two binary sites the radius law is not the uniform one; a flat
    target satisfies the balance condition. *)
Example C06_invariant_iff_case : 2 <> 1 + ln (INR (2 * (2 - 1))) /\
  forall y, In y (states 2 2) -> rsum (hb_candidates 2 2 0 y) (fun u => exp 0 / rsum (hb_candidates 2 2 0 u) (fun z => exp 0)) = 1.
Proof.
  split.
  - intros E0. apply (proj1 (log_count_iff 2 ltac:(lia))) in E0. discriminate.
  - intros y Hy. simpl in Hy. repeat (destruct Hy as [<- | Hy]; [rewrite exp_0; cbn; field |]). destruct Hy.
Qed.

(** The failure is not special to a block of two: for every block of at least two sites inside the variables (so also
    the default of ten) and every category count, the code fails for a target with one state twice as likely as the others. *)
Theorem C06_every_block_refuted : forall d C b start, (2 <= b)%nat -> (2 <= C)%nat -> (start + b <= d)%nat ->
  exists fw, (forall x, In x (states d C) -> fw x = if list_eq_dec Nat.eq_dec x (repeat 0%nat d) then ln 2 else 0) /\
  ~ invariant (states d C) (fun x => exp (fw x)) (hb_step (hamming_logit b C) fw C b start).
Proof.
  intros d C b start Hb HC Hd. exists (peak d). split; [|exact (hb_every_block_refuted d C b start Hb HC Hd)].
  intros x _. unfold peak, at_state. destruct list_eq_dec; ring.
Qed.
Print Assumptions C06_every_block_refuted.

Example C06_every_block_case : (2 <= 10)%nat /\ (2 <= 2)%nat /\ (90 + 10 <= 100)%nat.
Proof. repeat split; apply Nat.leb_le; reflexivity. Qed.

(** Scan position and counters after n steps. *)
Theorem C06_scan : forall d C b n, (0 < d)%nat ->
  let s := Nat.iter n (hb_update d C b) g_init in
  g_index s = ((n * b) mod d)%nat /\ g_ll s = (n * ((C - 1) * b + 1))%nat /\ g_steps s = n.
Proof. intros d C b n Hd s. unfold s. rewrite hb_iter_state by exact Hd. auto. Qed.
Print Assumptions C06_scan.

Example C06_ex : (1 < 3)%nat /\ (2 <= 2)%nat /\ In [0; 1; 1]%nat (states 3 2) /\
  hb_candidates 2 2 1 [0; 1; 1]%nat = [[0; 1; 1]; [0; 0; 1]; [0; 1; 0]]%nat /\ 2 = 2 + ln (INR (1 * (2 - 1))).
Proof.
  repeat split; try lia; [apply in_states; split; [reflexivity|repeat constructor]|]. simpl. rewrite ln_1. ring.
Qed.

(** ** C13: plain locally balanced sampler *)
(** False: on one binary site the sampler always flips. *)
Theorem C13_locally_balanced_refuted : forall ty w0, apply_weight_function_logscale ty 0 = Some w0 ->
  exists (fw : list nat -> R) d law,
    let lr := fun x i => fw (neighbor x i) - fw x in
    (forall x, lb_step (Some maxcut_sig) ty lr x = Some (law x)) /\ ~ invariant (states d 2) (fun x => exp (fw x)) law.
Proof.
  intros ty w0 H. exists (fun x => INR (nth 0 x 0%nat)), 1%nat.
  eexists. cbv zeta. split.
  - intros x. unfold lb_step. cbn [lr_values lr_nbr_args maxcut_sig negb Nat.eqb]. rewrite H. reflexivity.
  - apply (lb_one_site_refuted _ (fun x => INR (nth 0 x 0%nat))). simpl. lra.
Qed.
Print Assumptions C13_locally_balanced_refuted.

(** What holds instead, for exact log-ratios: the stationary law is the target times the total balanced weight
    Z(x) = sum over the neighbours of g(ratio), and the target itself is invariant exactly when Z is constant. *)
Theorem C13_reversible_for_weighted_target_partial : forall ty w0 (fw : list nat -> R) (lr : list nat -> nat -> R) d law,
  apply_weight_function_logscale ty 0 = Some w0 -> (0 < d)%nat ->
  (forall x i, In x (states d 2) -> (i < d)%nat -> lr x i = fw (neighbor x i) - fw x) ->
  (forall x, lb_step (Some maxcut_sig) ty lr x = Some (law x)) ->
  let g := fun r => match apply_weight_function ty r with Some v => v | None => 0 end in
  let Z := fun x => rsum (seq 0 d) (fun i => g (exp (fw (neighbor x i)) / exp (fw x))) in
  reversible (states d 2) (fun x => exp (fw x) * Z x) law /\
  (invariant (states d 2) (fun x => exp (fw x)) law <-> forall x y, In x (states d 2) -> In y (states d 2) -> Z x = Z y).
Proof. exact lb_main. Qed.
Print Assumptions C13_reversible_for_weighted_target_partial.

Example C13_ex : apply_weight_function_logscale "SQRT" 0 = Some (0 / 2) /\ (0 < 2)%nat /\
  neighbor [0; 1]%nat 1 = [0; 0]%nat /\ lb_step (Some maxcut_sig) "SQRT" (fun _ _ => 0) [0; 1]%nat <> None.
Proof. repeat split; auto; discriminate. Qed.

(** The step raises for a model without the method, for Bernoulli and MIS (three values returned) and for
    Normcut (no neighbour function); only MaxCut works, with a supported balancing function. *)
Theorem C13_supported_models : forall ty lr x,
  lb_step None ty lr x = None /\ lb_step (Some bernoulli_sig) ty lr x = None /\ lb_step (Some mis_sig) ty lr x = None /\
  lb_step (Some normcut_sig) ty lr x = None /\
  (lb_step (Some maxcut_sig) ty lr x <> None <-> In ty ["SQRT"; "RATIO"; "MAX"; "MIN"]%string).
Proof. exact lb_supported. Qed.
Print Assumptions C13_supported_models.

(** ** C54: step counters *)
Theorem C54_scan_samplers : forall d C b n,
  g_steps (Nat.iter n (gibbs_update d C) g_init) = n /\
  g_steps (Nat.iter n (block_update d C b) g_init) = n /\
  g_steps (Nat.iter n (hb_update d C b) g_init) = n.
Proof. intros d C b n. induction n as [|n (H1 & H2 & H3)]; repeat split; auto; cbn [Nat.iter]; simpl; f_equal; assumption. Qed.
Print Assumptions C54_scan_samplers.

(** Histories of arbitrary acceptance data. *)
Theorem C54_adaptive_samplers : forall dim target calls ad c nf (hist : list (list R)) (hist' : list (xf * xf)),
  gwg_steps (fold_left (fun s (_ : list R) => gwg_update s) hist gwg_init) = length hist /\
  gwg_steps (fold_left (fun s l => agwg_update dim target l s) hist gwg_init) = length hist /\
  paf_steps (fold_left (fun s l => paf_update ad dim target calls l s) hist (paf_init nf)) = length hist /\
  l_steps (fold_left (fun s p => l_update c (fst p) (snd p) s) hist' l_init) = length hist'.
Proof.
  intros. repeat split.
  - exact (fold_steps gwg_steps (fun (_ : list R) s => gwg_update s) (fun _ _ => eq_refl) hist gwg_init).
  - exact (fold_steps gwg_steps (fun l s => agwg_update dim target l s) (fun _ _ => eq_refl) hist gwg_init).
  - exact (fold_steps paf_steps (fun l s => paf_update ad dim target calls l s) (fun _ _ => eq_refl) hist (paf_init nf)).
  - exact (fold_steps l_steps (fun p s => l_update c (fst p) (snd p) s) (l_update_steps c) hist' l_init).
Qed.
Print Assumptions C54_adaptive_samplers.
Example C54_ex : l_steps (l_update {| lc_adaptive := true; lc_co_opt := false; lc_target := / 2; lc_schedule := 100; lc_reset := 20 |}
   (Fin 1) (Fin 0) l_init) = 1%nat.
Proof. reflexivity. Qed.

(** The random-walk samplers never count their steps. *)
Theorem C54_random_walk_refuted : forall dim target (hist : list (list R)),
  rw_steps (fold_left (fun s (_ : list R) => rw_select_state s) hist rw_init) = 0%nat /\
  rw_steps (fold_left (fun s l => rw_adapt_state dim target l s) hist rw_init) = 0%nat.
Proof.
  intros. split.
  - exact (fold_const rw_steps (fun (_ : list R) s => rw_select_state s) (fun _ _ => eq_refl) hist rw_init).
  - exact (fold_const rw_steps (fun l s => rw_adapt_state dim target l s) (fun _ _ => eq_refl) hist rw_init).
Qed.
Print Assumptions C54_random_walk_refuted.

(** The plain locally balanced sampler drops the entry. *)
Theorem C54_locally_balanced_refuted : forall calls, exists s', lb_new_state calls abstract_init = Some s' /\
  dget "steps" abstract_init = Some 0%nat /\ dget "steps" s' = None /\ dget "num_ll_calls" s' = Some calls.
Proof. intros calls. exists [("num_ll_calls"%string, calls)]. auto. Qed.
Print Assumptions C54_locally_balanced_refuted.

(** ** C57: chains of a batch move independently *)
(** Hamming ball: every chain has the single-chain law ... *)
Theorem C57_hamming_marginal : forall logits (fw : list nat -> R) C b start xs i f,
  (1 <= b)%nat -> (2 <= C)%nat -> (i < length xs)%nat ->
  E (hb_batch_step logits fw C b start xs) (fun ys => f (nth i ys [])) = E (hb_step logits fw C b start (nth i xs [])) f.
Proof. exact hb_batch_marginal. Qed.
Print Assumptions C57_hamming_marginal.

(** ... but two chains are dependent, even for a flat energy, because the radius is drawn once for the batch. *)
Theorem C57_hamming_independence_refuted : exists (fw : list nat -> R) C b start (xs : list (list nat)) (A : list nat -> R),
  E (hb_batch_step (hamming_logit b C) fw C b start xs) (fun ys => A (nth 0 ys []) * A (nth 1 ys []))
  <> E (hb_batch_step (hamming_logit b C) fw C b start xs) (fun ys => A (nth 0 ys []))
     * E (hb_batch_step (hamming_logit b C) fw C b start xs) (fun ys => A (nth 1 ys [])).
Proof.
  exists (fun _ => 0), 2%nat, 2%nat, 0%nat, [[0; 0]; [0; 0]]%nat, ind11.
  rewrite (hamming_logit_eq 2 2) by lia. exact (hb_batch_dependent 1 _).
Qed.
Print Assumptions C57_hamming_independence_refuted.
