(** Property theorems C70 to C72: informed proposals, DLMC on product targets, direction of the radius adaptation. *)
From Coq Require Import String Reals List Lra Lia Arith.
From Verif.Base Require Import RSum Cube Dist XFloat.
From Verif.Spec Require Import ProposalSpec.
From Verif.Model Require Import MathUtil RandomWalk LocallyBalanced GWG PathAux Langevin.
From Verif.Proof Require Import MathUtilProof RandomWalkProof GWGProof LangevinProof LangevinRows ProposalProof.
Import ListNotations.
Local Open Scope R_scope.

(** ** C70: for energies of which the gradient gives the exact change, the proposals weigh a move by g(pi(y)/pi(x)) *)
Theorem C70_gwg : forall fw grad g wf d x i, log_of g wf -> first_order fw grad d -> In x (states d 2) -> (i < d)%nat ->
  let r := fun j => g (ratio fw x (upd j (1 - nth j x 0)%nat x)) in
  exp (nth i (gwg_dist_at wf grad None x) 0) = r i / rsum (seq 0 d) r.
Proof. intros fw grad g wf d x i Hg. exact (gwg_dist_ratio fw grad g wf Hg d x i). Qed.
(** A masked node is e^-1e9 against g(ratio). *)
Theorem C70_gwg_mask : forall fw grad g wf d m x i j, log_of g wf -> first_order fw grad d -> In x (states d 2) -> (i < d)%nat -> (j < d)%nat -> m i = 1 -> m j = 0 ->
  exp (nth j (gwg_dist_at wf grad (Some m) x) 0) * g (ratio fw x (upd i (1 - nth i x 0)%nat x)) = exp (nth i (gwg_dist_at wf grad (Some m) x) 0) * exp (- 10 ^ 9).
Proof. intros fw grad g wf d m x i j Hg. exact (gwg_mask_odds fw grad g wf Hg d m x i j). Qed.
Theorem C70_path_auxiliary : forall fw grad g wf d x i, log_of g wf -> first_order fw grad d -> In x (states d 2) -> (i < d)%nat ->
  let r := fun j => g (ratio fw x (upd j (1 - nth j x 0)%nat x)) in
  exp (nth i (paf_dist wf (paf_lr_grad_bin grad) None x) 0) = r i / rsum (seq 0 d) r.
Proof. intros fw grad g wf d x i Hg. exact (paf_dist_ratio fw grad g wf Hg d x i). Qed.
(** Categorical: odds of two moves, and of staying. *)
Theorem C70_gwg_categorical : forall fw grad g wf d C x i c i' c', log_of g wf -> first_order_onehot fw grad d C -> In x (states d C) ->
  (i < d)%nat -> (c < C)%nat -> (i' < d)%nat -> (c' < C)%nat -> c <> nth i x 0%nat -> c' <> nth i' x 0%nat ->
  exp (nth (i * C + c) (cgwg_dist_at wf grad C x) 0) * g (ratio fw x (upd i' c' x)) = exp (nth (i' * C + c') (cgwg_dist_at wf grad C x) 0) * g (ratio fw x (upd i c x)).
Proof. intros fw grad g wf d C x i c i' c' Hg. exact (cgwg_odds fw grad g wf Hg d C x i c i' c'). Qed.
Theorem C70_gwg_categorical_stay : forall fw grad g wf d C x i i' c', log_of g wf -> first_order_onehot fw grad d C -> In x (states d C) ->
  (i < d)%nat -> (i' < d)%nat -> (c' < C)%nat -> c' <> nth i' x 0%nat ->
  exp (nth (i * C + nth i x 0%nat) (cgwg_dist_at wf grad C x) 0) * g (ratio fw x (upd i' c' x)) = exp (nth (i' * C + c') (cgwg_dist_at wf grad C x) 0) * (g 1 * exp (- 10 ^ 9)).
Proof. intros fw grad g wf d C x i i' c' Hg. exact (cgwg_stay_odds fw grad g wf Hg d C x i i' c'). Qed.
Theorem C70_path_auxiliary_categorical : forall fw grad g wf d C x i c i' c', log_of g wf -> first_order_onehot fw grad d C -> In x (states d C) ->
  (i < d)%nat -> (c < C)%nat -> (i' < d)%nat -> (c' < C)%nat -> c <> nth i x 0%nat -> c' <> nth i' x 0%nat ->
  exp (nth (i * C + c) (pafc_dist wf (paf_lr_grad_cat grad C) None C x) 0) * g (ratio fw x (upd i' c' x))
  = exp (nth (i' * C + c') (pafc_dist wf (paf_lr_grad_cat grad C) None C x) 0) * g (ratio fw x (upd i c x)).
Proof. intros fw grad g wf d C x i c i' c' Hg. exact (pafc_odds fw grad g wf Hg d C x i c i' c'). Qed.
Theorem C70_dmala : forall fw grad g wf d lt x i, log_of g wf -> first_order fw grad d -> In x (states d 2) -> (i < d)%nat ->
  let t := exp lt * g (ratio fw x (upd i (1 - nth i x 0)%nat x)) in
  exists ps, dmala_ps lt wf (paf_lr_grad_bin grad) x = Some ps /\ nth i ps 0 = t / (1 + t).
Proof. intros fw grad g wf d lt x i Hg. exact (dmala_ratio fw grad g wf Hg d lt x i). Qed.
Theorem C70_dmala_categorical : forall fw grad g wf d C lt x i c, log_of g wf -> first_order_onehot fw grad d C -> In x (states d C) -> (i < d)%nat -> (c < C)%nat ->
  let wt := fun c => if Nat.eqb c (nth i x 0%nat) then 1 else exp lt * g (ratio fw x (upd i c x)) in
  exists row, dmala_row lt wf (paf_lr_grad_cat grad C) C x i = Some row /\ exp (nth c row 0) = wt c / rsum (seq 0 C) wt.
Proof. intros fw grad g wf d C lt x i c Hg. exact (dmala_cat_ratio fw grad g wf Hg d C lt x i c). Qed.
Theorem C70_dlmc : forall fw grad g wf d lt x i, log_of g wf -> first_order fw grad d -> In x (states d 2) -> (i < d)%nat ->
  let r := ratio fw x (upd i (1 - nth i x 0)%nat x) in
  let nu := r / (1 + r) in
  (exists ps, dlmc_ps "interpolate" lt wf (paf_lr_grad_bin grad) x = Some ps /\ nth i ps 0 = nu * (1 - exp (- (exp lt * g r / nu)))) /\
  (exists ps, dlmc_ps "euler_forward" lt wf (paf_lr_grad_bin grad) x = Some ps /\ nth i ps 0 = Rmin (exp lt * g r) nu).
Proof. intros fw grad g wf d lt x i Hg. exact (dlmc_ratio fw grad g wf Hg d lt x i). Qed.
(** The named balancing functions meet [log_of] and [balancing]. *)
Theorem C70_named_functions : forall ty, (exists l, apply_weight_function_logscale ty 0 = Some l) ->
  let wf := fun t => match apply_weight_function_logscale ty t with Some w => w | None => 0 end in
  let g := fun t => match apply_weight_function ty t with Some w => w | None => 0 end in
  log_of g wf /\ balancing g.
Proof.
  intros ty Hty wf g. assert (Hin : In ty balancing_names).
  { destruct Hty as (l & Hl). pose proof (weight_logscale ty 0) as H. rewrite Hl in H. destruct (weight_cases ty (exp 0)) as [[-> _]|[[-> _]|[[-> _]|[[-> _]|[_ E]]]]]; [simpl; auto..|]. rewrite E in H. destruct H. }
  assert (Hg : forall t, 0 < t -> exists w, apply_weight_function ty t = Some w /\ 0 < w).
  { intros t Ht. destruct (weight_cases ty t) as [[-> E]|[[-> E]|[[-> E]|[[-> E]|[Hn _]]]]]; [..|contradiction]; rewrite E; eexists; (split; [reflexivity|]).
    - apply sqrt_lt_R0; auto.
    - apply Rdiv_lt_0_compat; lra.
    - eapply Rlt_le_trans; [|apply Rmax_r]. lra.
    - apply Rmin_glb_lt; lra. }
  split.
  - intros t. unfold wf, g. destruct (Hg (exp t) (exp_pos t)) as (w & Hw & Hpos). pose proof (weight_logscale ty t) as H. rewrite Hw in *.
    destruct (apply_weight_function_logscale ty t); [|destruct H]. subst. apply exp_ln; auto.
  - intros t Ht. unfold g. destruct (Hg t Ht) as (w & Hw & _). destruct (weight_balanced ty t w Ht Hw) as (_ & w' & Hw' & ->). rewrite Hw, Hw'. reflexivity.
Qed.
(** Non-trivial case: energy 2 x0 - 3 x1, square-root weights; site 1 of [0;1] is flipped with odds e^(3/2) : e. *)
Example C70_ex : let fw := fun x => 2 * INR (nth 0 x 0%nat) - 3 * INR (nth 1 x 0%nat) in let slope := fun (_ : list nat) i => if Nat.eqb i 0 then 2 else -3 in
  log_of sqrt (fun t => t / 2) /\ first_order fw slope 2 /\ In [0; 1]%nat (states 2 2).
Proof.
  cbv zeta. split; [|split].
  - intros t. replace (exp t) with (exp (t / 2) * exp (t / 2)) by (rewrite <- exp_plus; f_equal; field). rewrite sqrt_square by (left; apply exp_pos). reflexivity.
  - intros x i v Hx Hi Hv. apply in_states in Hx. destruct Hx as [Hl _]. destruct x as [|a [|b [|]]]; try discriminate. destruct i as [|[|]]; [| |lia]; cbn [upd nth Nat.eqb]; ring.
  - apply in_states. split; [reflexivity|repeat constructor].
Qed.

(** ** C71: DLMC on independent coordinates *)
(** Binary, both solvers, any step size, any balancing function: the log acceptance ratio of every proposal is 0. *)
Theorem C71_binary : forall fw g wf solver a d lt lr x flips p q, log_of g wf -> balancing g -> solver = "interpolate"%string \/ solver = "euler_forward"%string -> product_energy fw a d 2 ->
  (forall x i, In x (states d 2) -> (i < d)%nat -> lr x i = fw (upd i (1 - nth i x 0)%nat x) - fw x) ->
  In x (states d 2) -> length flips = d -> dlmc_ps solver lt wf lr x = Some p -> dlmc_ps solver lt wf lr (flip_bits flips x) = Some q ->
  bern_log_acc 0 fw p q x flips = 0.
Proof. intros fw g wf solver a d lt lr x flips p q Hg Hb. exact (dlmc_never_rejects fw (fun _ _ => 0) g wf Hg Hb solver a d lt lr x flips p q). Qed.
(** Hence the step is the proposal. *)
Theorem C71_binary_step : forall fw g wf solver a d lt lr x p f, log_of g wf -> balancing g -> solver = "interpolate"%string \/ solver = "euler_forward"%string -> product_energy fw a d 2 ->
  (forall x i, In x (states d 2) -> (i < d)%nat -> lr x i = fw (upd i (1 - nth i x 0)%nat x) - fw x) ->
  In x (states d 2) -> dlmc_ps solver lt wf lr x = Some p ->
  E (dlmc_bin_step 0 0 fw solver (fun _ => lt) wf lr x) f = E (indep (map bernoulli p)) (fun flips => f (flip_bits flips x)).
Proof.
  intros fw g wf solver a d lt lr x p f Hg Hb Hk Hp Hlr Hx Ep. unfold dlmc_bin_step, bern_step. rewrite Ep, E_bind.
  assert (Lp : length p = d) by (destruct (dlmc_ps_ok solver lt wf lr d x Hk Hx) as (p' & H & L & _); congruence).
  apply E_ext_in. intros flips w Hin. apply in_indep_len in Hin. rewrite map_length, Lp in Hin.
  assert (Hy : In (flip_bits flips x) (states d 2)) by (apply flip_bits_states; auto).
  destruct (dlmc_ps_ok solver lt wf lr d _ Hk Hy) as (q & Hq & _). rewrite Hq. unfold mh_law. rewrite E_bind, E_bernoulli, !E_ret.
  pose proof (C71_binary fw g wf solver a d lt lr x flips p q Hg Hb Hk Hp Hlr Hx Hin Ep Hq) as H. unfold bern_log_acc in H. rewrite H.
  unfold accept_prob. rewrite exp_0. replace (Rmax 0 (Rmin 1 (1 - 0))) with 1 by (rewrite Rmin_left, Rmax_right; lra). ring.
Qed.
(** Categorical, interpolation solver, when no value of a coordinate has probability below 1e-12. *)
Theorem C71_categorical : forall fw g wf a d C lt lr x y rx ry, log_of g wf -> balancing g -> (0 < C)%nat -> product_energy fw a d C ->
  (forall x i c, In x (states d C) -> (i < d)%nat -> (c < C)%nat -> lr x (i * C + c)%nat = fw (upd i c x) - fw x) ->
  In x (states d C) -> In y (states d C) ->
  (forall i c, (i < d)%nat -> (c < C)%nat -> / 10 ^ 12 <= exp (a i c) / rsum (seq 0 C) (fun c' => exp (a i c'))) ->
  all_some (map (dlmc_row "interpolate" lt wf lr C x) (seq 0 d)) = Some rx -> all_some (map (dlmc_row "interpolate" lt wf lr C y) (seq 0 d)) = Some ry ->
  fw y + row_ll ry x - fw x - row_ll rx y = 0.
Proof. intros fw g wf a d C lt lr x y rx ry Hg Hb. exact (dlmc_cat_never_rejects fw (fun _ _ => 0) g wf Hg Hb a d C lt lr x y rx ry). Qed.
Example C71_ex : let fw := fun x => 2 * INR (nth 0 x 0%nat) - 3 * INR (nth 1 x 0%nat) in
  product_energy fw (fun i v => (if Nat.eqb i 0 then 2 else -3) * INR v) 2 2 /\ balancing sqrt /\ length [true; false] = 2%nat.
Proof.
  cbv zeta. split; [|split; [|reflexivity]].
  - intros x Hx. apply in_states in Hx. destruct Hx as [Hl _]. destruct x as [|u [|v [|]]]; try discriminate. cbn [seq rsum nth Nat.eqb]. ring.
  - intros t Ht. rewrite <- (sqrt_sqrt t) at 2 by lra. rewrite Rmult_assoc, <- sqrt_mult_alt, Rinv_r, sqrt_1 by lra. ring.
Qed.

(** ** C72: the radius follows the average acceptance probability, within [1, dim] *)
Theorem C72_random_walk : forall dim target logs s, 1 <= rw_radius s <= INR dim ->
  follows 1 (INR dim) (rw_radius s) (mean_acceptance logs - target) (rw_radius (rw_adapt_state dim target logs s)).
Proof. intros dim target logs s H. unfold rw_adapt_state. cbn [rw_radius]. rewrite mean_acc_spec. unfold Rminus. rewrite Rplus_assoc. apply clip_follows; auto. Qed.
Theorem C72_gwg : forall dim target logs s, 1 <= gwg_radius s <= INR dim ->
  follows 1 (INR dim) (gwg_radius s) (mean_acceptance logs - target) (gwg_radius (agwg_update dim target logs s)).
Proof. intros dim target logs s H. unfold agwg_update. cbn [gwg_radius]. rewrite mean_acc_spec. unfold Rminus. rewrite Rplus_assoc. apply clip_follows; auto. Qed.
Theorem C72_path_auxiliary : forall dim target calls logs s, 1 <= paf_radius s <= INR dim ->
  follows 1 (INR dim) (paf_radius s) (mean_acceptance logs - target) (paf_radius (paf_update true dim target calls logs s)).
Proof. intros dim target calls logs s H. unfold paf_update. cbn [paf_radius]. rewrite mean_acc_spec. unfold Rminus. rewrite Rplus_assoc. apply clip_follows; auto. Qed.
(** Without adaptation the radius stays. *)
Theorem C72_path_auxiliary_fixed : forall dim target calls logs s, paf_radius (paf_update false dim target calls logs s) = paf_radius s.
Proof. reflexivity. Qed.
Example C72_ex : mean_acceptance [0; ln (/ 2)] = 3 / 4 /\ 1 <= rw_radius rw_init <= INR 5.
Proof. unfold mean_acceptance. cbn [rsum length]. rewrite exp_0, exp_ln by lra. rewrite !Rmin_right by lra. simpl. split; lra. Qed.

Print Assumptions C70_gwg.
Print Assumptions C70_gwg_categorical.
Print Assumptions C70_path_auxiliary_categorical.
Print Assumptions C70_dlmc.
Print Assumptions C71_binary_step.
Print Assumptions C71_categorical.
Print Assumptions C72_random_walk.
