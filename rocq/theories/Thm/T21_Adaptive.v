(** Property theorems C75: adaptation during sampling and the target (adaptive random walk). *)
From Coq Require Import String Reals List Lra Lia Arith.
From Verif.Base Require Import RSum Cube Dist XFloat.
From Verif.Spec Require Import Chain Ergodic SamplerRun ProposalSpec.
From Verif.Model Require Import MathUtil RandomWalk GWG PathAux Langevin FullRun AdaptiveRun.
From Verif.Proof Require Import ChainProof RandomWalkProof AdaptiveRunProof AdaptiveInformed.
Import ListNotations.
Local Open Scope R_scope.

(** One step: whatever the radius in the state, a batch in equilibrium stays in equilibrium (exact acceptance). *)
Theorem C75_one_step : forall fw dim C target radius B f, (0 < dim)%nat -> (2 <= C)%nat -> 0 <= radius <= INR dim ->
  rsum (lists_over (states dim C) B) (fun xs => batch_pi (fun x => exp (fw x)) xs * E (arw_step 0 fw dim C target (radius, xs)) (fun s => f (snd s)))
  = rsum (lists_over (states dim C) B) (fun xs => batch_pi (fun x => exp (fw x)) xs * f xs).
Proof.
  intros fw dim C target r B f Hd HC Hr.
  refine (eq_trans _ (batch_invariant _ _ _ B (rw_invariant fw dim C r HC Hr Hd) f)).
  apply rsum_ext. intros xs _. f_equal. apply arw_marginal.
Qed.
Print Assumptions C75_one_step.

(** Flat targets: every number of steps, every batch, every start of the radius. *)
Theorem C75_flat_target : forall c dim C target radius B n f, (0 < dim)%nat -> (2 <= C)%nat -> 0 <= radius <= INR dim ->
  rsum (lists_over (states dim C) B) (fun xs => batch_pi (fun _ => exp c) xs * E (run_seq (fun _ => arw_step 0 (fun _ => c) dim C target) n 0 (radius, xs)) (fun s => f (snd s)))
  = rsum (lists_over (states dim C) B) (fun xs => batch_pi (fun _ => exp c) xs * f xs).
Proof. intros c dim C target r B n f Hd HC Hr. apply arw_flat_run; assumption. Qed.
Print Assumptions C75_flat_target.

Example C75_one_step_case : (0 < 3)%nat /\ (2 <= 2)%nat /\ 0 <= rw_radius rw_init <= INR 3.
Proof. simpl. repeat split; lia || lra. Qed.

(** Two steps from equilibrium, starting radius 1 as in the code, any acceptance target up to 1/3 (the default is
    0.237): the first site, three times as likely to be 1 as 0 under the target, is 1 with probability 3/4 - 1/72. *)
Theorem C75_two_steps_refuted : exists fw f, forall target, 0 <= target <= / 3 ->
  mean (states 2 2) (fun x => exp (fw x))
    (fun x => E (run_seq (fun _ => arw_step 0 fw 2 2 target) 2 0 (rw_radius rw_init, [x])) (fun s => f (nth 0 (snd s) [])))
  = mean (states 2 2) (fun x => exp (fw x)) f - 1 / 72.
Proof.
  exists fw3, (fun x => INR (nth 0 x 0%nat)). intros target Ht. rewrite mean_first. exact (two_steps_law target Ht).
Qed.
Print Assumptions C75_two_steps_refuted.

Example C75_default_target : 0 <= 237 / 1000 <= / 3.
Proof. lra. Qed.

(** The error does not die out: with acceptance target 2/3 the law of the sample converges, from every start, but to
    1080/1469 instead of 3/4. *)
Theorem C75_long_run_refuted : exists fw target f l, 0 < target < 1 /\
  (forall x, In x (states 2 2) ->
    Un_cv (fun n => E (run_seq (fun _ => arw_step 0 fw 2 2 target) n 0 (rw_radius rw_init, [x])) (fun s => f (nth 0 (snd s) []))) l) /\
  l <> mean (states 2 2) (fun x => exp (fw x)) f.
Proof.
  exists fw3, (2 / 3), (fun x => INR (nth 0 x 0%nat)), (1080 / 1469). split; [lra|]. split.
  - intros x Hx. change (states 2 2) with [st false false; st false true; st true false; st true true] in Hx.
    destruct Hx as [<-|[<-|[<-|[<-|[]]]]]; apply arw_limit.
  - rewrite mean_first. lra.
Qed.
Print Assumptions C75_long_run_refuted.

(** Every adaptive configuration in the repository (random walk, Gibbs-with-gradients, path-auxiliary, Langevin), with the
    constants of the code, on a binary model with the exact gradient: after at most three steps from equilibrium an event has lost
    more than 1/700 of its probability. *)
Theorem C75_shipped_refuted : forall c, In c (shipped false) -> sc_adaptive c = Some true ->
  exists T k n f, build_sampler c (t_C T) = Some k /\ usable T k /\ (0 < t_dim T)%nat /\ t_C T = 2%nat /\ first_order (t_fw T) (t_grad T) (t_dim T) /\
    (forall x, 0 <= f x <= 1) /\
    mean (states (t_dim T) (t_C T)) (fun x => exp (t_fw T x)) (fun x => E (sampler_run acc_guard (/ 10 ^ 32) T k n ([x], init_state k)) (fun o => f (nth 0 (fst o) [])))
    <= mean (states (t_dim T) (t_C T)) (fun x => exp (t_fw T x)) f - / 700.
Proof. exact shipped_biased. Qed.
Print Assumptions C75_shipped_refuted.

Example C75_shipped_case : In (gwg_conf false) (shipped false) /\ sc_adaptive (gwg_conf false) = Some true /\ length (filter (fun c => odef (sc_adaptive c) false) (shipped false)) = 5%nat.
Proof. split; [do 4 right; left; reflexivity|split; reflexivity]. Qed.

(** The sizes, exact acceptance: three steps of Gibbs-with-gradients lose 1/45 of the probability of the first site, three steps
    of the path-auxiliary sampler 1/30, for every acceptance target between 1/2 and 3/4. *)
Theorem C75_gwg_refuted : exists T f, first_order (t_fw T) (t_grad T) 2 /\ forall dg target, / 2 < target < 3 / 4 ->
  let k := SGwgAdapt "SQRT" target in
  mean (states 2 2) (fun x => exp (t_fw T x)) (fun x => E (sampler_run 0 dg T k 3 ([x], init_state k)) (fun o => f (nth 0 (fst o) [])))
  = mean (states 2 2) (fun x => exp (t_fw T x)) f - 1 / 45.
Proof.
  exists (pair_target 2), is_one. split; [exact (pair_first_order 2)|]. intros dg t Ht k. refine (eq_trans (gwg_run_law dg t Ht) _).
  f_equal. symmetry. cbn [t_fw pair_target]. rewrite (mean_pair is_one 0 1); [lra|]. intros [|[|b]] Hb; cbn; lra || lia.
Qed.
Print Assumptions C75_gwg_refuted.
Theorem C75_path_refuted : exists T f, first_order (t_fw T) (t_grad T) 2 /\ forall dg target, / 2 < target < 3 / 4 ->
  let k := SPath "SQRT" true 1 (Some target) in
  mean (states 2 2) (fun x => exp (t_fw T x)) (fun x => E (sampler_run 0 dg T k 3 ([x], init_state k)) (fun o => f (nth 0 (fst o) [])))
  = mean (states 2 2) (fun x => exp (t_fw T x)) f - 1 / 30.
Proof.
  exists (pair_target 2), is_one. split; [exact (pair_first_order 2)|]. intros dg t Ht k. refine (eq_trans (path_run_law dg t Ht) _).
  f_equal. symmetry. cbn [t_fw pair_target]. rewrite (mean_pair is_one 0 1); [lra|]. intros [|[|b]] Hb; cbn; lra || lia.
Qed.
Print Assumptions C75_path_refuted.
Example C75_informed_target : / 2 < 574 / 1000 < 3 / 4.
Proof. lra. Qed.

(** The Langevin samplers are off after their first step already, whatever their settings: they take the first step size from
    the current sample, and the reverse move is scored with it. *)
Theorem C75_dmala_refuted : exists T f, first_order (t_fw T) (t_grad T) 1 /\ forall c size, lc_adaptive c = true -> lc_co_opt c = false ->
  let k := SDmala "SQRT" c size in
  mean (states 1 2) (fun x => exp (t_fw T x)) (fun x => E (sampler_run 0 0 T k 1 ([x], init_state k)) (fun o => f (nth 0 (fst o) [])))
  = mean (states 1 2) (fun x => exp (t_fw T x)) f - 9 / 260.
Proof.
  exists (pair_target 1), is_one. split; [exact (pair_first_order 1)|]. intros c z Ha Hc k.
  refine (eq_trans (proj2 (dmala_run_law 0 c z ltac:(lra) Ha Hc) eq_refl) _). f_equal. symmetry. cbn [t_fw pair_target]. rewrite mean_one. cbn. lra.
Qed.
Print Assumptions C75_dmala_refuted.
Theorem C75_dlmc_refuted : exists T f, first_order (t_fw T) (t_grad T) 1 /\ forall c, lc_adaptive c = true -> lc_co_opt c = false ->
  let k := SDlmc "SQRT" c 3 "interpolate" in
  mean (states 1 2) (fun x => exp (t_fw T x)) (fun x => E (sampler_run 0 0 T k 1 ([x], init_state k)) (fun o => f (nth 0 (fst o) [])))
  = mean (states 1 2) (fun x => exp (t_fw T x)) f - 4 / 25 * (exp (- (15 / 4)) - exp (Ropp 15)).
Proof.
  exists (pair_target 1), is_one. split; [exact (pair_first_order 1)|]. intros c Ha Hc k.
  refine (eq_trans (proj2 (dlmc_run_law 0 c ltac:(lra) Ha Hc) eq_refl) _). f_equal. symmetry. cbn [t_fw pair_target]. rewrite mean_one. cbn. lra.
Qed.
Print Assumptions C75_dlmc_refuted.
Example C75_langevin_case : let c := {| lc_adaptive := true; lc_co_opt := false; lc_target := 574 / 1000; lc_schedule := 200; lc_reset := 20%Z |} in
  build_sampler (dlmc_conf false) 2 = Some (SDlmc "SQRT" c 3 "interpolate") /\ lc_adaptive c = true /\ lc_co_opt c = false.
Proof. repeat split. Qed.
