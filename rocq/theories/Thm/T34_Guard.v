(** C92: the constants added inside the acceptance rule and the logarithms, over complete runs. *)
From Coq Require Import String Reals List Lra Lia Arith ZArith.
From Verif.Base Require Import RSum Cube Dist XFloat.
From Verif.Spec Require Import Chain SamplerRun.
From Verif.Model Require Import MathUtil Gibbs RandomWalk GWG LocallyBalanced PathAux Langevin FullRun.
From Verif.Proof Require Import MathUtilProof FullRunProof FullRunInvar GuardRun.
Import ListNotations.
Local Open Scope R_scope.

(** Every usable object, adaptive or not, any number of steps from any legal batch: any bounded observable of samples and state
    has an expectation within n * B * 2e-24 times its bound of the same run with the exact acceptance rule. *)
Theorem C92_run_close : forall dg T k n B xs f M, (0 < t_dim T)%nat -> (2 <= t_C T)%nat -> usable T k -> legal (t_dim T) (t_C T) B xs ->
  (forall o, Rabs (f o) <= M) ->
  Rabs (E (sampler_run acc_guard dg T k n (xs, init_state k)) f - E (sampler_run 0 dg T k n (xs, init_state k)) f)
  <= INR n * (INR B * (2 * / 10 ^ 24)) * M.
Proof.
  intros dg T k n B xs f M Hd HC Hu Hx Hf. apply (proj2 (near_run_from acc_guard dg T k B (Rlt_le _ _ acc_guard_pos) Hd HC Hu n 0 xs _ (init_at T k Hd Hu) Hx)); [|auto].
  apply Rle_trans with (Rabs (f (xs, init_state k))); [apply Rabs_pos|auto].
Qed.
Print Assumptions C92_run_close.

(** One step with both constants of the code, in any reachable state, objects that keep the target: the joint target is kept up
    to B * (log_error + 2e-24) ... *)
Theorem C92_step : forall T k n s B, (0 < t_dim T)%nat -> (2 <= t_C T)%nat -> usable T k -> state_at (t_dim T) (t_C T) k n s -> keeps_target T k s ->
  invariant_upto (INR B * (log_error T k (/ 10 ^ 32) + 2 * / 10 ^ 24)) (lists_over (states (t_dim T) (t_C T)) B) (batch_pi (fun x => exp (t_fw T x)))
    (fun xs => dmap fst (sampler_step acc_guard (/ 10 ^ 32) T k (xs, s))).
Proof.
  intros T k n s B Hd HC Hu Hs Hk. apply (step_upto acc_guard (/ 10 ^ 32) T k n s B); auto; [apply Rlt_le, acc_guard_pos|].
  apply Rlt_le, Rinv_0_lt_compat, pow_lt. lra.
Qed.
Print Assumptions C92_step.

(** ... and over a whole run without adaptation the errors add up at most linearly. *)
Theorem C92_run : forall T k n B, (0 < t_dim T)%nat -> (2 <= t_C T)%nat -> usable T k -> fixed_rule T k ->
  invariant_upto (INR n * (INR B * (log_error T k (/ 10 ^ 32) + 2 * / 10 ^ 24))) (lists_over (states (t_dim T) (t_C T)) B) (batch_pi (fun x => exp (t_fw T x)))
    (fun xs => dmap fst (sampler_run acc_guard (/ 10 ^ 32) T k n (xs, init_state k))).
Proof.
  intros T k n B Hd HC Hu Hf.
  apply (run_upto_from acc_guard (/ 10 ^ 32) T k B (Rlt_le _ _ acc_guard_pos) ltac:(apply Rlt_le, Rinv_0_lt_compat, pow_lt; lra) Hd HC Hu Hf n 0 (init_state k)).
  apply init_at; auto.
Qed.
Print Assumptions C92_run.

(** For models of up to a million sites the second constant adds less than the first. *)
Theorem C92_log_error : forall T k, INR (t_dim T) <= 10 ^ 6 -> 0 <= log_error T k (/ 10 ^ 32) <= / 10 ^ 24.
Proof. intros T k H. split; [apply log_error_nonneg; apply Rlt_le, Rinv_0_lt_compat, pow_lt; lra|exact (log_error_small T k H)]. Qed.
Print Assumptions C92_log_error.

(** The supports are not close: a move 80 units down has positive probability under the exact rule and none, over any number
    of steps, under the rule of the code. *)
Theorem C92_support_refuted : exists T k xs ys, usable T k /\ legal (t_dim T) (t_C T) 1 xs /\ legal (t_dim T) (t_C T) 1 ys /\
  let at_ys := fun o : list (list nat) * sstate => if list_eq_dec (list_eq_dec Nat.eq_dec) (fst o) ys then 1 else 0 in
  forall dg, 0 < E (sampler_run 0 dg T k 1 (xs, init_state k)) at_ys /\
  forall n, E (sampler_run acc_guard dg T k n (xs, init_state k)) at_ys = 0.
Proof.
  exists deep_target, (SWalk None), [[0%nat]], [[1%nat]]. split; [exact I|]. split; [split; repeat constructor|]. split; [split; repeat constructor|].
  cbv zeta. intros dg. split; [|intros n; apply deep_run_stuck; reflexivity].
  cbn [init_state]. rewrite deep_moves by reflexivity. apply exp_pos.
Qed.
Print Assumptions C92_support_refuted.

(** DMALA without adaptation on a binary model with three sites, and the adaptive object of the shipped configuration on the
    model with three categories. *)
Example C92_ex : let T := {| t_fw := fun x => INR (nth 0 x 0%nat * nth 1 x 0%nat); t_grad := fun x i => INR (nth (i mod 2) x 0%nat); t_lr := fun _ _ => 0;
    t_sig := None; t_mask := None; t_dim := 3; t_C := 2 |} in
  let c := {| lc_adaptive := false; lc_co_opt := false; lc_target := 574 / 1000; lc_schedule := 100; lc_reset := 20 |} in
  usable T (SDmala "SQRT" c (2 / 10)) /\ fixed_rule T (SDmala "SQRT" c (2 / 10)) /\ log_error T (SDmala "SQRT" c (2 / 10)) 1 = 52 /\ INR (t_dim T) <= 10 ^ 6
  /\ (exists k, build_sampler (dmala_conf false) (t_C ex_target) = Some k /\ usable ex_target k)
  /\ legal (t_dim ex_target) (t_C ex_target) 2 [[0; 1; 2]; [2; 2; 0]]%nat.
Proof.
  cbv zeta. split; [left; reflexivity|]. split; [reflexivity|]. split; [cbn; lra|]. split; [cbn; lra|]. split; [eexists; split; [reflexivity|left; reflexivity]|].
  split; [reflexivity|]. repeat constructor.
Qed.
