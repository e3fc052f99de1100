(** Property theorems C11, C12, C15 (dmala.py, dlmc.py). *)
From Coq Require Import String Reals List Lra Lia Arith ZArith Sorting.Sorted.
From Verif.Base Require Import RSum Cube Dist XFloat MH.
From Verif.Spec Require Import Chain.
From Verif.Model Require Import MathUtil RandomWalk LocallyBalanced PathAux Langevin.
From Verif.Proof Require Import MHKernel MathUtilProof RandomWalkProof GWGProof LangevinProof LangevinAdapt LangevinRows.
Import ListNotations.
Local Open Scope R_scope.

(** ** C11: DMALA.  Any energy, log-ratio array, balancing function; [log_tau] constant (fixed step size) or any
    function of the chain's own state (co_opt_prob with one chain). *)
Theorem C11_binary_reversible : forall (fw : list nat -> R) (log_tau : list nat -> R) (wf : R -> R) (lr : list nat -> nat -> R) d,
  reversible (states d 2) (fun x => exp (fw x)) (dmala_bin_step 0 0 fw log_tau wf lr).
Proof. intros. exact (bern_reversible fw _ d (fun x => dmala_ps_ok (log_tau x) wf lr d x)). Qed.
Print Assumptions C11_binary_reversible.

(** The code: 1e-32 inside the logarithms and 1e-24 in mh_step. *)
Theorem C11_binary_invariant_upto : forall (fw : list nat -> R) (log_tau : list nat -> R) (wf : R -> R) (lr : list nat -> nat -> R) d,
  invariant_upto (2 * ((1 + 2 * / 10 ^ 32) ^ d - 1) + 2 * / 10 ^ 24) (states d 2) (fun x => exp (fw x))
    (dmala_bin_step acc_guard log_guard fw log_tau wf lr).
Proof.
  intros. exact (bern_invariant_upto fw _ d log_guard (fun x => dmala_ps_ok (log_tau x) wf lr d x)
                   (Rlt_le _ _ (Rinv_0_lt_compat _ (pow_lt 10 32 ltac:(lra)))) acc_guard (Rlt_le _ _ acc_guard_pos)).
Qed.
Print Assumptions C11_binary_invariant_upto.

Theorem C11_binary_proper : forall (fw : list nat -> R) (log_tau : list nat -> R) (wf : R -> R) (lr : list nat -> nat -> R) d guard dg,
  proper (states d 2) (dmala_bin_step guard dg fw log_tau wf lr).
Proof.
  intros fw log_tau wf lr d guard dg x Hx.
  split; [exact (bern_is_prob fw _ d dg (fun x => dmala_ps_ok (log_tau x) wf lr d x) guard x Hx)|].
  intros y w. exact (bern_stays fw _ d dg (fun x => dmala_ps_ok (log_tau x) wf lr d x) guard x y w Hx).
Qed.
Print Assumptions C11_binary_proper.

(** The flip probability is the logistic function of log_tau + log weight: genuine, never 0 or 1. *)
Theorem C11_flip_probability : forall log_tau w,
  dmala_p log_tau w = exp log_tau * exp w / (1 + exp log_tau * exp w) /\ 0 < dmala_p log_tau w < 1.
Proof. intros. exact (conj (dmala_p_eq log_tau w) (dmala_p_range log_tau w)). Qed.
Print Assumptions C11_flip_probability.

Theorem C11_categorical_reversible : forall (fw : list nat -> R) (log_tau : list nat -> R) (wf : R -> R) (lr : list nat -> nat -> R) d C,
  (0 < C)%nat -> reversible (states d C) (fun x => exp (fw x)) (dmala_cat_step 0 fw log_tau wf lr C).
Proof. intros. exact (cat_reversible fw _ d C H (fun x => dmala_rows_ok (log_tau x) wf lr d C x)). Qed.
Print Assumptions C11_categorical_reversible.

Theorem C11_categorical_invariant_upto : forall (fw : list nat -> R) (log_tau : list nat -> R) (wf : R -> R) (lr : list nat -> nat -> R) d C,
  (0 < C)%nat -> invariant_upto (2 * / 10 ^ 24) (states d C) (fun x => exp (fw x)) (dmala_cat_step acc_guard fw log_tau wf lr C).
Proof. intros. exact (cat_invariant_upto fw _ d C H (fun x => dmala_rows_ok (log_tau x) wf lr d C x) acc_guard (Rlt_le _ _ acc_guard_pos)). Qed.
Print Assumptions C11_categorical_invariant_upto.

Theorem C11_categorical_is_prob : forall (fw : list nat -> R) (log_tau : list nat -> R) (wf : R -> R) (lr : list nat -> nat -> R) d C guard x,
  (0 < C)%nat -> In x (states d C) -> is_prob (dmala_cat_step guard fw log_tau wf lr C x).
Proof. intros. exact (cat_is_prob fw _ d C H (fun x => dmala_rows_ok (log_tau x) wf lr d C x) guard x H0). Qed.
Print Assumptions C11_categorical_is_prob.

(** What site [i] draws: the current value with weight 1, another value c with weight tau * g(ratio_c), normalised. *)
Theorem C11_categorical_proposal : forall log_tau (wf : R -> R) (lr : list nat -> nat -> R) C x i row c,
  dmala_row log_tau wf lr C x i = Some row -> (c < C)%nat ->
  let wt := fun c => if Nat.eqb c (nth i x 0%nat) then 1 else exp log_tau * exp (wf (lr x (i * C + c)%nat)) in
  length row = C /\ exp (nth c row 0) / rsum row exp = wt c / rsum (seq 0 C) wt.
Proof. intros log_tau wf lr C x i row c Hr Hc. exact (dmala_row_law log_tau wf lr C x i row c Hr Hc). Qed.
Print Assumptions C11_categorical_proposal.

(** The local step size (n = 3): tau times the batch average of the total rate is n. *)
Theorem C11_local_step_size : forall n rates, 0 < n -> rates <> [] -> (exists r, In r rates /\ r <> []) ->
  exp (local_log_tau n (dmala_log_z rates)) * (rsum rates (fun r => rsum r exp) / INR (length rates)) = n.
Proof. exact local_tau_spec. Qed.
Print Assumptions C11_local_step_size.

(** The batch step of the code, at whatever step size [lt] it uses, moves the chains independently, each by the
    kernel above. *)
Theorem C11_batch_law : forall guard dg fw wf lr lz c s xs lt f,
  lc_co_opt c = false -> l_used_log_tau c 3 (Fin (lz (map (chain_rates wf lr) xs))) s = Fin lt ->
  E (bin_batch_step guard dg fw (dmala_pfun wf lr) (chain_rates wf lr) lz 3 c s xs) (fun o => f (fst o))
  = E (batch_step (dmala_bin_step guard dg fw (fun _ => lt) wf lr) xs) f.
Proof. intros. exact (batch_law guard dg fw _ _ lz 3 c s xs lt f H H0). Qed.
Print Assumptions C11_batch_law.

Example C11_ex : In [0; 1; 1]%nat (states 3 2) /\ flip_bits [true; false; true] [0; 1; 1]%nat = [1; 1; 0]%nat
  /\ l_used_log_tau default_conf 3 (Fin 2) {| l_steps := 4; l_calls := 16; l_log_tau := Fin (/ 2); l_log_z := Fin 2 |} = Fin (/ 2).
Proof. repeat split; auto. apply in_states; split; [reflexivity|repeat constructor]. Qed.

(** ** C12: DLMC *)
Theorem C12_binary_reversible : forall solver (fw : list nat -> R) (log_tau : list nat -> R) (wf : R -> R) (lr : list nat -> nat -> R) d,
  solver = "interpolate"%string \/ solver = "euler_forward"%string ->
  reversible (states d 2) (fun x => exp (fw x)) (dlmc_bin_step 0 0 fw solver log_tau wf lr).
Proof. intros. exact (bern_reversible fw _ d (fun x => dlmc_ps_ok solver (log_tau x) wf lr d x H)). Qed.
Print Assumptions C12_binary_reversible.

Theorem C12_binary_invariant_upto : forall solver (fw : list nat -> R) (log_tau : list nat -> R) (wf : R -> R) (lr : list nat -> nat -> R) d,
  solver = "interpolate"%string \/ solver = "euler_forward"%string ->
  invariant_upto (2 * ((1 + 2 * / 10 ^ 32) ^ d - 1) + 2 * / 10 ^ 24) (states d 2) (fun x => exp (fw x))
    (dlmc_bin_step acc_guard log_guard fw solver log_tau wf lr).
Proof.
  intros. exact (bern_invariant_upto fw _ d log_guard (fun x => dlmc_ps_ok solver (log_tau x) wf lr d x H)
                   (Rlt_le _ _ (Rinv_0_lt_compat _ (pow_lt 10 32 ltac:(lra)))) acc_guard (Rlt_le _ _ acc_guard_pos)).
Qed.
Print Assumptions C12_binary_invariant_upto.

Theorem C12_binary_proper : forall solver (fw : list nat -> R) (log_tau : list nat -> R) (wf : R -> R) (lr : list nat -> nat -> R) d guard dg,
  solver = "interpolate"%string \/ solver = "euler_forward"%string ->
  proper (states d 2) (dlmc_bin_step guard dg fw solver log_tau wf lr).
Proof.
  intros solver fw log_tau wf lr d guard dg H x Hx.
  split; [exact (bern_is_prob fw _ d dg (fun x => dlmc_ps_ok solver (log_tau x) wf lr d x H) guard x Hx)|].
  intros y w. exact (bern_stays fw _ d dg (fun x => dlmc_ps_ok solver (log_tau x) wf lr d x H) guard x y w Hx).
Qed.
Print Assumptions C12_binary_proper.

(** The flip probability of each solver in closed form; nu is the conditional probability of the flipped value. *)
Theorem C12_flip_probability : forall log_tau w delta,
  let nu := / (1 + exp (- delta)) in
  (dlmc_p "interpolate" log_tau w delta = Some (nu * (1 - exp (- (exp log_tau * exp w / nu))))) /\
  (dlmc_p "euler_forward" log_tau w delta = Some (Rmin (exp log_tau * exp w) nu)) /\
  (forall solver, (solver = "interpolate" \/ solver = "euler_forward")%string -> exists p, dlmc_p solver log_tau w delta = Some p /\ 0 < p < 1) /\
  (forall solver, ~ (solver = "interpolate" \/ solver = "euler_forward")%string -> dlmc_p solver log_tau w delta = None).
Proof.
  intros. exact (conj (dlmc_p_interp log_tau w delta) (conj (dlmc_p_euler log_tau w delta)
    (conj (fun s H => dlmc_p_ok s log_tau w delta H) (fun s H => dlmc_p_unknown s log_tau w delta H)))).
Qed.
Print Assumptions C12_flip_probability.

Theorem C12_categorical_reversible : forall solver (fw : list nat -> R) (log_tau : list nat -> R) (wf : R -> R) (lr : list nat -> nat -> R) d C,
  solver = "interpolate"%string \/ solver = "euler_forward"%string -> (0 < C)%nat ->
  reversible (states d C) (fun x => exp (fw x)) (dlmc_cat_step 0 fw solver log_tau wf lr C).
Proof. intros. exact (cat_reversible fw _ d C H0 (fun x => dlmc_rows_ok solver (log_tau x) wf lr d C x H)). Qed.
Print Assumptions C12_categorical_reversible.

Theorem C12_categorical_invariant_upto : forall solver (fw : list nat -> R) (log_tau : list nat -> R) (wf : R -> R) (lr : list nat -> nat -> R) d C,
  solver = "interpolate"%string \/ solver = "euler_forward"%string -> (0 < C)%nat ->
  invariant_upto (2 * / 10 ^ 24) (states d C) (fun x => exp (fw x)) (dlmc_cat_step acc_guard fw solver log_tau wf lr C).
Proof. intros. exact (cat_invariant_upto fw _ d C H0 (fun x => dlmc_rows_ok solver (log_tau x) wf lr d C x H) acc_guard (Rlt_le _ _ acc_guard_pos)). Qed.
Print Assumptions C12_categorical_invariant_upto.

Theorem C12_categorical_is_prob : forall solver (fw : list nat -> R) (log_tau : list nat -> R) (wf : R -> R) (lr : list nat -> nat -> R) d C guard x,
  solver = "interpolate"%string \/ solver = "euler_forward"%string -> (0 < C)%nat -> In x (states d C) ->
  is_prob (dlmc_cat_step guard fw solver log_tau wf lr C x).
Proof. intros. exact (cat_is_prob fw _ d C H0 (fun x => dlmc_rows_ok solver (log_tau x) wf lr d C x H) guard x H1). Qed.
Print Assumptions C12_categorical_is_prob.

(** Interpolation solver, site [i] whose current value keeps conditional probability at least 1e-12: the row is an
    exactly normalised law; it moves to c with probability nu_c (1 - exp(-tau g_c / nu_c)) and stays otherwise. *)
Theorem C12_categorical_proposal : forall log_tau (wf : R -> R) (lr : list nat -> nat -> R) C x i row,
  dlmc_row "interpolate" log_tau wf lr C x i = Some row -> (nth i x 0 < C)%nat ->
  let nu := fun c => exp (lr x (i * C + c)%nat) / rsum (seq 0 C) (fun c' => exp (lr x (i * C + c')%nat)) in
  let move := fun c => nu c * (1 - exp (- (exp log_tau * exp (wf (lr x (i * C + c)%nat)) / nu c))) in
  / 10 ^ 12 <= nu (nth i x 0%nat) ->
  length row = C /\ rsum row exp = 1 /\
  (forall c, (c < C)%nat -> c <> nth i x 0%nat -> exp (nth c row 0) = move c) /\
  exp (nth (nth i x 0%nat) row 0) = 1 - rsum (seq 0 C) (fun c => if Nat.eqb c (nth i x 0%nat) then 0 else move c).
Proof. intros log_tau wf lr C x i row Hr Hx nu0 mv Hn. exact (dlmc_row_law log_tau wf lr C x i row Hr Hx Hn). Qed.
Print Assumptions C12_categorical_proposal.
Example C12_proposal_ex : let lr := (fun (_ : list nat) (_ : nat) => 0) in
  (nth 0 [1]%nat 0 < 3)%nat /\ / 10 ^ 12 <= exp (lr [1]%nat (0 * 3 + 1)%nat) / rsum (seq 0 3) (fun c' => exp (lr [1]%nat (0 * 3 + c')%nat)).
Proof. simpl. rewrite exp_0. split; [lia|]. lra. Qed.

(** Both samplers compute the same normaliser estimate. *)
Theorem C12_local_step_size : forall n rates, 0 < n -> rates <> [] -> (exists r, In r rates /\ r <> []) ->
  dlmc_log_z rates = dmala_log_z rates /\
  exp (local_log_tau n (dlmc_log_z rates)) * (rsum rates (fun r => rsum r exp) / INR (length rates)) = n.
Proof.
  intros n rates H1 H2 H3. split; [exact (log_z_same rates H2 H3)|]. rewrite (log_z_same rates H2 H3).
  exact (local_tau_spec n rates H1 H2 H3).
Qed.
Print Assumptions C12_local_step_size.

Theorem C12_batch_law : forall guard dg fw solver wf lr lz n c s xs lt f,
  lc_co_opt c = false -> l_used_log_tau c n (Fin (lz (map (chain_rates wf lr) xs))) s = Fin lt ->
  E (bin_batch_step guard dg fw (dlmc_pfun solver wf lr) (chain_rates wf lr) lz n c s xs) (fun o => f (fst o))
  = E (batch_step (bern_step guard dg fw (fun x => Some (dlmc_pfun solver wf lr lt x))) xs) f.
Proof. intros. exact (batch_law guard dg fw _ _ lz n c s xs lt f H H0). Qed.
Print Assumptions C12_batch_law.

Example C12_ex : ("interpolate" = "interpolate" \/ "interpolate" = "euler_forward")%string /\ In [0; 2]%nat (states 2 3).
Proof. split; auto. apply in_states; split; [reflexivity|repeat constructor]. Qed.

(** ** C15: the adapted log step size *)

(** One update, in closed form: with n = exp(log_tau + log_z) + 3 (acc - target), a real result exactly when n >= 0. *)
Theorem C15_update_cases : forall c a z s t zs, lc_adaptive c = true -> lc_co_opt c = false ->
  l_log_tau s = Fin t -> l_log_z s = Fin zs ->
  exists z', (z' = z \/ z' = zs) /\ l_log_z (l_update c (Fin a) (Fin z) s) = Fin z' /\
  let n := exp (t + z') + 3 * (a - lc_target c) in
  (0 <= n -> l_log_tau (l_update c (Fin a) (Fin z) s) = Fin (ln (Rmax n 1) - z')) /\
  (n < 0 -> l_log_tau (l_update c (Fin a) (Fin z) s) = NaN).
Proof.
  intros c a z s t zs Ha Hc Ht Hz. destruct (l_new_log_z_fin c (S (l_steps s)) z zs) as (z' & Hz' & Hor).
  exists z'. destruct (l_update_spec c a z s t zs z' Ha Hc Ht Hz Hz') as (U1 & U2 & U3). auto.
Qed.
Print Assumptions C15_update_cases.

(** The claim holds for targets at most 1/3 and non-decreasing normaliser estimates. *)
Theorem C15_finite_partial : forall c hist, lc_adaptive c = true -> lc_co_opt c = false -> lc_target c <= / 3 ->
  Forall (fun p : R * R => 0 <= fst p) hist -> StronglySorted (fun p q : R * R => snd p <= snd q) hist ->
  Forall (fun p : R * R => 0 <= snd p) hist ->
  exists r, l_log_tau (fold_left (fun s p => l_update c (Fin (fst p)) (Fin (snd p)) s) hist l_init) = Fin r.
Proof.
  intros c hist Ha Hc Ht H1 H2 H3.
  exact (l_run_finite0 c Ha Hc Ht hist l_init 0 0 eq_refl eq_refl ltac:(lra) H1 H2 H3).
Qed.
Print Assumptions C15_finite_partial.
Example C15_finite_ex : let c := {| lc_adaptive := true; lc_co_opt := false; lc_target := / 4; lc_schedule := 100; lc_reset := 20 |} in
  lc_target c <= / 3 /\ StronglySorted (fun p q : R * R => snd p <= snd q) [(0, 1); (/ 2, 1); (1, 2)].
Proof. simpl. split; [lra|]. repeat constructor; simpl; lra. Qed.

(** In general it is false, from the initial state, with the default configuration (target 0.574, schedule 100,
    reset 20), the exact gradient and the square-root balancing function: DMALA on one site with energy -2x
    turns its step size into NaN in the very first step with probability at least 3/4. *)
Theorem C15_dmala_refuted : exists fw grad x,
  (forall x, In x (states 1 2) -> paf_lr_grad_bin grad x 0 = fw (upd 0 (1 - nth 0 x 0)%nat x) - fw x) /\
  In x (states 1 2) /\
  3 / 4 <= E (bin_batch_step acc_guard log_guard fw (dmala_pfun (fun r => r / 2) (paf_lr_grad_bin grad))
                (chain_rates (fun r => r / 2) (paf_lr_grad_bin grad)) dmala_log_z 3 default_conf l_init [x])
             (fun o => match l_log_tau (snd o) with NaN => 1 | _ => 0 end).
Proof.
  exists wa_fw, wa_grad, [0%nat]. split; [exact dmala_exact|]. split; [apply in_states; split; [reflexivity|repeat constructor]|].
  exact dmala_nan.
Qed.
Print Assumptions C15_dmala_refuted.

(** The same for DLMC (interpolation solver, n = 3) on two coupled sites, with probability at least 1/25. *)
Theorem C15_dlmc_refuted : exists fw grad x,
  (forall x i, In x (states 2 2) -> (i < 2)%nat -> paf_lr_grad_bin grad x i = fw (upd i (1 - nth i x 0)%nat x) - fw x) /\
  In x (states 2 2) /\
  / 25 <= E (bin_batch_step acc_guard log_guard fw (dlmc_pfun "interpolate" (fun r => r / 2) (paf_lr_grad_bin grad))
                (chain_rates (fun r => r / 2) (paf_lr_grad_bin grad)) dlmc_log_z 3 default_conf l_init [x])
             (fun o => match l_log_tau (snd o) with NaN => 1 | _ => 0 end).
Proof.
  exists wb_fw, wb_grad, [0%nat; 0%nat]. split; [exact wb_exact|]. split; [apply in_states; split; [reflexivity|repeat constructor]|].
  exact dlmc_nan.
Qed.
Print Assumptions C15_dlmc_refuted.

(** Once NaN, the step size stays NaN and no sample of the batch ever changes again, whatever the model. *)
Theorem C15_nan_frozen : forall guard dg fw pfun rates lz n c k s xs f,
  lc_adaptive c = true -> lc_co_opt c = false -> (0 < l_steps s)%nat -> l_log_tau s = NaN ->
  E (batch_run guard dg fw pfun rates lz n c k s xs) (fun o => f (fst o)) = f xs.
Proof. intros. exact (batch_run_nan guard dg fw pfun rates lz n c k s xs f H H0 H1 H2). Qed.
Print Assumptions C15_nan_frozen.
Example C15_nan_ex : let s := {| l_steps := 1; l_calls := 4; l_log_tau := NaN; l_log_z := Fin (-1) |} in
  lc_adaptive default_conf = true /\ lc_co_opt default_conf = false /\ (0 < l_steps s)%nat /\ l_log_tau s = NaN.
Proof. simpl. auto. Qed.
