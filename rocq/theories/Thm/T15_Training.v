(** Property theorems C43, C46, C56 and C62 to C64: replay buffer, moving average, learning-rate schedules, training loop, data mean. *)
From Coq Require Import Reals List Arith ZArith Lia Lra.
From Verif.Base Require Import RSum.
From Verif.Spec Require Import TrainSpec.
From Verif.Model Require Import Experiment Training.
From Verif.Proof Require Import ExperimentProof TrainingProof.
Import ListNotations.
Local Open Scope R_scope.

(** ** C43 *)
(** After any history of updates the buffer has as many rows as at the start, and every row is an initial row or was given to an update. *)
Theorem C43_bounded_and_genuine : forall nc rows ops b, (nc <= 2)%nat -> rb_run (new_buffer nc rows) ops = Some b ->
  length b = length rows /\ forall r, In r b -> In r rows \/ exists x inds, In (x, inds) ops /\ In r x.
Proof. intros nc rows ops b Hnc. unfold new_buffer. destruct (Nat.ltb_spec 2 nc); [lia|]. apply rb_run_bounded. Qed.
Print Assumptions C43_bounded_and_genuine.
(** An update writes row k at index k and nothing else. *)
Theorem C43_update_exact : forall b x inds b', NoDup inds -> length x = length inds -> rb_update (Some b) x inds = Some b' ->
  (forall k i r, nth_error inds k = Some i -> nth_error x k = Some r -> nth_error b' i = Some r)
  /\ forall i, ~ In i inds -> nth_error b' i = nth_error b i.
Proof. exact rb_update_exact. Qed.
Print Assumptions C43_update_exact.
Theorem C43_update_succeeds : forall (b : list row) x inds, (forall i, In i inds -> (i < length b)%nat) -> length x = length inds -> exists b', rb_update (Some b) x inds = Some b'.
Proof. exact rb_update_ok. Qed.
Print Assumptions C43_update_succeeds.
(** A sampled batch: row k is the stored row at index k, or the fresh row where re-initialisation was drawn. *)
Theorem C43_sample_rows : forall w (b : list row) inds reinit (fresh : list row), (forall r, In r b -> length r = w) -> (forall r, In r fresh -> length r = w) ->
  (forall r, In r reinit -> (r = 0 \/ r = 1)%Z) -> length reinit = length inds -> length fresh = length inds ->
  NoDup inds -> (forall i, In i inds -> (i < length b)%nat) ->
  exists xs, rb_sample (Some b) inds reinit fresh = Some (xs, inds) /\ length xs = length inds
  /\ forall k i r, nth_error inds k = Some i -> nth_error reinit k = Some r ->
     nth_error xs k = if Z.eqb r 1 then nth_error fresh k else nth_error b i.
Proof. exact rb_sample_rows. Qed.
Print Assumptions C43_sample_rows.
(** Asking for more rows than stored is an error. *)
Theorem C43_too_many : forall (b : list row) inds reinit fresh, (length b < length inds)%nat -> rb_sample (Some b) inds reinit fresh = None.
Proof. exact rb_too_many. Qed.
Print Assumptions C43_too_many.
(** The initial rows are drawn with probabilities between 1/100 and 99/100. *)
Theorem C43_initial_mean : forall column, column <> [] -> (forall v, In v column -> 0 <= v <= 1) -> 1 / 100 <= init_mean column <= 99 / 100.
Proof. exact init_mean_range. Qed.
Print Assumptions C43_initial_mean.
(** Categorical data: the constructor leaves no buffer behind, so every sample request fails. *)
Theorem C43_categorical_refuted : exists nc, (2 < nc)%nat /\ forall rows inds reinit fresh, rb_sample (new_buffer nc rows) inds reinit fresh = None.
Proof. exists 256%nat. split; [lia|]. intros. apply rb_categorical. lia. Qed.
Print Assumptions C43_categorical_refuted.
Example C43_ex : rb_sample (Some [[0; 1]; [1; 1]; [0; 0]]%Z) [0; 2]%nat [0; 1]%Z [[1; 1]; [1; 0]]%Z = Some ([[0; 1]; [1; 0]]%Z, [0; 2]%nat)
  /\ rb_run (new_buffer 2 [[0; 1]; [1; 1]; [0; 0]]%Z) [([[1; 1]; [1; 0]]%Z, [0; 2]%nat)] = Some [[1; 1]; [1; 1]; [1; 0]]%Z.
Proof. split; reflexivity. Qed.

(** ** C46 *)
Theorem C46_convex : forall d avg ps, 0 <= d <= 1 -> ps <> [] -> convex_combination ps (ema_run d 0 avg ps).
Proof. exact ema_convex. Qed.
Print Assumptions C46_convex.
Theorem C46_first_copies : forall d avg p, ema_run d 0 avg [p] = p.
Proof. exact ema_first. Qed.
Print Assumptions C46_first_copies.
Theorem C46_between : forall d avg ps lo hi, 0 <= d <= 1 -> ps <> [] -> (forall p, In p ps -> lo <= p <= hi) -> lo <= ema_run d 0 avg ps <= hi.
Proof. intros d avg ps lo hi Hd Hne H. eapply convex_bounds; [apply ema_convex; auto|exact H]. Qed.
Print Assumptions C46_between.
(** The weights: geometric in the age of the value. *)
Theorem C46_weights : forall d avg p1 ps, ema_run d 0 avg (p1 :: ps)
  = d ^ length ps * p1 + rsum (combine (seq 0 (length ps)) ps) (fun ip => (1 - d) * d ^ (length ps - 1 - fst ip) * snd ip).
Proof. exact ema_closed. Qed.
Print Assumptions C46_weights.
Example C46_ex : ema_run (1 / 2) 0 100 [4; 8; 2] = 4.
Proof. cbn. unfold ema_update, apply_ema. cbn. lra. Qed.

(** ** C56 *)
Theorem C56_constant : forall lr s, lr_constant lr s = lr.
Proof. intros. unfold lr_constant. ring. Qed.
Print Assumptions C56_constant.
Theorem C56_warmup_length : forall frac total, 0 <= frac <= 1 -> (warmup_steps frac total <= total)%nat.
Proof. intros. apply warmup_le; auto. Qed.
Print Assumptions C56_warmup_length.
Theorem C56_updown : forall lr frac total, 0 <= lr -> 0 <= frac <= 1 -> let w := warmup_steps frac total in
  ((0 < w)%nat -> lr_updown lr frac total 0 = 0)
  /\ (forall s, (s < w)%nat -> lr_updown lr frac total s = lr * (INR s / INR w))
  /\ lr_updown lr frac total w = lr
  /\ (forall s, 0 <= lr_updown lr frac total s <= lr)
  /\ (forall s, (w < total)%nat -> (total <= s)%nat -> lr_updown lr frac total s = lr / 100).
Proof.
  intros lr frac total Hlr Hf w. split; [intros; apply updown_zero; auto|]. split; [intros; apply updown_warm; auto|]. split; [apply updown_peak|].
  split; [intros; apply updown_bound; auto|]. intros; apply updown_final; auto.
Qed.
Print Assumptions C56_updown.
Theorem C56_up_exp_down : forall lr frac total, 1 / 1000000 <= lr -> let w := warmup_steps frac total in
  ((0 < w)%nat -> lr_up_exp_down lr frac total 0 = 0)
  /\ lr_up_exp_down lr frac total w = lr
  /\ (forall s, 0 <= lr_up_exp_down lr frac total s <= lr)
  /\ (forall s, (w <= s)%nat -> lr_up_exp_down lr frac total s = Rmax (lr * Rpower (9 / 10) (INR (s - w) / 20000)) (1 / 1000000)).
Proof.
  intros lr frac total Hlr w. assert (H20 : INR 20000 = 20000) by (rewrite INR_IZR_INZ; reflexivity).
  split; [intros; apply upexp_zero; auto; lra|]. split; [apply upexp_peak; auto; lra|]. split; [intros; apply upexp_bound; auto; lra|].
  intros s Hs. rewrite <- H20. apply upexp_value; auto.
Qed.
Print Assumptions C56_up_exp_down.
(** A base rate below the hard-coded end value 1e-6 is exceeded after warm-up. *)
Theorem C56_small_rate_refuted : exists lr frac total s, 0 < lr /\ 0 <= frac <= 1 /\ lr < lr_up_exp_down lr frac total s.
Proof. exists (1 / 10000000), (1 / 2), 10%nat, (warmup_steps (1 / 2) 10). split; [lra|]. split; [lra|]. apply upexp_above; [lra|lia]. Qed.
Print Assumptions C56_small_rate_refuted.
Example C56_ex : warmup_steps (1 / 2) 10 = 5%nat /\ lr_updown 8 (1 / 2) 10 1 = 8 / 5 /\ lr_updown 8 (1 / 2) 10 5 = 8.
Proof.
  assert (W : warmup_steps (1 / 2) 10 = 5%nat).
  { unfold warmup_steps. replace (1 / 2 * INR 10) with (INR 5) by (rewrite !INR_IZR_INZ; cbn; lra). apply int_of_INR. }
  split; [exact W|]. destruct (C56_updown 8 (1 / 2) 10 ltac:(lra) ltac:(lra)) as (_ & H2 & H3 & _). rewrite W in *. split; [|exact H3].
  rewrite (H2 1%nat) by lia. cbn. lra.
Qed.

(** ** C62 *)
(** The loop runs the steps init_step + 1, ... up to total_train_steps, or until the data runs out; the state's step counts them. *)
Theorem C62_steps : forall init total available, loop_steps init total available = seq (init + 1) (Nat.min available (total - init)).
Proof. exact loop_steps_spec. Qed.
Print Assumptions C62_steps.
Theorem C62_final_step : forall init total available, final_step init total available = (init + Nat.min available (total - init))%nat.
Proof. exact final_step_spec. Qed.
Print Assumptions C62_final_step.
(** Checkpoints are taken at the multiples of save_every_steps and hold the state of that very step. *)
Theorem C62_checkpoints : forall init total available e,
  checkpoints init total available e = map (fun s => (s, s)) (filter (fun s => Nat.eqb (s mod e) 0) (seq (init + 1) (Nat.min available (total - init)))).
Proof. exact checkpoints_spec. Qed.
Print Assumptions C62_checkpoints.
(** Stopping at a checkpoint and resuming from it performs the steps of an uninterrupted run. *)
Theorem C62_resume : forall c total, (c <= total)%nat -> forall big, (total <= big)%nat ->
  loop_steps 0 total big = loop_steps 0 c big ++ loop_steps c total big.
Proof.
  intros c total Hc big Hb. rewrite !loop_steps_spec. rewrite !Nat.min_r by lia. replace (total - 0)%nat with (c + (total - c))%nat by lia.
  rewrite Nat.sub_0_r, seq_app. f_equal. f_equal. lia.
Qed.
Print Assumptions C62_resume.
(** When total_train_steps is not a multiple of save_every_steps the final state is in no checkpoint. *)
Theorem C62_last_state_saved_refuted : exists total e, (0 < e)%nat /\ ~ In total (map fst (checkpoints 0 total total e)).
Proof. exists 5%nat, 2%nat. split; [lia|]. rewrite checkpoints_spec. cbn. lia. Qed.
Print Assumptions C62_last_state_saved_refuted.
Example C62_ex : checkpoints 3 12 100 4 = [(4, 4); (8, 8); (12, 12)]%nat /\ loop_steps 3 12 5 = [4; 5; 6; 7; 8]%nat.
Proof. split; reflexivity. Qed.

(** ** C63 *)
(** The logged rate is the rate of the next update: wrong for schedules that move. *)
Theorem C63_logged_rate_refuted : exists lr frac total s, 0 < lr /\ 0 < frac < 1 /\ (1 <= s <= total)%nat
  /\ logged_lr (lr_updown lr frac total) s <> used_lr (lr_updown lr frac total) s.
Proof.
  exists 8, (1 / 2), 10%nat, 1%nat. split; [lra|]. split; [lra|]. split; [lia|]. unfold logged_lr, used_lr. cbn [Nat.sub].
  destruct (C56_updown 8 (1 / 2) 10 ltac:(lra) ltac:(lra)) as (H1 & _). destruct C56_ex as (W & -> & _). rewrite H1 by (rewrite W; lia). lra.
Qed.
Print Assumptions C63_logged_rate_refuted.
(** The very first update of a warm-up schedule has rate zero and changes nothing, while a positive rate is logged. *)
Theorem C63_first_update_idle : forall lr frac total, 0 < lr -> 0 <= frac <= 1 -> (1 < warmup_steps frac total)%nat ->
  used_lr (lr_updown lr frac total) 1 = 0 /\ 0 < logged_lr (lr_updown lr frac total) 1.
Proof.
  intros lr frac total Hlr Hf Hw. destruct (C56_updown lr frac total ltac:(lra) Hf) as (H1 & H2 & _). unfold used_lr, logged_lr. cbn [Nat.sub].
  split; [apply H1; lia|]. rewrite H2 by lia. apply Rmult_lt_0_compat; auto. apply Rmult_lt_0_compat; [cbn; lra|]. apply Rinv_0_lt_compat, lt_0_INR. lia.
Qed.
Print Assumptions C63_first_update_idle.
Theorem C63_constant_rate : forall lr s, logged_lr (lr_constant lr) s = used_lr (lr_constant lr) s.
Proof. intros. unfold logged_lr, used_lr. rewrite !C56_constant. reflexivity. Qed.
Print Assumptions C63_constant_rate.
Example C63_ex : used_lr (lr_updown 8 (1 / 2) 10) 1 = 0.
Proof. apply C63_first_update_idle; try lra. rewrite (proj1 C56_ex). lia. Qed.

(** ** C64 *)
(** The data mean used to initialise a model is a probability away from 0 and 1, and is the exact pixel mean whenever that is. *)
Theorem C64_clipped : forall pixels, pixels <> [] -> 1 / 100 <= data_mean pixels <= 99 / 100.
Proof. intros pixels _. apply data_mean_range. Qed.
Print Assumptions C64_clipped.
Theorem C64_exact : forall pixels, pixels <> [] -> let m := rsum pixels (fun v => v) / INR (length pixels) / 255 in 1 / 100 <= m <= 99 / 100 -> data_mean pixels = m.
Proof. intros pixels _. apply data_mean_inside. Qed.
Print Assumptions C64_exact.
Example C64_ex : data_mean [255; 0; 255] = 2 / 3 /\ data_mean [0; 0] = 1 / 100.
Proof.
  split; [rewrite C64_exact; [cbn; lra|discriminate|cbn; lra]|]. unfold data_mean, clip. replace (rsum [0; 0] (fun v => v) / INR (length [0; 0]) / 255) with 0 by (cbn; lra).
  rewrite Rmax_right by lra. apply Rmin_left. lra.
Qed.
