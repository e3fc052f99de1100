(** C93: the effective sample size and the efficiencies derived from it. *)
From Coq Require Import Reals List Lra Lia Arith ZArith.
From Verif.Base Require Import RSum.
From Verif.Model Require Import Experiment EssEval.
From Verif.Proof Require Import ExperimentProof EssEvalProof.
Import ListNotations.
Local Open Scope R_scope.

(** ** One chain *)
(** More than one half and at most the number of samples, whatever the series. *)
Theorem C93_range : forall c, c <> [] -> / 2 < ess_chain c <= INR (length c).
Proof. exact ess_range. Qed.
Print Assumptions C93_range.

(** Unit, offset and sign of the mapped values do not matter, nor does the direction of time. *)
Theorem C93_affine : forall a b c, a <> 0 -> ess_chain (map (fun v => a * v + b) c) = ess_chain c.
Proof. exact ess_affine. Qed.
Print Assumptions C93_affine.
Theorem C93_reverse : forall c, ess_chain (rev c) = ess_chain c.
Proof. exact ess_reverse. Qed.
Print Assumptions C93_reverse.

(** A chain that never moves counts as one sample. *)
Theorem C93_frozen : forall c, c <> [] -> (forall v w, In v c -> In w c -> v = w) -> ess_chain c = 1.
Proof. exact ess_frozen. Qed.
Print Assumptions C93_frozen.

(** No credit for negative correlation: the sum is cut before lag one. *)
Theorem C93_negative : forall c, (2 <= length c)%nat -> auto_cov c 1 < 0 -> ess_chain c = INR (length c).
Proof. intros c Hl H. exact (ess_negative c H Hl). Qed.
Print Assumptions C93_negative.

(** The cut always happens: in every series that moves some lag is negative, and all lags together would make the denominator 0. *)
Theorem C93_cut : forall c v w, In v c -> In w c -> v <> w ->
  (exists k, (0 < k < length c)%nat /\ auto_cov c k < 0) /\
  -1 + 2 * rsum (seq 0 (length c)) (fun k => INR (length c - k) / INR (length c) * auto_corr c k) = 0.
Proof.
  intros c v w Hv Hw Hne. assert (Hc : c <> []) by (intros ->; contradiction).
  assert (H : auto_cov c 0 <> 0) by (intros F; apply Hne; exact (proj1 (all_equal_cov c Hc) F v w Hv Hw)).
  split; [exact (negative_lag c H)|]. rewrite (all_lags c H). lra.
Qed.
Print Assumptions C93_cut.

Example C93_chain_ex : [1; 0; 1] <> [] /\ (2 <= length [1; 0; 1])%nat /\ auto_cov [1; 0; 1] 1 < 0 /\ ess_chain [1; 0; 1] = 3 /\ In 1 [1; 0; 1] /\ In 0 [1; 0; 1].
Proof.
  split; [discriminate|]. split; [cbn; lia|]. split; [unfold auto_cov, dev, chain_mean; cbn; lra|]. split; [exact ess_101|]. cbn; tauto.
Qed.

(** ** The mapped samples *)
(** Distance zero exactly at the reference, and never more change than the chain moved. *)
Theorem C93_mapped : forall x0 x y, length x = length x0 -> length y = length x0 ->
  (mapped_sample x0 x = 0 <-> x = x0) /\ Rabs (mapped_sample x0 x - mapped_sample x0 y) <= get_hop 1 1 [x] [y].
Proof. intros x0 x y Hx Hy. split; [exact (mapped_zero x0 x Hx)|exact (mapped_lipschitz x0 x y Hx Hy)]. Qed.
Print Assumptions C93_mapped.

(** The converse fails: a chain that moves at every step can look frozen and be reported as one sample. *)
Theorem C93_moving_refuted : exists x0 chain, (forall i, (i < 3)%nat -> nth i chain [] <> nth (S i) chain []) /\ length chain = 4%nat /\
  (forall x, In x chain -> length x = length x0) /\ ess_chain (map (mapped_sample x0) chain) = 1.
Proof.
  exists [0; 0]%Z, [[0; 1]; [1; 0]; [0; 1]; [1; 0]]%Z. split; [intros [|[|[|i]]] Hi; try lia; discriminate|]. split; [reflexivity|].
  split; [intros x [<-|[<-|[<-|[<-|[]]]]]; reflexivity|]. apply ess_frozen; [discriminate|].
  assert (H : forall v, In v (map (mapped_sample [0; 0]%Z) [[0; 1]; [1; 0]; [0; 1]; [1; 0]]%Z) -> v = 1).
  { intros v [<-|[<-|[<-|[<-|[]]]]]; unfold mapped_sample; cbn; rewrite ?Rminus_0_r, ?Rabs_R0, ?Rabs_R1; ring. }
  intros v w Hv Hw. rewrite (H v Hv), (H w Hw). reflexivity.
Qed.
Print Assumptions C93_moving_refuted.

(** ** The report of a run *)
(** Mean and spread over the chains, for any transition and initial batch: between one half and the number of mixing steps. *)
Theorem C93_report : forall L r B x0 step init time calls, (0 < B)%nat -> 0 <= r <= 1 -> (0 < length (filter snd (sampling_steps L r)))%nat ->
  let '(e, _, _, _) := ess_report L r B x0 step init time calls in
  / 2 <= fst e <= INR (length (filter snd (sampling_steps L r))) /\ 0 <= snd e <= INR (length (filter snd (sampling_steps L r))) - / 2.
Proof.
  intros L r B x0 step init time calls HB Hr Hl. unfold ess_report. cbv zeta. rewrite <- (run_rows_length L r x0 step init Hr) in *. apply get_ess_range; [exact HB|].
  intros E. rewrite E in Hl. cbn in Hl. lia.
Qed.
Print Assumptions C93_report.

(** Chains that move separately (each with its own randomness) are estimated separately: mean and standard deviation over the
    chains of what each chain gives alone. *)
Theorem C93_chains : forall L r x0 k init time calls, 0 <= r <= 1 -> (0 < length init)%nat ->
  let step := fun n xs => map (fun p => k n (fst p) (snd p)) (combine (seq 0 (length xs)) xs) in
  let alone := fun j => ess_chain (snd (sampling_run L r (fun n => k n j) (mapped_sample x0) (nth j init []))) in
  let '(e, _, _, _) := ess_report L r (length init) x0 step init time calls in
  fst e * INR (length init) = rsum (seq 0 (length init)) alone /\
  0 <= snd e /\ (snd e) ^ 2 * INR (length init) = rsum (seq 0 (length init)) (fun j => (alone j - fst e) ^ 2).
Proof.
  intros L r x0 k init time calls Hr Hl step alone. unfold ess_report, get_ess. cbv zeta. pose proof (batch_estimates L r x0 k init Hr) as HE.
  change (ess_of_chains (length init) (snd (sampling_run L r step (map_batch x0) init)) = map alone (seq 0 (length init))) in HE. rewrite !HE. clear HE.
  assert (HN : 0 < INR (length init)) by (apply lt_0_INR; exact Hl).
  assert (Hm : ess_mean (map alone (seq 0 (length init))) * INR (length init) = rsum (seq 0 (length init)) alone).
  { unfold ess_mean. rewrite map_length, seq_length, rsum_map. unfold Rdiv. rewrite Rmult_assoc, Rinv_l, Rmult_1_r by lra. reflexivity. }
  cbn [fst snd]. split; [exact Hm|]. unfold ess_std. set (m := ess_mean _). rewrite map_length, seq_length, rsum_map. split; [apply sqrt_pos|].
  assert (P : 0 <= rsum (seq 0 (length init)) (fun a => (alone a - m) ^ 2) / INR (length init)).
  { apply Rmult_le_pos; [apply rsum_nonneg; intros; apply pow2_ge_0|apply Rlt_le, Rinv_0_lt_compat, HN]. }
  rewrite (pow2_sqrt _ P). unfold Rdiv. rewrite (Rmult_assoc (rsum _ _) (/ _) (INR _)), Rinv_l, Rmult_1_r by lra. reflexivity.
Qed.
Print Assumptions C93_chains.
Example C93_chains_case : let k := fun n j (x : list Z) => if Nat.eqb j 0 then x else map (fun v => (1 - v)%Z) x in
  map (fun p => k 1%nat (fst p) (snd p)) (combine (seq 0 2) [[0; 1]; [1; 1]]%Z) = [[0; 1]; [0; 0]]%Z.
Proof. reflexivity. Qed.

(** All chains frozen during mixing: mean one, spread zero. *)
Theorem C93_report_frozen : forall L r B x0 step init time calls, (0 < B)%nat -> 0 <= r <= 1 -> (0 < length (filter snd (sampling_steps L r)))%nat ->
  (forall n x, (int_of (INR L * r) < n)%nat -> step n x = x) ->
  let '(e, _, _, _) := ess_report L r B x0 step init time calls in e = (1, 0).
Proof. intros L r B x0 step init time calls HB Hr Hl Hs. unfold ess_report. cbv zeta. apply frozen_report; auto. Qed.
Print Assumptions C93_report_frozen.

(** With half of the steps for burn-in the efficiency per step is at most one, and the efficiency per likelihood call is the one
    per step divided by the calls of a step. *)
Theorem C93_efficiency : forall n B x0 step init time a, (0 < n)%nat -> (0 < B)%nat -> (0 < a)%nat ->
  let '(e, per_step, _, per_call) := ess_report (2 * n) (/ 2) B x0 step init time (a * (2 * n)) in
  fst per_step = fst e / INR n /\ 0 < fst per_step <= 1 /\ fst per_call = fst per_step / INR a /\ snd per_call = snd per_step / INR a.
Proof.
  intros n B x0 step init time a Hn HB Ha. unfold ess_report. cbv zeta.
  set (rows := snd (sampling_run (2 * n) (/ 2) step (map_batch x0) init)).
  assert (Hlen : length rows = n) by (unfold rows; rewrite run_rows_length by lra; apply kept_half).
  assert (Hr : rows <> []) by (intros E; rewrite E in Hlen; cbn in Hlen; lia). destruct (get_ess_range B rows HB Hr) as [H1 _]. rewrite Hlen in H1.
  assert (HN : 0 < INR n) by (apply lt_0_INR; exact Hn). cbn [fst snd].
  assert (Hh : 0 < INR (2 * n) * / 2) by (rewrite mult_INR; cbn [INR]; lra).
  assert (E1 : ess_per_step (fst (get_ess B rows)) (2 * n) (/ 2) = fst (get_ess B rows) / INR n).
  { unfold ess_per_step. rewrite mult_INR. cbn [INR]. field. lra. }
  split; [exact E1|]. split; [rewrite E1; split|split; apply per_call_step; auto].
  - apply Rmult_lt_0_compat; [lra|apply Rinv_0_lt_compat, HN].
  - apply Rmult_le_reg_r with (INR n); [exact HN|]. unfold Rdiv. rewrite Rmult_assoc, Rinv_l by lra. lra.
Qed.
Print Assumptions C93_efficiency.

(** With another ratio it can exceed one effective sample per step. *)
Theorem C93_efficiency_refuted : exists L r B x0 step init, 0 < r < 1 /\ (0 < B)%nat /\ (0 < length (filter snd (sampling_steps L r)))%nat /\ forall time calls,
  let '(e, per_step, _, _) := ess_report L r B x0 step init time calls in 1 < fst per_step.
Proof.
  exists 4%nat, (/ 4), 1%nat, [0%Z], flip_step, [[1%Z]]. split; [lra|]. split; [lia|]. split; [rewrite steps_kept by lra; rewrite quarter; lia|].
  intros time calls. unfold ess_report. cbv zeta. rewrite flip_rows. cbn [fst snd].
  assert (E : fst (get_ess 1 [[1]; [0]; [1]]) = 3).
  { unfold get_ess, ess_of_chains, series, ess_mean. cbn [fst seq map nth length rsum INR]. rewrite ess_101. field. }
  rewrite E. unfold ess_per_step. cbn. lra.
Qed.
Print Assumptions C93_efficiency_refuted.

(** Two chains, eight steps, half of them burn-in, a transition that stops moving after the burn-in. *)
Example C93_ex : (0 < 2)%nat /\ 0 <= / 2 <= 1 /\ (0 < length (filter snd (sampling_steps (2 * 4) (/ 2))))%nat /\
  let step := fun n (xs : list (list Z)) => if (n <=? 4)%nat then flip_step n xs else xs in
  (forall n x, (int_of (INR (2 * 4) * / 2) < n)%nat -> step n x = x) /\ step 1%nat [[0; 1]; [1; 1]]%Z <> [[0; 1]; [1; 1]]%Z.
Proof.
  split; [lia|]. split; [lra|]. rewrite kept_half. split; [lia|]. cbv zeta. split; [|cbn; discriminate]. intros n x Hn.
  assert (H : int_of (INR (2 * 4) * / 2) = 4%nat).
  { assert (E : INR (2 * 4) * / 2 = INR 4) by (cbn; lra). rewrite E. destruct (int_of_spec (INR 4) (pos_INR 4)) as [Ha Hb]. apply INR_le in Ha. rewrite <- S_INR in Hb. apply INR_lt in Hb. lia. }
  rewrite H in Hn. destruct (Nat.leb_spec n 4); [lia|reflexivity].
Qed.
