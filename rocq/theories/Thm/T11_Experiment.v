(** Property theorems C30 to C36 and C53: graph iterator and experiment loops. *)
From Coq Require Import String Reals List Arith ZArith Lra Lia.
From Verif.Base Require Import RSum Cube Dist.
From Verif.Spec Require Import Chain.
From Verif.Model Require Import Gibbs GraphIter Experiment.
From Verif.Proof Require Import GibbsProof ScanProof GraphIterProof ExperimentProof.
Import ListNotations.
Local Open Scope R_scope.

(** ** C30 *)
(** N is the instance count of the loader; P processes, of which this is r. *)
Theorem C30_batches : forall A N B P r (gs : list A), (0 < B)%nat -> (r < P)%nat -> (B mod P = 0)%nat -> (length gs <= N)%nat ->
  exists out, get_iterator N B P r gs = Some out
    /\ ((N <= length out * B)%nat /\ forall t, (N <= t * B)%nat -> (length out <= t)%nat)
    /\ (forall x, In x out -> length x = (B / P)%nat)
    /\ forall q, (q < length out * (B / P))%nat ->
         nth_error (concat out) q = Some (match nth_error gs (r + P * q) with Some g => Real (r + P * q) g | None => Dummy end).
Proof.
  intros A N B P r gs HB HP HBP HN. destruct (iterator_spec A N B P r gs HB HP HBP HN) as (out & H1 & H2 & H3 & H4).
  exists out. rewrite H2. split; [exact H1|]. split; [exact (total_batches_ceil N B HB)|]. split; [exact H3|exact H4].
Qed.
Print Assumptions C30_batches.

Theorem C30_every_graph_once : forall A N B P (gs : list A) i g, (0 < B)%nat -> (0 < P)%nat -> (B mod P = 0)%nat -> (length gs <= N)%nat ->
  nth_error gs i = Some g ->
  (exists out, get_iterator N B P (i mod P) gs = Some out /\ nth_error (concat out) (i / P) = Some (Real i g))
  /\ (forall r out q g', (r < P)%nat -> get_iterator N B P r gs = Some out -> nth_error (concat out) q = Some (Real i g') ->
        r = (i mod P)%nat /\ q = (i / P)%nat /\ g' = g).
Proof. exact iterator_once. Qed.
Print Assumptions C30_every_graph_once.

(** The instance count may come from the configuration; when it is below the number of graphs, graphs are lost. *)
Theorem C30_configured_count_refuted : exists (gs : list nat) N B out, get_iterator N B 1 0 gs = Some out /\ (0 < N)%nat /\
  exists i g, nth_error gs i = Some g /\ ~ In (Real i g) (concat out).
Proof. exact iterator_drops. Qed.
Print Assumptions C30_configured_count_refuted.
Example C30_ex : get_iterator 5 4 2 1 [10; 11; 12; 13; 14]%nat = Some [[Real 1 11; Real 3 13]; [Dummy; Dummy]]%nat
  /\ get_iterator 5 4 2 0 [10; 11; 12; 13; 14]%nat = Some [[Real 0 10; Real 2 12]; [Real 4 14; Dummy]]%nat.
Proof. split; reflexivity. Qed.

(** ** C31 *)
(** A history: step number, evaluations of the chains of one instance, the chains. *)
Theorem C31_best_is_maximum : forall X (ref : R) (zeros : X) log_every steps, 0 < ref ->
  (forall s evs xs, In (s, (evs, xs)) steps -> evs <> [] /\ length evs = length xs) ->
  forall s evs xs v, In (s, (evs, xs)) steps -> (s mod log_every = 0)%nat -> In v evs ->
  v / ref <= fst (co_run ref zeros log_every steps).
Proof.
  intros X ref zeros log_every steps Href Hwf s evs xs v Hin Hm Hv.
  refine (proj1 (co_run_best X ref zeros Href log_every steps _) (evs, xs) v _ Hv).
  - intros [e x] H. apply in_map_iff in H. destruct H as ([s' p] & E & H). cbn [snd] in E. subst p. apply filter_In in H. exact (Hwf _ _ _ (proj1 H)).
  - apply in_map_iff. exists (s, (evs, xs)). split; [reflexivity|]. apply filter_In. split; [exact Hin|]. apply Nat.eqb_eq. exact Hm.
Qed.
Print Assumptions C31_best_is_maximum.

Theorem C31_best_is_attained : forall X (ref : R) (zeros : X) log_every steps, 0 < ref ->
  (forall s evs xs, In (s, (evs, xs)) steps -> evs <> [] /\ length evs = length xs) ->
  forall s0 evs0 xs0 v0, In (s0, (evs0, xs0)) steps -> (s0 mod log_every = 0)%nat -> In v0 evs0 -> - IZR 1000000000 < v0 / ref ->
  exists s evs xs k v, In (s, (evs, xs)) steps /\ (s mod log_every = 0)%nat /\ nth_error evs k = Some v /\
    fst (co_run ref zeros log_every steps) = v / ref /\ nth_error xs k = Some (snd (co_run ref zeros log_every steps)).
Proof.
  intros X ref zeros log_every steps Href Hwf s evs xs v Hin Hm Hv Hgt.
  destruct (co_run_attained X ref zeros Href log_every steps (evs, xs) v) as ([e x] & k & u & H1 & H2 & H3 & H4).
  - intros [e x] H. apply in_map_iff in H. destruct H as ([s' p] & E & H). cbn [snd] in E. subst p. apply filter_In in H. exact (Hwf _ _ _ (proj1 H)).
  - apply in_map_iff. exists (s, (evs, xs)). split; [reflexivity|]. apply filter_In. split; [exact Hin|]. apply Nat.eqb_eq. exact Hm.
  - exact Hv.
  - exact Hgt.
  - apply in_map_iff in H1. destruct H1 as ([s' p] & E & H1). cbn [snd] in E. subst p. apply filter_In in H1. destruct H1 as [H1 H1'].
    exists s', e, x, k, u. split; [exact H1|]. split; [apply Nat.eqb_eq; exact H1'|]. split; [exact H2|]. split; [exact H4|exact H3].
Qed.
Print Assumptions C31_best_is_attained.

(** The recorded trajectory never decreases and ends in the final best ratio. *)
Theorem C31_trace_monotone : forall X (ref : R) (zeros : X) steps i j bi bj, (i <= j)%nat ->
  nth_error (co_trace ref zeros (co_init zeros) steps) i = Some bi ->
  nth_error (co_trace ref zeros (co_init zeros) steps) j = Some bj -> bi <= bj.
Proof. intros X ref zeros steps. exact (co_trace_monotone X ref zeros steps (co_init zeros)). Qed.
Print Assumptions C31_trace_monotone.
Theorem C31_trace_last : forall X (ref : R) (zeros : X) log_every steps,
  last (co_trace ref zeros (co_init zeros) (co_logged log_every steps)) (- IZR 1000000000) = fst (co_run ref zeros log_every steps).
Proof. intros X ref zeros log_every steps. exact (co_trace_last X ref zeros (co_logged log_every steps) (co_init zeros)). Qed.
Print Assumptions C31_trace_last.
(** Steps that are not logged are not considered: the best visited state may be missed. *)
Theorem C31_unlogged_missed_refuted : exists (ref : R) log_every (steps : list (nat * (list R * list nat))) s evs xs v,
  0 < ref /\ In (s, (evs, xs)) steps /\ In v evs /\ fst (co_run ref 0%nat log_every steps) < v / ref.
Proof.
  exists 1, 2%nat, [(1%nat, ([5], [7%nat])); (2%nat, ([3], [8%nat]))], 1%nat, [5], [7%nat], 5. repeat split; try lra; cbn; auto.
  unfold co_run, co_logged. cbn. unfold co_update. cbn. rewrite Rmax_left; lra.
Qed.
Print Assumptions C31_unlogged_missed_refuted.
Example C31_ex : snd (co_run 2 0%nat 1 [(1%nat, ([1; 4], [10%nat; 11%nat])); (2%nat, ([3; 3], [12%nat; 13%nat]))]) = 11%nat.
Proof.
  unfold co_run, co_logged. cbn. unfold co_update, argmax. cbn. rewrite (Rmax_right 1 4) by lra. rewrite (Rmax_left 3 3) by lra.
  destruct (Rlt_dec 1 4); [|lra]. rewrite Rmax_left by lra. destruct (Rlt_dec (- IZR 1000000000) (4 / 2)); [|lra]. destruct (Rlt_dec (4 / 2) (3 / 2)); [lra|]. reflexivity.
Qed.

(** ** C32 *)
Theorem C32_batches_overwritten_refuted : exists (batches : list (list nat)) i, (exists b, In b batches /\ In i b) /\
  forall saved, save_batches (fun _ => None) batches "results"%string = Some saved -> ~ In i saved.
Proof. exact save_loses. Qed.
Print Assumptions C32_batches_overwritten_refuted.
(** What is on disk afterwards: the last batch, so everything iff there is one batch. *)
Theorem C32_last_batch_saved : forall A (d : dir A) batches b, save_batches d (batches ++ [b]) "results"%string = Some b.
Proof. intros A d batches b. exact (save_last d batches b). Qed.
Print Assumptions C32_last_batch_saved.
Example C32_ex : save_batches (fun _ => None) [[3; 4; 5]%nat] "results"%string = Some [3; 4; 5]%nat.
Proof. reflexivity. Qed.

(** ** C33 *)
Theorem C33_all_steps : forall L ess_ratio, 0 <= ess_ratio <= 1 -> map fst (sampling_steps L ess_ratio) = seq 1 L.
Proof. exact steps_all. Qed.
Print Assumptions C33_all_steps.
(** The chain kept for the ESS estimate consists of the states after step burn+1, ..., L, where burn is the integer part of L * ratio;
    every step number is used once, in order. *)
Theorem C33_kept_samples : forall X Y L ess_ratio (step : nat -> X -> X) (mapped : X -> Y) x0 (orbit : nat -> X) burn, 0 <= ess_ratio <= 1 ->
  orbit 0%nat = x0 -> (forall n, orbit (S n) = step (S n) (orbit n)) ->
  INR burn <= INR L * ess_ratio < INR burn + 1 ->
  sampling_run L ess_ratio step mapped x0 = (orbit L, map (fun s => mapped (orbit s)) (seq (S burn) (L - burn))).
Proof.
  intros X Y L r step mapped x0 orbit burn Hr H0 HS Hb. rewrite sampling_run_spec by exact Hr.
  assert (Ho : forall n, ExperimentProof.orbit step x0 n = orbit n) by (induction n as [|n IH]; cbn [ExperimentProof.orbit]; [auto|rewrite IH; auto]).
  destruct (int_of_spec (INR L * r)) as [Ha Hc]; [apply Rmult_le_pos; [apply pos_INR|tauto]|].
  assert (int_of (INR L * r) = burn) as -> by (assert (H1 : INR (int_of (INR L * r)) < INR (S burn)) by (rewrite S_INR; lra); assert (H2 : INR burn < INR (S (int_of (INR L * r)))) by (rewrite S_INR; lra); apply INR_lt in H1, H2; lia).
  rewrite Ho. f_equal. apply map_ext. intros s. rewrite Ho. reflexivity.
Qed.
Print Assumptions C33_kept_samples.
Theorem C33_saved_count : forall L save_every ess_ratio, 0 <= ess_ratio <= 1 -> (0 < save_every)%nat ->
  length (saved_steps L save_every ess_ratio) = (L / save_every)%nat.
Proof. exact saved_count. Qed.
Print Assumptions C33_saved_count.
(** A ratio above 1 makes the run longer than configured. *)
Theorem C33_ratio_above_one_refuted : exists L ess_ratio, 1 < ess_ratio /\ length (sampling_steps L ess_ratio) <> L.
Proof. exact steps_overrun. Qed.
Print Assumptions C33_ratio_above_one_refuted.
Example C33_ex : sampling_run 5 (/ 2) (fun s (x : nat) => x + s)%nat (fun x => x * 10)%nat 0%nat = (15, [60; 100; 150])%nat.
Proof.
  rewrite (C33_kept_samples nat nat 5 (/ 2) (fun s x => x + s)%nat (fun x => x * 10)%nat 0%nat (fun n => list_sum (seq 1 n)) 2%nat).
  - reflexivity.
  - lra.
  - reflexivity.
  - intros n. rewrite seq_S, list_sum_app. cbn. lia.
  - cbn. lra.
Qed.

(** ** C34 *)
Theorem C34_per_step_refuted : exists ess L ess_ratio, 0 < ess_ratio < 1 /\ 0 < ess /\
  ess_per_step ess L ess_ratio <> ess / INR (length (filter snd (sampling_steps L ess_ratio))).
Proof. exact per_step_wrong. Qed.
Print Assumptions C34_per_step_refuted.
(** Exactly when it is right: L * ratio equals the number of mixing steps. *)
Theorem C34_per_step_condition : forall ess L ess_ratio, 0 <= ess_ratio <= 1 -> 0 < INR L * ess_ratio -> ess <> 0 ->
  (0 < length (filter snd (sampling_steps L ess_ratio)))%nat ->
  (ess_per_step ess L ess_ratio = ess / INR (length (filter snd (sampling_steps L ess_ratio)))
   <-> INR L * ess_ratio = INR (length (filter snd (sampling_steps L ess_ratio)))).
Proof.
  intros ess L r Hr Hp He Hl. rewrite (per_step_iff ess L r Hr Hp He) by (rewrite steps_kept in Hl by exact Hr; lia).
  rewrite steps_kept in * by exact Hr. rewrite minus_INR by lia. reflexivity.
Qed.
Print Assumptions C34_per_step_condition.
Theorem C34_per_step_half : forall ess n, (0 < n)%nat ->
  ess_per_step ess (2 * n) (/ 2) = ess / INR (length (filter snd (sampling_steps (2 * n) (/ 2)))).
Proof. exact per_step_half. Qed.
Print Assumptions C34_per_step_half.
Example C34_ex : ess_per_step 6 4 (/ 2) = 3 /\ length (filter snd (sampling_steps 4 (/ 2))) = 2%nat.
Proof.
  split; [unfold ess_per_step; cbn; lra|]. rewrite steps_kept by lra. destruct (int_of_spec (INR 4 * / 2)) as [Ha Hb]; [cbn; lra|].
  assert (H1 : INR (int_of (INR 4 * / 2)) <= INR 2) by (cbn in *; lra). assert (H2 : INR 1 < INR (int_of (INR 4 * / 2))) by (cbn in *; lra).
  apply INR_le in H1. apply INR_lt in H2. lia.
Qed.

(** ** C35 *)
Theorem C35_constant : forall init step, constant_schedule init step = init.
Proof. intros init step. unfold constant_schedule. ring. Qed.
Print Assumptions C35_constant.
Theorem C35_linear : forall init final L,
  linear_schedule init final L 0 = init
  /\ ((0 < L)%nat -> linear_schedule init final L L = final)
  /\ (forall s, Rmin init final <= linear_schedule init final L s <= Rmax init final)
  /\ (forall s t, (s <= t)%nat -> Rabs (linear_schedule init final L t - final) <= Rabs (linear_schedule init final L s - final))
  /\ (forall s, 0 < init -> 0 < final -> 0 < linear_schedule init final L s).
Proof.
  intros init final L. split; [apply linear_start|]. split; [intros; apply linear_end; auto|]. split; [apply linear_range|]. split; [apply linear_monotone|].
  intros s Hi Hf. eapply Rlt_le_trans; [|apply linear_range]. apply Rmin_glb_lt; assumption.
Qed.
Print Assumptions C35_linear.
Theorem C35_exp_decay : forall init final decay L, 0 < decay < 1 -> 0 < init -> final <= init ->
  exp_schedule init final decay L 0 = init
  /\ (forall s, final <= exp_schedule init final decay L s <= init)
  /\ (forall s t, (s <= t)%nat -> exp_schedule init final decay L t <= exp_schedule init final decay L s)
  /\ (forall s, 0 < final -> 0 < exp_schedule init final decay L s).
Proof.
  intros init final decay L Hd Hi Hf. split; [apply exp_start; auto|]. split; [intros; apply exp_range; auto|]. split; [intros; apply exp_monotone; auto|].
  intros s Hp. eapply Rlt_le_trans; [exact Hp|]. apply exp_range; auto.
Qed.
Print Assumptions C35_exp_decay.
(** For exponential decay with a final temperature above the initial one, the schedule does not start at the initial temperature. *)
Theorem C35_exp_heating_refuted : exists init final decay L, 0 < init /\ 0 < final /\ 0 < decay < 1 /\ (0 < L)%nat /\ exp_schedule init final decay L 0 <> init.
Proof. exact exp_start_wrong. Qed.
Print Assumptions C35_exp_heating_refuted.
Example C35_ex : linear_schedule 5 1 8 6 = 2 /\ exp_schedule 4 (/ 2) (/ 2) 3 3 = 2.
Proof.
  split; [unfold linear_schedule; cbn; lra|]. unfold exp_schedule. cbn [Nat.leb]. destruct (Req_EM_T (/ 2) 0); [lra|]. destruct (Rlt_dec (/ 2) 1); [|lra].
  replace (INR 3 / INR 3) with 1 by (field; apply not_0_INR; lia). rewrite Rpower_1 by lra. rewrite Rmax_left; lra.
Qed.

(** ** C36 *)
(** f t is the energy at step t, K t the kernel used at step t; any finite space, any invariant kernels. *)
Theorem C36_ais_unbiased : forall A (S : list A) (f : nat -> A -> R) (K : nat -> A -> dist A) n,
  (forall k, (0 < k <= n)%nat -> invariant S (fun x => exp (f k x)) (K k)) ->
  E (ais_chain (weighted S (fun x => exp (f 0%nat x) / rsum S (fun y => exp (f 0%nat y)))) f K n) (fun s => exp (snd s))
  = rsum S (fun x => exp (f n x)) / rsum S (fun x => exp (f 0%nat x)).
Proof. exact ais_unbiased. Qed.
Print Assumptions C36_ais_unbiased.

(** Weighted samples estimate every expectation under the target. *)
Theorem C36_ais_weighted_expectation : forall A (S : list A) (f : nat -> A -> R) (K : nat -> A -> dist A) n,
  (forall k, (0 < k <= 0 + n)%nat -> invariant S (fun x => exp (f k x)) (K k)) -> forall g,
  rsum S (fun x => exp (f 0%nat x) * E (ais_run f K n 0 (x, 0)) (fun s => exp (snd s) * g (fst s))) = rsum S (fun x => exp (f (0 + n)%nat x) * g x).
Proof. intros A S f K n. exact (ais_weight A S f K n 0). Qed.
Print Assumptions C36_ais_weighted_expectation.

(** No movement: the log-weight telescopes to the difference of the end energies. *)
Theorem C36_ais_telescopes : forall A (f : nat -> A -> R) n x g, E (ais_run f (fun _ y => ret y) n 0 (x, 0)) g = g (x, f n x - f 0%nat x).
Proof.
  intros A f n x g. destruct (ais_telescopes A f n x 0%nat 0) as [H|(l & <- & H)]; [rewrite H, E_ret|rewrite H]; rewrite Rplus_0_l; reflexivity.
Qed.
Print Assumptions C36_ais_telescopes.

(** The reported log-partition estimate of an image EBM with data mean, started from its initial samples: exp(logz) is unbiased for the
    partition function of network plus base energy. *)
Theorem C36_image_ebm : forall (net : list nat -> R) mean L B (K : nat -> list nat -> dist (list nat)),
  Forall (fun m => 0 < m < 1) mean -> (0 < L)%nat -> (0 < B)%nat ->
  let f t := ebm_forward net (Some (base_logprob 0 mean)) (Some (INR t / INR L)) in
  (forall k, (0 < k <= L)%nat -> invariant (states (length mean) 2) (fun x => exp (f k x)) (K k) /\ proper (states (length mean) 2) (K k)) ->
  E (indep (repeat (ais_chain (init_samples mean) f K L) B)) (fun l => exp (logz (map snd l)))
  = rsum (states (length mean) 2) (fun x => exp (net x + base_logprob 0 mean x)).
Proof. exact ais_image_ebm. Qed.
Print Assumptions C36_image_ebm.

(** The same with the Gibbs sampler of the repository as the kernel: no hypothesis on kernels left. *)
Theorem C36_image_ebm_gibbs : forall (net : list nat -> R) mean L B, mean <> [] ->
  Forall (fun m => 0 < m < 1) mean -> (0 < L)%nat -> (0 < B)%nat ->
  let f t := ebm_forward net (Some (base_logprob 0 mean)) (Some (INR t / INR L)) in
  E (indep (repeat (ais_chain (init_samples mean) f (fun t => gibbs_step (f t) 2 (g_index (Nat.iter (t - 1) (gibbs_update (length mean) 2) g_init))) L) B))
    (fun l => exp (logz (map snd l)))
  = rsum (states (length mean) 2) (fun x => exp (net x + base_logprob 0 mean x)).
Proof.
  intros net mean L B Hne Hm HL HB f. apply (ais_image_ebm net mean L B); auto. intros k Hk.
  assert (Hd : (0 < length mean)%nat) by (destruct mean; [congruence|cbn; lia]).
  assert (Hi : (g_index (Nat.iter (k - 1) (gibbs_update (length mean) 2) g_init) < length mean)%nat) by (rewrite gibbs_iter_state by auto; apply Nat.mod_upper_bound; lia).
  split; [apply gibbs_invariant; exact Hi|]. intros x Hx. split; [apply gibbs_is_prob|]. intros y w Hy. exact (proj1 (gibbs_support (f k) (length mean) 2 _ Hi x y w Hx Hy)).
Qed.
Print Assumptions C36_image_ebm_gibbs.

(** Without a data mean the temperature is ignored and every weight stays 1, whatever the energy. *)
Theorem C36_no_data_mean_refuted : exists (net : nat -> R) (S : list nat) L (K : nat -> nat -> dist nat), (0 < L)%nat /\
  (forall k, invariant S (fun x => exp (ebm_forward net None (Some (INR k / INR L)) x)) (K k)) /\
  (forall x, In x S -> E (ais_run (fun t => ebm_forward net None (Some (INR t / INR L))) K L 0 (x, 0)) (fun s => exp (snd s)) = 1) /\
  rsum S (fun x => exp (net x)) / INR (length S) <> 1.
Proof.
  exists (fun _ => 1), [0%nat; 1%nat], 3%nat, (fun _ x => ret x). split; [lia|]. split; [|split].
  - intros k f. apply rsum_ext. intros x _. rewrite E_ret. reflexivity.
  - intros x _. apply ais_without_mean. intros t y. apply is_prob_ret.
  - cbn. pose proof exp_ineq1 1 ltac:(lra). lra.
Qed.
Print Assumptions C36_no_data_mean_refuted.
Theorem C36_no_data_mean_weights : forall A (net : A -> R) L (K : nat -> A -> dist A), (forall t x, is_prob (K t x)) -> forall x,
  E (ais_run (fun t => ebm_forward net None (Some (INR t / INR L))) K L 0 (x, 0)) (fun s => exp (snd s)) = 1.
Proof. intros A net L K HK x. exact (ais_without_mean net L K HK x). Qed.
Print Assumptions C36_no_data_mean_weights.
Example C36_ex : [/ 4; / 2] <> [] /\ Forall (fun m => 0 < m < 1) [/ 4; / 2].
Proof. split; [discriminate|]. repeat constructor; lra. Qed.

(** ** C53 *)
Theorem C53_binary : forall B x y,
  (forall r, In r x -> forall a, In a r -> a = 0%Z \/ a = 1%Z) -> (forall r, In r y -> forall a, In a r -> a = 0%Z \/ a = 1%Z) ->
  get_hop B 1 x y = INR (list_sum (map (fun rr => length (filter (fun ab => negb (Z.eqb (fst ab) (snd ab))) (combine (fst rr) (snd rr)))) (combine x y))) / INR B.
Proof. exact hop_binary. Qed.
Print Assumptions C53_binary.
Theorem C53_categories_refuted : exists x y,
  get_hop 1 1 x y <> INR (list_sum (map (fun rr => length (filter (fun ab => negb (Z.eqb (fst ab) (snd ab))) (combine (fst rr) (snd rr)))) (combine x y))) / INR 1.
Proof. exact hop_categories_wrong. Qed.
Print Assumptions C53_categories_refuted.
Theorem C53_zero_iff_same : forall B M x, (0 < B)%nat -> (0 < M)%nat -> forall y, Forall2 (fun r s => length r = length s) x y -> (get_hop B M x y = 0 <-> x = y).
Proof. exact hop_zero. Qed.
Print Assumptions C53_zero_iff_same.
Theorem C53_triangle : forall B M x y z, Forall2 (fun r s => length r = length s) x y -> Forall2 (fun r s => length r = length s) y z ->
  get_hop B M x z <= get_hop B M x y + get_hop B M y z.
Proof. exact hop_triangle. Qed.
Print Assumptions C53_triangle.
Example C53_ex : Forall2 (fun r s => length r = length s) [[0; 1]; [1; 1]]%Z [[1; 1]; [0; 0]]%Z /\ get_hop 2 1 [[0; 1]; [1; 1]]%Z [[1; 1]; [0; 0]]%Z = 3 / 2.
Proof.
  split; [repeat constructor|]. rewrite hop_binary; [cbn; lra| |]; intros r [<-|[<-|[]]] a Ha; cbn in Ha; intuition.
Qed.
