(** What an approximately unbiased weight says about the saved logarithm: the mean of the logarithm, the tail above, concentration. *)
From Coq Require Import String Reals List Arith ZArith Lra Lia.
From Verif.Base Require Import RSum Cube Dist.
From Verif.Spec Require Import Chain SamplerRun EvalSpec AisRunSpec.
From Verif.Model Require Import MathUtil BernEval FullRun Experiment GraphRun AisRun.
From Verif.Proof Require Import MHKernel ChainProof LangevinProof CoOptProof FullRunProof FullRunInvar GuardRun PaddingProof ErgodicProof
  ExperimentProof AisProduct AisChains AisBias AisRunProof AisExperiment AisAny.
Import ListNotations.
Local Open Scope R_scope.

Lemma E_scal_right {A} (l : dist A) f c : E l (fun a => f a * c) = E l f * c.
Proof. rewrite Rmult_comm, <- E_scal. apply E_ext. intros; ring. Qed.
Lemma ln_line y c : 0 < c -> y <= exp y / c - 1 + ln c.
Proof.
  intros Hc. pose proof (exp_ineq1_le (y - ln c)) as H. replace (y - ln c) with (y + - ln c) in H by ring.
  rewrite exp_plus, exp_Ropp, exp_ln in H by exact Hc. unfold Rdiv. lra.
Qed.

Section Jensen.
  Context {A : Type} (l : dist A) (Hl : is_prob l).
  Lemma jensen_exp h c : 0 < c -> E l (fun a => exp (h a)) <= c -> E l h <= ln c.
  Proof.
    intros Hc H. apply Rle_trans with (E l (fun a => exp (h a) * / c + (ln c - 1))).
    - apply E_le_in; [exact (proj1 Hl)|]. intros a w _. pose proof (ln_line (h a) c Hc). unfold Rdiv in *. lra.
    - rewrite E_plus, E_scal_right, E_const, (proj2 Hl). apply Rmult_le_compat_r with (r := / c) in H; [|left; apply Rinv_0_lt_compat; exact Hc].
      rewrite Rinv_r in H by lra. lra.
  Qed.
  Lemma markov h a (dec : forall x, {a <= h x} + {~ a <= h x}) : 0 < a -> (forall x, 0 <= h x) -> prob l (fun x => a <= h x) dec <= E l h / a.
  Proof.
    intros Ha Hh. unfold prob. apply Rmult_le_reg_r with a; [exact Ha|]. unfold Rdiv. rewrite Rmult_assoc, Rinv_l, Rmult_1_r by lra.
    rewrite <- E_scal_right. apply E_le_in; [exact (proj1 Hl)|]. intros x w _. destruct (dec x); [lra|]. rewrite Rmult_0_l. apply Hh.
  Qed.
  Lemma chebyshev h m v a (dec : forall x, {a <= Rabs (h x - m)} + {~ a <= Rabs (h x - m)}) : 0 < a -> E l (fun x => (h x - m) ^ 2) <= v ->
    prob l (fun x => a <= Rabs (h x - m)) dec <= v / a ^ 2.
  Proof.
    intros Ha Hv. unfold prob. assert (Ha2 : 0 < a ^ 2) by (apply pow_lt; exact Ha). apply Rmult_le_reg_r with (a ^ 2); [exact Ha2|]. unfold Rdiv. rewrite Rmult_assoc, Rinv_l, Rmult_1_r by lra.
    rewrite <- E_scal_right. eapply Rle_trans; [|exact Hv]. apply E_le_in; [exact (proj1 Hl)|]. intros x w _. destruct (dec x) as [H|].
    - rewrite Rmult_1_l, <- (pow2_abs (h x - m)). apply pow_incr. lra.
    - rewrite Rmult_0_l. apply pow2_ge_0.
  Qed.
End Jensen.

Section Experiment.
  Variables (g dg lg : R) (net : list nat -> R) (mean : list R) (grad : nat -> list nat -> nat -> R) (d L B : nat) (k : sampler) (M : R) (devices : option nat).
  Let T := ais_target lg net (Some mean) grad d L.
  Hypotheses (Hg : 0 <= g) (Hdg : 0 <= dg) (Hlg : 0 <= lg) (Hm : image_mean d mean) (Hdef : logs_defined lg mean) (Hb : bounded_by d net M) (HL : (0 < L)%nat) (Hd : (0 < d)%nat).
  Hypotheses (Hu : usable (T 0) k) (Hf : fixed_rule (T 0) k) (HB : (0 < B)%nat) (Hsh : shared devices B).
  Let run := ais_experiment g dg lg net (Some mean) grad d k devices B L.
  Let err n := ais_error lg (log_error (T 0) k dg + 2 * g) M d (S n) L.
  Let Zp n := partition mean net (INR (S n) / INR L).

  Lemma run_prob : is_prob run.
  Proof. exact (proj1 (any_experiment g dg lg net (Some mean) grad d L B k M devices Hm Hb HL Hd HB Hu Hsh)). Qed.
  Lemma partition_pos beta : 0 < partition mean net beta.
  Proof.
    unfold partition. destruct Hm as [Hlen Hmm]. destruct (start_law mean Hmm) as (P1 & P2 & P3).
    assert (H1 : rsum (states (length mean) 2) (fun x => 1 * pixels mean x) = 1).
    { rewrite (rsum_ext _ _ (fun x => pixels mean x * 1)) by (intros; ring). rewrite <- (P3 (fun _ => 1)), E_const, (proj2 P1). ring. }
    pose proof (exp_pos (- (Rabs beta * M))) as He. apply Rlt_le_trans with (exp (- (Rabs beta * M)) * 1); [lra|]. rewrite <- H1, <- rsum_scal. apply rsum_le. intros x Hx.
    rewrite Rmult_1_l. apply Rmult_le_compat_r.
    - unfold pixels. apply rprod_nonneg. intros [b m] Hp. cbn [fst snd]. apply in_combine_r in Hp. rewrite Forall_forall in Hmm. specialize (Hmm m Hp). destruct (Nat.eqb b 1); lra.
    - apply exp_le. rewrite Hlen in Hx. specialize (Hb x Hx). pose proof (Rle_abs (- (beta * net x))) as H2. rewrite Rabs_Ropp, Rabs_mult in H2.
      pose proof (Rmult_le_compat_l (Rabs beta) _ _ (Rabs_pos beta) Hb). lra.
  Qed.
  Lemma mean_upper n : (n < L)%nat -> E run (fun zs => exp (nth n zs 0)) <= Zp n + err n.
  Proof.
    intros Hn. pose proof (experiment_mean g dg lg net mean grad d L k M Hg Hdg Hlg Hm Hdef Hb HL Hd Hu Hf devices B n Hsh HB Hn) as H.
    fold run in H. unfold Zp, err. unfold Rabs in H. destruct (Rcase_abs _) in H; unfold T in *; lra.
  Qed.
  Theorem log_below n : (n < L)%nat -> E run (fun zs => nth n zs 0) <= ln (Zp n + err n).
  Proof.
    intros Hn. pose proof (mean_upper n Hn) as H. apply (jensen_exp run run_prob (fun zs => nth n zs 0)); [|exact H].
    eapply Rlt_le_trans; [|exact H]. pose proof run_prob as [P1 P2].
    destruct (any_experiment g dg lg net (Some mean) grad d L B k M devices Hm Hb HL Hd HB Hu Hsh) as [_ P3].
    apply Rlt_le_trans with (E run (fun _ => exp (- (INR (S n) / INR L * M)))).
    - rewrite E_const, P2, Rmult_1_r || rewrite E_const, P2, Rmult_1_l. apply exp_pos.
    - apply E_le_in; [exact P1|]. intros zs w Hz. apply exp_le. destruct (P3 zs w Hz) as [_ P4]. specialize (P4 n Hn). unfold Rabs in P4. destruct (Rcase_abs _) in P4; lra.
  Qed.
  Theorem log_tail n a (dec : forall zs, {ln a <= nth n zs 0} + {~ ln a <= nth n zs 0}) : (n < L)%nat -> 0 < a ->
    prob run (fun zs => ln a <= nth n zs 0) dec <= (Zp n + err n) / a.
  Proof.
    intros Hn Ha. set (dec' := fun zs => Rle_dec a (exp (nth n zs 0))).
    assert (Hp : prob run (fun zs => ln a <= nth n zs 0) dec = prob run (fun zs => a <= exp (nth n zs 0)) dec').
    { unfold prob. apply E_ext_in. intros zs w _. destruct (dec zs) as [H|H], (dec' zs) as [H'|H']; try reflexivity; exfalso.
      - apply H'. rewrite <- (exp_ln a Ha). apply exp_le. exact H.
      - apply H. apply Rnot_lt_le. intros N. apply exp_increasing in N. rewrite (exp_ln a Ha) in N. lra. }
    rewrite Hp. eapply Rle_trans; [apply (markov run run_prob (fun zs => exp (nth n zs 0)) a dec' Ha); intros; left; apply exp_pos|].
    unfold Rdiv. apply Rmult_le_compat_r; [left; apply Rinv_0_lt_compat; exact Ha|apply mean_upper; exact Hn].
  Qed.
  Theorem weight_concentrates n delta (dec : forall zs, {delta + err n <= Rabs (exp (nth n zs 0) - Zp n)} + {~ delta + err n <= Rabs (exp (nth n zs 0) - Zp n)}) : (n < L)%nat -> 0 < delta ->
    prob run (fun zs => delta + err n <= Rabs (exp (nth n zs 0) - Zp n)) dec <= exp (2 * (INR (S n) / INR L * M)) / INR B / delta ^ 2.
  Proof.
    intros Hn Hdl. set (m := E (chain_law g dg lg net mean grad d L k) (fun r => exp (nth n r 0))).
    assert (Hmd : Rabs (m - Zp n) <= err n) by (exact (chain_mean g dg lg net mean grad d L k M Hg Hdg Hlg Hm Hdef Hb HL Hd Hu Hf n Hn)).
    pose proof (experiment_spread g dg lg net mean grad d L k M Hm Hb HL Hd Hu Hf devices B n Hsh HB Hn) as Hs. fold run m in Hs.
    set (dec' := fun zs => Rle_dec delta (Rabs (exp (nth n zs 0) - m))).
    eapply Rle_trans; [|apply (chebyshev run run_prob (fun zs => exp (nth n zs 0)) m _ delta dec' Hdl Hs)].
    unfold prob. apply E_le_in; [exact (proj1 run_prob)|]. intros zs w _. destruct (dec zs) as [H|_], (dec' zs) as [H'|H']; try lra. exfalso. apply H'.
    replace (exp (nth n zs 0) - Zp n) with ((exp (nth n zs 0) - m) + (m - Zp n)) in H by ring. pose proof (Rabs_triang (exp (nth n zs 0) - m) (m - Zp n)). lra.
  Qed.
End Experiment.

Lemma no_error net mean grad d L k M n : ais_error 0 (log_error (ais_target 0 net (Some mean) grad d L 0) k 0 + 2 * 0) M d n L = 0.
Proof.
  unfold ais_error, mean_shift. assert (H : forall m, (1 + 2 * 0) ^ m = 1) by (intros m; rewrite Rmult_0_r, Rplus_0_r; apply pow1). rewrite H.
  assert (H2 : log_error (ais_target 0 net (Some mean) grad d L 0) k 0 = 0) by (unfold log_error; rewrite H; destruct k; try reflexivity; destruct (Nat.eqb _ _); ring).
  rewrite H2. ring.
Qed.

Theorem chain_structure g dg lg net mean grad d L k M : image_mean d mean -> bounded_by d net M -> (0 < L)%nat -> (0 < d)%nat ->
  usable (ais_target lg net (Some mean) grad d L 0) k -> fixed_rule (ais_target lg net (Some mean) grad d L 0) k ->
  exists law : dist (list R), is_prob law /\ (forall r w, In (r, w) law -> length r = L /\ forall n, (n < L)%nat -> Rabs (nth n r 0) <= INR (S n) / INR L * M) /\
    forall devices B F, (0 < B)%nat -> shared devices B ->
      E (ais_experiment g dg lg net (Some mean) grad d k devices B L) F = E (indep (repeat law B)) (fun rows => F (per_step L rows)).
Proof.
  intros Hm Hb HL Hd Hu Hf. exists (chain_law g dg lg net mean grad d L k). split; [apply (chain_prob g dg lg net mean grad d L k); assumption|]. split.
  - intros r w Hr. apply (chain_range g dg lg net mean grad d L k M) with (w := w); assumption.
  - intros devices B F HB Hs. rewrite (experiment_chains g dg lg net mean grad d L k) by assumption. apply E_ext_in. intros rows w Hin. rewrite columns_per_step; [reflexivity|].
    pose proof (AdaptiveRunProof.in_indep _ _ _ Hin) as Hlen. rewrite repeat_length in Hlen. destruct rows; [cbn in Hlen; lia|discriminate].
Qed.
