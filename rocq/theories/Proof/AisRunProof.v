(** Whole annealing runs: the law of the saved values, their mean, bounds and convergence. *)
From Coq Require Import String Reals List Arith ZArith Lra Lia.
From Verif.Base Require Import RSum Cube Dist.
From Verif.Spec Require Import Chain SamplerRun EvalSpec AisRunSpec.
From Verif.Model Require Import MathUtil FullRun Experiment GraphRun AisRun.
From Verif.Proof Require Import MHKernel AdaptiveRunProof ChainProof LangevinProof LangevinAdapt BernEvalProof CoOptProof FullRunProof FullRunInvar GuardRun PaddingProof ErgodicProof
  ExperimentProof GraphProof AisProduct AisChains AisBias.
Import ListNotations.
Local Open Scope R_scope.

(** ** Pixels *)
Lemma pixels_cons m mean a x : pixels (m :: mean) (a :: x) = (if Nat.eqb a 1 then m else 1 - m) * pixels mean x.
Proof. reflexivity. Qed.
(** The exponential of the base energy, with the constant added to the means and to their complements. *)
Definition shifted (lg : R) (mean : list R) (x : list nat) : R := rprod (combine x mean) (fun p => if Nat.eqb (fst p) 1 then snd p + lg else 1 - snd p + lg).
Lemma shifted_base lg mean : forall x, 0 <= lg -> Forall (fun m => 0 <= m <= 1) mean -> logs_defined lg mean -> Forall (fun v => (v < 2)%nat) x ->
  exp (base_logprob lg mean x) = shifted lg mean x.
Proof.
  induction mean as [|m mean IH]; intros x Hl Hm Hd Hx; [destruct x; unfold base_logprob, shifted; cbn; apply exp_0|].
  destruct x as [|v x]; [unfold base_logprob, shifted; cbn; apply exp_0|].
  inversion Hm as [|? ? M1 M2]; subst. inversion Hx as [|? ? X1 X2]; subst.
  assert (Hd' : logs_defined lg mean) by (destruct Hd as [H|[H1 H2]]; [left; exact H|right; split; [exact H1|inversion H2; assumption]]).
  unfold base_logprob, shifted in *. cbn [combine rsum rprod fst snd]. rewrite exp_plus, IH by assumption. f_equal.
  assert (P : 0 < m + lg /\ 0 < 1 - m + lg) by (destruct Hd as [H|[-> H2]]; [lra|inversion H2; subst; lra]).
  destruct v as [|[|v]]; [| |lia]; cbn [Nat.eqb INR].
  - replace (0 * ln (m + lg) + (1 - 0) * ln (1 + (- m + lg))) with (ln (1 - m + lg)) by (replace (1 + (- m + lg)) with (1 - m + lg) by ring; ring). apply exp_ln. lra.
  - replace (1 * ln (m + lg) + (1 - 1) * ln (1 + (- m + lg))) with (ln (m + lg)) by ring. apply exp_ln. lra.
Qed.

Lemma states_S d (h : list nat -> R) : rsum (states (S d) 2) h = rsum (states d 2) (fun x => h (0%nat :: x)) + rsum (states d 2) (fun x => h (1%nat :: x)).
Proof. unfold states. cbn [lists_over]. rewrite rsum_flat_map. cbn [seq rsum]. rewrite !rsum_map. ring. Qed.

Lemma shifted_total lg mean : rsum (states (length mean) 2) (shifted lg mean) = (1 + 2 * lg) ^ length mean.
Proof.
  induction mean as [|m mean IH]; [cbn; unfold shifted; cbn; ring|]. cbn [length]. rewrite states_S.
  rewrite (rsum_ext _ (fun x => shifted lg (m :: mean) (0%nat :: x)) (fun x => (1 - m + lg) * shifted lg mean x)) by (intros; reflexivity).
  rewrite (rsum_ext _ (fun x => shifted lg (m :: mean) (1%nat :: x)) (fun x => (m + lg) * shifted lg mean x)) by (intros; reflexivity).
  rewrite !rsum_scal, IH. cbn [pow]. ring.
Qed.
Lemma pixels_shifted mean x : pixels mean x = shifted 0 mean x.
Proof. unfold pixels, shifted. apply rprod_ext. intros p _. destruct (Nat.eqb (fst p) 1); ring. Qed.
Lemma shifted_ge lg mean : 0 <= lg -> Forall (fun m => 0 <= m <= 1) mean -> forall x, 0 <= pixels mean x <= shifted lg mean x.
Proof.
  intros Hl. induction mean as [|m mean IH]; intros Hm x; [destruct x; unfold pixels, shifted; cbn; lra|].
  destruct x as [|v x]; [unfold pixels, shifted; cbn; lra|]. inversion Hm as [|? ? M1 M2]; subst. specialize (IH M2 x). unfold pixels, shifted in *. cbn [combine rprod fst snd].
  destruct (Nat.eqb v 1); (split; [apply Rmult_le_pos; lra|apply Rmult_le_compat; lra]).
Qed.
Lemma start_law mean : Forall (fun m => 0 <= m <= 1) mean -> is_prob (init_samples mean) /\ (forall x w, In (x, w) (init_samples mean) -> In x (states (length mean) 2)) /\
  forall h, E (init_samples mean) h = rsum (states (length mean) 2) (fun x => pixels mean x * h x).
Proof.
  intros Hm. split; [|split].
  - apply is_prob_indep. intros dd Hd. apply in_map_iff in Hd. destruct Hd as (m & <- & Hin). rewrite Forall_forall in Hm. apply is_prob_dmap, is_prob_bernoulli. auto.
  - clear Hm. unfold init_samples. induction mean as [|m mean IH]; intros x w Hx.
    + destruct Hx as [Hx|[]]. injection Hx as <- _. left. reflexivity.
    + cbn [map indep] in Hx. apply in_bind in Hx. destruct Hx as (v & a & b & Ha & Hx). apply in_dmap in Hx. destruct Hx as (y & Hy & ->). apply in_dmap in Ha.
      destruct Ha as (bb & _ & ->). specialize (IH _ _ Hy). apply in_states in IH. apply in_states. destruct IH. split; [cbn; lia|]. constructor; [destruct bb; lia|assumption].
  - clear Hm. unfold init_samples. induction mean as [|m mean IH]; intros h; [cbn; unfold pixels; cbn; unfold E; cbn; ring|].
    cbn [map length]. rewrite E_indep_cons, E_dmap, E_bernoulli, !IH, states_S.
    rewrite (rsum_ext _ (fun x => pixels (m :: mean) (0%nat :: x) * h (0%nat :: x)) (fun x => (1 - m) * (pixels mean x * h (0%nat :: x)))) by (intros; rewrite pixels_cons; cbn [Nat.eqb]; ring).
    rewrite (rsum_ext _ (fun x => pixels (m :: mean) (1%nat :: x) * h (1%nat :: x)) (fun x => m * (pixels mean x * h (1%nat :: x)))) by (intros; rewrite pixels_cons; cbn [Nat.eqb]; ring).
    rewrite !rsum_scal. ring.
Qed.

(** ** The temperature path *)
Section Image.
  Variables (lg : R) (net : list nat -> R) (mean : list R) (grad : nat -> list nat -> nat -> R) (d L : nat) (M : R).
  Hypotheses (Hlg : 0 <= lg) (Hm : image_mean d mean) (Hdef : logs_defined lg mean) (Hb : bounded_by d net M) (HL : (0 < L)%nat) (Hd : (0 < d)%nat).
  Let T := ais_target lg net (Some mean) grad d L.
  Let f t := t_fw (T t).
  Lemma f_eq t x : f t x = base_logprob lg mean x + INR t / INR L * net x.
  Proof. unfold f, T, ais_target, ebm_forward. cbn [t_fw]. ring. Qed.
  Lemma L_pos : 0 < INR L. Proof. apply lt_0_INR. exact HL. Qed.
  Lemma M_pos : 0 <= M.
  Proof.
    assert (Hx : In (repeat 0%nat d) (states d 2)). { apply in_states. split; [apply repeat_length|]. apply Forall_forall. intros v Hv. apply repeat_spec in Hv. lia. }
    pose proof (Hb _ Hx). pose proof (Rabs_pos (net (repeat 0%nat d))). lra.
  Qed.
  Lemma f_step t x : In x (states d 2) -> Rabs (f (S t) x - f t x) <= M / INR L.
  Proof.
    intros Hx. rewrite !f_eq, S_INR. pose proof L_pos. match goal with |- Rabs ?a <= _ => replace a with (net x * / INR L) by (field; lra) end.
    rewrite Rabs_mult, (Rabs_pos_eq (/ INR L)) by (left; apply Rinv_0_lt_compat; lra). apply Rmult_le_compat_r; [left; apply Rinv_0_lt_compat; lra|]. apply Hb. exact Hx.
  Qed.
  Lemma f_exp t x : In x (states d 2) -> exp (f t x) = exp (INR t / INR L * net x) * shifted lg mean x.
  Proof.
    intros Hx. rewrite f_eq, exp_plus, Rmult_comm. f_equal. apply in_states in Hx. destruct Hm as [_ Hm']. apply shifted_base; auto. apply Hx.
  Qed.
  Lemma beta_bound n x : In x (states d 2) -> exp (INR n / INR L * net x) <= exp (INR n / INR L * M).
  Proof.
    intros Hx. apply exp_le. apply Rmult_le_compat_l; [apply Rmult_le_pos; [apply pos_INR|left; apply Rinv_0_lt_compat, L_pos]|].
    eapply Rle_trans; [apply Rle_abs|apply Hb; exact Hx].
  Qed.

  (** Sums against the shifted pixels differ little from sums against the pixels. *)
  Lemma shift_sum (h : list nat -> R) C : (forall x, In x (states d 2) -> 0 <= h x <= C) ->
    Rabs (rsum (states d 2) (fun x => shifted lg mean x * h x) - rsum (states d 2) (fun x => pixels mean x * h x)) <= mean_shift lg d * C.
  Proof.
    intros Hh. destruct Hm as [Hlen Hm']. rewrite <- rsum_minus.
    rewrite (rsum_ext _ _ (fun x => (shifted lg mean x - pixels mean x) * h x)) by (intros; ring).
    rewrite Rabs_pos_eq.
    - apply Rle_trans with (rsum (states d 2) (fun x => C * (shifted lg mean x - pixels mean x))).
      + apply rsum_le. intros x Hx. pose proof (shifted_ge lg mean Hlg Hm' x). specialize (Hh x Hx). rewrite Rmult_comm. apply Rmult_le_compat_r; lra.
      + rewrite rsum_scal, rsum_minus, <- Hlen.
        rewrite shifted_total. rewrite (rsum_ext (states (length mean) 2) (pixels mean) (shifted 0 mean)) by (intros; apply pixels_shifted). rewrite shifted_total.
        unfold mean_shift. replace (1 + 2 * 0) with 1 by ring. rewrite pow1. lra.
    - apply rsum_nonneg. intros x Hx. pose proof (shifted_ge lg mean Hlg Hm' x). specialize (Hh x Hx). apply Rmult_le_pos; lra.
  Qed.

  Section Mean.
    Variables (K : nat -> list nat -> dist (list nat)) (eps : R).
    Hypotheses (HK : forall t, proper (states d 2) (K t)) (He : 0 <= eps) (Hi : forall t, invariant_upto eps (states d 2) (fun x => exp (f t x)) (K t)).

    Lemma weight_mean n : Rabs (E (init_samples mean) (gain f K n 0) - partition mean net (INR n / INR L)) <= ais_error lg eps M d n L.
    Proof.
      destruct (start_law mean (proj2 Hm)) as (_ & _ & H0). rewrite H0. clear H0. rewrite (proj1 Hm).
      set (c := M / INR L). assert (Hc0 : 0 <= c) by (apply Rmult_le_pos; [apply M_pos|left; apply Rinv_0_lt_compat, L_pos]).
      assert (Hnc : INR n * c = INR n / INR L * M) by (unfold c, Rdiv; ring).
      pose proof (gain_range (states d 2) f K c HK (fun t x Hx => f_step t x Hx) Hc0 n 0) as Hg.
      pose proof (gain_bias (states d 2) f K c HK (fun t x Hx => f_step t x Hx) Hc0 eps He Hi n 0) as Hbias. cbn [Nat.add] in Hbias.
      assert (S0 : rsum (states d 2) (fun x => exp (f 0 x)) = 1 + mean_shift lg d).
      { rewrite (rsum_ext _ _ (shifted lg mean)); [|intros x Hx; rewrite (f_exp 0 x Hx); cbn [INR]; unfold Rdiv; rewrite !Rmult_0_l, exp_0; ring].
        rewrite <- (proj1 Hm), shifted_total. unfold mean_shift. ring. }
      rewrite S0, Hnc in Hbias. rewrite Hnc in Hg. set (b := exp (INR n / INR L * M)) in *.
      pose proof (shift_sum (gain f K n 0) b Hg) as D1.
      pose proof (shift_sum (fun x => exp (INR n / INR L * net x)) b (fun x Hx => conj (Rlt_le _ _ (exp_pos _)) (beta_bound n x Hx))) as D2.
      rewrite (rsum_ext _ (fun x => exp (f 0 x) * gain f K n 0 x) (fun x => shifted lg mean x * gain f K n 0 x)) in Hbias.
      2: { intros x Hx. rewrite (f_exp 0 x Hx). cbn [INR]. unfold Rdiv. rewrite !Rmult_0_l, exp_0. ring. }
      rewrite (rsum_ext _ (fun x => exp (f n x)) (fun x => shifted lg mean x * exp (INR n / INR L * net x))) in Hbias by (intros x Hx; rewrite (f_exp n x Hx); ring).
      unfold partition. rewrite (proj1 Hm). rewrite (rsum_ext _ (fun x => exp (INR n / INR L * net x) * pixels mean x) (fun x => pixels mean x * exp (INR n / INR L * net x))) by (intros; ring).
      unfold ais_error. fold b.
      match goal with |- Rabs (?a - ?z) <= _ => match type of D1 with Rabs (?a1 - _) <= _ => match type of D2 with Rabs (?z1 - _) <= _ =>
        replace (a - z) with (- (a1 - a) + (a1 - z1) + (z1 - z)) by ring end end end.
      eapply Rle_trans; [apply Rabs_triang|]. eapply Rle_trans; [apply Rplus_le_compat_r, Rabs_triang|]. rewrite Rabs_Ropp. lra.
    Qed.
  End Mean.
End Image.
