(** Facts about the effective sample size. *)
From Coq Require Import Reals List Arith ZArith Lra Lia.
From Verif.Base Require Import RSum.
From Verif.Model Require Import Experiment EssEval.
From Verif.Proof Require Import ExperimentProof.
Import ListNotations.
Local Open Scope R_scope.

(** Sums of lagged products. *)
Definition lagsum (c : list R) (k : nat) : R := rsum (seq 0 (length c - k)) (fun i => dev c i * dev c (i + k)).

Lemma sum_dev c : c <> [] -> rsum (seq 0 (length c)) (dev c) = 0.
Proof.
  intros Hc. unfold dev. rewrite rsum_minus, rsum_const, seq_length. pose proof (rsum_nth c 0 (fun v => v)) as H. cbn in H. rewrite <- H. unfold chain_mean.
  assert (0 < INR (length c)) by (destruct c; [contradiction|]; cbn [length]; rewrite S_INR; pose proof (pos_INR (length c)); lra). field. lra.
Qed.

Lemma lagsum_0 c : lagsum c 0 = rsum (seq 0 (length c)) (fun i => dev c i ^ 2).
Proof. unfold lagsum. rewrite Nat.sub_0_r. apply rsum_ext. intros i _. rewrite Nat.add_0_r. ring. Qed.

Lemma lagsum_0_nonneg c : 0 <= lagsum c 0.
Proof. rewrite lagsum_0. apply rsum_nonneg. intros i _. apply pow2_ge_0. Qed.

Lemma rsum_seq_split n k (f : nat -> R) : (k <= n)%nat -> rsum (seq 0 n) f = rsum (seq 0 k) f + rsum (seq 0 (n - k)) (fun i => f (i + k)%nat).
Proof.
  intros H. replace n with (k + (n - k))%nat at 1 by lia. rewrite seq_app, rsum_app. f_equal. cbn [plus].
  rewrite <- (Nat.add_0_r k) at 1. clear H. generalize (n - k)%nat as m. intros m.
  replace (seq (k + 0) m) with (map (fun i => i + k)%nat (seq 0 m)); [rewrite rsum_map; reflexivity|].
  clear. generalize 0%nat as s. induction m as [|m IH]; intros s; [reflexivity|]. cbn [seq map]. rewrite IH. f_equal; [lia|f_equal; lia].
Qed.

Lemma lagsum_le c k : lagsum c k <= lagsum c 0.
Proof.
  destruct (le_lt_dec (length c) k) as [H|H].
  - unfold lagsum at 1. replace (length c - k)%nat with 0%nat by lia. cbn. apply lagsum_0_nonneg.
  - assert (H1 : rsum (seq 0 (length c - k)) (fun i => dev c i ^ 2) <= lagsum c 0).
    { rewrite lagsum_0. rewrite (rsum_seq_split (length c) (length c - k)) by lia.
      assert (0 <= rsum (seq 0 (length c - (length c - k))) (fun i => dev c (i + (length c - k)) ^ 2)) by (apply rsum_nonneg; intros; apply pow2_ge_0). lra. }
    assert (H2 : rsum (seq 0 (length c - k)) (fun i => dev c (i + k) ^ 2) <= lagsum c 0).
    { rewrite lagsum_0. rewrite (rsum_seq_split (length c) k) by lia.
      assert (0 <= rsum (seq 0 k) (fun i => dev c i ^ 2)) by (apply rsum_nonneg; intros; apply pow2_ge_0). lra. }
    assert (H3 : 2 * lagsum c k <= rsum (seq 0 (length c - k)) (fun i => dev c i ^ 2) + rsum (seq 0 (length c - k)) (fun i => dev c (i + k) ^ 2)).
    { unfold lagsum. rewrite <- rsum_scal, <- rsum_plus. apply rsum_le. intros i _. pose proof (pow2_ge_0 (dev c i - dev c (i + k))) as Hq.
      replace ((dev c i - dev c (i + k)) ^ 2) with (dev c i ^ 2 + dev c (i + k) ^ 2 - 2 * (dev c i * dev c (i + k))) in Hq by ring. lra. }
    lra.
Qed.

(** The weighted auto-correlation of a lag is the ratio of the lagged sums. *)
Lemma weighted_corr c k : (k < length c)%nat -> auto_cov c 0 <> 0 ->
  INR (length c - k) / INR (length c) * auto_corr c k = lagsum c k / lagsum c 0.
Proof.
  intros Hk H0. unfold auto_corr, auto_cov in *. rewrite Nat.sub_0_r in *. fold (lagsum c k) in *.
  assert (E : rsum (seq 0 (length c)) (fun i => dev c i * dev c (i + 0)) = lagsum c 0) by (unfold lagsum; rewrite Nat.sub_0_r; reflexivity).
  rewrite E in *. assert (Ha : INR (length c) <> 0) by (apply not_0_INR; lia). assert (Hb : INR (length c - k) <> 0) by (apply not_0_INR; lia).
  assert (Hc : lagsum c 0 <> 0) by (intros F; apply H0; rewrite F; field; exact Ha). field. auto.
Qed.

Lemma cov0_pos c : auto_cov c 0 <> 0 -> 0 < lagsum c 0 /\ (1 <= length c)%nat.
Proof.
  intros H. destruct c as [|a c]; [exfalso; apply H; unfold auto_cov; cbn; unfold Rdiv; ring|].
  split; [|cbn; lia]. pose proof (lagsum_0_nonneg (a :: c)) as Hn. destruct Hn as [Hn|Hn]; [exact Hn|]. exfalso. apply H. unfold auto_cov. fold (lagsum (a :: c) 0).
  rewrite <- Hn. unfold Rdiv. ring.
Qed.

Lemma until_negative_in r ks k : In k (until_negative r ks) -> In k ks /\ 0 <= r k.
Proof.
  induction ks as [|k' ks IH]; [intros []|]. cbn [until_negative]. destruct (Rlt_dec (r k') 0) as [H|H]; [intros []|].
  intros [->|Hin]; [split; [left; auto|lra]|]. destruct (IH Hin). split; [right; auto|auto].
Qed.

Lemma until_negative_length r ks : (length (until_negative r ks) <= length ks)%nat.
Proof. induction ks as [|k ks IH]; [cbn; lia|]. cbn [until_negative]. destruct (Rlt_dec (r k) 0); cbn [length]; lia. Qed.

Lemma auto_corr_0 c : auto_cov c 0 <> 0 -> auto_corr c 0 = 1.
Proof. intros H. unfold auto_corr. field. exact H. Qed.

Lemma kept_head c : auto_cov c 0 <> 0 -> exists ks, kept_lags c = 0%nat :: ks /\ (length ks <= length c - 1)%nat /\ forall k, In k ks -> (0 < k < length c)%nat /\ 0 <= auto_corr c k.
Proof.
  intros H. destruct (cov0_pos c H) as [_ Hl]. unfold kept_lags. destruct (length c) as [|n] eqn:El; [lia|]. cbn [seq until_negative].
  rewrite auto_corr_0 by exact H. destruct (Rlt_dec 1 0) as [F|_]; [lra|]. eexists. split; [reflexivity|]. split.
  - pose proof (until_negative_length (auto_corr c) (seq 1 n)) as Hu. rewrite seq_length in Hu. lia.
  - intros k Hk. apply until_negative_in in Hk. destruct Hk as [Hk Hr]. apply in_seq in Hk. split; [lia|exact Hr].
Qed.

(** The denominator lies between 1 and 2N - 1. *)
Lemma denominator c : auto_cov c 0 <> 0 ->
  1 <= -1 + 2 * rsum (kept_lags c) (fun k => INR (length c - k) / INR (length c) * auto_corr c k) <= 2 * INR (length c) - 1.
Proof.
  intros H. destruct (cov0_pos c H) as [Hp Hl]. destruct (kept_head c H) as (ks & -> & Hks & Hin). cbn [rsum].
  assert (H0 : INR (length c - 0) / INR (length c) * auto_corr c 0 = 1).
  { rewrite weighted_corr by (auto; lia). field. lra. }
  rewrite H0.
  assert (Hb : forall k, In k ks -> 0 <= INR (length c - k) / INR (length c) * auto_corr c k <= 1).
  { intros k Hk. destruct (Hin k Hk) as [Hr Hc]. split.
    - apply Rmult_le_pos; [|exact Hc]. apply Rmult_le_pos; [apply pos_INR|]. apply Rlt_le, Rinv_0_lt_compat, lt_0_INR. lia.
    - rewrite weighted_corr by (auto; lia). apply Rmult_le_reg_r with (lagsum c 0); [exact Hp|]. unfold Rdiv. rewrite Rmult_assoc, Rinv_l by lra.
      rewrite Rmult_1_r, Rmult_1_l. apply lagsum_le. }
  assert (H1 : 0 <= rsum ks (fun k => INR (length c - k) / INR (length c) * auto_corr c k)) by (apply rsum_nonneg; intros k Hk; apply Hb, Hk).
  assert (H2 : rsum ks (fun k => INR (length c - k) / INR (length c) * auto_corr c k) <= INR (length c) - 1).
  { apply Rle_trans with (rsum ks (fun _ => 1)); [apply rsum_le; intros k Hk; apply Hb, Hk|]. rewrite rsum_const. rewrite Rmult_1_r.
    apply le_INR in Hks. rewrite minus_INR in Hks by lia. exact Hks. }
  lra.
Qed.

Theorem ess_range c : c <> [] -> / 2 < ess_chain c <= INR (length c).
Proof.
  intros Hc. assert (Hl : 1 <= INR (length c)) by (replace 1 with (INR 1) by reflexivity; apply le_INR; destruct c; [contradiction|cbn; lia]).
  unfold ess_chain, ess_series. destruct (Req_EM_T (auto_cov c 0) 0) as [H|H]; [lra|]. destruct (denominator c H) as [H1 H2]. set (D := -1 + 2 * _) in *.
  set (N := INR (length c)) in *. split.
  - apply Rmult_lt_reg_r with D; [lra|]. unfold Rdiv. rewrite Rmult_assoc, Rinv_l by lra. lra.
  - apply Rmult_le_reg_r with D; [lra|]. unfold Rdiv. rewrite Rmult_assoc, Rinv_l by lra. nra.
Qed.

(** Constant series. *)
Lemma const_mean v n : (0 < n)%nat -> chain_mean (repeat v n) = v.
Proof.
  intros Hn. unfold chain_mean. rewrite repeat_length. replace (rsum (repeat v n) (fun x => x)) with (INR n * v); [field; apply not_0_INR; lia|].
  clear Hn. induction n as [|n IH]; [cbn; ring|]. cbn [repeat rsum]. rewrite <- IH, S_INR. ring.
Qed.

Lemma cov0_zero_iff c : c <> [] -> (auto_cov c 0 = 0 <-> forall i, (i < length c)%nat -> nth i c 0 = chain_mean c).
Proof.
  intros Hc. assert (HN : 0 < INR (length c)) by (apply lt_0_INR; destruct c; [contradiction|cbn; lia]).
  assert (E : auto_cov c 0 = lagsum c 0 / INR (length c)) by (unfold auto_cov, lagsum; rewrite Nat.sub_0_r; reflexivity). split.
  - intros H i Hi. assert (H0 : lagsum c 0 = 0).
    { rewrite E in H. unfold Rdiv in H. apply Rmult_integral in H. destruct H as [H|H]; [exact H|]. apply Rinv_neq_0_compat in H; [contradiction|lra]. }
    rewrite lagsum_0 in H0. pose proof (rsum_ge_term (seq 0 (length c)) (fun i => dev c i ^ 2) i) as Hg.
    specialize (Hg ltac:(apply in_seq; lia) ltac:(intros; apply pow2_ge_0)). cbv beta in Hg. rewrite H0 in Hg. pose proof (pow2_ge_0 (dev c i)). assert (Hz : dev c i ^ 2 = 0) by lra.
    unfold dev in Hz. assert (nth i c 0 - chain_mean c = 0) by nra. lra.
  - intros H. rewrite E, lagsum_0. rewrite (rsum_const0 _ (fun i => dev c i ^ 2)); [unfold Rdiv; ring|].
    intros i Hi. apply in_seq in Hi. unfold dev. rewrite H by lia. ring.
Qed.

Lemma all_equal_cov c : c <> [] -> (auto_cov c 0 = 0 <-> forall v w, In v c -> In w c -> v = w).
Proof.
  intros Hc. rewrite cov0_zero_iff by exact Hc. split.
  - intros H v w Hv Hw. apply (In_nth _ _ 0) in Hv, Hw. destruct Hv as (i & Hi & <-). destruct Hw as (j & Hj & <-). rewrite !H by auto. reflexivity.
  - intros H i Hi. destruct c as [|v c]; [contradiction|]. assert (Hr : v :: c = repeat v (length (v :: c))).
    { apply Forall_eq_repeat. apply Forall_forall. intros x Hx. apply H; [left; auto|exact Hx]. }
    rewrite Hr at 2. rewrite const_mean by (cbn; lia). symmetry. apply H; [left; auto|apply nth_In; exact Hi].
Qed.

Theorem ess_frozen c : c <> [] -> (forall v w, In v c -> In w c -> v = w) -> ess_chain c = 1.
Proof.
  intros Hc H. apply all_equal_cov in H; [|exact Hc]. unfold ess_chain, ess_series. destruct (Req_EM_T (auto_cov c 0) 0); [reflexivity|contradiction].
Qed.

(** A negative correlation of neighbours gives the number of samples. *)
Theorem ess_negative c : auto_cov c 1 < 0 -> (2 <= length c)%nat -> ess_chain c = INR (length c).
Proof.
  intros H Hl. assert (H0 : auto_cov c 0 <> 0).
  { intros F. assert (Hc : c <> []) by (intros ->; cbn in Hl; lia). pose proof (proj1 (cov0_zero_iff c Hc) F) as F'. clear F. rename F' into F.
    destruct c as [|a c]; [contradiction|].
    assert (Hd : forall i, (i < length (a :: c))%nat -> dev (a :: c) i = 0).
    { intros i Hi. unfold dev. rewrite F by exact Hi. ring. }
    unfold auto_cov in H. rewrite (rsum_const0 _ (fun i => dev (a :: c) i * dev (a :: c) (i + 1))) in H; [unfold Rdiv in H; lra|].
    intros i Hi. apply in_seq in Hi. rewrite (Hd i) by lia. ring. }
  unfold ess_chain, ess_series. destruct (Req_EM_T (auto_cov c 0) 0) as [F|_]; [contradiction|].
  assert (Hk : kept_lags c = [0%nat]).
  { unfold kept_lags. destruct (length c) as [|[|n]] eqn:El; try lia. cbn [seq until_negative]. rewrite auto_corr_0 by exact H0.
    destruct (Rlt_dec 1 0) as [F|_]; [lra|]. destruct (Rlt_dec (auto_corr c 1) 0) as [_|F]; [reflexivity|]. exfalso. apply F. unfold auto_corr.
    destruct (cov0_pos c H0) as [Hp _]. assert (Hpos : 0 < auto_cov c 0).
    { unfold auto_cov. fold (lagsum c 0). apply Rmult_lt_0_compat; [exact Hp|]. apply Rinv_0_lt_compat, lt_0_INR. lia. }
    apply Ropp_lt_cancel. rewrite Ropp_0. replace (- (auto_cov c 1 / auto_cov c 0)) with ((- auto_cov c 1) * / auto_cov c 0) by (unfold Rdiv; ring).
    apply Rmult_lt_0_compat; [lra|apply Rinv_0_lt_compat, Hpos]. }
  rewrite Hk. cbn [rsum]. rewrite auto_corr_0 by exact H0. rewrite Nat.sub_0_r. assert (INR (length c) <> 0) by (apply not_0_INR; lia). field. auto.
Qed.

(** All lags together always sum to one half: without the cut the denominator would be zero. *)
Lemma square_of_sum (f : nat -> R) n : (rsum (seq 0 n) f) ^ 2 = rsum (seq 0 n) (fun i => f i ^ 2) + 2 * rsum (seq 1 (n - 1)) (fun k => rsum (seq 0 (n - k)) (fun i => f i * f (i + k)%nat)).
Proof.
  induction n as [|n IH]; [cbn; ring|]. rewrite seq_S at 1 2. rewrite !rsum_app. cbn [plus rsum].
  replace ((rsum (seq 0 n) f + (f n + 0)) ^ 2) with ((rsum (seq 0 n) f) ^ 2 + 2 * (f n * rsum (seq 0 n) f) + f n ^ 2) by ring.
  rewrite IH. replace (S n - 1)%nat with n by lia.
  assert (H : rsum (seq 1 n) (fun k => rsum (seq 0 (S n - k)) (fun i => f i * f (i + k)%nat))
    = rsum (seq 1 (n - 1)) (fun k => rsum (seq 0 (n - k)) (fun i => f i * f (i + k)%nat)) + f n * rsum (seq 0 n) f).
  { rewrite (rsum_ext (seq 1 n) _ (fun k => rsum (seq 0 (n - k)) (fun i => f i * f (i + k)%nat) + f (n - k)%nat * f n)).
    2: { intros k Hk. apply in_seq in Hk. replace (S n - k)%nat with (S (n - k)) by lia. rewrite seq_S, rsum_app. cbn [plus rsum].
         replace (n - k + k)%nat with n by lia. ring. }
    rewrite rsum_plus. f_equal.
    - destruct n as [|n]; [reflexivity|]. replace (S n - 1)%nat with n by lia. rewrite seq_S, rsum_app. cbn [plus rsum]. replace (S n - S n)%nat with 0%nat by lia. cbn. ring.
    - rewrite <- rsum_scal. rewrite (rsum_bij (seq 1 n) (seq 0 n) (fun k => n - k)%nat (fun k => n - k)%nat (fun i => f n * f i)).
      + apply rsum_ext. intros k _. ring.
      + apply seq_NoDup.
      + apply seq_NoDup.
      + intros k Hk. apply in_seq in Hk. apply in_seq. lia.
      + intros k Hk. apply in_seq in Hk. apply in_seq. lia.
      + intros k Hk. apply in_seq in Hk. lia.
      + intros k Hk. apply in_seq in Hk. lia. }
  rewrite H. ring.
Qed.

Lemma all_lags c : auto_cov c 0 <> 0 ->
  rsum (seq 0 (length c)) (fun k => INR (length c - k) / INR (length c) * auto_corr c k) = / 2.
Proof.
  intros H. destruct (cov0_pos c H) as [Hp Hl].
  rewrite (rsum_ext _ _ (fun k => / lagsum c 0 * lagsum c k)) by (intros k Hk; apply in_seq in Hk; rewrite weighted_corr by (auto; lia); unfold Rdiv; ring).
  rewrite rsum_scal. assert (Hc : c <> []) by (intros ->; cbn in Hl; lia).
  pose proof (square_of_sum (dev c) (length c)) as Hs. rewrite sum_dev in Hs by exact Hc. rewrite <- lagsum_0 in Hs.
  change (fun k => rsum (seq 0 (length c - k)) (fun i => dev c i * dev c (i + k))) with (lagsum c) in Hs.
  destruct (length c) as [|n] eqn:El; [lia|]. cbn [seq rsum]. replace (S n - 1)%nat with n in Hs by lia.
  replace (rsum (seq 1 n) (lagsum c)) with (- lagsum c 0 / 2) by lra. field. lra.
Qed.

Theorem negative_lag c : auto_cov c 0 <> 0 -> exists k, (0 < k < length c)%nat /\ auto_cov c k < 0.
Proof.
  intros H. destruct (cov0_pos c H) as [Hp Hl]. pose proof (all_lags c H) as Hs.
  assert (D : (exists k, In k (seq 0 (length c)) /\ auto_cov c k < 0) \/ forall k, In k (seq 0 (length c)) -> 0 <= auto_cov c k).
  { clear. induction (seq 0 (length c)) as [|k ks IH]; [right; intros k []|].
    destruct (Rlt_dec (auto_cov c k) 0) as [Hk|Hk]; [left; exists k; split; [left; auto|auto]|].
    destruct IH as [(k' & H1 & H2)|IH]; [left; exists k'; split; [right; auto|auto]|]. right. intros k' [<-|Hk']; [lra|auto]. }
  assert (Hpos : 0 < auto_cov c 0).
  { unfold auto_cov. fold (lagsum c 0). apply Rmult_lt_0_compat; [exact Hp|]. apply Rinv_0_lt_compat, lt_0_INR. lia. }
  destruct D as [(k & Hk & Hn)|D].
  - exists k. apply in_seq in Hk. split; [|exact Hn]. destruct k; [lra|lia].
  - exfalso. destruct (length c) as [|n] eqn:El; [lia|]. cbn [seq rsum] in Hs. rewrite auto_corr_0 in Hs by exact H.
    assert (0 <= rsum (seq 1 n) (fun k => INR (S n - k) / INR (S n) * auto_corr c k)).
    { apply rsum_nonneg. intros k Hk. apply Rmult_le_pos.
      - apply Rmult_le_pos; [apply pos_INR|]. apply Rlt_le, Rinv_0_lt_compat, lt_0_INR. lia.
      - unfold auto_corr. apply Rmult_le_pos; [|apply Rlt_le, Rinv_0_lt_compat, Hpos]. apply D. cbn [seq]. right. exact Hk. }
    rewrite Nat.sub_0_r in Hs. replace (INR (S n) / INR (S n)) with 1 in Hs by (field; apply not_0_INR; lia). lra.
Qed.

(** Series with proportional auto-covariances. *)
Lemma ess_ext c c' s : 0 < s -> length c = length c' -> (forall k, (k < length c)%nat -> auto_cov c' k = s * auto_cov c k) -> ess_chain c' = ess_chain c.
Proof.
  intros Hs Hl Hk. destruct c as [|a c]; [destruct c'; [reflexivity|discriminate]|]. set (d := a :: c) in *.
  assert (H0 : auto_cov c' 0 = s * auto_cov d 0) by (apply Hk; cbn; lia).
  unfold ess_chain, ess_series. destruct (Req_EM_T (auto_cov d 0) 0) as [E|E]; destruct (Req_EM_T (auto_cov c' 0) 0) as [E'|E']; [reflexivity| | |].
  - exfalso. apply E'. rewrite H0, E. ring.
  - exfalso. rewrite H0 in E'. apply Rmult_integral in E'. destruct E'; [lra|contradiction].
  - assert (Hr : forall k, (k < length d)%nat -> auto_corr c' k = auto_corr d k).
    { intros k Hlt. unfold auto_corr. rewrite H0, Hk by exact Hlt. field. split; [exact E|lra]. }
    assert (Hu : forall ks, (forall k, In k ks -> (k < length d)%nat) -> until_negative (auto_corr c') ks = until_negative (auto_corr d) ks).
    { induction ks as [|k ks IH]; intros Hin; [reflexivity|]. cbn [until_negative]. rewrite Hr by (apply Hin; left; auto). rewrite IH by (intros; apply Hin; right; auto). reflexivity. }
    unfold kept_lags. rewrite <- Hl. rewrite Hu by (intros k Hin; apply in_seq in Hin; lia).
    rewrite (rsum_ext (until_negative (auto_corr d) (seq 0 (length d))) (fun k => INR (length d - k) / INR (length d) * auto_corr c' k)
      (fun k => INR (length d - k) / INR (length d) * auto_corr d k)); [reflexivity|]. intros k Hin. apply until_negative_in in Hin. destruct Hin as [Hin _]. apply in_seq in Hin. rewrite Hr by lia. reflexivity.
Qed.

Lemma affine_mean a b c : c <> [] -> chain_mean (map (fun v => a * v + b) c) = a * chain_mean c + b.
Proof.
  intros Hc. unfold chain_mean. rewrite map_length, rsum_map, rsum_plus, rsum_scal, rsum_const.
  assert (INR (length c) <> 0) by (apply not_0_INR; destruct c; [contradiction|cbn; lia]). field. auto.
Qed.

Theorem ess_affine a b c : a <> 0 -> ess_chain (map (fun v => a * v + b) c) = ess_chain c.
Proof.
  intros Ha. destruct c as [|v c]; [reflexivity|]. set (d := v :: c). apply (ess_ext d _ (a ^ 2)).
  - assert (0 <= a ^ 2) by apply pow2_ge_0. assert (a ^ 2 <> 0) by (intros F; apply Ha; nra). lra.
  - rewrite map_length. reflexivity.
  - intros k Hk. assert (Hd : forall i, (i < length d)%nat -> dev (map (fun v => a * v + b) d) i = a * dev d i).
    { intros i Hi. unfold dev. rewrite affine_mean by discriminate. rewrite (nth_indep _ 0 (a * 0 + b)) by (rewrite map_length; exact Hi).
      rewrite (map_nth (fun v => a * v + b)). ring. }
    unfold auto_cov. rewrite map_length. unfold Rdiv. rewrite <- Rmult_assoc. f_equal. rewrite <- rsum_scal. apply rsum_ext. intros i Hi. apply in_seq in Hi.
    rewrite !Hd by lia. ring.
Qed.

Theorem ess_reverse c : ess_chain (rev c) = ess_chain c.
Proof.
  apply (ess_ext c _ 1); [lra|rewrite rev_length; reflexivity|]. intros k Hk. rewrite Rmult_1_l.
  assert (Hm : chain_mean (rev c) = chain_mean c).
  { unfold chain_mean. rewrite rev_length. f_equal. apply rsum_perm. apply Permutation.Permutation_sym, Permutation.Permutation_rev. }
  assert (Hd : forall i, (i < length c)%nat -> dev (rev c) i = dev c (length c - S i)).
  { intros i Hi. unfold dev. rewrite Hm, rev_nth by exact Hi. reflexivity. }
  unfold auto_cov. rewrite rev_length. f_equal.
  rewrite (rsum_involution (seq 0 (length c - k)) (fun i => length c - k - S i)%nat (fun i => dev c i * dev c (i + k))).
  - apply rsum_ext. intros i Hi. apply in_seq in Hi. rewrite !Hd by lia. rewrite Rmult_comm. f_equal; f_equal; lia.
  - apply seq_NoDup.
  - intros i Hi. apply in_seq in Hi. apply in_seq. lia.
  - intros i Hi. apply in_seq in Hi. lia.
Qed.

(** ** Mean and spread over the chains *)
Lemma mean_between (es : list R) lo hi : es <> [] -> (forall e, In e es -> lo <= e <= hi) -> lo <= ess_mean es <= hi.
Proof.
  intros Hne H. unfold ess_mean. assert (HN : 0 < INR (length es)) by (apply lt_0_INR; destruct es; [contradiction|cbn; lia]).
  assert (H1 : INR (length es) * lo <= rsum es (fun e => e)) by (rewrite <- (rsum_const es lo); apply rsum_le; intros e He; apply H, He).
  assert (H2 : rsum es (fun e => e) <= INR (length es) * hi) by (rewrite <- (rsum_const es hi); apply rsum_le; intros e He; apply H, He).
  split; apply Rmult_le_reg_r with (INR (length es)); auto; unfold Rdiv; rewrite Rmult_assoc, Rinv_l by lra; lra.
Qed.

Lemma std_bound (es : list R) lo hi : es <> [] -> (forall e, In e es -> lo <= e <= hi) -> 0 <= ess_std es <= hi - lo.
Proof.
  intros Hne H. pose proof (mean_between es lo hi Hne H) as Hm. split; [apply sqrt_pos|]. unfold ess_std.
  assert (HN : 0 < INR (length es)) by (apply lt_0_INR; destruct es; [contradiction|cbn; lia]).
  rewrite <- (sqrt_pow2 (hi - lo)) by lra. apply sqrt_le_1_alt.
  apply Rmult_le_reg_r with (INR (length es)); [exact HN|]. unfold Rdiv. rewrite Rmult_assoc, Rinv_l by lra. rewrite Rmult_1_r, Rmult_comm, <- (rsum_const es ((hi - lo) ^ 2)).
  apply rsum_le. intros e He. specialize (H e He). nra.
Qed.

Lemma series_length rows j : length (series rows j) = length rows.
Proof. apply map_length. Qed.

Theorem get_ess_range B rows : (0 < B)%nat -> rows <> [] ->
  / 2 <= fst (get_ess B rows) <= INR (length rows) /\ 0 <= snd (get_ess B rows) <= INR (length rows) - / 2.
Proof.
  intros HB Hr. assert (H : forall e, In e (ess_of_chains B rows) -> / 2 <= e <= INR (length rows)).
  { intros e He. apply in_map_iff in He. destruct He as (j & <- & _). pose proof (ess_range (series rows j)) as Hj. rewrite series_length in Hj.
    destruct Hj as [H1 H2]; [destruct rows; [contradiction|discriminate]|]. lra. }
  assert (Hne : ess_of_chains B rows <> []) by (destruct B; [lia|discriminate]).
  unfold get_ess. cbn [fst snd]. split; [apply mean_between; auto|apply std_bound; auto].
Qed.

(** ** Mapped samples *)
Lemma mapped_zero x0 x : length x = length x0 -> (mapped_sample x0 x = 0 <-> x = x0).
Proof. intros H. unfold mapped_sample. apply rowdist_zero. exact H. Qed.

Lemma rowdist_sym x : forall y, rsum (combine x y) (fun ab => Rabs (IZR (fst ab) - IZR (snd ab))) = rsum (combine y x) (fun ab => Rabs (IZR (fst ab) - IZR (snd ab))).
Proof. induction x as [|a x IH]; intros [|b y]; try reflexivity. cbn [combine rsum fst snd]. rewrite IH, Rabs_minus_sym. reflexivity. Qed.

Lemma hop_1 x y : get_hop 1 1 [x] [y] = rsum (combine x y) (fun ab => Rabs (IZR (fst ab) - IZR (snd ab))).
Proof. unfold get_hop. cbn. field. Qed.

Lemma mapped_lipschitz x0 x y : length x = length x0 -> length y = length x0 -> Rabs (mapped_sample x0 x - mapped_sample x0 y) <= get_hop 1 1 [x] [y].
Proof.
  intros Hx Hy. rewrite hop_1. unfold mapped_sample. pose proof (rowdist_triangle x y x0 ltac:(lia) ltac:(lia)). pose proof (rowdist_triangle y x x0 ltac:(lia) ltac:(lia)).
  rewrite (rowdist_sym y x) in *. apply Rabs_le. lra.
Qed.

(** ** The report of a run *)
Lemma run_rows_length L r x0 step init : 0 <= r <= 1 -> length (snd (sampling_run L r step (map_batch x0) init)) = length (filter snd (sampling_steps L r)).
Proof. intros Hr. rewrite sampling_run_spec by exact Hr. cbn [snd]. rewrite map_length, seq_length, steps_kept by exact Hr. reflexivity. Qed.

Lemma kept_half n : length (filter snd (sampling_steps (2 * n) (/ 2))) = n.
Proof.
  rewrite steps_kept by lra. assert (E : INR (2 * n) * / 2 = INR n) by (rewrite mult_INR; cbn [INR]; lra). rewrite E.
  destruct (int_of_spec (INR n) (pos_INR n)) as [Ha Hb]. apply INR_le in Ha. rewrite <- S_INR in Hb. apply INR_lt in Hb. lia.
Qed.

Lemma per_call_step a ess L r : (0 < a)%nat -> 0 < INR L * r -> ess_per_call ess (a * L) r = ess_per_step ess L r / INR a.
Proof.
  intros Ha HL. unfold ess_per_call, ess_per_step. rewrite mult_INR. assert (INR a <> 0) by (apply not_0_INR; lia).
  assert (INR L <> 0) by (intros E; rewrite E in HL; lra). assert (r <> 0) by (intros E; rewrite E in HL; lra). field. auto.
Qed.

Lemma ess_std_const (es : list R) v : es <> [] -> (forall e, In e es -> e = v) -> ess_mean es = v /\ ess_std es = 0.
Proof.
  intros Hne H. assert (Hb : forall e, In e es -> v <= e <= v) by (intros e He; rewrite (H e He); lra).
  pose proof (mean_between es v v Hne Hb). pose proof (std_bound es v v Hne Hb). split; lra.
Qed.

(** A chain that does not move during mixing. *)
Lemma frozen_report L r B x0 step init : (0 < B)%nat -> 0 <= r <= 1 -> (0 < length (filter snd (sampling_steps L r)))%nat ->
  (forall n x, (int_of (INR L * r) < n)%nat -> step n x = x) ->
  get_ess B (snd (sampling_run L r step (map_batch x0) init)) = (1, 0).
Proof.
  intros HB Hr Hl Hs. rewrite sampling_run_spec by exact Hr. cbn [snd]. rewrite steps_kept in Hl by exact Hr.
  set (b := int_of (INR L * r)) in *. set (n := (L - b)%nat) in *.
  assert (Ho : forall m, orbit step init (b + m) = orbit step init b).
  { induction m as [|m IH]; [rewrite Nat.add_0_r; reflexivity|]. rewrite Nat.add_succ_r. cbn [orbit]. rewrite Hs by lia. exact IH. }
  assert (He : map (fun s => map_batch x0 (orbit step init s)) (seq (S b) n) = repeat (map_batch x0 (orbit step init b)) n).
  { apply (nth_ext _ _ [] []); [rewrite map_length, seq_length, repeat_length; reflexivity|]. intros i Hi. rewrite map_length, seq_length in Hi.
    rewrite (nth_indep _ [] (map_batch x0 (orbit step init 0))) by (rewrite map_length, seq_length; exact Hi).
    rewrite (map_nth (fun s => map_batch x0 (orbit step init s))). rewrite seq_nth by exact Hi. replace (S b + i)%nat with (b + S i)%nat by lia. rewrite Ho.
    rewrite (nth_indep _ [] (map_batch x0 (orbit step init b))) by (rewrite repeat_length; exact Hi). rewrite nth_repeat. reflexivity. }
  rewrite He. unfold get_ess. destruct (ess_std_const (ess_of_chains B (repeat (map_batch x0 (orbit step init b)) n)) 1) as [-> ->]; [destruct B; [lia|discriminate]| |reflexivity].
  intros e Hin. apply in_map_iff in Hin. destruct Hin as (j & <- & _). apply ess_frozen.
  - unfold series. destruct n; [lia|discriminate].
  - intros v w Hv Hw. unfold series in Hv, Hw. apply in_map_iff in Hv, Hw. destruct Hv as (rv & <- & Hv). destruct Hw as (rw & <- & Hw).
    apply repeat_spec in Hv, Hw. subst. reflexivity.
Qed.

(** The run of the refutation below: one site, flipped at every step, quarter ratio. *)
Lemma quarter : int_of (INR 4 * / 4) = 1%nat.
Proof.
  destruct (int_of_spec (INR 4 * / 4)) as [Ha Hb]; [cbn; lra|]. set (k := int_of (INR 4 * / 4)) in *. cbn [INR] in Ha, Hb.
  assert (INR k <= INR 1) as Ha' by (cbn; lra). assert (INR 0 < INR k) as Hb' by (cbn; lra). apply INR_le in Ha'. apply INR_lt in Hb'. lia.
Qed.

Definition flip_step (_ : nat) (xs : list (list Z)) : list (list Z) := map (map (fun v => (1 - v)%Z)) xs.
Lemma flip_rows : snd (sampling_run 4 (/ 4) flip_step (map_batch [0%Z]) [[1%Z]]) = [[1]; [0]; [1]].
Proof.
  rewrite sampling_run_spec by lra. rewrite quarter. cbn [snd minus seq map orbit]. unfold flip_step, map_batch, mapped_sample. cbn.
  repeat rewrite Rminus_0_r. repeat rewrite Rplus_0_r. rewrite Rabs_R0, Rabs_R1. reflexivity.
Qed.

Lemma ess_101 : ess_chain [1; 0; 1] = 3.
Proof.
  rewrite ess_negative; [cbn; lra| |cbn; lia]. unfold auto_cov, dev, chain_mean. cbn. lra.
Qed.

(** ** Chains of a batch *)
(** A transition that treats the chains separately, each with its own randomness. *)
Lemma orbit_length {A} (k : nat -> nat -> A -> A) init n :
  length (orbit (fun n xs => map (fun p => k n (fst p) (snd p)) (combine (seq 0 (length xs)) xs)) init n) = length init.
Proof. induction n as [|n IH]; [reflexivity|]. cbn [orbit]. rewrite map_length, combine_length, seq_length, Nat.min_id. exact IH. Qed.
Lemma nth_combine_seq {A} (xs : list A) d j : (j < length xs)%nat -> nth j (combine (seq 0 (length xs)) xs) (0%nat, d) = (j, nth j xs d).
Proof. intros H. rewrite combine_nth by apply seq_length. rewrite seq_nth by exact H. reflexivity. Qed.
Lemma orbit_nth {A} (k : nat -> nat -> A -> A) init d j n : (j < length init)%nat ->
  nth j (orbit (fun n xs => map (fun p => k n (fst p) (snd p)) (combine (seq 0 (length xs)) xs)) init n) d = orbit (fun n => k n j) (nth j init d) n.
Proof.
  intros H. induction n as [|n IH]; [reflexivity|]. cbn [orbit]. rewrite <- IH.
  set (xs := orbit _ init n). assert (Hl : length xs = length init) by apply orbit_length.
  rewrite (nth_indep _ d (k (S n) (fst (0%nat, d)) (snd (0%nat, d)))) by (rewrite map_length, combine_length, seq_length, Nat.min_id; lia).
  rewrite (map_nth (fun p => k (S n) (fst p) (snd p))), nth_combine_seq by lia. reflexivity.
Qed.

Lemma batch_series L r x0 k init j : 0 <= r <= 1 -> (j < length init)%nat ->
  series (snd (sampling_run L r (fun n xs => map (fun p => k n (fst p) (snd p)) (combine (seq 0 (length xs)) xs)) (map_batch x0) init)) j
  = snd (sampling_run L r (fun n => k n j) (mapped_sample x0) (nth j init [])).
Proof.
  intros Hr Hj. rewrite !sampling_run_spec by exact Hr. cbn [snd]. unfold series. rewrite map_map. apply map_ext. intros n.
  unfold map_batch. set (xs := orbit _ init n). assert (Hl : length xs = length init) by apply orbit_length.
  rewrite (nth_indep _ 0 (mapped_sample x0 [])) by (rewrite map_length; lia). rewrite map_nth. unfold xs. rewrite orbit_nth by exact Hj. reflexivity.
Qed.

Lemma rsum_positions {A} (l : list A) d (f : nat -> R) (g : A -> R) s : (forall j, (j < length l)%nat -> f (s + j)%nat = g (nth j l d)) -> rsum (seq s (length l)) f = rsum l g.
Proof.
  revert s. induction l as [|a l IH]; intros s H; [reflexivity|]. cbn [length seq rsum]. f_equal.
  - rewrite <- (Nat.add_0_r s) at 1. apply (H 0%nat). cbn. lia.
  - apply IH. intros j Hj. replace (S s + j)%nat with (s + S j)%nat by lia. apply (H (S j)). cbn. lia.
Qed.

Lemma batch_estimates L r x0 k init : 0 <= r <= 1 ->
  ess_of_chains (length init) (snd (sampling_run L r (fun n xs => map (fun p => k n (fst p) (snd p)) (combine (seq 0 (length xs)) xs)) (map_batch x0) init))
  = map (fun j => ess_chain (snd (sampling_run L r (fun n => k n j) (mapped_sample x0) (nth j init [])))) (seq 0 (length init)).
Proof.
  intros Hr. unfold ess_of_chains. apply map_ext_in. intros j Hj. apply in_seq in Hj. rewrite batch_series by (auto; lia). reflexivity.
Qed.
