From Coq Require Import Reals List Arith Lra Lia.
From Verif.Base Require Import RSum Dist.
From Verif.Spec Require Import EvalSpec.
From Verif.Model Require Import Factorised BernEval.
From Verif.Proof Require Import ExperimentProof.
Import ListNotations.
Local Open Scope R_scope.

(** *** Moments of independent draws *)

Lemma mass_indep_repeat {A} (d : dist A) n : mass d = 1 -> mass (indep (repeat d n)) = 1.
Proof.
  intros Hd. induction n as [| n IH]; [apply mass_ret |]. cbn [repeat indep]. unfold mass. rewrite E_bind.
  rewrite (E_ext _ _ (fun _ => 1)); [exact Hd |]. intros a. rewrite E_dmap. exact IH.
Qed.

Lemma E_indep_sqsum {A} (d : dist A) (h : A -> R) n : mass d = 1 ->
  E (indep (repeat d n)) (fun l => (rsum l h) ^ 2) = INR n * E d (fun a => h a ^ 2) + INR n * (INR n - 1) * (E d h) ^ 2.
Proof.
  intros Hd. induction n as [| n IH].
  - cbn [repeat indep]. rewrite E_ret. cbn [rsum INR]. ring.
  - cbn [repeat indep]. rewrite E_bind, S_INR.
    rewrite (E_ext _ _ (fun a => (h a ^ 2 + (2 * (INR n * E d h)) * h a) + (INR n * E d (fun a => h a ^ 2) + INR n * (INR n - 1) * (E d h) ^ 2))).
    + rewrite !E_plus, E_scal, !E_const, Hd. ring.
    + intros a. rewrite E_dmap. cbn [rsum].
      rewrite (E_ext _ _ (fun l => (h a ^ 2 + (2 * h a) * rsum l h) + (rsum l h) ^ 2)) by (intros; ring).
      rewrite !E_plus, E_scal, E_const, (mass_indep_repeat d n Hd), IH, (E_indep_sum d h n Hd). ring.
Qed.

Lemma in_indep_repeat {A} (d : dist A) : forall n l w, In (l, w) (indep (repeat d n)) ->
  length l = n /\ Forall (fun a => exists u, In (a, u) d) l.
Proof.
  induction n as [| n IH]; cbn [repeat indep]; intros l w H.
  - destruct H as [[= <- _] | []]. split; [reflexivity | constructor].
  - unfold bind in H. apply in_flat_map in H. destruct H as ([a u] & Ha & H).
    apply in_map_iff in H. destruct H as ([l' u'] & [= <- _] & H).
    unfold dmap in H. apply in_map_iff in H. destruct H as ([l2 u2] & [= <- _] & H).
    destruct (IH _ _ H) as [HL HF]. cbn [fst length]. split; [lia |]. constructor; [exists u; exact Ha | exact HF].
Qed.

Lemma Variance_moments {A} (d : dist A) h : mass d = 1 -> Variance d h = E d (fun a => h a ^ 2) - (E d h) ^ 2.
Proof.
  intros Hd. unfold Variance. rewrite (E_ext _ _ (fun a => (h a ^ 2 + (- 2 * E d h) * h a) + (E d h) ^ 2)) by (intros; ring).
  rewrite !E_plus, E_scal, E_const, Hd. ring.
Qed.

Lemma map_rsum {A} (h : A -> R) l : rsum (map h l) (fun v => v) = rsum l h.
Proof. rewrite rsum_map. reflexivity. Qed.

Lemma col_mean_map {A} (h : A -> R) l : l <> [] -> col_mean (map h l) = Some (rsum l h / INR (length l)).
Proof.
  intros Hl. unfold col_mean. destruct l as [| a l]; [congruence |].
  cbn [map]. change (h a :: map h l) with (map h (a :: l)). rewrite map_rsum, map_length. reflexivity.
Qed.

Lemma col_var_map {A} (h : A -> R) l : (2 <= length l)%nat ->
  col_var (map h l) = Some (rsum l (fun a => (h a - rsum l h / INR (length l)) ^ 2) / (INR (length l) - 1)).
Proof.
  intros Hl. unfold col_var. rewrite col_mean_map by (destruct l; simpl in Hl; [lia | discriminate]).
  rewrite map_length. destruct (Nat.eqb_spec (length l) 1) as [E1 | N]; [lia |]. rewrite rsum_map. reflexivity.
Qed.

Theorem mean_unbiased {A} (d : dist A) (h : A -> R) n : mass d = 1 -> (1 <= n)%nat ->
  E (indep (repeat d n)) (fun l => val (col_mean (map h l))) = E d h.
Proof.
  intros Hd Hn. assert (0 < INR n) by (apply lt_0_INR; lia).
  rewrite (E_ext_in _ _ (fun l => / INR n * rsum l h)).
  - rewrite E_scal, E_indep_sum by exact Hd. field. lra.
  - intros l w Hl. destruct (in_indep_repeat d n l w Hl) as [HL _].
    rewrite col_mean_map by (destruct l; simpl in HL; [lia | discriminate]). cbn [val]. rewrite HL. unfold Rdiv. ring.
Qed.

Lemma sum_dev {A} (h : A -> R) l : l <> [] ->
  rsum l (fun a => (h a - rsum l h / INR (length l)) ^ 2) = rsum l (fun a => h a ^ 2) - (rsum l h) ^ 2 / INR (length l).
Proof.
  intros Hl. set (m := rsum l h / INR (length l)).
  assert (Hn : INR (length l) <> 0) by (destruct l; [congruence | apply not_0_INR; simpl; lia]).
  rewrite (rsum_ext l _ (fun a => (h a ^ 2 + (- 2 * m) * h a) + m ^ 2)) by (intros; ring).
  rewrite !rsum_plus, rsum_scal, rsum_const. unfold m. field. exact Hn.
Qed.

Theorem var_unbiased {A} (d : dist A) (h : A -> R) n : mass d = 1 -> (2 <= n)%nat ->
  E (indep (repeat d n)) (fun l => val (col_var (map h l))) = Variance d h.
Proof.
  intros Hd Hn. assert (H1 : 1 < INR n) by (apply (lt_INR 1); lia).
  rewrite Variance_moments by exact Hd.
  rewrite (E_ext_in _ _ (fun l => / (INR n - 1) * (rsum l (fun a => h a ^ 2) - / INR n * (rsum l h) ^ 2))).
  - rewrite E_scal, E_minus, E_scal, E_indep_sqsum, (E_indep_sum d (fun a => h a ^ 2)) by exact Hd. field. lra.
  - intros l w Hl. destruct (in_indep_repeat d n l w Hl) as [HL _].
    rewrite col_var_map by lia. cbn [val]. rewrite sum_dev by (destruct l; simpl in HL; [lia | discriminate]). rewrite HL. field. lra.
Qed.

Theorem mean_error_law {A} (d : dist A) (h : A -> R) n : mass d = 1 -> (1 <= n)%nat ->
  E (indep (repeat d n)) (fun l => (val (col_mean (map h l)) - E d h) ^ 2) = Variance d h / INR n.
Proof.
  intros Hd Hn. assert (H0 : 0 < INR n) by (apply lt_0_INR; lia).
  rewrite Variance_moments by exact Hd.
  rewrite (E_ext_in _ _ (fun l => ((/ INR n) ^ 2 * (rsum l h) ^ 2 + (- 2 * E d h * / INR n) * rsum l h) + (E d h) ^ 2)).
  - rewrite !E_plus, !E_scal, E_const, (mass_indep_repeat d n Hd), E_indep_sqsum, E_indep_sum by exact Hd. field. lra.
  - intros l w Hl. destruct (in_indep_repeat d n l w Hl) as [HL _].
    rewrite col_mean_map by (destruct l; simpl in HL; [lia | discriminate]). cbn [val]. rewrite HL. field. lra.
Qed.

(** *** The evaluator *)

Lemma all_some_map {A B} (f : A -> option B) (g : A -> B) l : (forall a, In a l -> f a = Some (g a)) -> all_some (map f l) = Some (map g l).
Proof.
  induction l as [| a l IH]; intros H; [reflexivity |]. cbn [map all_some]. rewrite (H a) by (left; reflexivity).
  rewrite IH by (intros; apply H; right; assumption). reflexivity.
Qed.
Lemma all_some_none {A B} (f : A -> option B) l a : In a l -> f a = None -> all_some (map f l) = None.
Proof.
  induction l as [| b l IH]; intros Ha Hf; [contradiction |]. cbn [map all_some]. destruct Ha as [-> | Ha].
  - rewrite Hf. reflexivity.
  - destruct (f b); [rewrite (IH Ha Hf) |]; reflexivity.
Qed.

Definition means (samples : list (list (list R))) (e : nat * nat) : R := val (col_mean (column samples (fst e) (snd e))).
Definition vars (samples : list (list (list R))) (e : nat * nat) : R := val (col_var (column samples (fst e) (snd e))).

Lemma column_length s b i : length (column s b i) = length s.
Proof. apply map_length. Qed.

Lemma compute_error_eq theta s : (2 <= length s)%nat ->
  let es := entries s (length theta) in
  let pm := map (fun e => (means s e, nth (snd e) (bern_expected theta) 0)) es in
  let pv := map (fun e => (nth (snd e) (bern_var theta) 0, vars s e)) es in
  compute_error theta s = Some (mse pm, max_mse pm, mse pv, max_mse pv).
Proof.
  intros Hs es pm pv. unfold compute_error. fold es.
  rewrite (all_some_map _ (means s)).
  2: { intros e _. unfold means, column. rewrite (col_mean_map (fun t => nth (snd e) (nth (fst e) t []) 0)) by (destruct s; simpl in Hs; [lia | discriminate]). reflexivity. }
  rewrite (all_some_map _ (vars s)).
  2: { intros e _. unfold vars, column. rewrite (col_var_map (fun t => nth (snd e) (nth (fst e) t []) 0)) by exact Hs. reflexivity. }
  assert (C : forall (f g : nat * nat -> R) l, combine (map f l) (map g l) = map (fun e => (f e, g e)) l).
  { intros f g l. induction l as [| a l IH]; [reflexivity | cbn [map combine]; rewrite IH; reflexivity]. }
  rewrite !C. reflexivity.
Qed.

Lemma compute_error_none theta s : (length s = 1)%nat -> (0 < length theta)%nat -> (0 < length (hd [] s))%nat -> compute_error theta s = None.
Proof.
  intros Hs Ht Hb. unfold compute_error.
  rewrite (all_some_none (fun e => col_var (column s (fst e) (snd e))) (entries s (length theta)) (0%nat, 0%nat)).
  - destruct (all_some _); reflexivity.
  - unfold entries. apply in_prod; apply in_seq; lia.
  - unfold col_var. destruct (col_mean _); [| reflexivity]. rewrite column_length, Hs. reflexivity.
Qed.

Lemma evaluate_defined theta s : (0 < length theta)%nat -> s <> [] ->
  (forall t, In t s -> (length t = length (hd [] s))%nat) -> (0 < length (hd [] s))%nat ->
  evaluate theta s <> None <-> ((2 <= length s)%nat /\ (2 <= length (hd [] s))%nat).
Proof.
  intros Ht Hs Hr Hb. unfold evaluate.
  assert (HL : length (last_samples s) = length (hd [] s)).
  { unfold last_samples. rewrite map_length. apply Hr. destruct (exists_last Hs) as (s' & a & ->). rewrite last_last. apply in_or_app. right. left. reflexivity. }
  assert (HB : (length (hd [] (last_samples s)) = 1)%nat).
  { unfold last_samples in *. destruct (last s []) as [| row l]; [rewrite <- HL in Hb; simpl in Hb; lia | reflexivity]. }
  assert (Hlen : (1 <= length s)%nat) by (destruct s; [congruence | simpl; lia]).
  split.
  - intros H. destruct (Nat.eq_dec (length s) 1) as [E1 | N1].
    + rewrite (compute_error_none theta s E1 Ht Hb) in H. congruence.
    + destruct (Nat.eq_dec (length (hd [] s)) 1) as [E2 | N2]; [| lia].
      rewrite (compute_error_none theta (last_samples s)) in H; [| lia | exact Ht | lia].
      destruct (compute_error theta s) as [[[[? ?] ?] ?] |]; congruence.
  - intros [H1 H2]. rewrite (compute_error_eq theta s H1), (compute_error_eq theta (last_samples s)) by lia. discriminate.
Qed.

(** Errors: sign, order, and when they vanish. *)
Lemma max_mse_ge l p : In p l -> (fst p - snd p) ^ 2 <= max_mse l.
Proof.
  induction l as [| q l IH]; [contradiction |]. intros [-> | H]; cbn [max_mse fold_right].
  - apply Rmax_l.
  - eapply Rle_trans; [apply IH, H | apply Rmax_r].
Qed.
Lemma mse_nonneg l : 0 <= mse l.
Proof.
  unfold mse. destruct l as [| p l]; [unfold Rdiv; cbn [rsum]; rewrite Rmult_0_l; lra |].
  apply Rmult_le_pos; [apply rsum_nonneg; intros; apply pow2_ge_0 |]. left. apply Rinv_0_lt_compat, lt_0_INR. simpl; lia.
Qed.
Lemma mse_le_max l : mse l <= max_mse l.
Proof.
  destruct l as [| p l].
  - unfold mse, Rdiv; cbn [rsum max_mse fold_right]; rewrite Rmult_0_l; lra.
  - assert (H0 : 0 < INR (length (p :: l))) by (apply lt_0_INR; simpl; lia). unfold mse.
    apply Rmult_le_reg_r with (INR (length (p :: l))); [exact H0 |]. unfold Rdiv. rewrite Rmult_assoc, Rinv_l, Rmult_1_r by lra.
    rewrite (Rmult_comm (max_mse _)), <- rsum_const. apply rsum_le. intros q Hq. apply max_mse_ge, Hq.
Qed.
Lemma max_mse_zero l : max_mse l = 0 <-> (forall p, In p l -> fst p = snd p).
Proof.
  split.
  - intros H p Hp. pose proof (max_mse_ge l p Hp) as H1. rewrite H in H1.
    pose proof (pow2_ge_0 (fst p - snd p)). assert ((fst p - snd p) ^ 2 = 0) by lra.
    assert (fst p - snd p = 0) by (simpl in H2; rewrite Rmult_1_r in H2; apply Rmult_integral in H2; tauto). lra.
  - induction l as [| p l IH]; intros H; [reflexivity |]. cbn [max_mse fold_right].
    fold (max_mse l). rewrite IH by (intros; apply H; right; assumption). rewrite (H p) by (left; reflexivity).
    replace ((snd p - snd p) ^ 2) with 0 by ring. apply Rmax_left; lra.
Qed.
Lemma mse_zero l : mse l = 0 <-> (forall p, In p l -> fst p = snd p).
Proof.
  split.
  - intros H. destruct l as [| q l]; [intros p [] |]. intros p Hp.
    assert (H0 : 0 < INR (length (q :: l))) by (apply lt_0_INR; simpl; lia).
    assert (HS : rsum (q :: l) (fun p => (fst p - snd p) ^ 2) = 0).
    { unfold mse in H. apply Rmult_eq_reg_r with (/ INR (length (q :: l))); [rewrite Rmult_0_l; exact H |]. apply Rinv_neq_0_compat; lra. }
    assert (G := rsum_ge_term (q :: l) (fun p => (fst p - snd p) ^ 2) p Hp (fun a _ => pow2_ge_0 _)). cbv beta in G.
    pose proof (pow2_ge_0 (fst p - snd p)). assert (H2 : (fst p - snd p) ^ 2 = 0) by lra.
    assert (fst p - snd p = 0) by (simpl in H2; rewrite Rmult_1_r in H2; apply Rmult_integral in H2; tauto). lra.
  - intros H. apply Rle_antisym; [| apply mse_nonneg]. eapply Rle_trans; [apply mse_le_max |]. right. apply max_mse_zero, H.
Qed.

(** *** Expected error of exact independent samples *)

Lemma E_rsum {A B} (d : dist A) (l : list B) (f : B -> A -> R) : E d (fun a => rsum l (fun b => f b a)) = rsum l (fun b => E d (f b)).
Proof.
  induction l as [| b l IH]; cbn [rsum].
  - rewrite E_const. ring.
  - rewrite E_plus, IH. reflexivity.
Qed.

Lemma E01 {A} (d : dist A) (h : A -> R) : mass d = 1 -> (forall a u, In (a, u) d -> h a = 0 \/ h a = 1) -> Variance d h = E d h * (1 - E d h).
Proof.
  intros Hd H. rewrite Variance_moments by exact Hd. rewrite (E_ext_in d (fun a => h a ^ 2) h).
  - ring.
  - intros a u Ha. destruct (H a u Ha) as [-> | ->]; ring.
Qed.

Section LAW.
Variables (theta : list R) (B n : nat) (D : dist (list (list R))).
Hypotheses (Hn : (2 <= n)%nat) (HD : mass D = 1).
Hypothesis HB : forall t u, In (t, u) D -> length t = B.
Hypothesis H01 : forall t u b i, In (t, u) D -> (b < B)%nat -> (i < length theta)%nat -> nth i (nth b t []) 0 = 0 \/ nth i (nth b t []) 0 = 1.
Hypothesis Hm : forall b i, (b < B)%nat -> (i < length theta)%nat -> E D (fun t => nth i (nth b t []) 0) = nth i (bern_expected theta) 0.

Lemma support_entries s w : In (s, w) (indep (repeat D n)) -> length s = n /\ entries s (length theta) = list_prod (seq 0 B) (seq 0 (length theta)).
Proof.
  intros H. destruct (in_indep_repeat D n s w H) as [HL HF]. split; [exact HL |].
  unfold entries. destruct s as [| t s]; [simpl in HL; lia |]. inversion HF as [| ? ? (u & Hu) _]; subst. cbn [hd]. rewrite (HB _ _ Hu). reflexivity.
Qed.

Lemma bern_var_nth i : (i < length theta)%nat -> nth i (bern_var theta) 0 = nth i (bern_expected theta) 0 * (1 - nth i (bern_expected theta) 0).
Proof.
  intros Hi. unfold bern_var. rewrite <- (map_nth (fun p => p * (1 - p)) (bern_expected theta) 0 i).
  apply nth_indep. rewrite map_length. unfold bern_expected. rewrite map_length. exact Hi.
Qed.

Theorem expected_mean_error : (0 < B)%nat -> (0 < length theta)%nat ->
  E (indep (repeat D n)) (fun s => avg_mean_error (compute_error theta s)) =
    rsum (seq 0 (length theta)) (fun i => nth i (bern_var theta) 0) / INR (length theta) / INR n.
Proof.
  intros HB0 Ht0. set (es := list_prod (seq 0 B) (seq 0 (length theta))).
  rewrite (E_ext_in _ _ (fun s => / INR (length es) * rsum es (fun e => (val (col_mean (map (fun t : list (list R) => nth (snd e) (nth (fst e) t []) 0) s)) - nth (snd e) (bern_expected theta) 0) ^ 2))).
  - rewrite E_scal, E_rsum.
    rewrite (rsum_ext es _ (fun e => nth (snd e) (bern_var theta) 0 / INR n)).
    + unfold es. rewrite rsum_list_prod. cbn [snd]. rewrite rsum_const.
      unfold Rdiv. rewrite (rsum_scal_r (seq 0 (length theta)) (/ INR n) (fun i => nth i (bern_var theta) 0)).
      rewrite prod_length, !seq_length, mult_INR. field. repeat split; apply not_0_INR; lia.
    + intros [b i] He. unfold es in He. apply in_prod_iff in He. rewrite !in_seq in He. cbn [fst snd].
      rewrite <- (Hm b i) by lia. rewrite (mean_error_law D (fun t => nth i (nth b t []) 0) n HD) by lia.
      rewrite (E01 D (fun t => nth i (nth b t []) 0) HD) by (intros t u Hu; apply (H01 t u); [exact Hu | lia | lia]).
      rewrite (Hm b i), bern_var_nth by lia. reflexivity.
  - intros s w Hs. destruct (support_entries s w Hs) as [HL HE].
    rewrite (compute_error_eq theta s) by lia. cbn [avg_mean_error]. rewrite HE. fold es. unfold mse.
    rewrite rsum_map, map_length. unfold Rdiv. rewrite Rmult_comm. reflexivity.
Qed.
End LAW.

(** *** Windows *)
Lemma windows_spec {A} (chain : list A) size stride m : (0 < stride)%nat -> forall a,
  windows (map (fun k => (k * stride)%nat) (seq a m)) chain size =
  map (fun k => firstn size (skipn (k * stride) chain)) (filter (fun k => k * stride + size <=? length chain)%nat (seq a m)) \/ size = 0%nat.
Proof.
  intros Hst. destruct size as [| size]; [right; reflexivity |]. left.
  revert a. induction m as [| m IH]; intros a; [reflexivity |].
  cbn [seq map windows filter].
  destruct (Nat.ltb_spec (length chain - a * stride) (Datatypes.S size)) as [H | H].
  - destruct (Nat.leb_spec (a * stride + Datatypes.S size) (length chain)) as [H2 | H2]; [lia |].
    replace (filter _ (seq (Datatypes.S a) m)) with (@nil nat); [reflexivity |].
    symmetry. induction m as [| m IHm] in a, H, H2 |- *; [reflexivity |]. cbn [seq filter].
    assert (G : (a * stride <= Datatypes.S a * stride)%nat) by (cbn [Nat.mul]; lia).
    destruct (Nat.leb_spec (Datatypes.S a * stride + Datatypes.S size) (length chain)) as [H3 | H3]; [lia |].
    apply IHm; lia.
  - destruct (Nat.leb_spec (a * stride + Datatypes.S size) (length chain)) as [H2 | H2]; [| lia].
    cbn [map]. rewrite IH. reflexivity.
Qed.

Lemma filter_seq_prefix p : forall m a c, (forall k, (a <= k < a + m)%nat -> p k = true <-> (k < c)%nat) -> (a <= c <= a + m)%nat -> filter p (seq a m) = seq a (c - a).
Proof.
  induction m as [| m IH]; intros a c H Hc.
  - replace (c - a)%nat with 0%nat by lia. reflexivity.
  - cbn [seq filter]. destruct (Nat.eq_dec a c) as [-> | N].
    + destruct (p c) eqn:E; [apply H in E; lia |]. rewrite Nat.sub_diag.
      assert (G : filter p (seq (Datatypes.S c) m) = []).
      { clear IH E. assert (Q : forall k, (Datatypes.S c <= k < Datatypes.S c + m)%nat -> p k = false).
        { intros k Hk. destruct (p k) eqn:E; [apply H in E; lia | reflexivity]. }
        clear H Hc. revert Q. generalize (Datatypes.S c). induction m as [| m IHm]; intros a Q; [reflexivity |].
        cbn [seq filter]. rewrite Q by lia. apply IHm. intros; apply Q; lia. }
      rewrite G. reflexivity.
    + assert (E : p a = true) by (apply H; lia). rewrite E.
      replace (c - a)%nat with (Datatypes.S (c - Datatypes.S a)) by lia. cbn [seq]. f_equal.
      apply IH; [| lia]. intros k Hk. apply H. lia.
Qed.

Theorem plot_windows_spec {A} (chain : list A) size stride : (0 < stride)%nat -> (0 < size)%nat ->
  plot_windows chain size stride =
    if (length chain <? size)%nat then [] else
    map (fun k => firstn size (skipn (k * stride) chain)) (seq 0 (Datatypes.S ((length chain - size) / stride))).
Proof.
  intros Hst Hsz. unfold plot_windows, range_step.
  destruct (windows_spec chain size stride ((length chain + stride - 1) / stride) Hst 0) as [-> | E]; [| lia].
  set (L := length chain). destruct (Nat.ltb_spec L size) as [H | H].
  - replace (filter _ _) with (@nil nat); [reflexivity |]. symmetry.
    rewrite (filter_seq_prefix _ _ 0 0); [reflexivity | | lia].
    intros k _. rewrite Nat.leb_le. split; [| lia]. pose proof (Nat.le_0_l (k * stride)). lia.
  - rewrite (filter_seq_prefix _ _ 0 (Datatypes.S ((L - size) / stride))); [rewrite Nat.sub_0_r; reflexivity | |].
    + intros k _. rewrite Nat.leb_le. split; intros Hk.
      * enough (k <= (L - size) / stride)%nat by lia. apply Nat.div_le_lower_bound; [lia |]. rewrite Nat.mul_comm. lia.
      * pose proof (Nat.mul_div_le (L - size) stride ltac:(lia)) as G.
        assert (k * stride <= (L - size) / stride * stride)%nat by (apply Nat.mul_le_mono_r; lia). rewrite (Nat.mul_comm ((L - size) / stride)) in H0. lia.
    + split; [lia |]. cbn [Nat.add]. replace (L + stride - 1)%nat with ((L - 1) + 1 * stride)%nat by lia.
      rewrite Nat.div_add by lia. enough ((L - size) / stride <= (L - 1) / stride)%nat by lia. apply Nat.div_le_mono; lia.
Qed.

Lemma in_entries s d b i : In (b, i) (entries s d) <-> (b < length (hd [] s))%nat /\ (i < d)%nat.
Proof. unfold entries. rewrite in_prod_iff, !in_seq. lia. Qed.

Theorem errors_spec theta s am mm av mv : compute_error theta s = Some (am, mm, av, mv) -> (2 <= length s)%nat ->
  0 <= am <= mm /\ 0 <= av <= mv /\
  (am = 0 <-> forall b i, (b < length (hd [] s))%nat -> (i < length theta)%nat -> col_mean (column s b i) = Some (nth i (bern_expected theta) 0)) /\
  (av = 0 <-> forall b i, (b < length (hd [] s))%nat -> (i < length theta)%nat -> col_var (column s b i) = Some (nth i (bern_var theta) 0)).
Proof.
  intros H Hs. rewrite (compute_error_eq theta s Hs) in H. injection H as <- <- <- <-.
  split; [split; [apply mse_nonneg | apply mse_le_max] |]. split; [split; [apply mse_nonneg | apply mse_le_max] |].
  assert (M : forall b i, exists v, col_mean (column s b i) = Some v).
  { intros b i. unfold column. rewrite (col_mean_map (fun t => nth i (nth b t []) 0)) by (destruct s; simpl in Hs; [lia | discriminate]). eexists; reflexivity. }
  assert (V : forall b i, exists v, col_var (column s b i) = Some v).
  { intros b i. unfold column. rewrite (col_var_map (fun t => nth i (nth b t []) 0)) by exact Hs. eexists; reflexivity. }
  split; rewrite mse_zero; split.
  - intros H b i Hb Hi. specialize (H _ (in_map _ _ _ (proj2 (in_entries s (length theta) b i) (conj Hb Hi)))). cbn [fst snd] in H.
    unfold means in H. cbn [fst snd] in H. destruct (M b i) as (v & Hv). rewrite Hv in *. cbn [val] in H. congruence.
  - intros H p Hp. apply in_map_iff in Hp. destruct Hp as ([b i] & <- & Hp). apply in_entries in Hp. cbn [fst snd]. unfold means. cbn [fst snd].
    rewrite H by tauto. reflexivity.
  - intros H b i Hb Hi. specialize (H _ (in_map _ _ _ (proj2 (in_entries s (length theta) b i) (conj Hb Hi)))). cbn [fst snd] in H.
    unfold vars in H. cbn [fst snd] in H. destruct (V b i) as (v & Hv). rewrite Hv in *. cbn [val] in H. congruence.
  - intros H p Hp. apply in_map_iff in Hp. destruct Hp as ([b i] & <- & Hp). apply in_entries in Hp. cbn [fst snd]. unfold vars. cbn [fst snd].
    rewrite H by tauto. reflexivity.
Qed.
