(** The saved values of a whole annealing run. *)
From Coq Require Import String Reals List Arith ZArith Lra Lia.
From Verif.Base Require Import RSum Cube Dist.
From Verif.Spec Require Import Chain SamplerRun EvalSpec AisRunSpec.
From Verif.Model Require Import MathUtil BernEval FullRun Experiment GraphRun AisRun.
From Verif.Proof Require Import MHKernel AdaptiveRunProof ChainProof LangevinProof LangevinAdapt BernEvalProof CoOptProof FullRunProof FullRunInvar GuardRun PaddingProof ErgodicProof
  ExperimentProof GraphProof GraphRunProof AisProduct AisChains AisBias AisRunProof.
Import ListNotations.
Local Open Scope R_scope.

(** ** Sharing the batch *)
Lemma rows_concat {A} n : forall m (l : list A), length l = (m * n)%nat -> concat (map (fun i => row n i l) (seq 0 m)) = l.
Proof.
  induction m as [|m IH]; intros l Hl; [destruct l; [reflexivity|discriminate]|]. cbn [seq map concat]. rewrite <- seq_shift, map_map.
  rewrite (map_ext (fun i => row n (S i) l) (fun i => row n i (skipn n l))) by (intros; apply row_S). rewrite IH by (rewrite skipn_length; lia).
  unfold row at 1. cbn [Nat.mul skipn]. apply firstn_skipn.
Qed.

Lemma deal_shared k devices B xs : shared devices B -> length xs = B -> exists ds, deal k devices B xs = Some ds /\
  (forall o, In o ds -> snd (fst o) = init_state k /\ (forall x, In x (fst (fst o)) -> In x xs) /\ length (snd o) = length (fst (fst o))) /\
  all_chains ds = map (fun x => (x, 0)) xs.
Proof.
  intros Hs Hl. assert (Hz : forall l : list (list nat), combine l (repeat 0 (length l)) = map (fun x => (x, 0)) l).
  { induction l as [|x l IH]; [reflexivity|]. cbn. f_equal. exact IH. }
  destruct devices as [n|]; cbn [deal].
  - destruct Hs as [Hn [q Hq]]. rewrite Hq, Nat.mod_mul by lia. cbn [Nat.eqb]. rewrite Nat.div_mul by lia. eexists. split; [reflexivity|].
    assert (Hrow : forall i, In i (seq 0 n) -> length (row q i xs) = q) by (intros i Hi; apply in_seq in Hi; apply (row_length q i n); lia).
    split.
    + intros o Ho. apply in_map_iff in Ho. destruct Ho as (i & <- & Hi). cbn [fst snd]. split; [reflexivity|]. split; [|rewrite repeat_length, Hrow; auto].
      intros x Hx. unfold row in Hx. rewrite <- (firstn_skipn (i * q) xs). apply in_or_app. right. rewrite <- (firstn_skipn q (skipn (i * q) xs)). apply in_or_app. left. exact Hx.
    + unfold all_chains. rewrite map_map. cbn [fst snd].
      rewrite (map_ext_in _ (fun i => map (fun x => (x, 0)) (row q i xs))) by (intros i Hi; rewrite <- Hz, (Hrow i Hi); reflexivity).
      rewrite <- (map_map (fun i => row q i xs) (map (fun x => (x, 0)))), <- concat_map.
      rewrite rows_concat by lia. reflexivity.
  - eexists. split; [reflexivity|]. split.
    + intros o [<-|[]]. cbn [fst snd]. rewrite repeat_length. auto.
    + unfold all_chains. cbn [map concat fst snd]. rewrite app_nil_r, <- Hl, Hz. reflexivity.
Qed.

Lemma deal_unshared k n B xs : (0 < n)%nat -> ~ Nat.divide n B -> deal k (Some n) B xs = None.
Proof.
  intros Hn Hd. cbn [deal]. destruct (Nat.eqb_spec (B mod n) 0) as [H|H]; [|reflexivity]. exfalso. apply Hd. apply Nat.mod_divide; [lia|exact H].
Qed.

(** ** Values *)
Lemma logz_lme l : l <> [] -> logz l = log_mean_exp l.
Proof. intros H. rewrite <- (ln_exp (logz l)), (logz_mean l H). reflexivity. Qed.
Lemma columns_per_step L rows : rows <> [] -> columns L rows = per_step L rows.
Proof.
  intros Hr. apply (list_eq_nth 0).
  - rewrite columns_length. unfold per_step. rewrite map_length, seq_length. reflexivity.
  - rewrite columns_length. intros i Hi. rewrite nth_columns by exact Hi. unfold per_step.
    rewrite (nth_indep _ 0 ((fun i => log_mean_exp (map (fun r => nth i r 0) rows)) 0%nat)) by (rewrite map_length, seq_length; exact Hi).
    rewrite (map_nth (fun i => log_mean_exp (map (fun r => nth i r 0) rows))), seq_nth by exact Hi. cbn [Nat.add].
    apply logz_lme. destruct rows; [congruence|discriminate].
Qed.

Section Experiment.
  Variables (g dg lg : R) (net : list nat -> R) (mean : list R) (grad : nat -> list nat -> nat -> R) (d L : nat) (k : sampler) (M : R).
  Let T := ais_target lg net (Some mean) grad d L.
  Hypotheses (Hg : 0 <= g) (Hdg : 0 <= dg) (Hlg : 0 <= lg) (Hm : image_mean d mean) (Hdef : logs_defined lg mean) (Hb : bounded_by d net M) (HL : (0 < L)%nat) (Hd : (0 < d)%nat).
  Hypotheses (Hu : usable (T 0) k) (Hf : fixed_rule (T 0) k).
  Let Hu' : forall t, usable (T t) k.
  Proof. intros t. revert Hu. unfold usable, T. destruct k; auto. Qed.
  Let Hf' : forall t, fixed_rule (T t) k.
  Proof. intros t. revert Hf. unfold fixed_rule, T. destruct k; auto. Qed.
  Let Hdim : forall t, t_dim (T t) = d. Proof. reflexivity. Qed.
  Let HC : forall t, t_C (T t) = 2%nat. Proof. reflexivity. Qed.
  Definition chain_law : dist (list R) := bind (init_samples mean) (fun x => path (fun t => t_fw (T t)) (kern g dg T k) L 0 (x, 0)).

  Lemma chain_prob : is_prob chain_law.
  Proof.
    destruct (start_law mean (proj2 Hm)) as (H1 & H2 & _). apply is_prob_bind; [exact H1|]. intros x w Hx.
    apply (path_prob g dg T k d Hdim HC Hd Hu' Hf'). specialize (H2 x w Hx). rewrite (proj1 Hm) in H2. exact H2.
  Qed.

  Theorem experiment_chains devices B F : shared devices B ->
    E (ais_experiment g dg lg net (Some mean) grad d k devices B L) F = E (indep (repeat chain_law B)) (fun rows => F (columns L rows)).
  Proof.
    intros Hs. unfold ais_experiment. rewrite E_bind. cbn [ais_start]. fold T.
    destruct (start_law mean (proj2 Hm)) as (H1 & H2 & _). rewrite (proj1 Hm) in H2.
    rewrite (E_ext_in _ _ (fun xs => E (indep (map (fun x => path (fun t => t_fw (T t)) (kern g dg T k) L 0 (x, 0)) xs)) (fun rows => F (columns L rows)))).
    2: { intros xs w Hx. destruct (in_indep_repeat _ _ _ _ Hx) as [Hlen Hin]. destruct (deal_shared k devices B xs Hs Hlen) as (ds & -> & Hds & Hch).
      rewrite (run_chains g dg T k d Hdim HC Hd Hu' Hf' L 0 ds).
      - rewrite Hch, map_map. reflexivity.
      - intros o Ho. destruct (Hds o Ho) as (A1 & A2 & A3). split; [exact A1|]. split; [|exact A3]. intros x Hxo. rewrite Forall_forall in Hin.
        destruct (Hin x (A2 x Hxo)) as [u Hin']. exact (H2 x u Hin'). }
    unfold init_batch, chain_law. set (P := fun x => path (fun t => t_fw (T t)) (kern g dg T k) L 0 (x, 0)).
    assert (Hrep : forall (A : Type) (dd : dist A) n, repeat dd n = map (fun _ => dd) (seq 0 n)).
    { intros A dd n. generalize 0%nat. induction n as [|n IH]; intros b; [reflexivity|]. cbn [repeat seq map]. f_equal. apply IH. }
    rewrite !Hrep. rewrite (indep_bind (fun _ : nat => init_samples mean) (fun _ x => P x)). apply E_ext_in. intros xs w Hx.
    pose proof (in_indep_len _ _ _ Hx) as Hlen. rewrite map_length in Hlen. 
    replace (map (fun ax : list nat * nat => P (fst ax)) (combine xs (seq 0 B))) with (map P xs); [reflexivity|].
    rewrite <- (map_map fst P). f_equal. revert Hlen. generalize (seq 0 B). clear. induction xs as [|x xs IH]; intros [|j l] H; try discriminate; [reflexivity|]. cbn. f_equal. apply IH. cbn in H. lia.
  Qed.

  Let c := M / INR L.
  Lemma c_nonneg : 0 <= c.
  Proof. apply Rmult_le_pos; [apply (M_pos net d L M Hb HL Hd)|left; apply Rinv_0_lt_compat, lt_0_INR, HL]. Qed.

  Lemma chain_mean n : (n < L)%nat ->
    Rabs (E chain_law (fun r => exp (nth n r 0)) - partition mean net (INR (S n) / INR L)) <= ais_error lg (log_error (T 0) k dg + 2 * g) M d (S n) L.
  Proof.
    intros Hn. unfold chain_law. rewrite E_bind. destruct (start_law mean (proj2 Hm)) as (H1 & H2 & _). rewrite (proj1 Hm) in H2.
    rewrite (E_ext_in _ _ (gain (fun t => t_fw (T t)) (kern g dg T k) (S n) 0)).
    - apply (weight_mean lg net mean grad d L M Hlg Hm Hdef Hb HL Hd (kern g dg T k) (log_error (T 0) k dg + 2 * g)).
      + intros t. apply (kern_proper g dg T k d Hdim HC Hd Hu' Hf').
      + pose proof (log_error_nonneg (T 0) k dg Hdg). lra.
      + intros t. exact (kern_upto g dg T k d Hdim HC Hd Hu' Hf' t Hg Hdg).
    - intros x w Hx. rewrite (path_gain (states d 2)); [rewrite exp_0; ring| |exact Hn|exact (H2 x w Hx)].
      intros t. apply (kern_proper g dg T k d Hdim HC Hd Hu' Hf').
  Qed.

  Lemma chain_range r w : In (r, w) chain_law -> length r = L /\ forall n, (n < L)%nat -> Rabs (nth n r 0) <= INR (S n) / INR L * M.
  Proof.
    intros Hr. unfold chain_law in Hr. apply in_bind in Hr. destruct Hr as (x & v & v' & Hx & Hr).
    destruct (start_law mean (proj2 Hm)) as (H1 & H2 & _). rewrite (proj1 Hm) in H2.
    destruct (path_range (states d 2) (fun t => t_fw (T t)) (kern g dg T k) c) with (m := L) (t := 0%nat) (x := x) (w := 0) (r := r) (v := v') as [Hl Hn].
    - intros t. apply (kern_proper g dg T k d Hdim HC Hd Hu' Hf').
    - intros t y Hy. exact (f_step lg net mean grad d L M Hb HL t y Hy).
    - exact (H2 x v Hx).
    - exact Hr.
    - split; [exact Hl|]. intros n Hn'. specialize (Hn n Hn'). rewrite Rminus_0_r in Hn. replace (INR (S n) / INR L * M) with (INR (S n) * c) by (unfold c, Rdiv; ring). exact Hn.
  Qed.

  (** The saved value as a mean over chains. *)
  Lemma saved_mean n rows : (n < L)%nat -> rows <> [] -> exp (nth n (columns L rows) 0) = val (col_mean (map (fun r => exp (nth n r 0)) rows)).
  Proof.
    intros Hn Hr. rewrite nth_columns by exact Hn. rewrite logz_mean by (destruct rows; [congruence|discriminate]).
    rewrite col_mean_map by exact Hr. cbn [val]. rewrite rsum_map, map_length. reflexivity.
  Qed.

  Theorem experiment_mean devices B n : shared devices B -> (0 < B)%nat -> (n < L)%nat ->
    Rabs (E (ais_experiment g dg lg net (Some mean) grad d k devices B L) (fun zs => exp (nth n zs 0)) - partition mean net (INR (S n) / INR L))
    <= ais_error lg (log_error (T 0) k dg + 2 * g) M d (S n) L.
  Proof.
    intros Hs HB Hn. rewrite (experiment_chains devices B) by exact Hs.
    rewrite (E_ext_in _ _ (fun l => val (col_mean (map (fun r => exp (nth n r 0)) l)))).
    - rewrite mean_unbiased by (try exact (proj2 chain_prob); lia). apply chain_mean. exact Hn.
    - intros l w Hl. apply saved_mean; [exact Hn|]. destruct (in_indep_repeat _ _ _ _ Hl) as [Hlen _]. destruct l; [cbn in Hlen; lia|discriminate].
  Qed.

  Theorem experiment_spread devices B n : shared devices B -> (0 < B)%nat -> (n < L)%nat ->
    E (ais_experiment g dg lg net (Some mean) grad d k devices B L) (fun zs => (exp (nth n zs 0) - E chain_law (fun r => exp (nth n r 0))) ^ 2)
    <= exp (2 * (INR (S n) / INR L * M)) / INR B.
  Proof.
    intros Hs HB Hn. rewrite (experiment_chains devices B) by exact Hs. set (h := fun r => exp (nth n r 0)).
    rewrite (E_ext_in _ _ (fun l => (val (col_mean (map h l)) - E chain_law h) ^ 2)).
    - pose proof chain_prob as [Hp Hmass]. rewrite mean_error_law by (try exact Hmass; lia). unfold Rdiv. apply Rmult_le_compat_r; [left; apply Rinv_0_lt_compat, lt_0_INR; lia|].
      rewrite Variance_moments by exact Hmass. pose proof (pow2_ge_0 (E chain_law h)) as Hsq.
      assert (E chain_law (fun r => h r ^ 2) <= exp (2 * (INR (S n) / INR L * M))); [|unfold Rdiv in *; lra].
      assert (E1 : E chain_law (fun _ => exp (2 * (INR (S n) / INR L * M))) = exp (2 * (INR (S n) / INR L * M))) by (rewrite E_const, Hmass; ring).
      rewrite <- E1. apply E_le_in; [exact Hp|]. intros r w Hr. unfold h. replace (exp (nth n r 0) ^ 2) with (exp (2 * nth n r 0)) by (replace (2 * nth n r 0) with (nth n r 0 + nth n r 0) by ring; rewrite exp_plus; ring).
      apply exp_le. pose proof (proj2 (chain_range r w Hr) n Hn) as Ha. pose proof (Rle_abs (nth n r 0)). lra.
    - intros l w Hl. unfold h. rewrite saved_mean; [reflexivity|exact Hn|]. destruct (in_indep_repeat _ _ _ _ Hl) as [Hlen _]. destruct l; [cbn in Hlen; lia|discriminate].
  Qed.
End Experiment.
