(** The infilling network: what it depends on, attention, normalisation, bounds. *)
From Coq Require Import Reals List Arith Lia Lra.
From Verif.Base Require Import RSum.
From Verif.Model Require Import Utils Infill Bert.
From Verif.Spec Require Import BertSpec InfillSpec.
From Verif.Proof Require Import InfillProof.
Import ListNotations.
Local Open Scope R_scope.

(** ** Extensionality *)
Lemma dense_ext n W b x y j : (forall i, x i = y i) -> dense n W b x j = dense n W b y j.
Proof. intros H. unfold dense. f_equal. apply rsum_ext. intros i _. rewrite H. reflexivity. Qed.
Lemma mean_ext n x y : (forall i, x i = y i) -> mean_of n x = mean_of n y.
Proof. intros H. unfold mean_of. f_equal. apply rsum_ext. intros i _. apply H. Qed.
Lemma norm_ext n e x y j : (forall i, x i = y i) -> normalise n e x j = normalise n e y j.
Proof.
  intros H. unfold normalise, var_of. rewrite H, (mean_ext n x y H), (mean_ext n (fun i => x i * x i) (fun i => y i * y i)); [reflexivity|].
  intros i. rewrite H. reflexivity.
Qed.
Lemma ln_ext n e s b x y j : (forall i, x i = y i) -> layer_norm n e s b x j = layer_norm n e s b y j.
Proof. intros H. unfold layer_norm. rewrite (norm_ext n e x y j H). reflexivity. Qed.

Section Net.
  Variable B : bert.
  Variable L : nat.

  Lemma score_ext l mask mask' h g a q k : (k < L)%nat -> (forall p j, h p j = g p j) -> (forall p, (p < L)%nat -> attention_bias mask p = attention_bias mask' p) -> score B l mask h a q k = score B l mask' g a q k.
  Proof.
    intros Hk H M. unfold score. rewrite (M k Hk). f_equal. apply rsum_ext. intros j _.
    rewrite (dense_ext _ _ _ (h q) (g q)), (dense_ext _ _ _ (h k) (g k)) by auto. reflexivity.
  Qed.
  Lemma weight_ext l mask mask' h g a q k : (k < L)%nat -> (forall p j, h p j = g p j) -> (forall p, (p < L)%nat -> attention_bias mask p = attention_bias mask' p) -> weight B L l mask h a q k = weight B L l mask' g a q k.
  Proof.
    intros Hk H M. unfold weight. rewrite (score_ext l mask mask' h g a q k Hk H M). f_equal. apply rsum_ext. intros k' Hk'. apply in_seq in Hk'. rewrite (score_ext l mask mask' h g a q k') by (auto; lia). reflexivity.
  Qed.
  Lemma self_attention_ext l mask mask' h g q j : (forall p j, h p j = g p j) -> (forall p, (p < L)%nat -> attention_bias mask p = attention_bias mask' p) -> self_attention B L l mask h q j = self_attention B L l mask' g q j.
  Proof.
    intros H M. unfold self_attention. apply rsum_ext. intros k Hk. apply in_seq in Hk. rewrite (weight_ext l mask mask' h g) by (auto; lia). rewrite (dense_ext _ _ _ (h k) (g k)) by auto. reflexivity.
  Qed.
  Lemma attention_block_ext l mask mask' h g q j : (forall p j, h p j = g p j) -> (forall p, (p < L)%nat -> attention_bias mask p = attention_bias mask' p) -> attention_block B L l mask h q j = attention_block B L l mask' g q j.
  Proof.
    intros H M. unfold attention_block. apply ln_ext. intros i. rewrite H. f_equal. apply dense_ext. intros j'. apply self_attention_ext; auto.
  Qed.
  Lemma bert_layer_ext mask mask' l h g q j : (forall p j, h p j = g p j) -> (forall p, (p < L)%nat -> attention_bias mask p = attention_bias mask' p) -> bert_layer B L mask l h q j = bert_layer B L mask' l g q j.
  Proof.
    intros H M. unfold bert_layer. apply ln_ext. intros i. rewrite (attention_block_ext l mask mask' h g q i H M). f_equal. apply dense_ext. intros i'. f_equal.
    apply dense_ext. intros j'. apply attention_block_ext; auto.
  Qed.
  Lemma encoder_ext mask mask' h g : (forall p j, h p j = g p j) -> (forall p, (p < L)%nat -> attention_bias mask p = attention_bias mask' p) -> forall p j, encoder B L mask h p j = encoder B L mask' g p j.
  Proof.
    intros H M. unfold encoder. revert h g H. induction (layers B) as [|l ls IH]; intros h g H; cbn [fold_left]; auto.
    apply IH. intros p j. apply bert_layer_ext; auto.
  Qed.
  Lemma lm_head_ext x y v : (forall j, x j = y j) -> lm_head B x v = lm_head B y v.
  Proof.
    intros H. unfold lm_head. f_equal. apply rsum_ext. intros j _. f_equal. unfold transform. apply ln_ext. intros i. f_equal. apply dense_ext, H.
  Qed.

  (** ** Infilling *)
  Lemma one_hot_nth C v c : (c < C)%nat -> nth c (one_hot C v) 0 = if Nat.eqb c v then 1 else 0.
  Proof.
    intros H. unfold one_hot. rewrite (nth_indep _ 0 ((fun c => if Nat.eqb c v then 1 else 0) 0%nat)) by (rewrite map_length, seq_length; auto).
    rewrite (map_nth (fun c => if Nat.eqb c v then 1 else 0)), seq_nth by auto. reflexivity.
  Qed.
  Lemma one_hot_lookup x j : (x < vocab B)%nat -> one_hot_embedding B (one_hot (vocab B) x) j = word B x j.
  Proof.
    intros H. unfold one_hot_embedding.
    rewrite (rsum_ext _ _ (fun v => (if Nat.eqb v x then 1 else 0) * word B v j)) by (intros v Hv; apply in_seq in Hv; rewrite one_hot_nth by lia; reflexivity).
    rewrite (rsum_single _ _ x); [rewrite Nat.eqb_refl; ring|apply seq_NoDup|apply in_seq; lia|].
    intros v _ Hv. apply Nat.eqb_neq in Hv. rewrite Hv. ring.
  Qed.
  Lemma infill_row_filled ids pos xs ids' p : filled ids pos xs ids' ->
    infill_row pos (map (one_hot (vocab B)) xs) p = Some (one_hot (vocab B) (ids' p)) /\ In (ids' p) xs \/ infill_row pos (map (one_hot (vocab B)) xs) p = None /\ ids' p = ids p.
  Proof.
    intros (HL & Hin & Hout).
    assert (G : forall pos xs, length xs = length pos -> (forall i, (i < length pos)%nat -> ids' (nth i pos 0%nat) = nth i xs 0%nat) ->
      (infill_row pos (map (one_hot (vocab B)) xs) p = Some (one_hot (vocab B) (ids' p)) /\ In (ids' p) xs) \/ (infill_row pos (map (one_hot (vocab B)) xs) p = None /\ ~ In p pos)).
    { clear. induction pos as [|q pos IH]; intros [|x xs] HL Hin; try discriminate; cbn; auto. destruct (Nat.eqb_spec q p) as [->|N].
      - left. specialize (Hin 0%nat ltac:(cbn; lia)). cbn in Hin. rewrite Hin. auto.
      - destruct (IH xs) as [[E I]|[E I]]; [cbn in HL; lia| |left; auto|right; split; auto; intros [?|?]; auto].
        intros i Hi. exact (Hin (Datatypes.S i) ltac:(cbn; lia)). }
    destruct (G pos xs HL Hin) as [E|[E I]]; auto.
  Qed.

  Theorem infill_equals_lookup ids types mask pos xs ids' p v : filled ids pos xs ids' -> (forall x, In x xs -> (x < vocab B)%nat) ->
    logits B L ids types mask pos (map (one_hot (vocab B)) xs) p v = logits B L ids' types mask [] [] p v.
  Proof.
    intros HF Hx. unfold logits. apply lm_head_ext. apply encoder_ext; auto. intros q j. unfold embeddings. cbn [infill_row]. apply ln_ext. intros i. do 2 f_equal.
    destruct (infill_row_filled ids pos xs ids' q HF) as [[-> I]|[-> ->]]; auto. apply one_hot_lookup, Hx, I.
  Qed.

  Theorem infill_forgets ids ids2 types mask pos rows p v : length rows = length pos -> (forall q, ~ In q pos -> ids q = ids2 q) ->
    logits B L ids types mask pos rows p v = logits B L ids2 types mask pos rows p v.
  Proof.
    intros HL HE. unfold logits. apply lm_head_ext. apply encoder_ext; auto. intros q j. unfold embeddings. apply ln_ext. intros i. do 2 f_equal.
    assert (G : forall pos rows, length rows = length pos -> infill_row pos rows q = None -> ~ In q pos).
    { clear. induction pos as [|a pos IH]; intros [|r rows] HL; try discriminate; cbn; auto. destruct (Nat.eqb_spec a q); [discriminate|]. intros E [?|I]; auto.
      apply (IH rows); auto. }
    destruct (infill_row pos rows q) eqn:E; auto. rewrite HE; auto. apply (G pos rows); auto.
  Qed.

  Theorem full_mask ids types mask pos rows p v : (forall k, (k < L)%nat -> (0 < mask k)%nat) ->
    logits B L ids types mask pos rows p v = logits B L ids types (fun _ => 1%nat) pos rows p v.
  Proof.
    intros H. unfold logits. apply lm_head_ext. apply encoder_ext; auto. intros k Hk. unfold attention_bias. apply H, Nat.ltb_lt in Hk. rewrite Hk. reflexivity.
  Qed.
  Theorem zero_row ids types mask pos rows i p v m : (length pos = length rows)%nat -> (m < vocab B)%nat -> (forall j, word B m j = 0) ->
    logits B L ids types mask pos (show_at (repeat 0 (vocab B)) rows i) p v = logits B L ids types mask pos (show_at (one_hot (vocab B) m) rows i) p v.
  Proof.
    intros HL Hm Hw. unfold logits. apply lm_head_ext. apply encoder_ext; auto. intros q j. unfold embeddings. apply ln_ext. intros k. do 2 f_equal.
    assert (Z : one_hot_embedding B (repeat 0 (vocab B)) k = one_hot_embedding B (one_hot (vocab B) m) k).
    { rewrite one_hot_lookup, Hw by auto. apply rsum_const0. intros u _. rewrite nth_repeat. ring. }
    clear HL. revert rows i. induction pos as [|a pos IH]; intros [|r rows] [|i]; cbn; auto.
    all: destruct (Nat.eqb a q); auto.
    apply (IH rows i).
  Qed.

  (** ** Attention *)
  Lemma weight_denominator l mask h a q : (0 < L)%nat -> 0 < rsum (seq 0 L) (fun k' => exp (score B l mask h a q k')).
  Proof. intros H. apply rsum_pos; [destruct L; [lia|discriminate]|intros; apply exp_pos]. Qed.
  Theorem weights_law l mask h a q : (0 < L)%nat -> (forall k, 0 < weight B L l mask h a q k) /\ rsum (seq 0 L) (weight B L l mask h a q) = 1.
  Proof.
    intros H. assert (D := weight_denominator l mask h a q H). split.
    - intros k. unfold weight. apply Rdiv_lt_0_compat; [apply exp_pos|exact D].
    - unfold weight, Rdiv. rewrite rsum_scal_r. apply Rinv_r. lra.
  Qed.
  Theorem masked_weight l mask h a q k k' : (k < L)%nat -> (k' < L)%nat -> mask k = 0%nat -> (0 < mask k')%nat ->
    weight B L l mask h a q k <= exp (score B l (fun _ => 1%nat) h a q k - score B l (fun _ => 1%nat) h a q k' - 10 ^ 10).
  Proof.
    intros Hk Hk' M M'. assert (D := weight_denominator l mask h a q ltac:(lia)). unfold weight.
    assert (G : exp (score B l mask h a q k') <= rsum (seq 0 L) (fun k' => exp (score B l mask h a q k'))).
    { apply (rsum_ge_term (seq 0 L) (fun k' => exp (score B l mask h a q k')) k'); [apply in_seq; lia|intros; left; apply exp_pos]. }
    apply (Rle_trans _ (exp (score B l mask h a q k) / exp (score B l mask h a q k'))).
    - unfold Rdiv. apply Rmult_le_compat_l; [left; apply exp_pos|]. apply Rinv_le_contravar; [apply exp_pos|exact G].
    - right. unfold Rdiv. rewrite <- exp_Ropp, <- exp_plus. f_equal. unfold score, attention_bias.
      rewrite M. replace (0 <? mask k')%nat with true by (symmetry; apply Nat.ltb_lt; auto). cbn [Nat.ltb Nat.leb]. lra.
  Qed.

  (** ** Normalisation *)
  Lemma var_centred n x : (0 < n)%nat -> rsum (seq 0 n) (fun i => (x i - mean_of n x) * (x i - mean_of n x)) = INR n * var_of n x.
  Proof.
    intros H. assert (Hn : INR n <> 0) by (apply not_0_INR; lia). unfold var_of. set (m := mean_of n x).
    rewrite (rsum_ext _ _ (fun i => x i * x i - (2 * m * x i - m * m))) by (intros; ring). rewrite rsum_minus, rsum_minus, rsum_scal, rsum_const, seq_length.
    replace (rsum (seq 0 n) x) with (INR n * m) by (unfold m, mean_of; field; auto). unfold mean_of at 1. field. auto.
  Qed.
  Lemma var_nonneg n x : (0 < n)%nat -> 0 <= var_of n x.
  Proof.
    intros H. assert (0 < INR n) by (apply lt_0_INR; lia). assert (0 <= INR n * var_of n x).
    { rewrite <- var_centred by auto. apply rsum_nonneg. intros i _. apply Rle_0_sqr. }
    nra.
  Qed.
  Theorem normalised n e x : (0 < n)%nat -> 0 < e ->
    mean_of n (normalise n e x) = 0 /\ mean_of n (fun j => normalise n e x j * normalise n e x j) = var_of n x / (var_of n x + e)
    /\ forall j, (j < n)%nat -> Rabs (normalise n e x j) <= sqrt (INR n).
  Proof.
    intros H He. assert (Hn : 0 < INR n) by (apply lt_0_INR; lia). assert (Hv := var_nonneg n x H).
    assert (Hs : 0 < sqrt (var_of n x + e)) by (apply sqrt_lt_R0; lra). assert (Hq : sqrt (var_of n x + e) * sqrt (var_of n x + e) = var_of n x + e) by (apply sqrt_sqrt; lra).
    unfold normalise. generalize dependent (sqrt (var_of n x + e)). intros sd Hs Hq. split; [|split].
    - unfold mean_of at 1, Rdiv. rewrite rsum_scal_r, rsum_minus, rsum_const, seq_length. unfold mean_of. field. lra.
    - unfold mean_of at 1.
      rewrite (rsum_ext _ _ (fun j => (x j - mean_of n x) * (x j - mean_of n x) * / (var_of n x + e))).
      + rewrite rsum_scal_r, var_centred by auto. field. lra.
      + intros j _. rewrite <- Hq. field. lra.
    - intros j Hj. assert (G : (x j - mean_of n x) * (x j - mean_of n x) <= INR n * var_of n x).
      { rewrite <- var_centred by auto. apply (rsum_ge_term (seq 0 n) (fun i => (x i - mean_of n x) * (x i - mean_of n x)) j); [apply in_seq; lia|intros; apply Rle_0_sqr]. }
      rewrite <- sqrt_Rsqr_abs. apply sqrt_le_1_alt. unfold Rsqr.
      replace ((x j - mean_of n x) / sd * ((x j - mean_of n x) / sd)) with ((x j - mean_of n x) * (x j - mean_of n x) / (var_of n x + e)).
      2:{ rewrite <- Hq. field. lra. }
      apply (Rmult_le_reg_r (var_of n x + e)); [lra|]. unfold Rdiv. rewrite Rmult_assoc, Rinv_l by lra. nra.
  Qed.

  (** ** Bounds *)
  Let feature_bound := feature_bound B.
  Let logit_bound := logit_bound B.
  Let max_bound := max_bound B.
  Theorem logits_bounded ids types mask pos rows p v : (0 < hidden B)%nat -> 0 < eps B -> Rabs (logits B L ids types mask pos rows p v) <= logit_bound v.
  Proof.
    intros Hh He. unfold logits, lm_head, logit_bound, BertSpec.logit_bound. eapply Rle_trans; [apply Rabs_triang|]. apply Rplus_le_compat_r. eapply Rle_trans; [apply rsum_abs|].
    apply rsum_le. intros j Hj. apply in_seq in Hj. rewrite Rabs_mult. apply Rmult_le_compat_r; [apply Rabs_pos|]. unfold transform, layer_norm, BertSpec.feature_bound.
    eapply Rle_trans; [apply Rabs_triang|]. apply Rplus_le_compat_r. rewrite Rabs_mult. apply Rmult_le_compat_r; [apply Rabs_pos|].
    apply normalised; auto. lia.
  Qed.
  Lemma feature_bound_nonneg j : 0 <= feature_bound j.
  Proof. unfold feature_bound, BertSpec.feature_bound. assert (0 <= sqrt (INR (hidden B))) by apply sqrt_pos. assert (0 <= Rabs (t_scale B j)) by apply Rabs_pos. assert (0 <= Rabs (t_bias B j)) by apply Rabs_pos. nra. Qed.
  Lemma logit_bound_nonneg v : 0 <= logit_bound v.
  Proof.
    unfold logit_bound, BertSpec.logit_bound. fold feature_bound. assert (0 <= Rabs (d_bias B v)) by apply Rabs_pos. assert (0 <= rsum (seq 0 (hidden B)) (fun j => feature_bound j * Rabs (kernel B j v))); [|lra].
    apply rsum_nonneg. intros j _. apply Rmult_le_pos; [apply feature_bound_nonneg|apply Rabs_pos].
  Qed.
  Lemma logit_max v : (v < vocab B)%nat -> logit_bound v <= max_bound.
  Proof. intros H. apply (rsum_ge_term (seq 0 (vocab B)) logit_bound v); [apply in_seq; lia|intros; apply logit_bound_nonneg]. Qed.

  Lemma infill_net_nth ids types mask pos rows i v : (v < vocab B)%nat -> nth v (infill_net B L ids types mask pos rows i) 0 = logits B L ids types mask pos rows (nth i pos 0%nat) v.
  Proof.
    intros H. unfold infill_net. rewrite (nth_indep _ 0 (logits B L ids types mask pos rows (nth i pos 0%nat) 0%nat)) by (rewrite map_length, seq_length; auto).
    rewrite map_nth, seq_nth by auto. reflexivity.
  Qed.
  Lemma infill_net_length ids types mask pos rows i : length (infill_net B L ids types mask pos rows i) = vocab B.
  Proof. unfold infill_net. rewrite map_length, seq_length. reflexivity. Qed.

  Theorem token_prob_bound ids types mask pos rows i v : (0 < hidden B)%nat -> 0 < eps B -> (v < vocab B)%nat ->
    exp (- (2 * max_bound)) / INR (vocab B) <= softmax_prob (infill_net B L ids types mask pos rows i) v.
  Proof.
    intros Hh He Hv. assert (HV : 0 < INR (vocab B)) by (apply lt_0_INR; lia). unfold softmax_prob. rewrite infill_net_nth by auto. unfold infill_net. rewrite rsum_map.
    set (f := logits B L ids types mask pos rows (nth i pos 0%nat)).
    assert (Hf : forall u, (u < vocab B)%nat -> - max_bound <= f u <= max_bound).
    { intros u Hu. assert (H1 := logits_bounded ids types mask pos rows (nth i pos 0%nat) u Hh He). fold f in H1. assert (H2 := logit_max u Hu).
      unfold Rabs in H1. destruct (Rcase_abs (f u)); lra. }
    assert (HS : rsum (seq 0 (vocab B)) (fun u => exp (f u)) <= INR (vocab B) * exp max_bound).
    { rewrite <- (seq_length (vocab B) 0) at 2. rewrite <- rsum_const. apply rsum_le. intros u Hu. apply in_seq in Hu. destruct (Hf u ltac:(lia)) as [_ [G|G]]; [left; apply exp_increasing, G|rewrite G; lra]. }
    assert (HP : 0 < rsum (seq 0 (vocab B)) (fun u => exp (f u))) by (apply rsum_pos; [destruct (vocab B); [lia|discriminate]|intros; apply exp_pos]).
    apply (Rle_trans _ (exp (- max_bound) / (INR (vocab B) * exp max_bound))).
    - right. replace (- (2 * max_bound)) with (- max_bound + - max_bound) by ring. rewrite exp_plus, (exp_Ropp max_bound). field. split; [apply Rgt_not_eq, exp_pos|lra].
    - unfold Rdiv. apply Rmult_le_compat; [left; apply exp_pos|left; apply Rinv_0_lt_compat, Rmult_lt_0_compat; [exact HV|apply exp_pos]| |].
      + destruct (Hf v Hv) as [[G|G] _]; [left; apply exp_increasing, G|rewrite <- G; lra].
      + apply Rinv_le_contravar; auto.
  Qed.

  Theorem score_bounds ids types mask pos xs : (0 < hidden B)%nat -> 0 < eps B -> (forall x, In x xs -> (x < vocab B)%nat) -> (0 < vocab B)%nat ->
    - (INR (length xs) * (2 * max_bound + ln (INR (vocab B)))) <= forward_tokens (vocab B) (infill_net B L ids types mask pos) xs.
  Proof.
    intros Hh He Hx HV. assert (HV' : 0 < INR (vocab B)) by (apply lt_0_INR; lia). rewrite forward_value by (auto using infill_net_length).
    apply (Rle_trans _ (rsum (seq 0 (length xs)) (fun _ => - (2 * max_bound + ln (INR (vocab B)))))).
    - rewrite rsum_const, seq_length. lra.
    - apply rsum_le. intros i Hi. apply in_seq in Hi.
      replace (- (2 * max_bound + ln (INR (vocab B)))) with (ln (exp (- (2 * max_bound)) / INR (vocab B))).
      + set (q := softmax_prob _ _). assert (G : exp (- (2 * max_bound)) / INR (vocab B) <= q) by (apply token_prob_bound; auto; apply Hx, nth_In; lia).
        assert (0 < exp (- (2 * max_bound)) / INR (vocab B)) by (apply Rdiv_lt_0_compat; [apply exp_pos|auto]).
        destruct G as [G|G]; [left; apply ln_increasing; auto|rewrite G; lra].
      + unfold Rdiv. rewrite ln_mult, ln_exp, ln_Rinv by (auto using exp_pos, Rinv_0_lt_compat). lra.
  Qed.
End Net.

(** ** A small network *)
Definition small_bert : bert :=
  {| vocab := 104; hidden := 2; heads := 1; inter := 0; eps := 1; act := fun x => x; tie := false;
     word := fun v j => if Nat.eqb v 103 then (if Nat.eqb j 0 then 1 else -1) else 0; posn := fun _ _ => 0; ttype := fun _ _ => 0;
     e_scale := fun _ => 1; e_bias := fun _ => 0; layers := []; tW := fun i j => if Nat.eqb i j then 1 else 0; tb := fun _ => 0; t_scale := fun _ => 1; t_bias := fun _ => 0;
     decoder := fun j v => if Nat.eqb v 0 then (if Nat.eqb j 0 then 1 else 0) else 0; d_bias := fun _ => 0 |}.

Lemma norm2 x a : x 0%nat = a -> x 1%nat = - a -> normalise 2 1 x 0 = a / sqrt (a * a + 1) /\ normalise 2 1 x 1 = - (a / sqrt (a * a + 1)).
Proof.
  intros H0 H1. assert (I2 : INR 2 = 2) by (cbn; lra). assert (M : mean_of 2 x = 0) by (unfold mean_of; cbn [seq rsum]; rewrite H0, H1, I2; lra).
  assert (V : var_of 2 x = a * a) by (unfold var_of; rewrite M; unfold mean_of; cbn [seq rsum]; rewrite H0, H1; rewrite I2; lra).
  unfold normalise. rewrite M, V, H0, H1. split; unfold Rdiv; ring.
Qed.
Lemma small_head x a v : x 0%nat = a -> x 1%nat = - a -> lm_head small_bert x v = if Nat.eqb v 0 then a / sqrt (a * a + 1) else 0.
Proof.
  intros H0 H1. unfold lm_head, transform, kernel, layer_norm. cbn [hidden eps act tie t_scale t_bias tW tb decoder d_bias small_bert seq rsum].
  set (y := fun j => dense 2 (fun i j => if Nat.eqb i j then 1 else 0) (fun _ => 0) x j).
  destruct (norm2 y a) as [E0 E1]; [unfold y, dense; cbn; lra|unfold y, dense; cbn; lra|]. rewrite E0, E1. destruct (Nat.eqb v 0); cbn; ring.
Qed.
Lemma small_logits (row : list R) a v : one_hot_embedding small_bert row 0 = a -> one_hot_embedding small_bert row 1 = - a ->
  logits small_bert 1 (fun _ => 0%nat) (fun _ => 0%nat) (fun _ => 1%nat) [0%nat] [row] 0 v
  = if Nat.eqb v 0 then let s := a / sqrt (a * a + 1) in s / sqrt (s * s + 1) else 0.
Proof.
  intros H0 H1. unfold logits, encoder. cbn [layers small_bert fold_left]. fold small_bert. unfold embeddings. cbn [infill_row Nat.eqb]. cbv zeta.
  destruct (norm2 (fun j => one_hot_embedding small_bert row j + ttype small_bert 0 j + posn small_bert 0 j) a) as [E0 E1];
    [cbn [ttype posn small_bert]; lra|cbn [ttype posn small_bert]; lra|].
  apply small_head; unfold layer_norm; cbn [e_scale e_bias hidden eps small_bert]; [rewrite <- E0|rewrite <- E1]; cbn [hidden eps small_bert]; ring.
Qed.

Lemma small_prob (row : list R) a : one_hot_embedding small_bert row 0 = a -> one_hot_embedding small_bert row 1 = - a ->
  softmax_prob (infill_net small_bert 1 (fun _ => 0%nat) (fun _ => 0%nat) (fun _ => 1%nat) [0%nat] [row] 0) 0
  = let s := a / sqrt (a * a + 1) in let t := s / sqrt (s * s + 1) in exp t / (exp t + 103).
Proof.
  intros H0 H1. cbv zeta. set (t := a / sqrt (a * a + 1) / sqrt (a / sqrt (a * a + 1) * (a / sqrt (a * a + 1)) + 1)).
  unfold softmax_prob. rewrite infill_net_nth by (cbn [vocab small_bert]; lia). unfold infill_net. rewrite rsum_map. cbn [nth].
  rewrite (rsum_ext _ _ (fun v => if Nat.eqb v 0 then exp t else 1)).
  2:{ intros v _. rewrite (small_logits row a v H0 H1). cbv zeta. fold t. destruct (Nat.eqb v 0); [reflexivity|apply exp_0]. }
  rewrite (small_logits row a 0 H0 H1). cbn [Nat.eqb]. cbv zeta. fold t. f_equal.
  change (seq 0 (vocab small_bert)) with (0%nat :: seq 1 103). cbn [rsum Nat.eqb].
  rewrite (rsum_ext (seq 1 103) _ (fun _ => 1)) by (intros v Hv; apply in_seq in Hv; destruct v; [lia|reflexivity]). rewrite rsum_const, seq_length.
  replace (INR 103) with 103 by (rewrite INR_IZR_INZ; reflexivity). ring.
Qed.

Theorem small_mask_differs :
  forward_tokens 104 (infill_net small_bert 1 (fun _ => 0%nat) (fun _ => 0%nat) (fun _ => 1%nat) [0%nat]) [0%nat]
  < ln (softmax_prob (infill_net small_bert 1 (fun _ => 0%nat) (fun _ => 0%nat) (fun _ => 1%nat) [0%nat] [one_hot 104 mask_token] 0) 0).
Proof.
  rewrite forward_value; [|lia|intros x [<-|[]]; lia|intros; apply (infill_net_length small_bert)].
  cbn [List.length seq rsum nth]. rewrite Rplus_0_r.
  replace (show_at (repeat 0 104) (map (one_hot 104) [0%nat]) 0) with [repeat 0 104] by reflexivity.
  rewrite (small_prob (repeat 0 104) 0).
  2,3: unfold one_hot_embedding; rewrite rsum_const0; [ring|intros v _; rewrite nth_repeat; ring].
  rewrite (small_prob (one_hot 104 mask_token) 1).
  2,3: rewrite (one_hot_lookup small_bert mask_token) by (cbn [vocab small_bert]; unfold mask_token; lia); reflexivity.
  cbv zeta. set (t := 1 / sqrt (1 * 1 + 1) / sqrt (1 / sqrt (1 * 1 + 1) * (1 / sqrt (1 * 1 + 1)) + 1)).
  assert (Ht : 0 < t).
  { unfold t. assert (0 < sqrt (1 * 1 + 1)) by (apply sqrt_lt_R0; lra). assert (0 < 1 / sqrt (1 * 1 + 1)) by (apply Rdiv_lt_0_compat; lra).
    apply Rdiv_lt_0_compat; [auto|]. apply sqrt_lt_R0. nra. }
  assert (Z : 0 / sqrt (0 * 0 + 1) / sqrt (0 / sqrt (0 * 0 + 1) * (0 / sqrt (0 * 0 + 1)) + 1) = 0) by (unfold Rdiv; ring). rewrite Z, exp_0.
  assert (1 < exp t) by (rewrite <- exp_0; apply exp_increasing, Ht). apply ln_increasing; [lra|].
  apply (Rmult_lt_reg_r (exp t + 103)); [lra|]. unfold Rdiv at 2. rewrite Rmult_assoc, Rinv_l by lra. lra.
Qed.

(** ** Heads *)
Lemma score_scale B l mask h a q k u w : (0 < hidden B / heads B)%nat -> (0 < mask k)%nat ->
  (forall j, (a * (hidden B / heads B) <= j < S a * (hidden B / heads B))%nat -> dense (hidden B) (qW l) (qb l) (h q) j = u /\ dense (hidden B) (kW l) (kb l) (h k) j = w) ->
  score B l mask h a q k = u * w * sqrt (INR (hidden B / heads B)).
Proof.
  intros Hd Hm H. unfold score, attention_bias. destruct (Nat.ltb_spec 0 (mask k)) as [_|]; [|lia]. set (n := (hidden B / heads B)%nat) in *.
  rewrite (rsum_ext _ _ (fun _ => u / sqrt (INR n) * w)).
  - rewrite rsum_const, seq_length. assert (0 < INR n) by (apply lt_0_INR; exact Hd). pose proof (sqrt_lt_R0 _ H0). rewrite <- (sqrt_def (INR n)) at 1 by lra. field. lra.
  - intros j Hj. apply in_seq in Hj. destruct (H j) as [-> ->]; [cbn; lia|reflexivity].
Qed.

Lemma head_columns B L l l' mask h q a : (forall i j, (a * (hidden B / heads B) <= j < S a * (hidden B / heads B))%nat ->
    qW l i j = qW l' i j /\ qb l j = qb l' j /\ kW l i j = kW l' i j /\ kb l j = kb l' j /\ vW l i j = vW l' i j /\ vb l j = vb l' j) ->
  forall j, (a * (hidden B / heads B) <= j < S a * (hidden B / heads B))%nat -> self_attention B L l mask h q j = self_attention B L l' mask h q j.
Proof.
  set (n := (hidden B / heads B)%nat). intros H j Hj.
  assert (E : (j / n)%nat = a).
  { symmetry. apply (Nat.div_unique j n a (j - a * n)); cbn in Hj; lia. }
  assert (D : forall i, (a * n <= i < S a * n)%nat -> forall x, dense (hidden B) (qW l) (qb l) x i = dense (hidden B) (qW l') (qb l') x i
     /\ dense (hidden B) (kW l) (kb l) x i = dense (hidden B) (kW l') (kb l') x i /\ dense (hidden B) (vW l) (vb l) x i = dense (hidden B) (vW l') (vb l') x i).
  { intros i Hi x. unfold dense. destruct (H 0%nat i Hi) as (_ & -> & _ & -> & _ & ->). repeat split; f_equal; apply rsum_ext; intros i' _; destruct (H i' i Hi) as (E1 & _ & E2 & _ & E3 & _); rewrite ?E1, ?E2, ?E3; reflexivity. }
  assert (Sc : forall k, score B l mask h a q k = score B l' mask h a q k).
  { intros k. unfold score. f_equal. apply rsum_ext. intros i Hi. apply in_seq in Hi. fold n in Hi. destruct (D i ltac:(cbn; lia) (h q)) as (-> & _). destruct (D i ltac:(cbn; lia) (h k)) as (_ & -> & _). reflexivity. }
  unfold self_attention. fold n. rewrite E. apply rsum_ext. intros k _. destruct (D j Hj (h k)) as (_ & _ & ->). f_equal.
  unfold weight. rewrite Sc. f_equal. apply rsum_ext. intros k' _. rewrite Sc. reflexivity.
Qed.
