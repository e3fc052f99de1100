(** Text-infilling runs: the law of the sentences. *)
From Coq Require Import String Reals List Arith Lra Lia Ascii.
From Verif.Base Require Import RSum Cube Dist.
From Verif.Spec Require Import Chain Ergodic SamplerRun InfillSpec InfillRunSpec.
From Verif.Model Require Import MathUtil Gibbs FullRun Infill InfillRun.
From Verif.Proof Require Import AdaptiveRunProof BernEvalProof LangevinProof LangevinAdapt PathAuxCatProof InfillProof FullRunProof FullRunInvar ErgodicSamplers InfillRunProof MathUtilProof.
Import ListNotations.
Local Open Scope R_scope.

(** ** Independent copies of laws that are close *)
Lemma E_abs_in {A} (D : dist A) f c : is_prob D -> (forall a w, In (a, w) D -> Rabs (f a) <= c) -> Rabs (E D f) <= c.
Proof.
  intros [Hp Hm] Hf. unfold E. eapply Rle_trans; [apply rsum_abs|]. rewrite <- (Rmult_1_l c). rewrite <- Hm. rewrite <- E_const. unfold E. apply rsum_le. intros [a w] Hin. cbn [fst snd].
  rewrite Rabs_mult, (Rabs_pos_eq w) by (apply (Hp _ Hin)). apply Rmult_le_compat_l; [apply (Hp _ Hin)|apply (Hf a w Hin)].
Qed.
Lemma indep_close {A} (S : list A) (D P : dist A) delta : is_prob D -> is_prob P -> (forall a w, In (a, w) D -> In a S) -> (forall a w, In (a, w) P -> In a S) ->
  (forall f, (forall a, In a S -> Rabs (f a) <= 1) -> Rabs (E D f - E P f) <= delta) ->
  forall m F, (forall l, Forall (fun a => In a S) l -> Rabs (F l) <= 1) -> Rabs (E (indep (repeat D m)) F - E (indep (repeat P m)) F) <= INR m * delta.
Proof.
  intros HD HP SD SP Hc. induction m as [|m IH]; intros F HF.
  - cbn [repeat indep]. rewrite !E_ret. rewrite Rminus_diag_eq by reflexivity. rewrite Rabs_R0. cbn. lra.
  - cbn [repeat]. rewrite !E_indep_cons.
    set (G := fun a => E (indep (repeat D m)) (fun l => F (a :: l))). set (H := fun a => E (indep (repeat P m)) (fun l => F (a :: l))).
    replace (E D G - E P H) with ((E D G - E P G) + (E P G - E P H)) by ring. eapply Rle_trans; [apply Rabs_triang|].
    rewrite S_INR. assert (A1 : Rabs (E D G - E P G) <= delta).
    { apply Hc. intros a Ha. unfold G. assert (Q : is_prob (indep (repeat D m))) by (apply is_prob_indep; intros d Hd; apply repeat_spec in Hd; subst; exact HD).
      apply E_abs_in; [exact Q|].
      intros l w Hl. apply HF. constructor; [exact Ha|]. destruct (in_indep_repeat _ _ _ _ Hl) as [_ Hr]. eapply Forall_impl; [|exact Hr]. intros b (u & Hb). exact (SD b u Hb). }
    assert (A2 : Rabs (E P G - E P H) <= INR m * delta).
    { rewrite <- E_minus. apply E_abs_in; [exact HP|].
      intros a w Ha. unfold G, H. apply IH. intros l Hl. apply HF. constructor; [exact (SP a w Ha)|exact Hl]. }
    lra.
Qed.

(** ** The target *)
Lemma one_hot_eq C v : one_hot C v = map (fun c => if Nat.eqb c v then 1 else 0) (seq 0 C).
Proof. reflexivity. Qed.
Lemma fill_weight_exp lm d e x : (0 < lm_C lm)%nat -> well_shaped lm -> In x (states d (lm_C lm)) -> exp (t_fw (fill_target lm d e) x) = fill_weight lm e x.
Proof.
  intros HC Hw Hx. apply in_states in Hx. destruct Hx as [_ Hx]. rewrite Forall_forall in Hx. cbn [fill_target t_fw]. rewrite forward_value; [|exact HC|exact Hx|intros; apply Hw].
  unfold fill_weight. fold (one_hot (lm_C lm)). generalize (seq 0 (length x)). induction l as [|i l IH]; cbn [rsum rprod]; [apply exp_0|]. rewrite exp_plus, IH. f_equal.
  rewrite exp_ln; [reflexivity|]. apply softmax_sum. intros E0. pose proof (Hw (ids_of lm e) (x_pos e) (show_at (repeat 0 (lm_C lm)) (map (one_hot (lm_C lm)) x) i) i) as Hl.
  unfold net_of in E0. rewrite E0 in Hl. cbn in Hl. lia.
Qed.
Lemma softmax_low logits v M : (v < length logits)%nat -> (forall u, Rabs (nth u logits 0) <= M) -> - (2 * M + ln (INR (length logits))) <= ln (softmax_prob logits v) <= 0.
Proof.
  intros Hv HM. assert (Hne : logits <> []) by (intros ->; cbn in Hv; lia). assert (Hn : 0 < INR (length logits)) by (apply lt_0_INR; lia).
  assert (Hp : 0 < rsum logits exp) by (apply rsum_pos; auto; intros; apply exp_pos).
  assert (Hs : rsum logits exp <= INR (length logits) * exp M).
  { rewrite <- rsum_const. apply rsum_le. intros a Ha. destruct (In_nth logits a 0 Ha) as (u & _ & <-). specialize (HM u). pose proof (Rle_abs (nth u logits 0)). apply exp_le. lra. }
  split.
  - rewrite <- log_softmax_prob by exact Hne. unfold log_softmax. assert (ln (rsum logits exp) <= M + ln (INR (length logits))).
    { replace (M + ln (INR (length logits))) with (ln (INR (length logits) * exp M)) by (rewrite ln_mult, ln_exp by (auto using exp_pos); ring).
      destruct Hs as [Hs|Hs]; [left; apply ln_increasing; assumption|rewrite Hs; lra]. }
    specialize (HM v). pose proof (Rle_abs (- nth v logits 0)). rewrite Rabs_Ropp in *. lra.
  - rewrite <- ln_1. destruct (softmax_le1 logits v Hv) as [H|H]; [left; apply ln_increasing; [apply softmax_sum, Hne|exact H]|rewrite H; lra].
Qed.
Lemma fill_range lm d e M x y : (0 < lm_C lm)%nat -> well_shaped lm -> logits_within lm M -> In x (states d (lm_C lm)) -> In y (states d (lm_C lm)) ->
  Rabs (t_fw (fill_target lm d e) x - t_fw (fill_target lm d e) y) <= INR d * (2 * M + ln (INR (lm_C lm))).
Proof.
  intros HC Hw HM Hx Hy.
  assert (R1 : forall x, In x (states d (lm_C lm)) -> - (INR d * (2 * M + ln (INR (lm_C lm)))) <= t_fw (fill_target lm d e) x <= 0).
  { intros z Hz. apply in_states in Hz. destruct Hz as [Hl Hz]. rewrite Forall_forall in Hz. cbn [fill_target t_fw]. rewrite forward_value; [|exact HC|exact Hz|intros; apply Hw]. rewrite Hl.
    assert (B : forall i, In i (seq 0 d) -> - (2 * M + ln (INR (lm_C lm))) <= ln (softmax_prob (net_of lm e (show_at (repeat 0 (lm_C lm)) (map (one_hot (lm_C lm)) z) i) i) (nth i z 0%nat)) <= 0).
    { intros i Hi. apply in_seq in Hi. set (lg := net_of lm e _ i). assert (HL : length lg = lm_C lm) by apply Hw. rewrite <- HL. apply softmax_low; [|intros u; apply HM]. rewrite HL. apply Hz, nth_In. lia. }
    split.
    - replace (- (INR d * (2 * M + ln (INR (lm_C lm))))) with (rsum (seq 0 d) (fun _ => - (2 * M + ln (INR (lm_C lm))))) by (rewrite rsum_const, seq_length; ring). apply rsum_le. intros i Hi. apply B, Hi.
    - apply Rle_trans with (rsum (seq 0 d) (fun _ => 0)); [|rewrite rsum_const; lra]. apply rsum_le. intros i Hi. apply B, Hi. }
  pose proof (R1 x Hx). pose proof (R1 y Hy). apply Rabs_le. lra.
Qed.

Lemma weights_pos lm e d : (0 < lm_C lm)%nat -> well_shaped lm -> 0 < rsum (states d (lm_C lm)) (fill_weight lm e).
Proof.
  intros HC Hw. rewrite (rsum_ext _ _ (fun x => exp (t_fw (fill_target lm d e) x))) by (intros x Hx; symmetry; apply fill_weight_exp; assumption).
  apply rsum_pos; [|intros; apply exp_pos]. intros E0. assert (In (repeat 0%nat d) (states d (lm_C lm))) as Hin.
  { apply in_states. split; [apply repeat_length|]. apply Forall_forall. intros v Hv. apply repeat_spec in Hv. lia. }
  rewrite E0 in Hin. destruct Hin.
Qed.
Lemma target_good lm e d : (0 < lm_C lm)%nat -> well_shaped lm -> is_prob (target_law d (lm_C lm) (fill_weight lm e)) /\
  (forall x w, In (x, w) (target_law d (lm_C lm) (fill_weight lm e)) -> In x (states d (lm_C lm))) /\
  forall f, E (target_law d (lm_C lm) (fill_weight lm e)) f = mean (states d (lm_C lm)) (fun x => exp (t_fw (fill_target lm d e) x)) f.
Proof.
  intros HC Hw. pose proof (weights_pos lm e d HC Hw) as Hp. set (Z := rsum (states d (lm_C lm)) (fill_weight lm e)) in *.
  assert (HE : forall f, E (target_law d (lm_C lm) (fill_weight lm e)) f = rsum (states d (lm_C lm)) (fun x => fill_weight lm e x * f x) / Z).
  { intros f. unfold E, target_law. rewrite rsum_map. cbn [fst snd]. fold Z. unfold Rdiv. rewrite <- rsum_scal_r. apply rsum_ext. intros x _. ring. }
  split; [|split].
  - split.
    + intros p Hin. apply in_map_iff in Hin. destruct Hin as (x & <- & Hx). cbn [snd]. fold Z. apply Rlt_le, Rdiv_lt_0_compat; [|exact Hp]. rewrite <- (fill_weight_exp lm d) by assumption. apply exp_pos.
    + pose proof (HE (fun _ => 1)) as H1. rewrite (rsum_ext _ _ (fill_weight lm e)) in H1 by (intros; ring). fold Z in H1. unfold Rdiv in H1. rewrite Rinv_r in H1 by lra. rewrite E_const in H1. lra.
  - intros x w Hin. apply in_map_iff in Hin. destruct Hin as (y & [= <- _] & Hy). exact Hy.
  - intros f. rewrite HE. unfold mean. f_equal; [|f_equal; unfold Z]; apply rsum_ext; intros x Hx; rewrite (fill_weight_exp lm d) by assumption; reflexivity.
Qed.

(** ** Joint law of the resamples *)
Section Joint.
  Variable g dg : R.
  Variable rinit : bool.
  Variable lm : language.
  Variable d : nat.
  Variable k : sampler.
  Variable L : nat.
  Variable e : text.
  Let C := lm_C lm.
  Let T := fill_target lm d e.
  Hypothesis Hd : (0 < d)%nat.
  Hypothesis HC : (2 <= C)%nat.
  Hypothesis Hw : well_shaped lm.
  Hypothesis Hlen : length (x_pos e) = d.
  Hypothesis Hu : usable T k.

  Theorem joint_close m delta F : (forall l, Rabs (F l) <= 1) ->
    (forall x0 f, In x0 (states d C) -> (forall y, In y (states d C) -> Rabs (f y) <= 1) ->
      Rabs (E (sampler_run g dg T k L ([x0], init_state k)) (fun o => f (hd [] (fst o))) - mean (states d C) (fun x => exp (t_fw T x)) f) <= delta) ->
    Rabs (E (fill_entry g dg rinit lm d k L m None e) (fun o => F (fst o))
          - E (indep (repeat (target_law d C (fill_weight lm e)) m)) (fun fills => F (map (sentence_of lm e) fills))) <= INR m * delta.
  Proof.
    intros HF Hc. rewrite (entry_law g dg rinit lm d k L e Hlen). unfold outcome. cbn [fst]. destruct (start_good rinit lm d e Hd HC Hw Hlen) as [S1 S2].
    destruct (target_good lm e d ltac:(lia) Hw) as (P1 & P2 & P3).
    set (c := E (indep (repeat (target_law d C (fill_weight lm e)) m)) _).
    replace (E _ _ - c) with (E (fill_start rinit lm e) (fun x0 => E (indep (repeat (chain_of g dg lm d k L e x0) m)) (fun fills => F (map (sentence_of lm e) fills)) - c)).
    2:{ rewrite E_minus, E_const, (proj2 S1). ring. }
    apply E_abs_in; [exact S1|]. intros x0 w Hx0. apply S2 in Hx0. destruct (chain_good g dg lm d k L e Hd HC Hlen Hu x0 Hx0) as [C1 C2]. unfold c.
    apply (indep_close (states d C)); auto.
    intros f Hf. rewrite P3. unfold chain_of. rewrite E_dmap. apply Hc; assumption.
  Qed.

  Theorem each_sentence m i f : (i < m)%nat -> E (fill_entry g dg rinit lm d k L m None e) (fun o => f (nth i (fst o) [])) = E (fill_entry g dg rinit lm d k L 1 None e) (fun o => f (nth 0 (fst o) [])).
  Proof.
    intros Hi. rewrite !(entry_law g dg rinit lm d k L e Hlen). unfold outcome. cbn [fst]. destruct (start_good rinit lm d e Hd HC Hw Hlen) as [S1 S2]. apply E_ext_in. intros x0 w Hx0. apply S2 in Hx0.
    destruct (chain_good g dg lm d k L e Hd HC Hlen Hu x0 Hx0) as [C1 C2]. set (D := chain_of g dg lm d k L e x0) in *. cbn [repeat]. rewrite E_indep_1. cbn [map nth].
    rewrite (E_ext_in _ _ (fun l => f (sentence_of lm e (nth i l [])))).
    - pose proof (E_indep_marginal [] (repeat D m) (fun dd Hdd => eq_ind_r is_prob C1 (repeat_spec _ _ _ Hdd)) [i] (fun l => f (sentence_of lm e (nth 0 l [])))) as H. cbn [map nth] in H.
      rewrite H; [|constructor; [intros []|constructor]|constructor; [rewrite repeat_length; exact Hi|constructor]]. rewrite (nth_indep _ [] D), nth_repeat by (rewrite repeat_length; exact Hi). rewrite E_indep_1. reflexivity.
    - intros l v Hl. destruct (in_indep_repeat _ _ _ _ Hl) as [Hlen' _]. f_equal. rewrite (nth_indep _ [] (sentence_of lm e [])) by (rewrite map_length; lia). apply map_nth.
  Qed.
End Joint.
