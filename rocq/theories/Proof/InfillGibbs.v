(** Text-infilling runs with the Gibbs sampler: how close the sentences are to independent target draws; how the shared start ties them. *)
From Coq Require Import String Reals List Arith Lra Lia Ascii.
From Verif.Base Require Import RSum Cube Dist.
From Verif.Spec Require Import Chain Ergodic SamplerRun InfillSpec InfillRunSpec.
From Verif.Model Require Import MathUtil Gibbs FullRun Infill InfillRun.
From Verif.Proof Require Import ScanProof ErgodicProof AdaptiveRunProof BernEvalProof CatGWGProof LangevinProof LangevinAdapt InfillProof FullRunProof FullRunInvar ErgodicSamplers InfillRunProof InfillRunLaw.
Import ListNotations.
Local Open Scope R_scope.

(** ** One chain *)
Lemma gibbs_chain g dg T n : forall t x f, E (sampler_run g dg T SGibbs n ([x], TG (Nat.iter t (gibbs_update (t_dim T) (t_C T)) g_init))) (fun o => f (hd [] (fst o)))
  = E (run_seq (fun t => gibbs_step (t_fw T) (t_C T) (g_index (Nat.iter t (gibbs_update (t_dim T) (t_C T)) g_init))) n t x) f.
Proof.
  induction n as [|n IH]; intros t x f; [cbn [sampler_run run_seq]; rewrite !E_ret; reflexivity|].
  cbn [sampler_run run_seq]. rewrite !E_bind. unfold sampler_step. cbn [fst snd map]. rewrite E_dmap, E_indep_1. apply E_ext. intros y. cbn [fst snd].
  rewrite <- (IH (Datatypes.S t) y f). reflexivity.
Qed.
Theorem gibbs_joint g dg rinit lm d e L m M F : (0 < d)%nat -> (2 <= lm_C lm)%nat -> well_shaped lm -> logits_within lm M -> length (x_pos e) = d -> (forall l, Rabs (F l) <= 1) ->
  Rabs (E (fill_entry g dg rinit lm d SGibbs L m None e) (fun o => F (fst o))
        - E (indep (repeat (target_law d (lm_C lm) (fill_weight lm e)) m)) (fun fills => F (map (sentence_of lm e) fills)))
  <= INR m * (2 * (1 - exp (- (INR d * (2 * M + ln (INR (lm_C lm))))) ^ d) ^ (L / d)).
Proof.
  intros Hd HC Hw HM Hlen HF. apply joint_close; auto; [exact I|].
  intros x0 f Hx0 Hf. pose proof (gibbs_chain g dg (fill_target lm d e) L 0 x0 f) as H. change (TG (Nat.iter 0 _ g_init)) with (init_state SGibbs) in H. rewrite H. clear H. cbn [fill_target t_C t_dim].
  apply gibbs_state_rate; auto; [lia|]. intros x y Hx Hy. apply fill_range; auto. lia.
Qed.

(** ** Two positions that want to agree *)
Section Agree.
  Variable c : R.
  Hypothesis Hc : 1 <= c.
  Definition agree_lm : language :=
    {| lm_C := 2; lm_cls := 0; lm_sep := 0;
       lm_logits := fun _ _ rows i => let r := nth (1 - i) rows [] in [ln c * nth 0 r 0; ln c * nth 1 r 0];
       lm_grad := fun _ _ _ => 0; lm_decode := map ascii_of_nat |}.
  Definition agree_text : text := {| x_tokens := [103%nat; 103%nat]; x_pos := [1%nat; 2%nat] |}.
  Let T := fill_target agree_lm 2 agree_text.
  Let s := c * c / (c * c + 1).

  Lemma agree_shaped : well_shaped agree_lm.
  Proof. intros ids pos rows i. reflexivity. Qed.
  Lemma agree_weight v w : (v < 2)%nat -> (w < 2)%nat -> exp (t_fw T [v; w]) = (if Nat.eqb v w then c * c else 1) / ((c + 1) * (c + 1)).
  Proof.
    intros Hv Hw. unfold T. rewrite fill_weight_exp; [|cbn; lia|apply agree_shaped|apply in_states; split; [reflexivity|constructor; [exact Hv|constructor; [exact Hw|constructor]]]].
    assert (X1 : exp (ln c * 1) = c) by (rewrite Rmult_1_r; apply exp_ln; lra). assert (X0 : exp (ln c * 0) = 1) by (rewrite Rmult_0_r; apply exp_0).
    unfold fill_weight, softmax_prob, net_of, agree_lm, agree_text, show_at.
    destruct v as [|[|v]]; [| |lia]; (destruct w as [|[|w]]; [| |lia]); cbn -[exp Rmult Rplus Rdiv Rinv ln]; rewrite ?X1, ?X0; field; lra.
  Qed.
  Lemma s_pos : 0 < s <= 1.
  Proof. unfold s. assert (1 <= c * c) by nra. split; [apply Rdiv_lt_0_compat; lra|]. apply Rmult_le_reg_r with (c * c + 1); [lra|]. unfold Rdiv. rewrite Rmult_assoc, Rinv_l by lra. lra. Qed.

  (** Resampling one position moves to the value of the other. *)
  Lemma agree_step i x f : (i < 2)%nat -> In x (states 2 2) -> (forall y, 0 <= f y) -> s * f (repeat (nth (1 - i) x 0%nat) 2) <= E (gibbs_step (t_fw T) 2 i x) f.
  Proof.
    intros Hi Hx Hf. apply in_states in Hx. destruct Hx as [Hl Hx]. destruct x as [|v [|w [|]]]; try discriminate. inversion Hx as [|? ? Hv Hx']; subst. inversion Hx' as [|? ? Hw _]; subst.
    unfold gibbs_step, gibbs_scores, categorical. cbn [Nat.sub seq map].
    rewrite E_dmap. unfold E, weighted. rewrite rsum_map. cbn [length seq rsum fst snd nth]. unfold sumexp. cbn [rsum].
    assert (K : 1 <= c * c) by nra. set (D := (c + 1) * (c + 1)). assert (HD : 0 < D) by (unfold D; nra).
    assert (G : forall a b y z, y = repeat (nth (1 - i) [v; w] 0%nat) 2 -> a = c * c / D -> b = 1 / D -> s * f (repeat (nth (1 - i) [v; w] 0%nat) 2) <= a / (a + (b + 0)) * f y + (b / (a + (b + 0)) * f z + 0)).
    { intros a b y z -> -> ->. unfold s. replace (c * c / D / (c * c / D + (1 / D + 0))) with (c * c / (c * c + 1)) by (field; lra).
      replace (1 / D / (c * c / D + (1 / D + 0))) with (1 / (c * c + 1)) by (field; lra).
      assert (0 <= 1 / (c * c + 1) * f z) by (apply Rmult_le_pos; [apply Rlt_le, Rdiv_lt_0_compat; lra|apply Hf]). lra. }
    assert (G2 : forall a b y z, z = repeat (nth (1 - i) [v; w] 0%nat) 2 -> a = 1 / D -> b = c * c / D -> s * f (repeat (nth (1 - i) [v; w] 0%nat) 2) <= a / (a + (b + 0)) * f y + (b / (a + (b + 0)) * f z + 0)).
    { intros a b y z -> -> ->. unfold s. replace (c * c / D / (1 / D + (c * c / D + 0))) with (c * c / (c * c + 1)) by (field; lra).
      replace (1 / D / (1 / D + (c * c / D + 0))) with (1 / (c * c + 1)) by (field; lra).
      assert (0 <= 1 / (c * c + 1) * f y) by (apply Rmult_le_pos; [apply Rlt_le, Rdiv_lt_0_compat; lra|apply Hf]). lra. }
    destruct i as [|[|i]]; [| |lia]; (destruct v as [|[|v]]; [| |lia]); (destruct w as [|[|w]]; [| |lia]);
      first [apply G; [reflexivity|rewrite agree_weight by lia; reflexivity|unfold add_mod; cbn [upd map nth Nat.add Nat.modulo Nat.divmod fst snd Nat.sub]; rewrite agree_weight by lia; reflexivity]
            |apply G2; [reflexivity|rewrite agree_weight by lia; reflexivity|unfold add_mod; cbn [upd map nth Nat.add Nat.modulo Nat.divmod fst snd Nat.sub]; rewrite agree_weight by lia; reflexivity]].
  Qed.
  Let kern := fun t => gibbs_step (t_fw T) 2 (t mod 2).
  Lemma gibbs_nonneg t x f : (forall y, 0 <= f y) -> 0 <= E (kern t x) f.
  Proof.
    intros Hf. unfold kern, gibbs_step. apply E_nonneg; [|exact Hf]. apply (is_prob_dmap _ _ (is_prob_categorical (gibbs_scores (t_fw T) 2 (t mod 2) x) ltac:(discriminate))).
  Qed.
  Lemma kern_nonneg n : forall t x f, (forall y, 0 <= f y) -> 0 <= E (run_seq kern n t x) f.
  Proof.
    induction n as [|n IH]; intros t x f Hf; [cbn [run_seq]; rewrite E_ret; apply Hf|]. cbn [run_seq]. rewrite E_bind. apply gibbs_nonneg. intros y. apply IH, Hf.
  Qed.
  Lemma agree_in v : (v < 2)%nat -> In (repeat v 2) (states 2 2).
  Proof. intros Hv. apply in_states. split; [reflexivity|]. constructor; [exact Hv|constructor; [exact Hv|constructor]]. Qed.
  Lemma agree_stay n : forall t v f, (v < 2)%nat -> (forall y, 0 <= f y) -> s ^ n * f (repeat v 2) <= E (run_seq kern n t (repeat v 2)) f.
  Proof.
    induction n as [|n IH]; intros t v f Hv Hf; [cbn [run_seq pow]; rewrite E_ret; lra|]. cbn [run_seq pow]. rewrite E_bind.
    assert (Ht : (t mod 2 < 2)%nat) by (apply Nat.mod_upper_bound; lia).
    pose proof (agree_step (t mod 2) (repeat v 2) (fun y => E (run_seq kern n (Datatypes.S t) y) f) Ht (agree_in v Hv) (fun y => kern_nonneg n _ y f Hf)) as H.
    replace (nth (1 - t mod 2) (repeat v 2) 0%nat) with v in H by (destruct (t mod 2) as [|[|]]; [reflexivity|reflexivity|lia]).
    eapply Rle_trans; [|exact H]. rewrite Rmult_assoc. apply Rmult_le_compat_l; [pose proof s_pos; lra|]. apply IH; assumption.
  Qed.
  Lemma agree_run g dg L x0 f : (1 <= L)%nat -> In x0 (states 2 2) -> (forall y, 0 <= f y) ->
    s ^ L * f (repeat (nth 1 x0 0%nat) 2) <= E (chain_of g dg agree_lm 2 SGibbs L agree_text x0) f.
  Proof.
    intros HL Hx Hf. unfold chain_of. rewrite E_dmap. pose proof (gibbs_chain g dg T L 0 x0 f) as H. change (TG (Nat.iter 0 _ g_init)) with (init_state SGibbs) in H. fold T. rewrite H. clear H.
    rewrite (run_seq_ext _ kern); [|intros t; unfold kern, T; cbn [fill_target t_C t_dim agree_lm lm_C]; rewrite gibbs_iter_state by lia; reflexivity].
    destruct L as [|L]; [lia|]. cbn [run_seq pow]. rewrite E_bind.
    pose proof (agree_step 0 x0 (fun y => E (run_seq kern L 1 y) f) ltac:(lia) Hx (fun y => kern_nonneg L _ y f Hf)) as H.
    eapply Rle_trans; [|exact H]. rewrite Rmult_assoc. apply Rmult_le_compat_l; [pose proof s_pos; lra|]. apply agree_stay; [|exact Hf].
    apply in_states in Hx. destruct Hx as [Hl Hx]. rewrite Forall_forall in Hx. apply Hx, nth_In. lia.
  Qed.
  Lemma agree_start rinit h : E (fill_start rinit agree_lm agree_text) (fun x => h (nth 1 x 0%nat)) = (h 0%nat + h 1%nat) / 2.
  Proof.
    unfold fill_start. cbn [agree_text x_pos length agree_lm lm_C]. destruct rinit.
    - unfold init_randint. cbn [repeat]. rewrite E_indep_cons. rewrite (E_ext _ _ (fun _ => (h 0%nat + h 1%nat) / 2)).
      + rewrite E_const. unfold uniform, mass, weighted. cbn. lra.
      + intros a. rewrite E_indep_1. cbn [nth]. unfold E, uniform, weighted. cbn. lra.
    - cbn [seq map]. rewrite E_indep_cons. rewrite (E_ext _ _ (fun _ => (h 0%nat + h 1%nat) / 2)).
      + rewrite E_const. rewrite (proj2 (is_prob_categorical (net_of agree_lm agree_text (repeat (one_hot 2 mask_token) 2) 0) ltac:(discriminate))). lra.
      + intros a. rewrite E_indep_1. unfold net_of, categorical, E, weighted, sumexp. rewrite rsum_map. cbn -[Rmult Rplus Rdiv Rinv exp ln]. rewrite !Rmult_0_r, !exp_0. field.
  Qed.

  Let q L := s ^ L.
  Let one (o : list (list ascii) * list (list ascii)) (v : nat) : R := if list_eq_dec (list_eq_dec ascii_dec) (fst o) [sentence_of agree_lm agree_text (repeat v 2)] then 1 else 0.
  Lemma same_range l : 0 <= same l <= 1.
  Proof. unfold same. destruct (list_eq_dec _ _ _); lra. Qed.
  Lemma q_pos L : 0 <= q L.
  Proof. unfold q. apply pow_le. pose proof s_pos. lra. Qed.
  Lemma agree_joint g dg rinit L : (1 <= L)%nat -> q L * q L <= E (fill_entry g dg rinit agree_lm 2 SGibbs L 2 None agree_text) (fun o => same (fst o)).
  Proof.
    intros HL. rewrite (entry_law g dg rinit agree_lm 2 SGibbs L agree_text eq_refl). destruct (start_good rinit agree_lm 2 agree_text ltac:(lia) ltac:(cbn; lia) agree_shaped eq_refl) as [S1 S2].
    replace (q L * q L) with (E (fill_start rinit agree_lm agree_text) (fun _ => q L * q L)) by (rewrite E_const, (proj2 S1); ring).
    apply E_le_in; [exact (proj1 S1)|]. intros x0 w Hx0. apply S2 in Hx0. cbn [repeat]. rewrite E_indep_cons.
    assert (Q := q_pos L). set (D := chain_of g dg agree_lm 2 SGibbs L agree_text x0). set (v := nth 1 x0 0%nat).
    assert (HD : is_prob D) by (apply (chain_good g dg agree_lm 2 SGibbs L agree_text ltac:(lia) ltac:(cbn; lia) eq_refl I x0 Hx0)).
    set (F := fun a => E (indep [D]) (fun l => same (fst (outcome agree_lm 2 agree_text None (a :: l))))).
    assert (F0 : forall a, 0 <= F a). { intros a. unfold F. rewrite E_indep_1. apply E_nonneg; [exact (proj1 HD)|]. intros b. apply same_range. }
    apply Rle_trans with (q L * F (repeat v 2)); [|apply agree_run; assumption].
    apply Rmult_le_compat_l; [exact Q|]. unfold F. rewrite E_indep_1. cbn [outcome fst map].
    apply Rle_trans with (q L * same [sentence_of agree_lm agree_text (repeat v 2); sentence_of agree_lm agree_text (repeat v 2)]).
    - unfold same. cbn [nth]. destruct (list_eq_dec _ _ _) as [|N]; [lra|destruct (N eq_refl)].
    - apply (agree_run g dg L x0 (fun b => same [sentence_of agree_lm agree_text (repeat v 2); sentence_of agree_lm agree_text b])); auto. intros b. apply same_range.
  Qed.
  Lemma agree_single g dg rinit L v : (1 <= L)%nat -> (v < 2)%nat -> q L / 2 <= E (fill_entry g dg rinit agree_lm 2 SGibbs L 1 None agree_text) (fun o => one o v).
  Proof.
    intros HL Hv. rewrite (entry_law g dg rinit agree_lm 2 SGibbs L agree_text eq_refl). destruct (start_good rinit agree_lm 2 agree_text ltac:(lia) ltac:(cbn; lia) agree_shaped eq_refl) as [S1 S2].
    replace (q L / 2) with (E (fill_start rinit agree_lm agree_text) (fun x => (fun u => if Nat.eqb u v then q L else 0) (nth 1 x 0%nat))).
    2:{ rewrite (agree_start rinit (fun u => if Nat.eqb u v then q L else 0)). destruct v as [|[|]]; [| |lia]; cbn [Nat.eqb]; lra. }
    apply E_le_in; [exact (proj1 S1)|]. intros x0 w Hx0. apply S2 in Hx0. cbn [repeat]. rewrite E_indep_1. cbv beta.
    assert (HD : is_prob (chain_of g dg agree_lm 2 SGibbs L agree_text x0)) by (apply (chain_good g dg agree_lm 2 SGibbs L agree_text ltac:(lia) ltac:(cbn; lia) eq_refl I x0 Hx0)).
    assert (O : forall o, 0 <= one o v) by (intros o; unfold one; destruct (list_eq_dec _ _ _); lra).
    destruct (Nat.eqb_spec (nth 1 x0 0%nat) v) as [E0|]; [|apply E_nonneg; [exact (proj1 HD)|intros; apply O]].
    replace (q L) with (q L * one (outcome agree_lm 2 agree_text None [repeat (nth 1 x0 0%nat) 2]) v); [apply (agree_run g dg L x0 (fun b => one (outcome agree_lm 2 agree_text None [b]) v)); auto|].
    unfold one. cbn [outcome fst map]. rewrite E0. destruct (list_eq_dec _ _ _) as [|N]; [lra|destruct (N eq_refl)].
  Qed.
  Lemma agree_apart g dg rinit L : (1 <= L)%nat ->
    E (indep (repeat (fill_entry g dg rinit agree_lm 2 SGibbs L 1 None agree_text) 2)) (fun os => same (map (fun o => nth 0 (fst o) []) os)) <= 1 - q L * q L / 2.
  Proof.
    intros HL. set (D := fill_entry g dg rinit agree_lm 2 SGibbs L 1 None agree_text).
    assert (HD : is_prob D) by (apply (entry_good g dg rinit agree_lm 2 SGibbs L agree_text ltac:(lia) ltac:(cbn; lia) agree_shaped eq_refl I)).
    pose proof (agree_single g dg rinit L 0 HL ltac:(lia)) as A0. pose proof (agree_single g dg rinit L 1 HL ltac:(lia)) as A1. fold D in A0, A1.
    cbn [repeat]. rewrite E_indep_cons.
    set (N0 := E D (fun o => one o 0%nat)) in *. set (N1 := E D (fun o => one o 1%nat)) in *.
    apply Rle_trans with (E D (fun a => 1 - one a 0%nat * N1 - one a 1%nat * N0)).
    - apply E_le_in; [exact (proj1 HD)|]. intros a w _. rewrite E_indep_1. cbn [map].
      replace (1 - one a 0%nat * N1 - one a 1%nat * N0) with (E D (fun b => 1 - one a 0%nat * one b 1%nat - one a 1%nat * one b 0%nat)).
      2:{ rewrite (E_minus D (fun b => 1 - one a 0%nat * one b 1%nat)), E_minus, !E_scal, E_const, (proj2 HD). unfold N0, N1. ring. }
      apply E_le_in; [exact (proj1 HD)|]. intros b u _. unfold same, one. cbn [nth].
      assert (Hne : sentence_of agree_lm agree_text (repeat 0%nat 2) <> sentence_of agree_lm agree_text (repeat 1%nat 2)) by (vm_compute; discriminate).
      destruct (list_eq_dec ascii_dec (nth 0 (fst a) []) (nth 0 (fst b) [])) as [Es|];
        repeat match goal with |- context [list_eq_dec (list_eq_dec ascii_dec) ?x ?y] => destruct (list_eq_dec (list_eq_dec ascii_dec) x y) as [?Q|?Q] end; try lra;
        exfalso; first [congruence|repeat match goal with Hx : fst _ = [_] |- _ => rewrite Hx in Es; revert Hx end; intros; cbn [nth] in Es; congruence].
    - rewrite (E_minus D (fun a => 1 - one a 0%nat * N1)), E_minus, E_const, (proj2 HD).
      rewrite (E_ext D (fun a => one a 0%nat * N1) (fun a => N1 * one a 0%nat)), (E_ext D (fun a => one a 1%nat * N0) (fun a => N0 * one a 1%nat)), !E_scal by (intros; ring). fold N0 N1.
      assert (Q := q_pos L). nra.
  Qed.
End Agree.

(** ** The numbers *)
Lemma bernoulli_low n : forall x, 0 <= x <= 1 -> 1 - INR n * x <= (1 - x) ^ n.
Proof.
  induction n as [|n IH]; intros x Hx; [cbn; lra|]. rewrite S_INR. cbn [pow]. specialize (IH x Hx). assert (0 <= INR n) by apply pos_INR. nra.
Qed.
Theorem shared_start g dg rinit L : (1 <= L)%nat -> exists lm e, well_shaped lm /\ (2 <= lm_C lm)%nat /\ length (x_pos e) = 2%nat /\ placed e /\
  9/10 <= E (fill_entry g dg rinit lm 2 SGibbs L 2 None e) (fun o => same (fst o)) /\
  E (indep (repeat (fill_entry g dg rinit lm 2 SGibbs L 1 None e) 2)) (fun os => same (map (fun o => nth 0 (fst o) []) os)) <= 6/10.
Proof.
  intros HL. assert (H1 : 1 <= INR L) by (replace 1 with (INR 1) by reflexivity; apply le_INR, HL). set (c := 20 * INR L). assert (Hc : 1 <= c) by (unfold c; lra).
  exists (agree_lm c), agree_text. split; [apply agree_shaped|]. split; [cbn; lia|]. split; [reflexivity|].
  split. { split; [repeat constructor; cbn; intuition lia|]. constructor; [cbn; lia|constructor; [cbn; lia|constructor]]. }
  pose proof (agree_joint c Hc g dg rinit L HL) as J. pose proof (agree_apart c Hc g dg rinit L HL) as A.
  set (s := c * c / (c * c + 1)) in *. assert (K : 9/10 <= s ^ L * s ^ L).
  { rewrite <- pow_add. assert (Es : s = 1 - / (c * c + 1)) by (unfold s; field; nra). rewrite Es. assert (P : 0 < c * c + 1) by nra.
    assert (Hi : 0 < / (c * c + 1)) by (apply Rinv_0_lt_compat, P).
    assert (Hi2 : / (c * c + 1) * (c * c + 1) = 1) by (field; lra). set (i := / (c * c + 1)) in *.
    assert (Hi1 : i <= 1) by nra. eapply Rle_trans; [|apply bernoulli_low; lra]. rewrite plus_INR.
    assert (INR L * i <= 1/400). { unfold c in Hi2. nra. } lra. }
  split; [lra|]. lra.
Qed.
