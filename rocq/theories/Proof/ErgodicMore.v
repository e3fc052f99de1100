(** Convergence forces invariance; Hamming ball. *)
From Coq Require Import Reals List Lra Lia Arith.
From Verif.Base Require Import RSum Cube Dist MH.
From Verif.Spec Require Import Chain Ergodic.
From Verif.Model Require Import MathUtil Gibbs HammingBall.
From Verif.Proof Require Import MathUtilProof GibbsProof ScanProof HammingBallProof HammingBallGeneral ErgodicProof ErgodicSamplers SameTargetProof.
Import ListNotations.
Local Open Scope R_scope.

Lemma mean_scal {A} (S : list A) pi c f : mean S pi (fun y => c * f y) = c * mean S pi f.
Proof.
  unfold mean. rewrite (rsum_ext S _ (fun y => c * (pi y * f y))) by (intros; ring). rewrite rsum_scal. unfold Rdiv. ring.
Qed.

(** If the law of the run approaches the target from every start, every kernel of a periodic schedule keeps the target. *)
Theorem converges_invariant {A} (S : list A) pi (k : nat -> A -> dist A) m t :
  S <> [] -> 0 < rsum S pi -> (0 < m)%nat -> (forall s, k (m + s)%nat = k s) -> (forall s, proper S (k s)) ->
  converges S pi k -> invariant S pi (k t).
Proof.
  intros HS HZ Hm Hper Hpr Hc.
  assert (Hk : forall q, k (q * m + t)%nat = k t).
  { induction q as [| q IH]; [reflexivity |]. replace (Datatypes.S q * m + t)%nat with (m + (q * m + t))%nat by lia. rewrite Hper. exact IH. }
  destruct S as [| x0 S0] eqn:ES; [congruence |]. rewrite <- ES in *. assert (Hx0 : In x0 S) by (rewrite ES; left; reflexivity). clear ES HS S0.
  assert (Hb : forall g, (forall y, In y S -> Rabs (g y) <= 1) -> mean S pi (fun y => E (k t y) g) = mean S pi g).
  { intros g Hg. apply cond_eq. intros eps He. destruct (Hc (eps / 3) ltac:(lra)) as [N HN].
    assert (Hg' : forall y, In y S -> Rabs (E (k t y) g) <= 1).
    { intros y Hy. destruct (Hpr t y Hy) as [Hp Hs]. apply Rabs_le.
      assert (forall z, In z S -> - 1 <= g z <= 1) as Hr by (intros z Hz; specialize (Hg z Hz); revert Hg; unfold Rabs; destruct (Rcase_abs (g z)); lra).
      exact (proper_range S (k t) y g (-1) 1 (Hpr t) Hy Hr). }
    pose proof (HN (N * m + t)%nat x0 _ ltac:(nia) Hx0 Hg') as H1.
    pose proof (HN (N * m + t + 1)%nat x0 g ltac:(nia) Hx0 Hg) as H2.
    rewrite run_seq_add in H2. rewrite (E_ext _ _ (fun y => E (k t y) g)) in H2.
    2: { intros y. rewrite Nat.add_0_l. cbn [run_seq]. rewrite E_bind, Hk. apply E_ext. intros z. apply E_ret. }
    apply Rabs_def1; [| apply Ropp_lt_cancel; rewrite Ropp_involutive];
    revert H1 H2; unfold Rabs; repeat destruct Rcase_abs; lra. }
  intros f. set (M := 1 + rsum S (fun y => Rabs (f y))).
  assert (HM : 0 < M).
  { unfold M. pose proof (rsum_nonneg S (fun y => Rabs (f y)) (fun y _ => Rabs_pos (f y))). lra. }
  assert (Hf : forall y, In y S -> Rabs (/ M * f y) <= 1).
  { intros y Hy. rewrite Rabs_mult, (Rabs_pos_eq (/ M)) by (left; apply Rinv_0_lt_compat; exact HM).
    pose proof (rsum_ge_term S (fun y => Rabs (f y)) y Hy (fun z _ => Rabs_pos (f z))) as Hle. cbv beta in Hle.
    apply Rmult_le_reg_l with M; [exact HM |]. rewrite <- Rmult_assoc, Rinv_r by lra. unfold M. lra. }
  specialize (Hb _ Hf). rewrite mean_scal in Hb.
  assert (He : mean S pi (fun y => E (k t y) (fun z => / M * f z)) = / M * mean S pi (fun y => E (k t y) f)).
  { rewrite <- mean_scal. unfold mean. f_equal. apply rsum_ext. intros y _. rewrite E_scal. reflexivity. }
  rewrite He in Hb. apply Rmult_eq_reg_l in Hb; [| apply Rinv_neq_0_compat; lra].
  unfold mean, Rdiv in Hb. apply Rmult_eq_reg_r in Hb; [exact Hb |]. apply Rinv_neq_0_compat. lra.
Qed.

(** ** Hamming ball *)
Section Hamming.
  Variables (l0 l1 : R) (fw : list nat -> R) (d C b : nat).
  Hypothesis Hb : (1 <= b)%nat.
  Hypothesis HC : (2 <= C)%nat.
  Hypothesis Hd : (1 <= d)%nat.
  Let k := fun t => hb_step [l0; l1] fw C b ((t * b) mod d).

  Lemma hb_select_support start u y w : In u (states d C) -> In (y, w) (hb_select fw C b start u) -> In y (states d C).
  Proof.
    intros Hu Hy. unfold hb_select, dmap in Hy. apply in_map_iff in Hy. destruct Hy as ([i v] & Heq & Hi). apply (f_equal fst) in Heq. rename Heq into Hy. change (nth i (hb_candidates C b start u) [] = y) in Hy.
    unfold categorical, weighted in Hi. apply in_map_iff in Hi. destruct Hi as (i' & Hi1 & Hi2). injection Hi1 as -> _. apply in_seq in Hi2. rewrite map_length in Hi2.
    rewrite hb_candidates_slots in Hy. rewrite <- Hy. rewrite hb_candidates_slots, map_length in Hi2.
    rewrite (nth_map_lt (fun s => slot_move C start s u) _ i None []) by lia.
    apply (slot_move_states d C b); [exact Hu |]. apply nth_In. lia.
  Qed.

  Lemma hb_step_proper start : proper (states d C) (hb_step [l0; l1] fw C b start).
  Proof.
    intros x Hx. split; [apply is_prob_hb_step; auto; discriminate |]. intros y w Hy.
    unfold hb_step, bind in Hy. apply in_flat_map in Hy. destruct Hy as ([rad p] & _ & Hy). apply in_map_iff in Hy. destruct Hy as ([z v] & Heq & Hz).
    cbn [fst snd] in *. injection Heq as -> _. unfold hb_chain, bind in Hz. apply in_flat_map in Hz. destruct Hz as ([u q] & Hu & Hz).
    apply in_map_iff in Hz. destruct Hz as ([z' v'] & Heq & Hz). cbn [fst snd] in *. injection Heq as -> _.
    apply (hb_select_support start u y v'); [| exact Hz]. destruct (Nat.eqb rad 0).
    - destruct Hu as [Hu | []]. injection Hu as <- _. exact Hx.
    - unfold compute_u, bind in Hu. apply in_flat_map in Hu. destruct Hu as ([idx r] & Hi & Hu). apply in_map_iff in Hu. destruct Hu as ([u' r'] & Heq & Hu).
      cbn [fst snd] in *. injection Heq as -> _. apply in_flat_map in Hu. destruct Hu as ([v0 r0] & _ & Hu). apply in_map_iff in Hu. destruct Hu as ([u'' r''] & Heq & Hu).
      cbn [fst snd] in *. injection Heq as -> _. destruct Hu as [Hu | []]. injection Hu as <- _.
      unfold shift_at. apply upd_in_states; [exact Hx |]. apply Nat.mod_upper_bound. lia.
  Qed.

  (** Staying, and changing one entry of the block, are always possible. *)
  Lemma hb_move start x y i : In x (states d C) -> In y (states d C) -> (start <= i < start + b)%nat -> (i < d)%nat ->
    (forall j, (j < d)%nat -> j <> i -> nth j y 0%nat = nth j x 0%nat) -> can_move sdec (hb_step [l0; l1] fw C b start) x y.
  Proof.
    intros Hx Hy Hi Hid He. unfold can_move. rewrite E_hb_step by assumption.
    set (f := fun z => if sdec z y then 1 else 0). assert (Hf : forall z, 0 <= f z) by (intros z; unfold f; destruct sdec; lra).
    assert (Hp : 0 < p0 l0 l1 < 1) by apply p0_range.
    assert (Hs : exists s, In s (slots b C) /\ slot_move C start s x = y).
    { pose proof Hx as Hx'. pose proof Hy as Hy'. apply in_states in Hx', Hy'.
      destruct (Nat.eq_dec (nth i x 0%nat) (nth i y 0%nat)) as [Heq | Hne].
      - exists None. split; [left; reflexivity |]. cbn [slot_move]. apply (list_eq_nth 0%nat); [lia |]. intros j Hj.
        destruct (Nat.eq_dec j i) as [-> | Hn]; [exact Heq | symmetry; apply He; lia].
      - pose proof (in_states_nth d C x i Hx Hid). pose proof (in_states_nth d C y i Hy Hid).
        set (a := nth i x 0%nat) in *. set (c := nth i y 0%nat) in *.
        exists (Some (i - start, if a <? c then c - a else C + c - a)%nat). split.
        + apply in_slots. destruct (Nat.ltb_spec a c); lia.
        + cbn [slot_move]. unfold shift_at. replace (start + (i - start))%nat with i by lia. fold a.
          assert (Hm : ((a + (if a <? c then c - a else C + c - a)) mod C = c)%nat).
          { destruct (Nat.ltb_spec a c).
            - replace (a + (c - a))%nat with c by lia. apply Nat.mod_small. lia.
            - replace (a + (C + c - a))%nat with (c + 1 * C)%nat by lia. rewrite Nat.mod_add by lia. apply Nat.mod_small. lia. }
          rewrite Hm. apply (list_eq_nth 0%nat); [rewrite upd_length; lia |]. intros j Hj. rewrite upd_length in Hj.
          destruct (Nat.eq_dec j i) as [-> | Hn]; [apply nth_upd_eq; lia | rewrite nth_upd_neq by auto; symmetry; apply He; lia]. }
    destruct Hs as (s & Hs & Hm).
    assert (H1 : 0 < E (hb_select fw C b start x) f).
    { rewrite E_hb_select. eapply Rlt_le_trans; [| apply (rsum_ge_term _ _ s Hs)].
      - cbv beta. rewrite Hm. unfold f. destruct (sdec y y); [| congruence]. rewrite Rmult_1_r. apply Rdiv_lt_0_compat; [apply exp_pos | apply hb_Z_pos].
      - intros s' _. apply Rmult_le_pos; [left; apply Rdiv_lt_0_compat; [apply exp_pos | apply hb_Z_pos] | apply Hf]. }
    assert (H2 : 0 <= E (compute_u C b start x) (fun u => E (hb_select fw C b start u) f)).
    { rewrite E_compute_u by assumption. apply rsum_nonneg. intros j _. apply rsum_nonneg. intros v _. apply Rmult_le_pos.
      - left. apply Rinv_0_lt_compat, lt_0_INR. nia.
      - rewrite E_hb_select. apply rsum_nonneg. intros s' _. apply Rmult_le_pos; [left; apply Rdiv_lt_0_compat; [apply exp_pos | apply hb_Z_pos] | apply Hf]. }
    nra.
  Qed.

  Theorem hb_converges_iff :
    converges (states d C) (fun x => exp (fw x)) k <-> forall t, invariant (states d C) (fun x => exp (fw x)) (k t).
  Proof.
    assert (HZ : 0 < rsum (states d C) (fun x => exp (fw x))) by (apply Z_pos; lia).
    assert (Hne : states d C <> []) by (intros E0; rewrite E0 in HZ; cbn in HZ; lra).
    assert (Hpr : forall t, proper (states d C) (k t)) by (intros t; apply hb_step_proper).
    split.
    - intros H t. apply (converges_invariant (states d C) _ k d t Hne HZ Hd); [| exact Hpr | exact H].
      intros s. unfold k. rewrite Nat.mul_add_distr_r. replace (d * b + s * b)%nat with (s * b + b * d)%nat by lia. rewrite Nat.mod_add by lia. reflexivity.
    - intros H. apply (periodic_converges sdec _ _ _ (NoDup_states d C) Hpr (d * d)); [nia | | exact H | intros; left; apply exp_pos | exact HZ |].
      + intros t. unfold k. rewrite Nat.mul_add_distr_r. replace (d * d * b + t * b)%nat with (t * b + (d * b) * d)%nat by lia. rewrite Nat.mod_add by lia. reflexivity.
      + intros x y Hx Hy.
        set (z := fun j => mix d (j / d + (if (j / d) / b <? j mod d then 1 else 0)) x y).
        assert (Hz0 : z 0%nat = x). { unfold z. rewrite Nat.div_0_l, Nat.mod_0_l, Nat.div_0_l by lia. cbn. apply (mix_0 d C); assumption. }
        assert (Hzd : z (d * d)%nat = y). { unfold z. rewrite Nat.div_mul, Nat.mod_mul by lia. apply (mix_all d C); [lia | lia | assumption]. }
        enough (HM : can_move sdec (run_seq k (d * d) 0) (z 0%nat) (z (d * d)%nat)) by (rewrite Hz0, Hzd in HM; exact HM).
        apply (move_path sdec (states d C) k Hpr z); [intros; apply (mix_in d C); assumption |].
        intros j Hj. rewrite Nat.add_0_l. unfold k.
        pose proof (Nat.div_mod j d ltac:(lia)) as Hdm. pose proof (Nat.mod_upper_bound j d ltac:(lia)) as Hr.
        set (q := (j / d)%nat) in *. set (r := (j mod d)%nat) in *.
        assert (Hq : (q < d)%nat) by nia. assert (Hqb : (q / b <= q)%nat) by (apply Nat.div_le_upper_bound; nia).
        assert (Hqb2 : (q / b * b <= q < q / b * b + b)%nat). { pose proof (Nat.div_mod q b ltac:(lia)). pose proof (Nat.mod_upper_bound q b ltac:(lia)). nia. }
        assert (HS : z (Datatypes.S j) = mix d (q + (if q / b <=? r then 1 else 0)) x y).
        { unfold z. destruct (Nat.eq_dec (Datatypes.S r) d) as [He | Hn].
          - replace (Datatypes.S j) with (0 + (q + 1) * d)%nat by nia. rewrite Nat.div_add, Nat.mod_add, Nat.div_0_l, Nat.mod_0_l by lia.
            rewrite Nat.add_0_l. replace (q / b <=? r) with true by (symmetry; apply Nat.leb_le; lia).
            replace ((q + 1) / b <? 0) with false by reflexivity. f_equal. lia.
          - replace (Datatypes.S j) with (Datatypes.S r + q * d)%nat by nia. rewrite Nat.div_add, Nat.mod_add, Nat.div_small, Nat.mod_small by lia.
            rewrite Nat.add_0_l. reflexivity. }
        assert (H0 : z j = mix d (q + (if q / b <? r then 1 else 0)) x y) by reflexivity.
        rewrite H0, HS.
        destruct (Nat.eq_dec (q / b) r) as [He | Hn].
        * replace (q / b <? r) with false by (symmetry; apply Nat.ltb_ge; lia). replace (q / b <=? r) with true by (symmetry; apply Nat.leb_le; lia).
          assert (Hst : ((j * b) mod d = q / b * b)%nat).
          { rewrite Hdm, <- He, Nat.mul_add_distr_r. replace (d * q * b + q / b * b)%nat with (q / b * b + (q * b) * d)%nat by lia. rewrite Nat.mod_add by lia. apply Nat.mod_small. lia. }
          rewrite Hst. apply (hb_move _ _ _ q); [apply (mix_in d C); assumption | apply (mix_in d C); assumption | lia | exact Hq |].
          intros i Hi Hne'. rewrite !(nth_mix d) by exact Hi. destruct (Nat.ltb_spec i (q + 1)), (Nat.ltb_spec i (q + 0)); try lia; reflexivity.
        * assert (Hs : (if q / b <? r then 1 else 0)%nat = (if q / b <=? r then 1 else 0)%nat) by (destruct (Nat.ltb_spec (q / b) r), (Nat.leb_spec (q / b) r); lia).
          rewrite <- Hs. pose proof (Nat.mod_upper_bound (j * b) d ltac:(lia)).
          apply (hb_move _ _ _ ((j * b) mod d)%nat); [apply (mix_in d C); assumption | apply (mix_in d C); assumption | lia | lia | reflexivity].
  Qed.
End Hamming.

(** The run of the code, started with [make_init_state]. *)
Theorem hb_run_converges_iff fw d C b : (1 <= b)%nat -> (2 <= C)%nat -> (1 <= d)%nat ->
  let k := fun t => hb_step (hamming_logit b C) fw C b (g_index (Nat.iter t (hb_update d C b) g_init)) in
  converges (states d C) (fun x => exp (fw x)) k <-> forall t, invariant (states d C) (fun x => exp (fw x)) (k t).
Proof.
  intros Hb HC Hd k.
  assert (Hk : forall t, k t = hb_step [1; INR (b * (C - 1))] fw C b ((t * b) mod d)) by (intros t; unfold k; rewrite hb_iter_state, hamming_logit_eq by lia; reflexivity).
  pose proof (hb_converges_iff 1 (INR (b * (C - 1))) fw d C b Hb HC Hd) as H. cbv zeta in H. split.
  - intros Hc t. rewrite Hk. apply H. eapply converges_ext; [| exact Hc]. intros; symmetry; apply Hk.
  - intros Hi. eapply converges_ext; [exact Hk |]. apply H. intros t. rewrite <- Hk. apply Hi.
Qed.

Theorem hb_run_not_converges d C b : (2 <= b <= d)%nat -> (2 <= C)%nat ->
  ~ converges (states d C) (fun x => exp (peak d x)) (fun t => hb_step (hamming_logit b C) (peak d) C b (g_index (Nat.iter t (hb_update d C b) g_init))).
Proof.
  intros Hb HC Hc. pose proof (proj1 (hb_run_converges_iff (peak d) d C b ltac:(lia) HC ltac:(lia)) Hc 0%nat) as H.
  cbn [Nat.iter g_init g_index] in H. exact (hb_every_block_refuted d C b 0 ltac:(lia) HC ltac:(lia) H).
Qed.

Theorem hb_one_converges fw d C : (1 <= d)%nat -> (2 <= C)%nat ->
  converges (states d C) (fun x => exp (fw x)) (fun t => hb_step (hamming_logit 1 C) fw C 1 (g_index (Nat.iter t (hb_update d C 1) g_init))).
Proof.
  intros Hd HC. apply hb_run_converges_iff; [lia | exact HC | exact Hd |]. intros t f. rewrite hb_iter_state by lia. cbn [g_index].
  assert (Hs : ((t * 1) mod d < d)%nat) by (apply Nat.mod_upper_bound; lia).
  rewrite <- (gibbs_invariant fw d C ((t * 1) mod d) Hs f). apply rsum_ext. intros x Hx. f_equal. apply (hb_block1_gibbs _ fw d); auto. discriminate.
Qed.
