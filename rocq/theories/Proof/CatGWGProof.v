(** Proofs about categorical Gibbs-with-gradients on a batch. *)
From Coq Require Import Reals List Lra Lia Arith ZArith.
From Verif.Base Require Import RSum Cube Dist MH.
From Verif.Spec Require Import Chain.
From Verif.Model Require Import MathUtil RandomWalk GWG.
From Verif.Proof Require Import MHKernel MathUtilProof GibbsProof RandomWalkProof GWGProof.
Import ListNotations.
Local Open Scope R_scope.

(** The step of a batch consisting of the single chain [x]. *)
Definition cgwg_single (g : R) (fw : list nat -> R) wf grad C (x : list nat) : dist (list nat) :=
  dmap (fun ys => nth 0 ys []) (cgwg_batch_step g fw wf grad C [x]).

Lemma changed_sum x i c : (i < length x)%nat ->
  list_sum (map (fun p : nat * nat => if Nat.eqb (fst p) (snd p) then 0%nat else fst p) (combine x (upd i c x)))
  = if Nat.eqb (nth i x 0%nat) c then 0%nat else nth i x 0%nat.
Proof.
  assert (H0 : forall x : list nat, list_sum (map (fun p : nat * nat => if Nat.eqb (fst p) (snd p) then 0%nat else fst p) (combine x x)) = 0%nat).
  { induction x0 as [|a x0 IH]; simpl; auto. rewrite Nat.eqb_refl. exact IH. }
  revert i; induction x as [|a x IH]; intros i Hi; simpl in *; [lia|].
  destruct i as [|i]; simpl.
  - unfold list_sum in H0. rewrite H0. lia.
  - rewrite Nat.eqb_refl. simpl. apply IH. lia.
Qed.

Section Single.
  Variables (fw : list nat -> R) (wf : R -> R) (grad : list nat -> nat -> R) (d C : nat).
  Hypothesis Hd : (0 < d)%nat.
  Hypothesis HC : (0 < C)%nat.

  Let Aux := seq 0 (d * C).
  Let T (x : list nat) (j : nat) := cgwg_y C x j.
  Let I (x : list nat) (j : nat) := (j / C * C + nth (j / C) x 0)%nat.
  Let ll (x : list nat) (j : nat) := nth j (cgwg_dist_at wf grad C x) 0.
  Let la (x : list nat) (j : nat) := fw (T x j) + ll (T x j) (I x j) - fw x - ll x j.

  Lemma cgwg_dist_length x : length (cgwg_dist_at wf grad C x) = (length x * C)%nat.
  Proof. unfold cgwg_dist_at. rewrite log_softmax_length, map_length, seq_length. reflexivity. Qed.

  Lemma cgwg_dist_sum x : length x = d -> sumexp (cgwg_dist_at wf grad C x) = 1.
  Proof.
    intros H. apply sumexp_log_softmax. rewrite H. destruct (d * C)%nat eqn:Ed; [nia|]. simpl. discriminate.
  Qed.

  Lemma site_lt j : In j Aux -> (j / C < d)%nat.
  Proof. intros Hj. apply in_seq in Hj. apply Nat.div_lt_upper_bound; lia. Qed.

  Lemma T_in x j : In x (states d C) -> In j Aux -> In (T x j) (states d C).
  Proof.
    intros Hx Hj. apply in_states in Hx. apply in_states. unfold T, cgwg_y. rewrite upd_length. split; [tauto|].
    apply Forall_upd; [apply Nat.mod_upper_bound; lia|tauto].
  Qed.

  Lemma I_div x j : In x (states d C) -> In j Aux -> (I x j / C = j / C)%nat /\ (I x j mod C = nth (j / C) x 0)%nat.
  Proof.
    intros Hx Hj. pose proof (in_states_nth d C x (j / C) Hx (site_lt j Hj)) as Hv. unfold I.
    rewrite (Nat.add_comm (j / C * C)). split.
    - rewrite Nat.div_add, Nat.div_small; lia.
    - rewrite Nat.mod_add, Nat.mod_small; lia.
  Qed.

  Lemma cgwg_single_E g x f : In x (states d C) ->
    E (cgwg_single g fw wf grad C x) f
    = E (mh_kernel (fun x => categorical (cgwg_dist_at wf grad C x)) T la g x) f.
  Proof.
    intros Hx. pose proof Hx as Hx'. apply in_states in Hx'. destruct Hx' as [Hl HF].
    unfold cgwg_single, cgwg_batch_step, mh_kernel. rewrite E_dmap, !E_bind. cbn [map indep]. rewrite E_bind.
    rewrite !E_categorical. rewrite cgwg_dist_length, Hl. apply rsum_ext. intros j Hj. f_equal.
    rewrite E_dmap, E_ret. unfold cgwg_ys. cbn [combine map fst snd indep]. rewrite E_bind.
    transitivity (E (mh_law g (cgwg_log_acc fw wf grad C [x] [j] x (cgwg_y C x j)) x (cgwg_y C x j)) f).
    { apply E_ext. intros a. rewrite E_dmap, E_ret. reflexivity. }
    rewrite !E_mh_law. fold (T x j).
    destruct (Nat.eq_dec (nth (j / C) x 0%nat) (j mod C)) as [Heq|Hne].
    - (* proposal equals the current state *)
      assert (HTx : T x j = x).
      { unfold T, cgwg_y. rewrite <- Heq. apply upd_nth_same. }
      rewrite HTx. ring.
    - assert (Hla : cgwg_log_acc fw wf grad C [x] [j] x (T x j) = la x j).
      { unfold cgwg_log_acc, cgwg_backs, cgwg_ll, la, ll. cbn [combine map fst snd rsum]. fold (T x j).
        assert (Hb : cgwg_back C x (T x j) j = I x j).
        { unfold cgwg_back, T, cgwg_y. rewrite changed_sum by (rewrite Hl; apply site_lt; auto).
          destruct (Nat.eqb_spec (nth (j / C) x 0%nat) (j mod C)) as [He|_]; [contradiction|reflexivity]. }
        rewrite Hb. ring. }
      rewrite Hla. reflexivity.
  Qed.

  Lemma cgwg_hyps :
    (forall x, In x (states d C) -> is_prob (categorical (cgwg_dist_at wf grad C x))) /\
    (forall x f, In x (states d C) -> E (categorical (cgwg_dist_at wf grad C x)) f = rsum Aux (fun a => exp (ll x a) * f a)).
  Proof.
    split; intros x; [intros Hx|intros f Hx]; apply in_states in Hx; destruct Hx as [Hl _].
    - apply is_prob_categorical. intros H. pose proof (cgwg_dist_length x) as HL. rewrite H in HL. simpl in HL. nia.
    - rewrite E_categorical, cgwg_dist_length, Hl, cgwg_dist_sum by auto. apply rsum_ext. intros j _. unfold ll. field.
  Qed.

  Lemma TT x a : In x (states d C) -> In a Aux -> T (T x a) (I x a) = x.
  Proof.
    intros Hx Ha. destruct (I_div x a Hx Ha) as [H1 H2]. unfold T at 1, cgwg_y. rewrite H1, H2.
    unfold T, cgwg_y. rewrite upd_upd. apply upd_nth_same.
  Qed.
  Lemma II x a : In x (states d C) -> In a Aux -> I (T x a) (I x a) = a.
  Proof.
    intros Hx Ha. destruct (I_div x a Hx Ha) as [H1 H2]. unfold I at 1. rewrite H1. unfold T, cgwg_y.
    pose proof (site_lt a Ha). apply in_states in Hx. rewrite nth_upd_eq by lia.
    pose proof (Nat.div_mod a C). lia.
  Qed.
  Lemma I_in x a : In x (states d C) -> In a Aux -> In (I x a) Aux.
  Proof.
    intros Hx Ha. pose proof (in_states_nth d C x (a / C) Hx (site_lt a Ha)) as Hv.
    pose proof (site_lt a Ha). apply in_seq. unfold I. nia.
  Qed.

  Theorem cgwg_single_reversible : reversible (states d C) (fun x => exp (fw x)) (cgwg_single 0 fw wf grad C).
  Proof.
    destruct cgwg_hyps as [H1 H2].
    apply (reversible_ext _ _ _ (mh_kernel (fun x => categorical (cgwg_dist_at wf grad C x)) T la 0)).
    - intros x f Hx. apply cgwg_single_E; auto.
    - apply (ll_kernel_reversible (states d C) Aux T I (NoDup_states d C) (seq_NoDup _ _) T_in I_in TT II) with (ll := ll); auto.
  Qed.

  Theorem cgwg_single_invariant_upto g : 0 <= g ->
    invariant_upto (2 * g) (states d C) (fun x => exp (fw x)) (cgwg_single g fw wf grad C).
  Proof.
    intros Hg. destruct cgwg_hyps as [H1 H2].
    apply (invariant_upto_ext _ _ _ _ (mh_kernel (fun x => categorical (cgwg_dist_at wf grad C x)) T la g)).
    - intros x f Hx. apply cgwg_single_E; auto.
    - apply (ll_kernel_invariant_upto (states d C) Aux T I (NoDup_states d C) (seq_NoDup _ _) T_in I_in TT II) with (ll := ll); auto.
  Qed.
End Single.

(** ** Two chains: the product target is not invariant *)
Definition w_fw (x : list nat) : R := match x with [2%nat] => ln 16 | _ => 0 end.
Definition w_grad (x : list nat) (j : nat) : R := w_fw [j].
Definition w_wf (s : R) : R := s / 2.
Definition w_eps : R := exp (- 10 ^ 9).

Lemma w_eps_range : 0 < w_eps < / 100.
Proof.
  unfold w_eps. split; [apply exp_pos|]. rewrite exp_Ropp. apply Rinv_lt_contravar.
  - apply Rmult_lt_0_compat; [lra|apply exp_pos].
  - pose proof (exp_ineq1 (10 ^ 9)) as H. assert (10 ^ 9 <> 0) by (apply pow_nonzero; lra). specialize (H H0).
    assert (100 < 10 ^ 9) by (simpl; lra). lra.
Qed.

Lemma ln16 : ln 16 / 2 = ln 4.
Proof. replace 16 with (4 * 4) by lra. rewrite ln_mult by lra. field. Qed.

Lemma w_dist0 : cgwg_dist_at w_wf w_grad 3 [0]%nat = map (fun a => a - ln (5 + w_eps)) [- 10 ^ 9; 0; ln 4].
Proof.
  unfold cgwg_dist_at, log_softmax, w_wf, w_grad, w_fw.
  cbn [length Nat.mul Nat.add seq map Nat.div Nat.divmod Nat.modulo fst snd nth Nat.eqb Nat.sub].
  replace ((0 - 0) / 2 - 10 ^ 9) with (- 10 ^ 9) by field.
  replace ((0 - 0) / 2 - 0) with 0 by field.
  replace ((ln 16 - 0) / 2 - 0) with (ln 4) by (rewrite <- ln16; field).
  replace (sumexp [- 10 ^ 9; 0; ln 4]) with (5 + w_eps); auto.
  unfold sumexp, w_eps. cbn [rsum]. rewrite exp_0, exp_ln by lra. ring.
Qed.
Lemma w_dist1 : cgwg_dist_at w_wf w_grad 3 [1]%nat = map (fun a => a - ln (5 + w_eps)) [0; - 10 ^ 9; ln 4].
Proof.
  unfold cgwg_dist_at, log_softmax, w_wf, w_grad, w_fw.
  cbn [length Nat.mul Nat.add seq map Nat.div Nat.divmod Nat.modulo fst snd nth Nat.eqb Nat.sub].
  replace ((0 - 0) / 2 - 10 ^ 9) with (- 10 ^ 9) by field.
  replace ((0 - 0) / 2 - 0) with 0 by field.
  replace ((ln 16 - 0) / 2 - 0) with (ln 4) by (rewrite <- ln16; field).
  replace (sumexp [0; - 10 ^ 9; ln 4]) with (5 + w_eps); auto.
  unfold sumexp, w_eps. cbn [rsum]. rewrite exp_0, exp_ln by lra. ring.
Qed.
Lemma w_dist2 : cgwg_dist_at w_wf w_grad 3 [2]%nat = map (fun a => a - ln (/ 2 + w_eps)) [- ln 4; - ln 4; - 10 ^ 9].
Proof.
  unfold cgwg_dist_at, log_softmax, w_wf, w_grad, w_fw.
  cbn [length Nat.mul Nat.add seq map Nat.div Nat.divmod Nat.modulo fst snd nth Nat.eqb Nat.sub].
  replace ((ln 16 - ln 16) / 2 - 10 ^ 9) with (- 10 ^ 9) by field.
  replace ((0 - ln 16) / 2 - 0) with (- ln 4) by (rewrite <- ln16; field).
  replace (sumexp [- ln 4; - ln 4; - 10 ^ 9]) with (/ 2 + w_eps); auto.
  unfold sumexp, w_eps. cbn [rsum]. rewrite (exp_Ropp (ln 4)), exp_ln by lra. lra.
Qed.

Lemma w_la (y : nat) : (y = 0 \/ y = 1)%nat ->
  exp (cgwg_log_acc w_fw w_wf w_grad 3 [[2]; [2]]%nat [0; 1]%nat [2]%nat [y])
  = 16 * ((/ 2 + w_eps) * (/ 2 + w_eps)) / ((5 + w_eps) * (5 + w_eps)).
Proof.
  pose proof w_eps_range as He.
  intros Hy. unfold cgwg_log_acc.
  assert (HB : cgwg_backs 3 [[2]; [2]]%nat [0; 1]%nat = [2; 2]%nat) by reflexivity.
  rewrite HB, w_dist2. unfold cgwg_ll. cbn [rsum map nth].
  assert (Hd2 : nth 2 (cgwg_dist_at w_wf w_grad 3 [y]) 0 = ln 4 - ln (5 + w_eps)).
  { destruct Hy as [-> | ->]; [rewrite w_dist0|rewrite w_dist1]; reflexivity. }
  rewrite Hd2. assert (Hf : w_fw [y] = 0) by (destruct Hy as [-> | ->]; reflexivity). rewrite Hf.
  change (w_fw [2%nat]) with (ln 16).
  replace (ln 16) with (ln 4 + ln 4) by (rewrite <- ln16; field).
  replace (0 + (ln 4 - ln (5 + w_eps) + (ln 4 - ln (5 + w_eps) + 0)) - (ln 4 + ln 4)
           - (- ln 4 - ln (/ 2 + w_eps) + (- ln 4 - ln (/ 2 + w_eps) + 0)))
    with ((ln 4 + ln 4) + (ln (/ 2 + w_eps) + ln (/ 2 + w_eps)) + - (ln (5 + w_eps) + ln (5 + w_eps))) by ring.
  rewrite !exp_plus, exp_Ropp, !exp_plus, !exp_ln by lra. field. lra.
Qed.

Lemma accept_ge g la : exp la <= 1 -> 0 <= g -> exp la - g <= accept_prob g la.
Proof.
  intros H1 H2. unfold accept_prob. eapply Rle_trans; [|apply Rmax_r]. apply Rmin_glb; lra.
Qed.

Lemma rsum_ge2 {A} (l : list A) (f : A -> R) a : (forall b, In b l -> 0 <= f b) -> In a l -> f a <= rsum l f.
Proof. intros H1 H2. apply rsum_ge_term; auto. Qed.

Lemma E_nonneg {A} (dd : dist A) f : (forall p, In p dd -> 0 <= snd p) -> (forall a, 0 <= f a) -> 0 <= E dd f.
Proof. intros H1 H2. unfold E. apply rsum_nonneg. intros p Hp. apply Rmult_le_pos; auto. Qed.

Definition w_target : list (list nat) := [[0]; [1]]%nat.
Definition w_test (ys : list (list nat)) : R := if list_eq_dec (list_eq_dec Nat.eq_dec) ys w_target then 1 else 0.

Lemma w_test_nonneg ys : 0 <= w_test ys.
Proof. unfold w_test. destruct (list_eq_dec _ _ _); lra. Qed.

Lemma w_step_is_prob g xs : In xs (lists_over (states 1 3) 2) -> is_prob (cgwg_batch_step g w_fw w_wf w_grad 3 xs).
Proof.
  intros Hxs. apply in_lists_over in Hxs. destruct Hxs as [_ HF]. apply is_prob_bind.
  - apply is_prob_indep. intros dd Hdd. apply in_map_iff in Hdd. destruct Hdd as (x & <- & Hx).
    rewrite Forall_forall in HF. specialize (HF x Hx). apply in_states in HF. destruct HF as [Hl _].
    apply is_prob_categorical. intros H. pose proof (cgwg_dist_length w_wf w_grad 3 x) as HL. rewrite H in HL. simpl in HL. lia.
  - intros js w _. apply is_prob_indep. intros dd Hdd. apply in_map_iff in Hdd. destruct Hdd as (p & <- & _). apply is_prob_mh_law.
Qed.

Lemma w_flow g : 0 <= g <= / 1000 ->
  256 * E (cgwg_batch_step g w_fw w_wf w_grad 3 [[2]; [2]]%nat) w_test > 1.
Proof.
  intros Hg. pose proof w_eps_range as He. unfold cgwg_batch_step. rewrite E_bind. cbn [map].
  set (D := cgwg_dist_at w_wf w_grad 3 [2]%nat).
  set (K := fun js => indep (map (fun p : list nat * list nat =>
                                mh_law g (cgwg_log_acc w_fw w_wf w_grad 3 [[2]; [2]]%nat js (fst p) (snd p)) (fst p) (snd p))
                             (combine [[2]; [2]]%nat (cgwg_ys 3 [[2]; [2]]%nat js)))).
  change (256 * E (indep [categorical D; categorical D]) (fun js => E (K js) w_test) > 1).
  assert (HL : length D = 3%nat) by (unfold D; rewrite w_dist2; reflexivity).
  assert (Hs : sumexp D = 1) by (apply (cgwg_dist_sum w_wf w_grad 1 3); auto; lia).
  set (wt := fun i : nat => exp (nth i D 0) / sumexp D).
  assert (Hind : indep [categorical D; categorical D] = indep (map (weighted (seq 0 3)) [wt; wt])).
  { unfold categorical. rewrite HL. reflexivity. }
  rewrite Hind, E_indep_weighted. cbn [length].
  assert (HKn : forall js, 0 <= E (K js) w_test).
  { intros js. apply E_nonneg; [|apply w_test_nonneg].
    assert (Hp : is_prob (K js)).
    { apply is_prob_indep. intros dd Hdd. apply in_map_iff in Hdd. destruct Hdd as (p & <- & _). apply is_prob_mh_law. }
    apply Hp. }
  assert (Hwt : forall i, 0 < wt i) by (intros i; unfold wt; rewrite Hs; apply Rdiv_lt_0_compat; [apply exp_pos|lra]).
  assert (Hterm : wt 0%nat * wt 1%nat * E (K [0;1]%nat) w_test <=
     rsum (lists_over (seq 0 3) 2) (fun l => prod_at [wt; wt] l * E (K l) w_test)).
  { assert (Hin : In [0;1]%nat (lists_over (seq 0 3) 2)) by (simpl; tauto).
    pose proof (rsum_ge2 (lists_over (seq 0 3) 2) (fun l => prod_at [wt; wt] l * E (K l) w_test) [0;1]%nat) as Hge.
    cbn beta in Hge. cbn [prod_at] in Hge. rewrite Rmult_1_r in Hge. apply Hge; auto.
    intros b Hb. apply Rmult_le_pos; [|apply HKn]. destruct b as [|b0 [|b1 b]]; cbn [prod_at]; pose proof Hwt.
    - lra.
    - rewrite Rmult_1_r. left; auto.
    - apply Rmult_le_pos; [left; auto|]. rewrite Rmult_1_r. left; auto. }
  set (q := 16 * ((/ 2 + w_eps) * (/ 2 + w_eps)) / ((5 + w_eps) * (5 + w_eps))).
  assert (Hq : 15 / 100 < q <= 1).
  { unfold q. split.
    - apply (Rmult_lt_reg_r ((5 + w_eps) * (5 + w_eps))); [nra|]. unfold Rdiv. rewrite (Rmult_assoc (16 * _)), Rinv_l by nra. nra.
    - apply (Rmult_le_reg_r ((5 + w_eps) * (5 + w_eps))); [nra|]. unfold Rdiv. rewrite (Rmult_assoc (16 * _)), Rinv_l by nra. nra. }
  assert (HK : (q - g) * (q - g) <= E (K [0;1]%nat) w_test).
  { unfold K. change (cgwg_ys 3 [[2]; [2]]%nat [0;1]%nat) with [[0];[1]]%nat. cbn [combine map fst snd indep].
    rewrite E_bind, E_mh_law.
    set (la0 := cgwg_log_acc w_fw w_wf w_grad 3 [[2]; [2]]%nat [0; 1]%nat [2]%nat [0]%nat).
    set (la1 := cgwg_log_acc w_fw w_wf w_grad 3 [[2]; [2]]%nat [0; 1]%nat [2]%nat [1]%nat).
    rewrite !E_dmap, !E_bind, !E_mh_law, !E_dmap, !E_ret.
    assert (H0 : exp la0 = q) by (apply w_la; auto). assert (H1 : exp la1 = q) by (apply w_la; auto).
    assert (G0 : q - g <= accept_prob g la0) by (rewrite <- H0; apply accept_ge; [rewrite H0|]; lra).
    assert (G1 : q - g <= accept_prob g la1) by (rewrite <- H1; apply accept_ge; [rewrite H1|]; lra).
    unfold w_test, w_target. 
    destruct (list_eq_dec (list_eq_dec Nat.eq_dec) [[0]; [1]]%nat [[0]; [1]]%nat) as [_|Hn]; [|congruence].
    destruct (list_eq_dec (list_eq_dec Nat.eq_dec) [[0]; [2]]%nat [[0]; [1]]%nat) as [Hn|_]; [discriminate|].
    destruct (list_eq_dec (list_eq_dec Nat.eq_dec) [[2]; [1]]%nat [[0]; [1]]%nat) as [Hn|_]; [discriminate|].
    destruct (list_eq_dec (list_eq_dec Nat.eq_dec) [[2]; [2]]%nat [[0]; [1]]%nat) as [Hn|_]; [discriminate|].
    nra. }
  assert (Hw0 : wt 0%nat = (/ 4) / (/ 2 + w_eps) /\ wt 1%nat = (/ 4) / (/ 2 + w_eps)).
  { unfold wt. rewrite Hs. unfold D. rewrite w_dist2. cbn [map nth].
    unfold Rminus. rewrite exp_plus, !exp_Ropp, !exp_ln by lra. split; field; lra. }
  destruct Hw0 as [Hw0 Hw1]. rewrite Hw0, Hw1 in Hterm.
  assert (Hww : 24 / 100 < / 4 / (/ 2 + w_eps) * (/ 4 / (/ 2 + w_eps))).
  { assert (49 / 100 < / 4 / (/ 2 + w_eps)); [|nra].
    apply (Rmult_lt_reg_r (/ 2 + w_eps)); [lra|]. unfold Rdiv at 2. rewrite Rmult_assoc, Rinv_l by lra. lra. }
  assert (Hgg : 22 / 1000 < (q - g) * (q - g)) by nra.
  assert (Hfin : 24 / 100 * (22 / 1000) <= / 4 / (/ 2 + w_eps) * (/ 4 / (/ 2 + w_eps)) * E (K [0;1]%nat) w_test).
  { apply Rmult_le_compat; lra. }
  lra.
Qed.

Theorem cgwg_pair_not_invariant g : 0 <= g <= / 1000 ->
  ~ invariant (lists_over (states 1 3) 2) (batch_pi (fun x => exp (w_fw x))) (cgwg_batch_step g w_fw w_wf w_grad 3).
Proof.
  intros Hg Hinv. specialize (Hinv w_test). pose proof (w_flow g Hg) as Hf.
  assert (HR : rsum (lists_over (states 1 3) 2) (fun x => batch_pi (fun x => exp (w_fw x)) x * w_test x) = 1).
  { rewrite (rsum_single _ _ w_target).
    - unfold w_test. destruct (list_eq_dec _ _ _); [|congruence]. unfold batch_pi, w_target. cbn [rprod w_fw].
      rewrite exp_0. ring.
    - apply NoDup_lists_over, NoDup_states.
    - apply in_lists_over. split; [reflexivity|]. repeat constructor; apply in_states; split; auto.
    - intros b _ Hb. unfold w_test. destruct (list_eq_dec _ _ _); [contradiction|ring]. }
  rewrite HR in Hinv.
  assert (Hge : batch_pi (fun x => exp (w_fw x)) [[2];[2]]%nat * E (cgwg_batch_step g w_fw w_wf w_grad 3 [[2];[2]]%nat) w_test
     <= rsum (lists_over (states 1 3) 2) (fun x => batch_pi (fun x => exp (w_fw x)) x * E (cgwg_batch_step g w_fw w_wf w_grad 3 x) w_test)).
  { apply (rsum_ge2 (lists_over (states 1 3) 2) (fun x => batch_pi (fun x => exp (w_fw x)) x * E (cgwg_batch_step g w_fw w_wf w_grad 3 x) w_test) [[2];[2]]%nat).
    - intros b Hb. apply Rmult_le_pos.
      + unfold batch_pi. apply rprod_nonneg. intros; left; apply exp_pos.
      + apply E_nonneg; [apply w_step_is_prob; auto|apply w_test_nonneg].
    - apply in_lists_over. split; [reflexivity|]. repeat constructor; apply in_states; split; auto. }
  rewrite Hinv in Hge. unfold batch_pi in Hge. cbn [rprod w_fw] in Hge. rewrite exp_ln in Hge by lra. lra.
Qed.

(** ** The acceptance of one chain depends on the other chain *)
Lemma u_dist (c : nat) : (c < 3)%nat ->
  cgwg_dist_at (fun s => s) (fun _ _ => 0) 3 [c]
  = map (fun a => a - ln (2 + w_eps)) (map (fun j => if Nat.eqb j c then - 10 ^ 9 else 0) (seq 0 3)).
Proof.
  intros Hc. assert (Hc' : (c = 0 \/ c = 1 \/ c = 2)%nat) by lia.
  destruct Hc' as [-> | [-> | ->]]; unfold cgwg_dist_at, log_softmax;
  cbn [length Nat.mul Nat.add seq map Nat.div Nat.divmod Nat.modulo fst snd nth Nat.eqb Nat.sub];
  replace (0 - 0 - 10 ^ 9) with (- 10 ^ 9) by ring; replace (0 - 0 - 0) with 0 by ring.
  - replace (sumexp [- 10 ^ 9; 0; 0]) with (2 + w_eps); auto. unfold sumexp, w_eps. cbn [rsum]. rewrite exp_0. ring.
  - replace (sumexp [0; - 10 ^ 9; 0]) with (2 + w_eps); auto. unfold sumexp, w_eps. cbn [rsum]. rewrite exp_0. ring.
  - replace (sumexp [0; 0; - 10 ^ 9]) with (2 + w_eps); auto. unfold sumexp, w_eps. cbn [rsum]. rewrite exp_0. ring.
Qed.

Lemma cgwg_cross_chain :
  cgwg_log_acc (fun _ => 0) (fun s => s) (fun _ _ => 0) 3 [[0]; [0]]%nat [1; 1]%nat [0]%nat [1]%nat = 0 /\
  cgwg_log_acc (fun _ => 0) (fun s => s) (fun _ _ => 0) 3 [[0]; [1]]%nat [1; 2]%nat [0]%nat [1]%nat = - 10 ^ 9.
Proof.
  unfold cgwg_log_acc. rewrite !u_dist by lia.
  change (cgwg_backs 3 [[0]; [0]]%nat [1; 1]%nat) with [0; 0]%nat.
  change (cgwg_backs 3 [[0]; [1]]%nat [1; 2]%nat) with [0; 1]%nat.
  unfold cgwg_ll. cbn [rsum map nth seq Nat.eqb]. split; ring.
Qed.
