(** The categorical path-auxiliary step with a constant number of sites omits the forward probability of
    the drawn values: it does not leave the target invariant. *)
From Coq Require Import Reals List Lra Lia Arith ZArith Permutation.
From Verif.Base Require Import RSum Cube Dist XFloat MH.
From Verif.Spec Require Import Chain.
From Verif.Model Require Import MathUtil RandomWalk GWG PathAux.
From Verif.Proof Require Import MHKernel MathUtilProof NoReplProof GWGProof PathAuxProof PathAuxCatProof CatGWGProof.
Import ListNotations.
Local Open Scope R_scope.

Section OneSite.
  Variables (g : R) (fw : list nat -> R) (wf : R -> R) (lr : list nat -> nat -> R) (C : nat).
  Hypothesis HC : (0 < C)%nat.
  Let D (a : nat) := pafc_dist wf lr None C [a].

  Lemma D_length a : length (D a) = C.
  Proof. unfold D. rewrite pafc_dist_length. simpl. lia. Qed.
  Lemma D_sum a : sumexp (D a) = 1.
  Proof. apply sumexp_log_softmax. cbn [length]. rewrite Nat.mul_1_l. destruct C; [lia|discriminate]. Qed.
  Lemma D_blk a : blk C (D a) 0 = D a.
  Proof.
    apply (list_eq_nth 0); [rewrite blk_length, D_length; auto|]. rewrite blk_length. intros i Hi. unfold blk.
    rewrite nth_map_seq by auto. reflexivity.
  Qed.
  Lemma D_site a : site_lp C (D a) 0 = 0.
  Proof. unfold site_lp. rewrite D_blk, D_sum. apply ln_1. Qed.
  Lemma D_cond a : cond_lp C (D a) 0 = D a.
  Proof.
    unfold cond_lp, log_softmax. rewrite D_blk, D_sum, ln_1. rewrite <- (map_id (D a)) at 2. apply map_ext. intros; ring.
  Qed.

  Lemma one_site_E a f :
    E (pafsc_step g fw wf lr None C 1 [a]) f
    = rsum (seq 0 C) (fun c => exp (nth c (D a) 0) *
        (accept_prob g (fw [c] + nth a (D c) 0 - fw [a]) * f [c]
         + (1 - accept_prob g (fw [c] + nth a (D c) 0 - fw [a])) * f [a])).
  Proof.
    unfold pafsc_step. fold (D a). cbn [length seq norepl_law]. rewrite !E_bind, E_weighted. cbn [rsum].
    rewrite E_dmap, E_ret. rewrite D_site, exp_0. rewrite E_bind. cbn [map indep]. rewrite E_bind, D_cond, E_categorical, D_length, D_sum.
    rewrite Rplus_0_r. replace (1 / (1 + 0)) with 1 by field. rewrite Rmult_1_l.
    apply rsum_ext. intros c _. rewrite E_dmap, E_ret.
    assert (Hla : pafsc_log_acc fw wf lr None C [a] [0]%nat [c] = Some (fw [c] + nth a (D c) 0 - fw [a])).
    { unfold pafsc_log_acc. change (set_all [0]%nat [c] [a]) with [c]. fold (D a). fold (D c).
      assert (H1 : forall b, rsum [0%nat] (fun i => exp (site_lp C (D b) i)) = 1).
      { intros b. cbn [rsum]. rewrite D_site, exp_0. ring. }
      assert (Hnd : NoDup [0%nat]) by (constructor; [intros []|constructor]).
      rewrite (bwd_ll_path _ [0%nat]), (fwd_ll_path _ [0%nat]); auto; try discriminate; try (intros i Hi; exact Hi).
      unfold oplus, osub, path_ll, val_ll. cbn [rev app map seq_cond rsum combine fst snd nth].
      rewrite !D_site, D_cond, exp_0. f_equal. replace (1 / (1 - 0)) with 1 by field. rewrite ln_1. ring. }
    rewrite Hla. cbn [omh_law]. rewrite E_mh_law. change (set_all [0]%nat [c] [a]) with [c]. field.
  Qed.
End OneSite.

Definition w_lr : list nat -> nat -> R := paf_lr_grad_cat w_grad 3.

Lemma wp_dist0 : pafc_dist w_wf w_lr None 3 [0]%nat = map (fun a => a - ln (5 + w_eps)) [- 10 ^ 9; 0; ln 4].
Proof.
  rewrite <- w_dist0. unfold pafc_dist, cgwg_dist_at, log_softmax, w_wf, w_lr, paf_lr_grad_cat, w_grad, w_fw, mask_score.
  cbn [length Nat.mul Nat.add seq map Nat.div Nat.divmod Nat.modulo fst snd nth Nat.eqb Nat.sub].
  replace ((0 - 0) / 2 - 10 ^ 9) with (- 10 ^ 9) by field. rewrite !Rminus_0_r. reflexivity.
Qed.
Lemma wp_dist1 : pafc_dist w_wf w_lr None 3 [1]%nat = map (fun a => a - ln (5 + w_eps)) [0; - 10 ^ 9; ln 4].
Proof.
  rewrite <- w_dist1. unfold pafc_dist, cgwg_dist_at, log_softmax, w_wf, w_lr, paf_lr_grad_cat, w_grad, w_fw, mask_score.
  cbn [length Nat.mul Nat.add seq map Nat.div Nat.divmod Nat.modulo fst snd nth Nat.eqb Nat.sub].
  replace ((0 - 0) / 2 - 10 ^ 9) with (- 10 ^ 9) by field. rewrite !Rminus_0_r. reflexivity.
Qed.
Lemma wp_dist2 : pafc_dist w_wf w_lr None 3 [2]%nat = map (fun a => a - ln (/ 2 + w_eps)) [- ln 4; - ln 4; - 10 ^ 9].
Proof.
  rewrite <- w_dist2. unfold pafc_dist, cgwg_dist_at, log_softmax, w_wf, w_lr, paf_lr_grad_cat, w_grad, w_fw, mask_score.
  cbn [length Nat.mul Nat.add seq map Nat.div Nat.divmod Nat.modulo fst snd nth Nat.eqb Nat.sub].
  replace ((ln 16 - ln 16) / 2 - 10 ^ 9) with (- 10 ^ 9) by field. rewrite !Rminus_0_r. reflexivity.
Qed.

Theorem pafsc_not_invariant g : 0 <= g <= / 1000 ->
  ~ invariant (states 1 3) (fun x => exp (w_fw x)) (pafsc_step g w_fw w_wf w_lr None 3 1).
Proof.
  intros Hg Hinv. pose proof w_eps_range as He.
  specialize (Hinv (fun x => match x with [2%nat] => 1 | _ => 0 end)).
  change (states 1 3) with [[0]; [1]; [2]]%nat in Hinv. cbn [rsum] in Hinv.
  rewrite !one_site_E in Hinv by lia. cbn [seq rsum] in Hinv.
  rewrite wp_dist0, wp_dist1, wp_dist2 in Hinv. cbn [map nth w_fw] in Hinv.
  rewrite exp_0, exp_ln in Hinv by lra.
  set (A02 := accept_prob g (ln 16 + (- ln 4 - ln (/ 2 + w_eps)) - 0)) in *.
  set (A20 := accept_prob g (0 + (ln 4 - ln (5 + w_eps)) - ln 16)) in *.
  assert (H02 : A02 = 1).
  { unfold A02, accept_prob.
    assert (Hx : 7 < exp (ln 16 + (- ln 4 - ln (/ 2 + w_eps)) - 0)).
    { unfold Rminus. rewrite Ropp_0, Rplus_0_r, !exp_plus, !exp_Ropp, !exp_ln by lra.
      apply (Rmult_lt_reg_r (/ 2 + w_eps)); [lra|]. replace (16 * (/ 4 * / (/ 2 + w_eps)) * (/ 2 + w_eps)) with 4 by (field; lra). lra. }
    rewrite Rmin_left by lra. apply Rmax_right. lra. }
  assert (H20 : A20 <= / 20).
  { unfold A20, accept_prob.
    assert (Hx : exp (0 + (ln 4 - ln (5 + w_eps)) - ln 16) <= / 20).
    { unfold Rminus. rewrite !exp_plus, exp_0, !exp_Ropp, !exp_ln by lra.
      replace (1 * (4 * / (5 + w_eps)) * / 16) with (/ (4 * (5 + w_eps))) by (field; lra). apply Rinv_le_contravar; lra. }
    apply Rmax_lub; [lra|]. eapply Rle_trans; [apply Rmin_r|]. lra. }
  assert (HA : 0 <= A20) by (unfold A20, accept_prob; apply Rmax_l).
  assert (Eln : forall v : R, exp (0 - ln (5 + w_eps)) = / (5 + w_eps)).
  { intros _. unfold Rminus. rewrite Rplus_0_l, exp_Ropp, exp_ln by lra. reflexivity. }
  assert (E4 : exp (ln 4 - ln (5 + w_eps)) = 4 * / (5 + w_eps)).
  { unfold Rminus. rewrite exp_plus, exp_Ropp, !exp_ln by lra. reflexivity. }
  assert (E2 : exp (- ln 4 - ln (/ 2 + w_eps)) = / 4 * / (/ 2 + w_eps)).
  { unfold Rminus. rewrite exp_plus, !exp_Ropp, !exp_ln by lra. reflexivity. }
  assert (Ee : exp (- 10 ^ 9 - ln (/ 2 + w_eps)) = w_eps * / (/ 2 + w_eps)).
  { unfold Rminus. rewrite exp_plus, exp_Ropp, (exp_Ropp (ln _)), exp_ln by lra. unfold w_eps. rewrite exp_Ropp. reflexivity. }
  rewrite E4, E2, Ee in Hinv. rewrite H02 in Hinv.
  assert (Hq : 79 / 100 < 4 * / (5 + w_eps)).
  { apply (Rmult_lt_reg_r (5 + w_eps)); [lra|]. rewrite Rmult_assoc, Rinv_l by lra. lra. }
  assert (Hs : w_eps * / (/ 2 + w_eps) = 1 - 2 * (/ 4 * / (/ 2 + w_eps))) by (field; lra).
  assert (Hh : 0 < / 4 * / (/ 2 + w_eps) <= / 2).
  { split; [apply Rmult_lt_0_compat; [lra|apply Rinv_0_lt_compat; lra]|].
    apply (Rmult_le_reg_r (/ 2 + w_eps)); [lra|]. rewrite Rmult_assoc, Rinv_l by lra. lra. }
  rewrite Hs in Hinv. set (h := / 4 * / (/ 2 + w_eps)) in *.
  assert (HhA : h * A20 <= / 40) by nra.
  nra.
Qed.
