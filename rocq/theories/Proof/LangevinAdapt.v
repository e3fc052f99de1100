(** Adaptive DMALA / DLMC: batch law, step-size updates, the NaN histories. *)
From Coq Require Import String Reals List Lra Lia Arith ZArith Sorting.Sorted.
From Verif.Base Require Import RSum Cube Dist XFloat MH.
From Verif.Spec Require Import Chain.
From Verif.Model Require Import MathUtil RandomWalk LocallyBalanced PathAux Langevin.
From Verif.Proof Require Import MHKernel MathUtilProof GWGProof LangevinProof.
Import ListNotations.
Local Open Scope R_scope.

Lemma E_swap {A B} (d1 : dist A) (d2 : dist B) (F : A -> B -> R) :
  E d1 (fun a => E d2 (fun b => F a b)) = E d2 (fun b => E d1 (fun a => F a b)).
Proof.
  unfold E.
  rewrite (rsum_ext d1 _ (fun p => rsum d2 (fun q => snd p * (snd q * F (fst p) (fst q))))) by (intros; rewrite rsum_scal; auto).
  rewrite rsum_swap. apply rsum_ext. intros q _. rewrite <- rsum_scal. apply rsum_ext. intros; ring.
Qed.

Lemma E_indep_cons {A} (d : dist A) ds f : E (indep (d :: ds)) f = E d (fun a => E (indep ds) (fun l => f (a :: l))).
Proof. cbn [indep]. rewrite E_bind. apply E_ext. intros a. apply E_dmap. Qed.

Lemma indep_bind {X A B} (P : X -> dist A) (K : X -> A -> dist B) : forall xs f,
  E (indep (map (fun x => bind (P x) (K x)) xs)) f
  = E (indep (map P xs)) (fun l => E (indep (map (fun ax => K (snd ax) (fst ax)) (combine l xs))) f).
Proof.
  induction xs as [|x xs IH]; intros f.
  - cbn [map indep]. rewrite !E_ret. cbn [combine map indep]. rewrite E_ret. reflexivity.
  - cbn [map]. rewrite !E_indep_cons, E_bind. apply E_ext. intros a.
    rewrite (E_ext (K x a) _ (fun y => E (indep (map P xs)) (fun l => E (indep (map (fun ax => K (snd ax) (fst ax)) (combine l xs))) (fun ys => f (y :: ys))))).
    2:{ intros y. apply IH. }
    rewrite E_swap. apply E_ext. intros l. cbn [combine map]. rewrite E_indep_cons. reflexivity.
Qed.

(** Without co_opt_prob the chains of a batch move independently, each by the fixed-step-size kernel. *)
Lemma batch_law guard dg fw pfun rates lz n c s xs lt f :
  lc_co_opt c = false -> l_used_log_tau c n (Fin (lz (map rates xs))) s = Fin lt ->
  E (bin_batch_step guard dg fw pfun rates lz n c s xs) (fun o => f (fst o))
  = E (batch_step (bern_step guard dg fw (fun x => Some (pfun lt x))) xs) f.
Proof.
  intros Hc Ht. unfold bin_batch_step. cbv zeta. rewrite Ht, Hc, E_bind.
  unfold batch_step, bern_step. rewrite indep_bind. apply E_ext. intros l. rewrite E_dmap. reflexivity.
Qed.

(** ** The update *)
Lemma xmul_fin a b : xmul (Fin a) (Fin b) = Fin (a * b). Proof. reflexivity. Qed.

Lemma l_new_log_z_fin c cur z zs : exists z', l_new_log_z c cur (Fin z) (Fin zs) = Fin z' /\ (z' = z \/ z' = zs).
Proof.
  unfold l_new_log_z. set (b := if (0 <? lc_reset c)%Z then _ else _).
  assert (Hb : b = Fin z \/ b = Fin zs).
  { unfold b. destruct (0 <? lc_reset c)%Z; [destruct (_ =? 0)%Z|destruct (Nat.eqb cur 1)]; auto. }
  destruct Hb as [-> | ->]; destruct (Nat.ltb cur (lc_schedule c)); cbn [xmul xadd]; eexists; (split; [reflexivity|]).
  - left; ring. - left; ring. - left; ring. - right; ring.
Qed.

Lemma l_update_spec c a z s t zs z' : lc_adaptive c = true -> lc_co_opt c = false ->
  l_log_tau s = Fin t -> l_log_z s = Fin zs -> l_new_log_z c (S (l_steps s)) (Fin z) (Fin zs) = Fin z' ->
  let n := exp (t + z') + 3 * (a - lc_target c) in
  l_log_z (l_update c (Fin a) (Fin z) s) = Fin z' /\
  (0 <= n -> l_log_tau (l_update c (Fin a) (Fin z) s) = Fin (ln (Rmax n 1) - z')) /\
  (n < 0 -> l_log_tau (l_update c (Fin a) (Fin z) s) = NaN).
Proof.
  intros Ha Hc Ht Hz Hz' n. unfold l_update. rewrite Ha, Hc. cbn [negb orb]. cbv zeta. cbn [l_log_z l_log_tau].
  rewrite Hz, Hz', Ht. unfold xsub; cbn [xadd xexp xneg xmul].
  change (exp (t + z') + 3 * (a + - lc_target c)) with n. split; [reflexivity|]. split; intros Hn.
  - destruct Hn as [Hn|Hn].
    + rewrite xlog_pos by auto. cbn [xadd xsub xneg]. rewrite xmax_fin. f_equal.
      unfold Rmax at 2. destruct (Rle_dec n 1) as [H1|H1].
      * rewrite ln_1, Rmax_right; [ring|]. destruct H1 as [H1| ->]; [|rewrite ln_1; lra].
        pose proof (ln_increasing n 1 Hn H1) as Hl. rewrite ln_1 in Hl. lra.
      * rewrite Rmax_left; [ring|]. pose proof (ln_increasing 1 n ltac:(lra) ltac:(lra)) as Hl. rewrite ln_1 in Hl. lra.
    + rewrite <- Hn, xlog_0. cbn [xadd xmax xltb]. rewrite Rmax_right by lra. rewrite ln_1. f_equal. ring.
  - rewrite xlog_neg by auto. reflexivity.
Qed.

Definition l_run (c : lconf) (s : lstate) (hist : list (R * R)) : lstate :=
  fold_left (fun s p => l_update c (Fin (fst p)) (Fin (snd p)) s) hist s.

Lemma l_run_finite0 c : lc_adaptive c = true -> lc_co_opt c = false -> lc_target c <= / 3 ->
  forall hist s t zs, l_log_tau s = Fin t -> l_log_z s = Fin zs -> 0 <= t + zs ->
  Forall (fun p => 0 <= fst p) hist -> StronglySorted (fun p q : R * R => snd p <= snd q) hist ->
  Forall (fun p => zs <= snd p) hist -> is_fin (l_log_tau (l_run c s hist)).
Proof.
  intros Ha Hc Htg. induction hist as [|[a z] hist IH]; intros s t zs Ht Hz Hp HA HS HZ; simpl.
  - exists t; auto.
  - inversion HA; inversion HS; inversion HZ; subst. simpl in *.
    destruct (l_new_log_z_fin c (S (l_steps s)) z zs) as (z' & Hz' & Hor).
    destruct (l_update_spec c a z s t zs z' Ha Hc Ht Hz Hz') as (U1 & U2 & _).
    assert (zs <= z' <= z) by (destruct Hor; subst; lra).
    set (n := exp (t + z') + 3 * (a - lc_target c)) in *.
    assert (Hn : 0 <= n).
    { unfold n. assert (1 <= exp (t + z')). { pose proof (exp_ineq1_le (t + z')). lra. } lra. }
    specialize (U2 Hn). apply (IH _ _ _ U2 U1); auto.
    + assert (0 <= ln (Rmax n 1)); [|lra]. rewrite <- ln_1.
      destruct (Rle_lt_or_eq_dec 1 (Rmax n 1) (Rmax_r n 1)) as [Hl|Hl].
      * left. apply ln_increasing; lra.
      * right. rewrite <- Hl. reflexivity.
    + apply Forall_forall. intros p Hin. match goal with H : Forall (fun q => z <= snd q) hist |- _ => rewrite Forall_forall in H; specialize (H p Hin) end. lra.
Qed.

(** ** NaN is absorbing and freezes the chain *)
Lemma l_update_nan c acc z s : lc_adaptive c = true -> lc_co_opt c = false -> l_log_tau s = NaN ->
  l_log_tau (l_update c acc z s) = NaN /\ l_steps (l_update c acc z s) = S (l_steps s).
Proof.
  intros Ha Hc Ht. unfold l_update. rewrite Ha, Hc. cbn [negb orb]. cbv zeta. cbn [l_log_tau l_steps]. rewrite Ht.
  split; [|reflexivity]. reflexivity.
Qed.

Lemma batch_nan guard dg fw pfun rates lz n c s xs :
  lc_adaptive c = true -> lc_co_opt c = false -> (0 < l_steps s)%nat -> l_log_tau s = NaN ->
  exists s', bin_batch_step guard dg fw pfun rates lz n c s xs = ret (xs, s') /\ l_log_tau s' = NaN /\ (0 < l_steps s')%nat.
Proof.
  intros Ha Hc Hs Ht. unfold bin_batch_step. cbv zeta. unfold l_used_log_tau. rewrite Hc, Ht.
  destruct (Nat.eqb_spec (l_steps s) 0) as [H0|_]; [lia|]. eexists. split; [reflexivity|].
  destruct (l_update_nan c NaN (Fin (lz (map rates xs))) s Ha Hc Ht) as [H1 H2]. split; [auto|]. rewrite H2. lia.
Qed.

(** The run of the batch for [k] steps. *)
Fixpoint batch_run guard dg fw pfun rates lz n c (k : nat) (s : lstate) (xs : list (list nat)) : dist (list (list nat) * lstate) :=
  match k with
  | O => ret (xs, s)
  | S k' => bind (bin_batch_step guard dg fw pfun rates lz n c s xs) (fun o => batch_run guard dg fw pfun rates lz n c k' (snd o) (fst o))
  end.

Lemma batch_run_nan guard dg fw pfun rates lz n c k : forall s xs f,
  lc_adaptive c = true -> lc_co_opt c = false -> (0 < l_steps s)%nat -> l_log_tau s = NaN ->
  E (batch_run guard dg fw pfun rates lz n c k s xs) (fun o => f (fst o)) = f xs.
Proof.
  induction k as [|k IH]; intros s xs f Ha Hc Hs Ht; cbn [batch_run].
  - rewrite E_ret. reflexivity.
  - destruct (batch_nan guard dg fw pfun rates lz n c s xs Ha Hc Hs Ht) as (s' & -> & H1 & H2).
    rewrite E_bind, E_ret. apply IH; auto.
Qed.

(** ** Reachable histories with NaN after one step *)
Definition is_nan (x : xf) : R := match x with NaN => 1 | _ => 0 end.

Lemma is_nan_nonneg x : 0 <= is_nan x. Proof. destruct x; simpl; lra. Qed.

Definition default_conf : lconf :=
  {| lc_adaptive := true; lc_co_opt := false; lc_target := 574 / 1000; lc_schedule := 100; lc_reset := 20 |}.

Lemma E_indep_1 {A} (d : dist A) f : E (indep [d]) f = E d (fun a => f [a]).
Proof. rewrite E_indep_cons. apply E_ext. intros a. cbn [indep]. rewrite E_ret. reflexivity. Qed.

(** First step of a single chain: a lower bound by one particular flip vector. *)
Lemma first_step_nan guard dg fw pfun rates lz n x flips :
  let z := lz [rates x] in let lt := ln n - z in
  length flips = length (pfun lt x) -> Forall (fun p => 0 < p < 1) (pfun lt x) ->
  exp z + 3 * (exp (Rmin (bern_log_acc dg fw (pfun lt x) (pfun lt (flip_bits flips x)) x flips) 0) - 574 / 1000) < 0 ->
  prod_at (map (bw 0) (pfun lt x)) flips <=
  E (bin_batch_step guard dg fw pfun rates lz n default_conf l_init [x]) (fun o => is_nan (l_log_tau (snd o))).
Proof.
  intros z lt Hl HF Hn. unfold bin_batch_step. cbv zeta. cbn [map].
  change (l_used_log_tau default_conf n (Fin (lz [rates x])) l_init) with (Fin lt).
  cbv iota. cbn [lc_co_opt default_conf]. rewrite E_bind, E_indep_1, E_flips.
  eapply Rle_trans; [|apply (rsum_ge_term _ _ flips)].
  - cbv beta. rewrite <- (Rmult_1_r (prod_at (map (bw 0) (pfun lt x)) flips)) at 1. apply Rmult_le_compat_l.
    + assert (0 <= prod_at (map (bw 0) (pfun lt x)) flips <= prod_at (map (bw 0) (pfun lt x)) flips) as [H _]; [|exact H].
      apply prod_at_le; rewrite ?map_length; auto. intros i b Hi. rewrite (nth_indep _ _ (bw 0 0)) by (rewrite map_length; auto).
      rewrite map_nth. rewrite Forall_forall in HF. specialize (HF _ (nth_In (pfun lt x) 0 Hi)). destruct b; unfold bw; lra.
    + right. rewrite E_dmap. cbn [snd combine map fst length rsum]. rewrite E_const. unfold mass.
      rewrite E_indep_1, E_mh_law.
      match goal with |- context [l_update default_conf (Fin ?a) (Fin ?zz) l_init] =>
        destruct (l_update_spec default_conf a zz l_init 0 0 zz eq_refl eq_refl eq_refl eq_refl) as (_ & _ & U) end.
      { unfold l_new_log_z. cbn. do 2 f_equal. ring. }
      rewrite U; [cbn [is_nan]; ring|].
      cbn [lc_target default_conf]. rewrite Rplus_0_l. fold z. unfold Rdiv at 1. simpl INR. rewrite Rinv_1, Rmult_1_r, Rplus_0_r. exact Hn.
  - apply in_aux; auto.
  - intros l Hin. cbv beta. apply Rmult_le_pos.
    + assert (0 <= prod_at (map (bw 0) (pfun lt x)) l <= prod_at (map (bw 0) (pfun lt x)) l) as [H _]; [|exact H].
      apply in_aux in Hin.
      apply prod_at_le; rewrite ?map_length; auto. intros i b Hi. rewrite (nth_indep _ _ (bw 0 0)) by (rewrite map_length; auto).
      rewrite map_nth. rewrite Forall_forall in HF. specialize (HF _ (nth_In (pfun lt x) 0 Hi)). destruct b; unfold bw; lra.
    + rewrite E_dmap. cbn [snd]. rewrite E_const. apply Rmult_le_pos; [|apply is_nan_nonneg].
      assert (Hm : is_prob (indep (map (fun fx => mh_law guard
         (bern_log_acc dg fw (pfun lt (snd fx)) (pfun lt (flip_bits (fst fx) (snd fx))) (snd fx) (fst fx)) (snd fx) (flip_bits (fst fx) (snd fx))) (combine [l] [x])))).
      { apply is_prob_indep. intros m Hm. apply in_map_iff in Hm. destruct Hm as (? & <- & _). apply is_prob_mh_law. }
      rewrite (proj2 Hm). lra.
Qed.

Definition half (r : R) : R := r / 2.

(** DMALA witness: one site, energy -2x, exact gradient. *)
Definition wa_fw (x : list nat) : R := - 2 * INR (nth 0 x 0%nat).
Definition wa_grad (x : list nat) (i : nat) : R := - 2.

Lemma exp_half_ub : exp (- 1) <= / 2.
Proof.
  replace (-1) with (Ropp 1) by ring. rewrite exp_Ropp. apply Rinv_le_contravar; [lra|]. pose proof (exp_ineq1_le 1). lra.
Qed.

Lemma dmala_nan : 3 / 4 <=
  E (bin_batch_step acc_guard log_guard wa_fw (dmala_pfun half (paf_lr_grad_bin wa_grad)) (chain_rates half (paf_lr_grad_bin wa_grad))
       dmala_log_z 3 default_conf l_init [[0%nat]]) (fun o => is_nan (l_log_tau (snd o))).
Proof.
  assert (Hz : dmala_log_z [chain_rates half (paf_lr_grad_bin wa_grad) [0%nat]] = - 1).
  { unfold dmala_log_z, chain_rates, paf_lr_grad_bin, wa_grad, half, sumexp. simpl.
    replace ((exp ((1 - 2 * 0) * -2 / 2) + 0 + 0) / 1) with (exp (- 1)) by (replace ((1 - 2 * 0) * -2 / 2) with (- 1) by field; field).
    apply ln_exp. }
  set (lt := ln 3 - -1).
  assert (Hp : dmala_pfun half (paf_lr_grad_bin wa_grad) lt [0%nat] = [3 / 4]).
  { unfold dmala_pfun. simpl. f_equal. rewrite dmala_p_eq. rewrite <- exp_plus.
    unfold paf_lr_grad_bin, wa_grad, half, lt. simpl.
    replace (ln 3 - -1 + (1 - 2 * 0) * -2 / 2) with (ln 3) by field. rewrite exp_ln by lra. field. }
  eapply Rle_trans; [|apply (first_step_nan acc_guard log_guard wa_fw _ _ dmala_log_z 3 [0%nat] [true])]; rewrite Hz; fold lt.
  - rewrite Hp. simpl. unfold bw. lra.
  - rewrite Hp. reflexivity.
  - rewrite Hp. constructor; [lra|constructor].
  - rewrite Hp. change (flip_bits [true] [0%nat]) with [1%nat].
    assert (Hq : exists q, dmala_pfun half (paf_lr_grad_bin wa_grad) lt [1%nat] = [q] /\ 0 < q < 1).
    { unfold dmala_pfun. simpl. eexists. split; [reflexivity|]. apply dmala_p_range. }
    destruct Hq as (q & -> & Hq).
    assert (Hg : 0 < log_guard < / 1000).
    { unfold log_guard. split; [apply Rinv_0_lt_compat; lra|]. apply Rinv_lt_contravar; lra. }
    set (la := bern_log_acc _ _ _ _ _ _).
    assert (Hla : exp la <= / 4 * (4 / 3 * (1 + / 1000))).
    { unfold la, bern_log_acc, bern_ll, wa_fw. cbn [combine rsum fst snd nth flip_bits map Nat.mul Nat.sub Nat.add INR].
      replace (-2 * 1 + (ln (q + log_guard) * 1 + ln (1 - q + log_guard) * (1 - 1) + 0) - -2 * 0
               - (ln (3 / 4 + log_guard) * 1 + ln (1 - 3 / 4 + log_guard) * (1 - 1) + 0))
        with ((-1 + -1) + (ln (q + log_guard) + - ln (3 / 4 + log_guard))) by ring.
      rewrite !exp_plus, exp_Ropp, !exp_ln by lra. pose proof exp_half_ub. pose proof (exp_pos (-1)).
      apply Rmult_le_compat.
      - nra.
      - apply Rmult_le_pos; [lra|]. left; apply Rinv_0_lt_compat; lra.
      - nra.
      - rewrite Rmult_comm. apply Rmult_le_compat; try lra.
        + left; apply Rinv_0_lt_compat; lra.
        + replace (4 / 3) with (/ (3 / 4)) by field. apply Rinv_le_contravar; lra. }
    assert (exp (Rmin la 0) <= exp la).
    { destruct (Rmin_l la 0) as [H|H]; [left; apply exp_increasing; auto|right; rewrite H; auto]. }
    pose proof exp_half_ub. lra.
Qed.

Lemma dmala_exact : forall x, In x (states 1 2) -> paf_lr_grad_bin wa_grad x 0 = wa_fw (upd 0 (1 - nth 0 x 0)%nat x) - wa_fw x.
Proof.
  intros x Hx. apply in_states in Hx. destruct Hx as [Hl HF]. destruct x as [|a [|b x]]; try discriminate.
  inversion HF; subst. unfold paf_lr_grad_bin, wa_grad, wa_fw. simpl. destruct a as [|[|a]]; [simpl; lra|simpl; lra|lia].
Qed.

(** DLMC witness: two sites, energy -x0 - x1 - 10*x0*x1, exact gradient. *)
Definition wb_fw (x : list nat) : R := - INR (nth 0 x 0%nat) - INR (nth 1 x 0%nat) - 10 * INR (nth 0 x 0%nat) * INR (nth 1 x 0%nat).
Definition wb_grad (x : list nat) (i : nat) : R := - 1 - 10 * INR (nth (1 - i) x 0%nat).

Lemma wb_exact : forall x i, In x (states 2 2) -> (i < 2)%nat ->
  paf_lr_grad_bin wb_grad x i = wb_fw (upd i (1 - nth i x 0)%nat x) - wb_fw x.
Proof.
  intros x i Hx Hi. apply in_states in Hx. destruct Hx as [Hl HF]. destruct x as [|a [|b [|c x]]]; try discriminate.
  inversion HF as [|? ? Ha HF']; inversion HF' as [|? ? Hb _]; subst. unfold paf_lr_grad_bin, wb_grad, wb_fw.
  destruct a as [|[|a]]; [| |lia]; (destruct b as [|[|b]]; [| |lia]); (destruct i as [|[|i]]; [| |lia]); simpl; lra.
Qed.

Lemma dlmc_nan : / 25 <=
  E (bin_batch_step acc_guard log_guard wb_fw (dlmc_pfun "interpolate" half (paf_lr_grad_bin wb_grad)) (chain_rates half (paf_lr_grad_bin wb_grad))
       dlmc_log_z 3 default_conf l_init [[0%nat; 0%nat]]) (fun o => is_nan (l_log_tau (snd o))).
Proof.
  pose proof (exp_ineq1_le 1) as He1. pose proof exp_le_3 as He3.
  set (e2 := exp (- (1 / 2))).
  assert (He2 : 0 < e2 <= 2 / 3).
  { unfold e2. split; [apply exp_pos|]. rewrite exp_Ropp. replace (2 / 3) with (/ (3 / 2)) by field.
    apply Rinv_le_contravar; [lra|]. pose proof (exp_ineq1_le (1 / 2)). lra. }
  assert (Hz : dlmc_log_z [chain_rates half (paf_lr_grad_bin wb_grad) [0%nat; 0%nat]] = ln (2 * e2)).
  { unfold dlmc_log_z, chain_rates, paf_lr_grad_bin, wb_grad, half, sumexp. simpl. rewrite ln_1, Rminus_0_r. f_equal.
    replace ((1 - 2 * 0) * (-1 - 10 * 0) / 2) with (- (1 / 2)) by field. fold e2. ring. }
  set (lt := ln 3 - ln (2 * e2)).
  set (nu := / (1 + exp 1)). set (p := nu * (1 - exp (- (3 / 2 / nu)))).
  assert (Hp : dlmc_pfun "interpolate" half (paf_lr_grad_bin wb_grad) lt [0%nat; 0%nat] = [p; p]).
  { unfold dlmc_pfun, dlmc_ps. cbn [seq length map].
    assert (Hi : forall i, dlmc_p "interpolate" lt (half (paf_lr_grad_bin wb_grad [0%nat; 0%nat] i)) (paf_lr_grad_bin wb_grad [0%nat; 0%nat] i) = Some p \/ (2 <= i)%nat).
    { intros [|[|i]]; [left|left|right; lia];
      (unfold paf_lr_grad_bin, wb_grad; cbn [nth Nat.sub INR]; rewrite dlmc_p_interp; unfold p, nu, half, lt;
       f_equal; replace (- ((1 - 2 * 0) * (-1 - 10 * 0))) with 1 by ring; f_equal; f_equal; f_equal; f_equal; f_equal;
       replace ((1 - 2 * 0) * (-1 - 10 * 0) / 2) with (- (1 / 2)) by field; fold e2;
       unfold Rminus; rewrite exp_plus, exp_Ropp, !exp_ln by lra; field; lra). }
    destruct (Hi 0%nat) as [->|]; [|lia]. destruct (Hi 1%nat) as [->|]; [|lia]. reflexivity. }
  assert (Hnu : / 4 <= nu <= / 3).
  { unfold nu. split; apply Rinv_le_contravar; lra. }
  assert (Hpr : 9 / 40 <= p < 1).
  { unfold p. assert (exp (- (3 / 2 / nu)) <= / 10).
    { rewrite exp_Ropp. apply Rinv_le_contravar; [lra|].
      assert (exp 4 <= exp (3 / 2 / nu)).
      { left. apply exp_increasing. unfold nu. unfold Rdiv. rewrite Rinv_inv. lra. }
      assert (exp 4 = exp 1 * exp 1 * (exp 1 * exp 1)) by (rewrite <- !exp_plus; f_equal; ring).
      assert (4 <= exp 1 * exp 1) by nra. assert (16 <= exp 1 * exp 1 * (exp 1 * exp 1)) by nra. lra. }
    pose proof (exp_pos (- (3 / 2 / nu))). nra. }
  eapply Rle_trans; [|apply (first_step_nan acc_guard log_guard wb_fw _ _ dlmc_log_z 3 [0%nat; 0%nat] [true; true])]; rewrite Hz; fold lt.
  - rewrite Hp. simpl. unfold bw. nra.
  - rewrite Hp. reflexivity.
  - rewrite Hp. repeat constructor; lra.
  - rewrite Hp. change (flip_bits [true; true] [0%nat; 0%nat]) with [1%nat; 1%nat].
    assert (Hq : exists q1 q2, dlmc_pfun "interpolate" half (paf_lr_grad_bin wb_grad) lt [1%nat; 1%nat] = [q1; q2] /\ 0 < q1 < 1 /\ 0 < q2 < 1).
    { unfold dlmc_pfun. destruct (dlmc_ps_ok "interpolate" lt half (paf_lr_grad_bin wb_grad) 2 [1%nat; 1%nat]) as (r & -> & Hl & HF).
      - left; auto. - apply in_states. split; [reflexivity|repeat constructor].
      - destruct r as [|q1 [|q2 [|q3 r]]]; try discriminate. inversion HF as [|? ? Ha HF']; inversion HF' as [|? ? Hb _]; subst. eauto. }
    destruct Hq as (q1 & q2 & -> & Hq1 & Hq2).
    assert (Hg : 0 < log_guard < / 1000).
    { unfold log_guard. split; [apply Rinv_0_lt_compat; lra|]. apply Rinv_lt_contravar; lra. }
    set (la := bern_log_acc _ _ _ _ _ _).
    assert (Hi : / (p + log_guard) <= 40 / 9).
    { replace (40 / 9) with (/ (9 / 40)) by field. apply Rinv_le_contravar; lra. }
    assert (Hi0 : 0 < / (p + log_guard)) by (apply Rinv_0_lt_compat; lra).
    assert (H12 : exp (-12) <= / 4096).
    { replace (-12) with (Ropp 12) by ring. rewrite exp_Ropp. apply Rinv_le_contravar; [lra|].
      assert (exp 12 = (exp 1 * exp 1 * (exp 1 * exp 1)) * (exp 1 * exp 1 * (exp 1 * exp 1)) * (exp 1 * exp 1 * (exp 1 * exp 1))) as ->
        by (rewrite <- !exp_plus; f_equal; ring).
      assert (HM : 16 <= exp 1 * exp 1 * (exp 1 * exp 1)) by (assert (4 <= exp 1 * exp 1) by nra; nra).
      set (M := exp 1 * exp 1 * (exp 1 * exp 1)) in *. assert (256 <= M * M) by nra. nra. }
    pose proof (exp_pos (-12)) as H12p.
    assert (Hla : exp la <= / 100).
    { unfold la, bern_log_acc, bern_ll, wb_fw. cbn [combine rsum fst snd nth flip_bits map Nat.mul Nat.sub Nat.add INR].
      match goal with |- exp ?a <= _ => replace a with (-12 + ((ln (q1 + log_guard) + - ln (p + log_guard)) + (ln (q2 + log_guard) + - ln (p + log_guard)))) by ring end.
      rewrite !exp_plus, exp_Ropp, !exp_ln by lra.
      assert (B : forall q, 0 < q < 1 -> 0 <= (q + log_guard) * / (p + log_guard) <= 5).
      { intros q Hq. nra. }
      pose proof (B q1 Hq1). pose proof (B q2 Hq2).
      set (u := (q1 + log_guard) * / (p + log_guard)) in *. set (v := (q2 + log_guard) * / (p + log_guard)) in *.
      assert (0 <= u * v <= 25) by nra. nra. }
    assert (exp (Rmin la 0) <= exp la).
    { destruct (Rmin_l la 0) as [H|H]; [left; apply exp_increasing; auto|right; rewrite H; auto]. }
    rewrite exp_ln by lra. lra.
Qed.
