(** What the categorical DMALA / DLMC proposals draw, and the initial step size. *)
From Coq Require Import String Reals List Lra Lia Arith ZArith.
From Verif.Base Require Import RSum Cube Dist XFloat MH.
From Verif.Spec Require Import Chain.
From Verif.Model Require Import MathUtil RandomWalk LocallyBalanced PathAux Langevin.
From Verif.Proof Require Import MHKernel MathUtilProof GWGProof PathAuxProof LangevinProof.
Import ListNotations.
Local Open Scope R_scope.

Lemma sumexp_map_seq (h : nat -> R) C : sumexp (map h (seq 0 C)) = rsum (seq 0 C) (fun c => exp (h c)).
Proof. unfold sumexp. rewrite rsum_map. reflexivity. Qed.

Lemma cw_log_softmax l c : (c < length l)%nat -> cw (log_softmax l) c = exp (nth c l 0) / sumexp l.
Proof.
  intros H. assert (Hne : l <> []) by (intros ->; simpl in H; lia). unfold cw.
  rewrite sumexp_log_softmax, nth_log_softmax by auto. unfold Rminus. pose proof (sumexp_pos l Hne).
  rewrite exp_plus, exp_Ropp, exp_ln by auto. unfold Rdiv. rewrite Rinv_1. ring.
Qed.

(** Weight of category [c]: 1 for the current one, tau * g(ratio) for another. *)
Definition dm_weight (log_tau : R) (wf : R -> R) (lr : list nat -> nat -> R) (C : nat) (x : list nat) (i c : nat) : R :=
  if Nat.eqb c (nth i x 0%nat) then 1 else exp log_tau * exp (wf (lr x (i * C + c)%nat)).

Lemma dmala_row_law lt wf lr C x i row c : dmala_row lt wf lr C x i = Some row -> (c < C)%nat ->
  length row = C /\ cw row c = dm_weight lt wf lr C x i c / rsum (seq 0 C) (dm_weight lt wf lr C x i).
Proof.
  intros Hr Hc. unfold dmala_row in Hr. injection Hr as <-. rewrite log_softmax_length, map_length, seq_length.
  split; [reflexivity|]. rewrite cw_log_softmax by (rewrite map_length, seq_length; auto).
  rewrite sumexp_map_seq, nth_map_seq by auto.
  assert (He : forall c, exp ((lt + wf (lr x (i * C + c)%nat)) * (1 - (if Nat.eqb c (nth i x 0%nat) then 1 else 0))) = dm_weight lt wf lr C x i c).
  { intros c'. unfold dm_weight. destruct (Nat.eqb c' _).
    - rewrite Rminus_diag_eq, Rmult_0_r, exp_0 by auto. reflexivity.
    - rewrite Rminus_0_r, Rmult_1_r, exp_plus. reflexivity. }
  rewrite He. unfold Rdiv. f_equal. apply f_equal. apply rsum_ext. intros c' _. apply He.
Qed.

(** DLMC, interpolation: nu_c is the conditional probability of c given the rest (for exact ratios). *)
Definition nu (lr : list nat -> nat -> R) (C : nat) (x : list nat) (i c : nat) : R :=
  exp (lr x (i * C + c)%nat) / rsum (seq 0 C) (fun c' => exp (lr x (i * C + c')%nat)).
Definition dl_move (lt : R) (wf : R -> R) lr C x i c : R :=
  nu lr C x i c * (1 - exp (- (exp lt * exp (wf (lr x (i * C + c)%nat)) / nu lr C x i c))).

Lemma nu_log lr C x i c : (c < C)%nat ->
  exp (nth c (log_softmax (map (fun c => lr x (i * C + c)%nat) (seq 0 C))) 0) = nu lr C x i c.
Proof.
  intros Hc. rewrite nth_log_softmax by (rewrite map_length, seq_length; auto).
  assert (map (fun c => lr x (i * C + c)%nat) (seq 0 C) <> []) as Hne.
  { destruct C; [lia|]. discriminate. }
  pose proof (sumexp_pos _ Hne). unfold Rminus. rewrite exp_plus, exp_Ropp, exp_ln by auto.
  rewrite sumexp_map_seq, nth_map_seq by auto. reflexivity.
Qed.

Lemma nu_pos lr C x i c : (c < C)%nat -> 0 < nu lr C x i c.
Proof.
  intros Hc. apply Rdiv_lt_0_compat; [apply exp_pos|]. apply rsum_pos; [destruct C; [lia|discriminate]|]. intros; apply exp_pos.
Qed.
Lemma nu_sum lr C x i : (0 < C)%nat -> rsum (seq 0 C) (nu lr C x i) = 1.
Proof.
  intros HC. unfold nu, Rdiv. rewrite rsum_scal_r. apply Rinv_r.
  apply Rgt_not_eq, rsum_pos; [destruct C; [lia|discriminate]|]. intros; apply exp_pos.
Qed.

Lemma all_some_map {A B} (f : A -> option B) (g : A -> B) : forall l, (forall a, In a l -> f a = Some (g a)) ->
  all_some (map f l) = Some (map g l).
Proof.
  induction l as [|a l IH]; intros H; [reflexivity|]. cbn [map all_some]. rewrite (H a) by (left; auto).
  rewrite IH by (intros; apply H; right; auto). reflexivity.
Qed.

Lemma dl_move_bounds lt wf lr C x i c : (c < C)%nat -> 0 < dl_move lt wf lr C x i c < nu lr C x i c.
Proof.
  intros Hc. unfold dl_move. pose proof (nu_pos lr C x i c Hc) as Hn.
  assert (He : 0 < exp lt * exp (wf (lr x (i * C + c)%nat)) / nu lr C x i c).
  { apply Rdiv_lt_0_compat; auto. apply Rmult_lt_0_compat; apply exp_pos. }
  pose proof (one_minus_exp_range _ He). nra.
Qed.

(** If the current value keeps conditional probability at least 1e-12, the row is an exactly normalised
    log-probability vector: move to c <> x_i with probability nu_c (1 - exp(-tau g_c / nu_c)), else stay. *)
Lemma dlmc_row_law lt wf lr C x i row : dlmc_row "interpolate" lt wf lr C x i = Some row ->
  (nth i x 0 < C)%nat -> / 10 ^ 12 <= nu lr C x i (nth i x 0%nat) ->
  length row = C /\ sumexp row = 1 /\
  (forall c, (c < C)%nat -> c <> nth i x 0%nat -> exp (nth c row 0) = dl_move lt wf lr C x i c) /\
  exp (nth (nth i x 0%nat) row 0) = 1 - rsum (seq 0 C) (fun c => if Nat.eqb c (nth i x 0%nat) then 0 else dl_move lt wf lr C x i c).
Proof.
  intros Hr Hxi Hnu. set (xi := nth i x 0%nat) in *. unfold dlmc_row in Hr. cbv zeta in Hr. fold xi in Hr.
  set (ls := log_softmax (map (fun c => lr x (i * C + c)%nat) (seq 0 C))) in *.
  set (post := fun c => nth c ls 0 + ln (1 - exp (- exp (lt + wf (lr x (i * C + c)%nat) - nth c ls 0)))).
  rewrite (all_some_map _ post) in Hr by (intros c _; rewrite dlmc_thr_interp; reflexivity).
  apply (f_equal (fun o => match o with Some r => r | None => row end)) in Hr. cbv beta iota in Hr. rewrite <- Hr.
  assert (Hpost : forall c, (c < C)%nat -> exp (post c) = dl_move lt wf lr C x i c).
  { intros c Hc. unfold post, dl_move. rewrite exp_plus. unfold ls. rewrite nu_log by auto. fold ls.
    rewrite exp_ln by (apply one_minus_exp_range, exp_pos). do 3 f_equal. f_equal.
    unfold Rminus. rewrite exp_plus, exp_Ropp. unfold ls. rewrite nu_log by auto. rewrite exp_plus. reflexivity. }
  set (s := rsum (seq 0 C) _).
  assert (Hs : s = rsum (seq 0 C) (fun c => if Nat.eqb c xi then 0 else dl_move lt wf lr C x i c)).
  { apply rsum_ext. intros c Hc. apply in_seq in Hc. rewrite nth_map_seq by lia. rewrite Hpost by lia.
    destruct (Nat.eqb c xi); ring. }
  assert (Hs1 : s <= 1 - nu lr C x i xi).
  { rewrite Hs, <- (nu_sum lr C x i ltac:(lia)).
    assert (Hsg : nu lr C x i xi = rsum (seq 0 C) (fun c => if Nat.eq_dec c xi then nu lr C x i xi else 0)).
    { rewrite (rsum_single _ _ xi); [destruct (Nat.eq_dec xi xi); [auto|congruence]|apply seq_NoDup|apply in_seq; lia|].
      intros b _ Hb. destruct (Nat.eq_dec b xi); [congruence|auto]. }
    rewrite Hsg, <- rsum_minus. apply rsum_le. intros c Hc. apply in_seq in Hc. cbv beta.
    destruct (Nat.eqb_spec c xi) as [->|Hne].
    - destruct (Nat.eq_dec xi xi); [lra|congruence].
    - destruct (Nat.eq_dec c xi); [congruence|]. pose proof (dl_move_bounds lt wf lr C x i c ltac:(lia)). lra. }
  rewrite map_length, seq_length. split; [reflexivity|].
  assert (Hown : exp (nth xi (map post (seq 0 C)) 0 * (1 - 1) + 1 * Rmax (ln (1 + - Rmin s (1 - / 10 ^ 12))) (nth xi ls 0)) = 1 - s).
  { rewrite Rmin_left by lra. replace (_ * (1 - 1) + 1 * _) with (Rmax (ln (1 + - s)) (nth xi ls 0)) by ring.
    assert (Hl : nth xi ls 0 = ln (nu lr C x i xi)). { unfold ls. rewrite <- nu_log by auto. rewrite ln_exp. reflexivity. }
    pose proof (nu_pos lr C x i xi Hxi).
    rewrite Rmax_left; [rewrite exp_ln by lra; ring|]. rewrite Hl.
    destruct (Rle_lt_or_eq_dec (nu lr C x i xi) (1 + - s) ltac:(lra)) as [Hlt|Heq]; [left; apply ln_increasing; auto|right; rewrite Heq; auto]. }
  assert (Hoff : forall c, (c < C)%nat -> c <> xi -> exp (nth c (map post (seq 0 C)) 0 * (1 - 0) + 0 * Rmax (ln (1 + - Rmin s (1 - / 10 ^ 12))) (nth c ls 0)) = dl_move lt wf lr C x i c).
  { intros c Hc Hne. rewrite nth_map_seq by auto. rewrite Rminus_0_r, Rmult_1_r, Rmult_0_l, Rplus_0_r. apply Hpost; auto. }
  split; [|split].
  - rewrite sumexp_map_seq. 
    rewrite (rsum_ext (seq 0 C) _ (fun c => (if Nat.eqb c xi then 0 else dl_move lt wf lr C x i c) + (if Nat.eq_dec c xi then 1 - s else 0))).
    + rewrite rsum_plus, <- Hs, (rsum_single _ (fun c => if Nat.eq_dec c xi then 1 - s else 0) xi);
        [destruct (Nat.eq_dec xi xi); [ring|congruence]|apply seq_NoDup|apply in_seq; lia|].
      intros b _ Hb. destruct (Nat.eq_dec b xi); [congruence|auto].
    + intros c Hc. apply in_seq in Hc. cbv beta. destruct (Nat.eqb_spec c xi) as [->|Hne].
      * destruct (Nat.eq_dec xi xi); [|congruence]. rewrite Hown. ring.
      * destruct (Nat.eq_dec c xi); [congruence|]. rewrite Hoff by lia. ring.
  - intros c Hc Hne. rewrite nth_map_seq by auto. destruct (Nat.eqb_spec c xi); [congruence|]. apply Hoff; auto.
  - rewrite nth_map_seq by auto. rewrite Nat.eqb_refl, Hown, Hs. reflexivity.
Qed.

(** ** Initial step size *)
Lemma rsum_concat (l : list (list R)) (f : R -> R) : rsum (concat l) f = rsum l (fun a => rsum a f).
Proof. induction l as [|a l IH]; simpl; auto. rewrite rsum_app, IH. reflexivity. Qed.

Lemma log_z_same rates : rates <> [] -> (exists r, In r rates /\ r <> []) -> dlmc_log_z rates = dmala_log_z rates.
Proof.
  intros Hne (r & Hr & Hrn). unfold dlmc_log_z, dmala_log_z, sumexp at 1. rewrite rsum_concat.
  assert (0 < INR (length rates)) by (apply lt_0_INR; destruct rates; [congruence|simpl; lia]).
  assert (Hp : 0 < rsum rates (fun a => rsum a exp)).
  { apply Rlt_le_trans with (rsum r exp); [apply rsum_pos; auto; intros; apply exp_pos|].
    apply (rsum_ge_term rates (fun a => rsum a exp) r Hr). intros b _. apply rsum_nonneg. intros; left; apply exp_pos. }
  unfold Rdiv. rewrite ln_mult; [|exact Hp|apply Rinv_0_lt_compat; auto]. rewrite ln_Rinv by auto. reflexivity.
Qed.

Lemma local_tau_spec n rates : 0 < n -> rates <> [] -> (exists r, In r rates /\ r <> []) ->
  exp (local_log_tau n (dmala_log_z rates)) * (rsum rates (fun r => rsum r exp) / INR (length rates)) = n.
Proof.
  intros Hn Hne (r & Hr & Hrn). unfold local_log_tau, dmala_log_z.
  assert (0 < INR (length rates)) by (apply lt_0_INR; destruct rates; [congruence|simpl; lia]).
  assert (Hp : 0 < rsum rates (fun a => rsum a exp)).
  { apply Rlt_le_trans with (rsum r exp); [apply rsum_pos; auto; intros; apply exp_pos|].
    apply (rsum_ge_term rates (fun a => rsum a exp) r Hr). intros b _. apply rsum_nonneg. intros; left; apply exp_pos. }
  change (rsum rates sumexp) with (rsum rates (fun a => rsum a exp)).
  unfold Rminus. rewrite exp_plus, exp_Ropp, !exp_ln; auto; [field; lra|apply Rdiv_lt_0_compat; auto].
Qed.
