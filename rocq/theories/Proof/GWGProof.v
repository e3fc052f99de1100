(** Proofs about Gibbs-with-gradients. *)
From Coq Require Import Reals List Lra Lia Arith ZArith.
From Verif.Base Require Import RSum Cube Dist MH.
From Verif.Spec Require Import Chain.
From Verif.Model Require Import MathUtil RandomWalk GWG.
From Verif.Proof Require Import MHKernel MathUtilProof GibbsProof RandomWalkProof.
Import ListNotations.
Local Open Scope R_scope.

Lemma log_softmax_length l : length (log_softmax l) = length l.
Proof. unfold log_softmax. apply map_length. Qed.

Lemma sumexp_log_softmax l : l <> [] -> sumexp (log_softmax l) = 1.
Proof.
  intros H. pose proof (sumexp_pos l H) as Hp. unfold sumexp at 1, log_softmax. rewrite rsum_map.
  rewrite (rsum_ext l _ (fun a => exp a * / sumexp l)).
  - rewrite rsum_scal_r. fold (sumexp l). apply Rinv_r. lra.
  - intros a _. unfold Rminus. rewrite exp_plus, exp_Ropp, exp_ln by auto. reflexivity.
Qed.

Lemma prod_at_repeat {A} (w : A -> R) k a : length a = k -> prod_at (repeat w k) a = rprod a w.
Proof. revert a; induction k as [|k IH]; intros [|b a] H; simpl in *; try discriminate; auto. rewrite IH; auto. Qed.

Lemma E_repl logp k f : sumexp logp = 1 ->
  E (multinomial_repl_law logp k) f
  = rsum (lists_over (seq 0 (length logp)) k) (fun a => exp (rsum a (fun i => nth i logp 0)) * f a).
Proof.
  intros H1. unfold multinomial_repl_law.
  set (w := fun i => exp (nth i logp 0) / sumexp logp).
  replace (repeat (categorical logp) k) with (map (weighted (seq 0 (length logp))) (repeat w k))
    by (clear; induction k as [|k IH]; simpl; [reflexivity|rewrite IH; reflexivity]).
  rewrite E_indep_weighted, repeat_length. apply rsum_ext. intros a Ha. apply in_lists_over in Ha.
  rewrite prod_at_repeat by tauto. rewrite exp_rsum. f_equal. apply rprod_ext. intros i _.
  unfold w. rewrite H1. field.
Qed.

Lemma is_prob_repl logp k : logp <> [] -> is_prob (multinomial_repl_law logp k).
Proof. intros H. apply is_prob_indep. intros d Hd. apply repeat_spec in Hd. subst. apply is_prob_categorical; auto. Qed.

Lemma flip_idx_length idx x : length (flip_idx idx x) = length x.
Proof.
  unfold flip_idx. assert (H : forall y, length (fold_left (fun y i => upd i (1 - nth i x 0)%nat y) idx y) = length y).
  { induction idx as [|i idx IH]; intros y; simpl; auto. rewrite IH, upd_length; auto. }
  apply H.
Qed.

Lemma nth_flip_idx idx x j : (j < length x)%nat ->
  nth j (flip_idx idx x) 0%nat = if in_dec Nat.eq_dec j idx then (1 - nth j x 0)%nat else nth j x 0%nat.
Proof.
  intros Hj. unfold flip_idx.
  assert (H : forall y, length y = length x ->
    nth j (fold_left (fun y i => upd i (1 - nth i x 0)%nat y) idx y) 0%nat
    = if in_dec Nat.eq_dec j idx then (1 - nth j x 0)%nat else nth j y 0%nat).
  { induction idx as [|i idx IH]; intros y Hy; [reflexivity|]. cbn [fold_left]. rewrite IH by (rewrite upd_length; auto).
    destruct (in_dec Nat.eq_dec j idx) as [Hin|Hin], (in_dec Nat.eq_dec j (i :: idx)) as [Hin'|Hin']; auto.
    - exfalso; apply Hin'; right; auto.
    - destruct Hin' as [->|Hc]; [|contradiction]. apply nth_upd_eq. lia.
    - apply nth_upd_neq. intros ->. apply Hin'; left; auto. }
  apply H; auto.
Qed.

Lemma flip_idx_in d idx x : In x (states d 2) -> In (flip_idx idx x) (states d 2).
Proof.
  intros Hx. pose proof Hx as Hx'. apply in_states in Hx. destruct Hx as [Hl HF]. apply in_states. rewrite flip_idx_length. split; auto.
  apply (Forall_nth_iff _ 0%nat). rewrite flip_idx_length. intros j Hj. rewrite nth_flip_idx by auto.
  destruct (in_dec _ _ _); [lia|]. apply (in_states_nth d 2 x j); auto; lia.
Qed.

Lemma flip_idx_invol d idx x : In x (states d 2) -> flip_idx idx (flip_idx idx x) = x.
Proof.
  intros Hx. apply (list_eq_nth 0%nat); [rewrite !flip_idx_length; auto|].
  rewrite !flip_idx_length. intros j Hj. rewrite nth_flip_idx by (rewrite flip_idx_length; auto). rewrite nth_flip_idx by auto.
  destruct (in_dec _ _ _); auto.
  apply in_states in Hx as Hx'. assert (nth j x 0 < 2)%nat by (apply (in_states_nth d 2 x j); auto; lia). lia.
Qed.

Section BinGWG.
  Variables (fw : list nat -> R) (wf : R -> R) (grad : list nat -> nat -> R) (mask : option (nat -> R)) (d k : nat).
  Hypothesis Hd : (0 < d)%nat.

  Lemma gwg_dist_length x : length (gwg_dist_at wf grad mask x) = length x.
  Proof. unfold gwg_dist_at. rewrite log_softmax_length, map_length, seq_length. reflexivity. Qed.

  Lemma gwg_dist_sum x : length x = d -> sumexp (gwg_dist_at wf grad mask x) = 1.
  Proof.
    intros H. apply sumexp_log_softmax. rewrite H. destruct d; [lia|]. simpl. discriminate.
  Qed.

  Let Aux := lists_over (seq 0 d) k.

  Lemma gwg_hyps :
    (forall x, In x (states d 2) -> is_prob (multinomial_repl_law (gwg_dist_at wf grad mask x) k)) /\
    (forall x f, In x (states d 2) -> E (multinomial_repl_law (gwg_dist_at wf grad mask x) k) f
        = rsum Aux (fun a => exp (gwg_ll (gwg_dist_at wf grad mask x) a) * f a)).
  Proof.
    split; intros x; [intros Hx|intros f Hx]; apply in_states in Hx; destruct Hx as [Hl _].
    - apply is_prob_repl. intros H. pose proof (gwg_dist_length x) as HL. rewrite H in HL. simpl in HL. lia.
    - rewrite E_repl by (apply gwg_dist_sum; auto). rewrite gwg_dist_length, Hl. reflexivity.
  Qed.

  Theorem gwg_reversible : reversible (states d 2) (fun x => exp (fw x)) (gwg_step 0 fw wf grad mask k).
  Proof.
    destruct gwg_hyps as [H1 H2].
    apply (ll_kernel_reversible (states d 2) Aux (fun x a => flip_idx a x) (fun _ a => a))
      with (ll := fun x a => gwg_ll (gwg_dist_at wf grad mask x) a)
           (prop := fun x => multinomial_repl_law (gwg_dist_at wf grad mask x) k)
           (la := gwg_log_acc fw wf grad mask); auto.
    - apply NoDup_states.
    - apply NoDup_lists_over, seq_NoDup.
    - intros. apply flip_idx_in; auto.
    - intros. apply (flip_idx_invol d); auto.
  Qed.

  Theorem gwg_invariant_upto g : 0 <= g ->
    invariant_upto (2 * g) (states d 2) (fun x => exp (fw x)) (gwg_step g fw wf grad mask k).
  Proof.
    intros Hg. destruct gwg_hyps as [H1 H2].
    apply (ll_kernel_invariant_upto (states d 2) Aux (fun x a => flip_idx a x) (fun _ a => a))
      with (ll := fun x a => gwg_ll (gwg_dist_at wf grad mask x) a)
           (prop := fun x => multinomial_repl_law (gwg_dist_at wf grad mask x) k)
           (la := gwg_log_acc fw wf grad mask); auto.
    - apply NoDup_states.
    - apply NoDup_lists_over, seq_NoDup.
    - intros. apply flip_idx_in; auto.
    - intros. apply (flip_idx_invol d); auto.
  Qed.

  Lemma gwg_is_prob g x : In x (states d 2) -> is_prob (gwg_step g fw wf grad mask k x).
  Proof.
    intros Hx. destruct gwg_hyps as [H1 _]. apply is_prob_bind; [apply H1; auto|]. intros; apply is_prob_mh_law.
  Qed.

  Lemma gwg_support g x y w : In x (states d 2) -> In (y, w) (gwg_step g fw wf grad mask k x) -> In y (states d 2).
  Proof.
    intros Hx Hy. unfold gwg_step, bind in Hy. apply in_flat_map in Hy. destruct Hy as ([a p] & Ha & Hy).
    apply in_map_iff in Hy. destruct Hy as ([y' p'] & Heq & Hy'). inversion Heq; subst. simpl in *.
    apply in_mh_law in Hy'. destruct Hy' as [->| ->]; auto. apply flip_idx_in; auto.
  Qed.
End BinGWG.

(** The adaptive version at a fixed radius is the fixed-count version with that many flips. *)
Lemma nth_flip_counts counts x j : length counts = length x -> (j < length x)%nat ->
  nth j (flip_counts counts x) 0%nat
  = (let ind := if Nat.ltb 0 (nth j counts 0%nat) then 1%nat else 0%nat in
     nth j x 0 * (1 - ind) + ind * (1 - nth j x 0))%nat.
Proof.
  intros Hl Hj. unfold flip_counts.
  rewrite (nth_map_lt _ _ _ (0%nat, 0%nat)) by (rewrite combine_length; lia).
  rewrite combine_nth by auto. reflexivity.
Qed.

Lemma agwg_counts_eq d num draws : length draws = num ->
  agwg_counts d num draws = Some (counts_of d draws).
Proof.
  intros Hl. unfold agwg_counts. rewrite multinomial_counts_spec by (auto; lia). do 2 f_equal.
  unfold draws_upto. rewrite firstn_all2.
  - subst num. clear.
    assert (H : forall l pre, flat_map (fun it => [nth it (pre ++ l) 0%nat]) (seq (length pre) (length l)) = l).
    { induction l as [|a l IH]; intros pre; simpl; auto. f_equal.
      - rewrite app_nth2, Nat.sub_diag by lia. reflexivity.
      - specialize (IH (pre ++ [a])). rewrite app_length in IH. simpl in IH. rewrite Nat.add_1_r in IH.
        rewrite <- app_assoc in IH. simpl in IH. exact IH. }
    apply (H draws []).
  - fold (draws_upto (fun it => [nth it draws 0%nat]) 0 num).
    rewrite (draws_upto_length _ 1) by auto. lia.
Qed.

Lemma flip_counts_eq d a x : In x (states d 2) -> flip_counts (counts_of d a) x = flip_idx a x.
Proof.
  intros Hx. pose proof Hx as Hx'. apply in_states in Hx. destruct Hx as [Hl HF].
  assert (Hlen : length (flip_counts (counts_of d a) x) = length x).
  { unfold flip_counts. rewrite map_length, combine_length, counts_of_length. lia. }
  apply (list_eq_nth 0%nat); [rewrite flip_idx_length; auto|]. intros j Hj. rewrite Hlen in Hj.
  rewrite nth_flip_counts by (rewrite ?counts_of_length; auto).
  rewrite nth_counts_of, nth_flip_idx by lia.
  assert (nth j x 0 < 2)%nat by (apply (in_states_nth d 2 x j); auto; lia).
  pose proof (count_occ_In Nat.eq_dec a j) as Hc.
  destruct (in_dec Nat.eq_dec j a) as [Hin|Hin]; destruct (Nat.ltb_spec 0 (count_occ Nat.eq_dec a j)) as [H0|H0]; cbv zeta.
  - lia.
  - apply Hc in Hin. lia.
  - exfalso. apply Hin. apply Hc. lia.
  - lia.
Qed.

Lemma agwg_log_acc_eq fw wf grad mask d a x : In x (states d 2) -> Forall (fun i => (i < d)%nat) a ->
  agwg_log_acc fw wf grad mask x (counts_of d a) = gwg_log_acc fw wf grad mask x a.
Proof.
  intros Hx Ha. unfold agwg_log_acc, gwg_log_acc. rewrite (flip_counts_eq d) by auto.
  assert (H : forall z, In z (states d 2) ->
    gwg_ll_counts (gwg_dist_at wf grad mask z) (counts_of d a) = gwg_ll (gwg_dist_at wf grad mask z) a).
  { intros z Hz. apply in_states in Hz. destruct Hz as [Hl _]. unfold gwg_ll_counts, gwg_ll.
    rewrite <- (counts_ll_sum (gwg_dist_at wf grad mask z) a) by (rewrite gwg_dist_length, Hl; auto).
    rewrite gwg_dist_length, Hl. reflexivity. }
  rewrite !H; auto. apply flip_idx_in; auto.
Qed.

Lemma agwg_step_E fw wf grad mask d radius g x f : (0 < d)%nat -> In x (states d 2) ->
  E (agwg_step g fw wf grad mask radius x) f = E (gwg_step g fw wf grad mask (num_sites d radius) x) f.
Proof.
  intros Hd Hx. pose proof Hx as Hx'. apply in_states in Hx'. destruct Hx' as [Hl _].
  unfold agwg_step, gwg_step. rewrite Hl, !E_bind.
  destruct (gwg_hyps wf grad mask d (num_sites d radius) Hd) as [_ H2]. rewrite !H2 by auto.
  apply rsum_ext. intros a Ha. apply in_lists_over in Ha. destruct Ha as [Hla HFa].
  rewrite agwg_counts_eq by auto. rewrite (agwg_log_acc_eq _ _ _ _ d), (flip_counts_eq d); auto.
  eapply Forall_impl; [|exact HFa]. intros i Hi. apply in_seq in Hi. lia.
Qed.

Lemma reversible_ext {A} (S : list A) pi (k1 k2 : A -> dist A) :
  (forall x f, In x S -> E (k1 x) f = E (k2 x) f) -> reversible S pi k2 -> reversible S pi k1.
Proof.
  intros He Hr f g. specialize (Hr f g).
  rewrite (rsum_ext S (fun x => pi x * f x * E (k1 x) g) (fun x => pi x * f x * E (k2 x) g)) by (intros; rewrite He; auto).
  rewrite Hr. apply rsum_ext. intros. rewrite He; auto.
Qed.

Lemma invariant_upto_ext {A} eps (S : list A) pi (k1 k2 : A -> dist A) :
  (forall x f, In x S -> E (k1 x) f = E (k2 x) f) -> invariant_upto eps S pi k2 -> invariant_upto eps S pi k1.
Proof.
  intros He Hr f Hf. specialize (Hr f Hf).
  rewrite (rsum_ext S (fun x => pi x * E (k1 x) f) (fun x => pi x * E (k2 x) f)) by (intros; rewrite He; auto).
  exact Hr.
Qed.

Theorem agwg_reversible fw wf grad mask d radius : (0 < d)%nat ->
  reversible (states d 2) (fun x => exp (fw x)) (agwg_step 0 fw wf grad mask radius).
Proof.
  intros Hd. eapply reversible_ext; [|apply (gwg_reversible fw wf grad mask d (num_sites d radius) Hd)].
  intros x f Hx. apply agwg_step_E; auto.
Qed.

Theorem agwg_invariant_upto fw wf grad mask d radius g : (0 < d)%nat -> 0 <= g ->
  invariant_upto (2 * g) (states d 2) (fun x => exp (fw x)) (agwg_step g fw wf grad mask radius).
Proof.
  intros Hd Hg. eapply invariant_upto_ext; [|apply (gwg_invariant_upto fw wf grad mask d (num_sites d radius) Hd g Hg)].
  intros x f Hx. apply agwg_step_E; auto.
Qed.

(** ** Radius *)
Lemma num_sites_range d radius : (1 <= d)%nat -> (1 <= num_sites d radius <= d)%nat.
Proof. intros Hd. unfold num_sites. lia. Qed.

Lemma Int_part_bounds r : IZR (Int_part r) <= r < IZR (Int_part r) + 1.
Proof.
  destruct (base_Int_part r) as [H1 H2]. split; lra.
Qed.

Lemma round_even_close r : Rabs (IZR (round_even r) - r) <= / 2.
Proof.
  pose proof (Int_part_bounds r) as H. unfold round_even. apply Rabs_le.
  destruct (Rlt_dec _ _); [lra|]. destruct (Rlt_dec _ _); [rewrite plus_IZR; lra|].
  destruct (Z.even _); [lra|rewrite plus_IZR; lra].
Qed.

(** Inside the legal range the clipping of the rounded radius does nothing. *)
Lemma num_sites_close d radius : (1 <= d)%nat -> 1 <= radius <= INR d ->
  Rabs (INR (num_sites d radius) - radius) <= / 2.
Proof.
  intros Hd Hr. pose proof (round_even_close radius) as Hc. apply ChainProof.Rabs_def2_le in Hc.
  assert (H1 : (1 <= round_even radius)%Z).
  { apply le_IZR. assert (IZR 0 < IZR (round_even radius)) by lra. apply lt_IZR in H. apply IZR_le. lia. }
  assert (H2 : (round_even radius <= Z.of_nat d)%Z).
  { apply Z.lt_succ_r. apply lt_IZR. unfold Z.succ. rewrite plus_IZR, <- INR_IZR_INZ. lra. }
  unfold num_sites. rewrite INR_IZR_INZ, Z2Nat.id by lia.
  replace (Z.min (Z.max (round_even radius) 1) (Z.of_nat d)) with (round_even radius) by lia.
  apply round_even_close.
Qed.

Theorem agwg_radius_range dim target hist s :
  (1 <= dim)%nat -> 1 <= gwg_radius s <= INR dim ->
  1 <= gwg_radius (fold_left (fun s l => agwg_update dim target l s) hist s) <= INR dim.
Proof.
  intros Hd. revert s; induction hist as [|l hist IH]; intros s Hs; simpl; auto.
  apply IH. simpl. apply clip_range. apply (le_INR 1); auto.
Qed.
