(** Proofs about the path-auxiliary sampler. *)
From Coq Require Import Reals List Lra Lia Arith ZArith Permutation.
From Verif.Base Require Import RSum Cube Dist XFloat MH.
From Verif.Spec Require Import Chain.
From Verif.Model Require Import MathUtil RandomWalk GWG PathAux.
From Verif.Proof Require Import MHKernel MathUtilProof NoReplProof GibbsProof RandomWalkProof GWGProof.
Import ListNotations.
Local Open Scope R_scope.

(** ** Lists *)
Lemma rsum_sub_le (l : nat -> R) : forall path avail, NoDup avail -> NoDup path -> incl path avail ->
  rsum path (fun i => exp (l i)) <= rsum avail (fun i => exp (l i)).
Proof.
  induction path as [|i p IH]; intros avail Hnd Hp Hincl.
  - simpl. apply rsum_nonneg. intros; left; apply exp_pos.
  - inversion Hp; subst. cbn [rsum].
    assert (Hi : In i avail) by (apply Hincl; left; auto).
    pose proof (rsum_remove_nat (fun i => exp (l i)) i avail Hi) as Hr. cbn beta in Hr.
    assert (rsum p (fun i => exp (l i)) <= rsum (remove_nat i avail) (fun i => exp (l i))).
    { apply IH; [apply NoDup_remove_nat; auto|auto|]. intros j Hj. apply in_remove_nat; auto.
      split; [apply Hincl; right; auto|congruence]. }
    lra.
Qed.

Lemma fin_sum_map v : fin_sum (map Fin v) = Some (rsum v (fun a => a)).
Proof. induction v as [|a v IH]; simpl; auto. rewrite IH. reflexivity. Qed.

Definition path_ll (l : nat -> R) (path : list nat) : R := rsum (seq_cond 0 (map l path)) (fun v => v).

Lemma seq_cond_firstn k : forall ls acc, firstn k (seq_cond acc ls) = seq_cond acc (firstn k ls).
Proof. induction k as [|k IH]; intros [|a ls] acc; simpl; auto. rewrite IH; auto. Qed.

Lemma renorm_path (l : nat -> R) avail path : NoDup avail -> NoDup path -> incl path avail -> path <> [] ->
  rsum avail (fun i => exp (l i)) = 1 -> renormalize (map l path) = Some (map Fin (seq_cond 0 (map l path))).
Proof.
  intros Hnd Hp Hi Hne H1. apply renormalize_correct; [destruct path; [congruence|discriminate]|].
  rewrite rsum_map, <- H1. apply rsum_sub_le; auto.
Qed.

Lemma fwd_ll_path (l : nat -> R) avail path : NoDup avail -> NoDup path -> incl path avail -> path <> [] ->
  rsum avail (fun i => exp (l i)) = 1 -> fwd_ll l path = Some (path_ll l path).
Proof.
  intros Hnd Hp Hi Hne H1. unfold fwd_ll. destruct (Nat.ltb_spec 1 (length path)) as [_|Hl].
  - rewrite (renorm_path l avail) by auto. apply fin_sum_map.
  - destruct path as [|i [|j path]]; [congruence| |simpl in Hl; lia]. unfold path_ll. simpl.
    rewrite Rminus_0_r. unfold Rdiv. rewrite Rinv_1, Rmult_1_r, ln_exp. reflexivity.
Qed.

Lemma bwd_ll_path (l : nat -> R) avail path : NoDup avail -> NoDup path -> incl path avail -> path <> [] ->
  rsum avail (fun i => exp (l i)) = 1 -> bwd_ll l path = Some (path_ll l (rev path)).
Proof.
  intros Hnd Hp Hi Hne H1. unfold bwd_ll. rewrite (renorm_path l avail); auto.
  - apply fin_sum_map.
  - apply NoDup_rev; auto.
  - intros a Ha. apply Hi. apply in_rev; auto.
  - intros H. apply Hne. rewrite <- (rev_involutive path), H. reflexivity.
Qed.

Lemma kperms_rev k avail p : NoDup avail -> In p (kperms k avail) -> In (rev p) (kperms k avail).
Proof.
  intros Hnd Hp. apply in_kperms in Hp; auto. apply in_kperms; auto. rewrite rev_length.
  destruct Hp as (H1 & H2 & H3). split; auto. split; [apply NoDup_rev; auto|].
  intros a Ha. apply H3, in_rev; auto.
Qed.

Lemma in_norepl w k : forall avail p q, In (p, q) (norepl_law w k avail) -> In p (kperms k avail).
Proof.
  induction k as [|k IH]; intros avail p q H; simpl in *.
  - destruct H as [H|[]]; inversion H; auto.
  - unfold bind in H. apply in_flat_map in H. destruct H as ([i u] & Hi & H). apply in_map_iff in H.
    destruct H as ([p' q'] & Heq & H). unfold dmap in H. apply in_map_iff in H. destruct H as ([p'' q''] & Heq' & H).
    cbn in *. inversion Heq; inversion Heq'; subst. apply in_map_iff in Hi. destruct Hi as (i' & Hi' & Hin). inversion Hi'; subst.
    apply in_flat_map. exists i. split; auto. apply in_map. eapply IH; eauto.
Qed.

Lemma E_norepl_firstn w k : forall n avail f, (k <= n <= length avail)%nat -> NoDup avail ->
  (forall i, In i avail -> 0 < w i) ->
  E (norepl_law w n avail) (fun o => f (firstn k o)) = E (norepl_law w k avail) f.
Proof.
  induction k as [|k IH]; intros n avail f Hn Hnd Hw.
  - cbn [firstn]. rewrite E_const. cbn [norepl_law]. rewrite E_ret.
    rewrite (proj2 (is_prob_norepl w n avail Hw Hnd ltac:(lia))). ring.
  - destruct n as [|n]; [lia|]. cbn [norepl_law]. rewrite !E_bind, !E_weighted. apply rsum_ext. intros i Hi.
    f_equal. rewrite !E_dmap. cbn [firstn].
    apply (IH n (remove_nat i avail) (fun p => f (i :: p))).
    + rewrite length_remove_nat by auto. lia.
    + apply NoDup_remove_nat; auto.
    + intros j Hj. apply in_remove_nat in Hj; auto. apply Hw; tauto.
Qed.

(** ** Adaptive log-likelihoods *)
Lemma in_sel_spec k order i : in_sel k order i = true <-> In i (firstn k order).
Proof.
  unfold in_sel. rewrite existsb_exists. split.
  - intros (j & Hj & He). apply Nat.eqb_eq in He. subst; auto.
  - intros H. exists i. split; auto. apply Nat.eqb_refl.
Qed.

Lemma NoDup_firstn {A} k (l : list A) : NoDup l -> NoDup (firstn k l).
Proof.
  revert k; induction l as [|a l IH]; intros [|k] H; simpl; try constructor; inversion H; subst.
  - intros Hin. apply H2. rewrite <- (firstn_skipn k l). apply in_or_app; auto.
  - apply IH; auto.
Qed.

Lemma in_sel_skip k order i : NoDup order -> In i (skipn k order) -> in_sel k order i = false.
Proof.
  intros Hnd Hi. destruct (in_sel k order i) eqn:He; auto. apply in_sel_spec in He.
  rewrite <- (firstn_skipn k order) in Hnd. exfalso.
  clear -Hnd Hi He. induction (firstn k order) as [|a l IH]; [destruct He|]. simpl in Hnd. inversion Hnd; subst.
  destruct He as [->|He]; auto. apply H1. apply in_or_app; auto.
Qed.

Lemma fwd_ll_adapt_path l k order avail : NoDup avail -> NoDup order -> incl order avail -> order <> [] ->
  rsum avail (fun i => exp (l i)) = 1 -> fwd_ll_adapt l k order = Some (path_ll l (firstn k order)).
Proof.
  intros H1 H2 H3 H4 H5. unfold fwd_ll_adapt. rewrite (renorm_path l avail) by auto.
  rewrite firstn_map, fin_sum_map, seq_cond_firstn, firstn_map. reflexivity.
Qed.

Lemma renorm_sel_tail base : forall ll accp acc,
  accp = acc * exp (- base) -> 0 <= acc -> acc + rsum ll exp <= 1 ->
  let ls := map (fun a => (a, true)) ll in
  let pr := map (fun p : R * bool => if snd p then exp (fst p - base) else 0) ls in
  map (fun ld : (R * bool) * xf =>
         if snd (fst ld) then xmin (xsub (Fin (fst (fst ld))) (log1mexp (snd ld))) (Fin 0) else Fin 0)
      (combine ls (map (fun cp => xadd (xlog (Fin (fst cp - snd cp))) (Fin base)) (combine (cumsum accp pr) pr)))
  = map Fin (seq_cond acc ll).
Proof.
  intros ll accp acc H1 H2 H3 ls pr. rewrite <- (renorm_aux base ll accp acc H1 H2 H3).
  unfold pr, ls. rewrite map_map. cbn [fst snd].
  assert (H : forall (ll : list R) (xs : list xf), map (fun ld : (R * bool) * xf =>
     if snd (fst ld) then xmin (xsub (Fin (fst (fst ld))) (log1mexp (snd ld))) (Fin 0) else Fin 0)
       (combine (map (fun a => (a, true)) ll) xs)
     = map (fun ld : R * xf => xmin (xsub (Fin (fst ld)) (log1mexp (snd ld))) (Fin 0)) (combine ll xs)).
  { clear. induction ll as [|a ll IH]; intros [|b xs]; simpl; auto. rewrite IH; auto. }
  apply H.
Qed.

Lemma renorm_sel_split (A B : list R) : B <> [] -> rsum B exp <= 1 ->
  renormalize_sel (map (fun a => (a, false)) A ++ map (fun a => (a, true)) B)
  = Some (map Fin (repeat 0 (length A) ++ seq_cond 0 B)).
Proof.
  intros HB Hs. unfold renormalize_sel.
  assert (HF : map fst (filter (fun p : R * bool => snd p) (map (fun a => (a, false)) A ++ map (fun a => (a, true)) B)) = B).
  { rewrite filter_app, map_app.
    assert (H1 : filter (fun p : R * bool => snd p) (map (fun a => (a, false)) A) = []) by (clear; induction A; simpl; auto).
    assert (H2 : forall B : list R, map fst (filter (fun p : R * bool => snd p) (map (fun a => (a, true)) B)) = B)
      by (clear; induction B; simpl; auto; rewrite IHB; auto).
    rewrite H1, H2. reflexivity. }
  rewrite HF. destruct (rmax_list_some B HB) as (m & ->). f_equal. clear HF HB.
  induction A as [|a A IH].
  - cbn [map app length repeat]. apply renorm_sel_tail; lra.
  - cbn [map app length repeat cumsum combine fst snd]. f_equal. rewrite Rplus_0_r. exact IH.
Qed.

Lemma bwd_ll_adapt_path l k order avail : NoDup avail -> NoDup order -> incl order avail -> firstn k order <> [] ->
  rsum avail (fun i => exp (l i)) = 1 -> bwd_ll_adapt l k order = Some (path_ll l (rev (firstn k order))).
Proof.
  intros H1 H2 H3 H4 H5. unfold bwd_ll_adapt.
  assert (Hm : map (fun i => (l i, in_sel k order i)) (rev order)
     = map (fun a => (a, false)) (map l (rev (skipn k order))) ++ map (fun a => (a, true)) (map l (rev (firstn k order)))).
  { assert (Hrev : rev order = rev (skipn k order) ++ rev (firstn k order)) by (rewrite <- rev_app_distr, firstn_skipn; auto).
    rewrite Hrev, map_app, !map_map. f_equal.
    - apply map_ext_in. intros i Hi. apply in_rev in Hi. rewrite in_sel_skip; auto.
    - apply map_ext_in. intros i Hi. apply in_rev in Hi. apply in_sel_spec in Hi. rewrite Hi; auto. }
  rewrite Hm, renorm_sel_split.
  - rewrite fin_sum_map, rsum_app, rsum_const0; [rewrite Rplus_0_l; reflexivity|].
    intros a Ha. apply repeat_spec in Ha. auto.
  - intros H. apply H4. apply map_eq_nil in H. rewrite <- (rev_involutive (firstn k order)), H. reflexivity.
  - rewrite rsum_map, <- H5. apply rsum_sub_le; auto.
    + apply NoDup_rev, NoDup_firstn; auto.
    + intros a Ha. apply in_rev in Ha. apply H3. rewrite <- (firstn_skipn k order). apply in_or_app; auto.
Qed.

Lemma mask_apply_length k order x nv : length (mask_apply k order x nv) = length x.
Proof. unfold mask_apply. rewrite map_length, seq_length. reflexivity. Qed.

Lemma nth_map_seq {A} (f : nat -> A) n i d : (i < n)%nat -> nth i (map f (seq 0 n)) d = f i.
Proof.
  intros H. rewrite (nth_indep _ d (f 0%nat)) by (rewrite map_length, seq_length; auto).
  rewrite map_nth, seq_nth by auto. reflexivity.
Qed.

Lemma mask_apply_flip k order x : mask_apply k order x (map (fun v => (1 - v)%nat) x) = flip_idx (firstn k order) x.
Proof.
  apply (list_eq_nth 0%nat); [rewrite mask_apply_length, flip_idx_length; auto|].
  rewrite mask_apply_length. intros i Hi. rewrite nth_flip_idx by auto. unfold mask_apply. rewrite nth_map_seq by auto.
  destruct (in_dec Nat.eq_dec i (firstn k order)) as [Hin|Hin].
  - apply in_sel_spec in Hin. rewrite Hin. rewrite (nth_indep _ 0%nat (1 - 0)%nat) by (rewrite map_length; auto).
    rewrite (map_nth (fun v => (1 - v)%nat)). reflexivity.
  - destruct (in_sel k order i) eqn:He; auto. apply in_sel_spec in He. contradiction.
Qed.

Lemma flip_idx_rev idx x : flip_idx (rev idx) x = flip_idx idx x.
Proof.
  apply (list_eq_nth 0%nat); [rewrite !flip_idx_length; auto|]. rewrite flip_idx_length. intros i Hi.
  rewrite !nth_flip_idx by auto.
  destruct (in_dec Nat.eq_dec i (rev idx)) as [H|H], (in_dec Nat.eq_dec i idx) as [H'|H']; auto.
  - apply in_rev in H. contradiction.
  - apply in_rev in H'. contradiction.
Qed.

(** ** Binary sampler *)
Section Bin.
  Variables (fw : list nat -> R) (wf : R -> R) (lr : list nat -> nat -> R) (mask : option (nat -> R)) (d k : nat).
  Hypothesis Hk : (1 <= k <= d)%nat.

  Let lp (x : list nat) (i : nat) := nth i (paf_dist wf lr mask x) 0.
  Let Aux := kperms k (seq 0 d).
  Let ll (x : list nat) (p : list nat) := path_ll (lp x) p.
  Let T (x p : list nat) := flip_idx p x.
  Let I (x p : list nat) := rev p.
  Let la (x p : list nat) := fw (T x p) + ll (T x p) (I x p) - fw x - ll x p.
  Let prop (x : list nat) := norepl_law (fun i => exp (lp x i)) k (seq 0 d).

  Lemma paf_dist_length x : length (paf_dist wf lr mask x) = length x.
  Proof. unfold paf_dist. rewrite log_softmax_length, map_length, seq_length. reflexivity. Qed.

  Lemma lp_sum x : length x = d -> rsum (seq 0 d) (fun i => exp (lp x i)) = 1.
  Proof.
    intros H. unfold lp. rewrite <- H. rewrite <- (paf_dist_length x).
    rewrite <- (rsum_nth (paf_dist wf lr mask x) 0 exp).
    apply sumexp_log_softmax. rewrite H. destruct d; [lia|discriminate].
  Qed.

  Lemma aux_facts p : In p Aux -> NoDup p /\ incl p (seq 0 d) /\ length p = k /\ p <> [].
  Proof.
    intros Hp. apply in_kperms in Hp; [|apply seq_NoDup]. destruct Hp as (H1 & H2 & H3).
    repeat split; auto. intros ->. simpl in H1. lia.
  Qed.

  Lemma exp_path_ll x p : length x = d -> In p Aux -> exp (ll x p) = path_prob (fun i => exp (lp x i)) (seq 0 d) p.
  Proof.
    intros Hl Hp. destruct (aux_facts p Hp) as (H1 & H2 & _). apply seq_cond_path; auto; [apply seq_NoDup|].
    rewrite lp_sum by auto. ring.
  Qed.

  Lemma prop_prob x : length x = d -> is_prob (prop x).
  Proof.
    intros _. apply is_prob_norepl; [intros; apply exp_pos|apply seq_NoDup|]. rewrite seq_length. lia.
  Qed.

  Lemma prop_E x f : length x = d -> E (prop x) f = rsum Aux (fun a => exp (ll x a) * f a).
  Proof.
    intros Hl. unfold prop. rewrite E_norepl. apply rsum_ext. intros p Hp. rewrite exp_path_ll; auto.
  Qed.

  Lemma st_len x : In x (states d 2) -> length x = d.
  Proof. intros H. apply in_states in H. tauto. Qed.

  Lemma pafs_la x p : length x = d -> In p Aux -> pafs_log_acc fw wf lr mask x p = Some (la x p).
  Proof.
    intros Hl Hp. destruct (aux_facts p Hp) as (H1 & H2 & H3 & H4). unfold pafs_log_acc. fold (T x p).
    change (fun i => nth i (paf_dist wf lr mask (T x p)) 0) with (lp (T x p)).
    change (fun i => nth i (paf_dist wf lr mask x) 0) with (lp x).
    rewrite (bwd_ll_path _ (seq 0 d)), (fwd_ll_path _ (seq 0 d)); auto using seq_NoDup.
    - unfold oplus, osub, la, ll, I. f_equal. ring.
    - apply lp_sum; auto.
    - apply lp_sum. unfold T. rewrite flip_idx_length. auto.
  Qed.

  Lemma pafs_step_E g x f : In x (states d 2) ->
    E (pafs_step g fw wf lr mask k x) f = E (mh_kernel prop T la g x) f.
  Proof.
    intros Hx. pose proof (st_len x Hx) as Hl. unfold pafs_step, mh_kernel. rewrite !E_bind, Hl. fold (lp x). fold (prop x).
    apply E_ext_in. intros p w Hp. apply in_norepl in Hp. rewrite pafs_la by auto. reflexivity.
  Qed.

  Lemma pafs_is_prob g x : In x (states d 2) -> is_prob (pafs_step g fw wf lr mask k x).
  Proof.
    intros Hx. pose proof (st_len x Hx) as Hl. unfold pafs_step. rewrite Hl. fold (lp x). fold (prop x).
    apply is_prob_bind; [apply prop_prob; auto|]. intros p w Hp. apply in_norepl in Hp. rewrite pafs_la by auto. apply is_prob_mh_law.
  Qed.

  Lemma kernel_rev : reversible (states d 2) (fun x => exp (fw x)) (mh_kernel prop T la 0).
  Proof.
    apply (ll_kernel_reversible (states d 2) Aux T I) with (ll := ll); auto.
    - apply NoDup_states.
    - apply NoDup_kperms, seq_NoDup.
    - intros; apply flip_idx_in; auto.
    - intros; apply kperms_rev; auto using seq_NoDup.
    - intros x a Hx _. unfold T, I. rewrite flip_idx_rev. apply (flip_idx_invol d); auto.
    - intros. apply rev_involutive.
    - intros x f Hx. apply prop_E, st_len; auto.
  Qed.

  Lemma kernel_upto g : 0 <= g -> invariant_upto (2 * g) (states d 2) (fun x => exp (fw x)) (mh_kernel prop T la g).
  Proof.
    intros Hg. apply (ll_kernel_invariant_upto (states d 2) Aux T I) with (ll := ll); auto.
    - apply NoDup_states.
    - apply NoDup_kperms, seq_NoDup.
    - intros; apply flip_idx_in; auto.
    - intros; apply kperms_rev; auto using seq_NoDup.
    - intros x a Hx _. unfold T, I. rewrite flip_idx_rev. apply (flip_idx_invol d); auto.
    - intros. apply rev_involutive.
    - intros x Hx. apply prop_prob, st_len; auto.
    - intros x f Hx. apply prop_E, st_len; auto.
  Qed.

  Theorem pafs_reversible : reversible (states d 2) (fun x => exp (fw x)) (pafs_step 0 fw wf lr mask k).
  Proof. eapply reversible_ext; [|apply kernel_rev]. intros; apply pafs_step_E; auto. Qed.

  Theorem pafs_invariant_upto g : 0 <= g ->
    invariant_upto (2 * g) (states d 2) (fun x => exp (fw x)) (pafs_step g fw wf lr mask k).
  Proof. intros Hg. eapply invariant_upto_ext; [|apply kernel_upto; auto]. intros; apply pafs_step_E; auto. Qed.

  (** The adaptive sampler at a radius whose clipped rounding is [k]. *)
  Variable radius : R.
  Hypothesis Hr : num_sites d radius = k.

  Lemma order_facts o : In o (kperms d (seq 0 d)) ->
    NoDup o /\ incl o (seq 0 d) /\ o <> [] /\ firstn k o <> [] /\ In (firstn k o) Aux.
  Proof.
    clear Hr radius. intros Ho. apply in_kperms in Ho; [|apply seq_NoDup]. destruct Ho as (H1 & H2 & H3).
    assert (Hlen : length (firstn k o) = k) by (rewrite firstn_length; lia).
    repeat split; auto.
    - intros ->. simpl in H1. lia.
    - intros H. rewrite H in Hlen. simpl in Hlen. lia.
    - apply in_kperms; [apply seq_NoDup|]. repeat split; auto; [apply NoDup_firstn; auto|].
      intros a Ha. apply H3. rewrite <- (firstn_skipn k o). apply in_or_app; auto.
  Qed.

  Lemma apafs_la x o : length x = d -> In o (kperms d (seq 0 d)) ->
    apafs_log_acc fw wf lr mask k x o = Some (la x (firstn k o)).
  Proof.
    intros Hl Ho. destruct (order_facts o Ho) as (H1 & H2 & H3 & H4 & H5). unfold apafs_log_acc. rewrite mask_apply_flip.
    fold (T x (firstn k o)).
    change (fun i => nth i (paf_dist wf lr mask (T x (firstn k o))) 0) with (lp (T x (firstn k o))).
    change (fun i => nth i (paf_dist wf lr mask x) 0) with (lp x).
    rewrite (bwd_ll_adapt_path _ k o (seq 0 d)), (fwd_ll_adapt_path _ k o (seq 0 d)); auto using seq_NoDup.
    - unfold oplus, osub, la, ll, I. f_equal. ring.
    - apply lp_sum; auto.
    - apply lp_sum. unfold T. rewrite flip_idx_length. auto.
  Qed.

  Lemma apafs_step_E g x f : In x (states d 2) ->
    E (apafs_step g fw wf lr mask radius x) f = E (mh_kernel prop T la g x) f.
  Proof.
    intros Hx. pose proof (st_len x Hx) as Hl. unfold apafs_step. rewrite Hl, Hr. unfold mh_kernel. rewrite !E_bind.
    fold (lp x).
    transitivity (E (norepl_law (fun i => exp (lp x i)) d (seq 0 d))
       (fun o => (fun p => E (mh_law g (la x p) x (T x p)) f) (firstn k o))).
    - apply E_ext_in. intros o w Ho. apply in_norepl in Ho. rewrite apafs_la by auto. rewrite mask_apply_flip. reflexivity.
    - unfold prop. apply (E_norepl_firstn _ k d (seq 0 d) (fun p => E (mh_law g (la x p) x (T x p)) f)).
      + rewrite seq_length. lia.
      + apply seq_NoDup.
      + intros; apply exp_pos.
  Qed.

  Theorem apafs_reversible0 : reversible (states d 2) (fun x => exp (fw x)) (apafs_step 0 fw wf lr mask radius).
  Proof. eapply reversible_ext; [|apply kernel_rev]. intros; apply apafs_step_E; auto. Qed.

  Theorem apafs_invariant_upto0 g : 0 <= g ->
    invariant_upto (2 * g) (states d 2) (fun x => exp (fw x)) (apafs_step g fw wf lr mask radius).
  Proof. intros Hg. eapply invariant_upto_ext; [|apply kernel_upto; auto]. intros; apply apafs_step_E; auto. Qed.

  Lemma apafs_is_prob0 g x : In x (states d 2) -> is_prob (apafs_step g fw wf lr mask radius x).
  Proof.
    intros Hx. pose proof (st_len x Hx) as Hl. unfold apafs_step. rewrite Hl, Hr. fold (lp x).
    apply is_prob_bind.
    - apply is_prob_norepl; [intros; apply exp_pos|apply seq_NoDup|]. rewrite seq_length. lia.
    - intros o w Ho. apply in_norepl in Ho. rewrite apafs_la by auto. apply is_prob_mh_law.
  Qed.
End Bin.

Theorem apafs_reversible fw wf lr mask d radius : (1 <= d)%nat ->
  reversible (states d 2) (fun x => exp (fw x)) (apafs_step 0 fw wf lr mask radius).
Proof. intros Hd. apply (apafs_reversible0 fw wf lr mask d (num_sites d radius)); auto. apply num_sites_range; auto. Qed.
Theorem apafs_invariant_upto fw wf lr mask d radius g : (1 <= d)%nat -> 0 <= g ->
  invariant_upto (2 * g) (states d 2) (fun x => exp (fw x)) (apafs_step g fw wf lr mask radius).
Proof. intros Hd Hg. apply (apafs_invariant_upto0 fw wf lr mask d (num_sites d radius)); auto. apply num_sites_range; auto. Qed.
Theorem apafs_is_prob fw wf lr mask d radius g x : (1 <= d)%nat -> In x (states d 2) ->
  is_prob (apafs_step g fw wf lr mask radius x).
Proof. intros Hd Hx. apply (apafs_is_prob0 fw wf lr mask d (num_sites d radius)); auto. apply num_sites_range; auto. Qed.

Lemma paf_radius_range dim target calls hist s : (1 <= dim)%nat -> (hist <> [] \/ 1 <= paf_radius s <= INR dim) ->
  1 <= paf_radius (fold_left (fun s l => paf_update true dim target calls l s) hist s) <= INR dim.
Proof.
  intros Hd. revert s; induction hist as [|l hist IH]; intros s Hs; simpl; [tauto|].
  apply IH. right. simpl. apply clip_range. apply (le_INR 1); auto.
Qed.
