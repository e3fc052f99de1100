(** Proofs about the categorical path-auxiliary sampler. *)
From Coq Require Import Reals List Lra Lia Arith ZArith Permutation.
From Verif.Base Require Import RSum Cube Dist XFloat MH.
From Verif.Spec Require Import Chain.
From Verif.Model Require Import MathUtil RandomWalk GWG PathAux.
From Verif.Proof Require Import MHKernel MathUtilProof NoReplProof GibbsProof RandomWalkProof GWGProof PathAuxProof.
Import ListNotations.
Local Open Scope R_scope.

(** ** Setting several sites *)
Lemma set_all_length p : forall v x, length (set_all p v x) = length x.
Proof.
  unfold set_all. induction p as [|i p IH]; intros [|c v] x; simpl; auto. rewrite IH, upd_length. auto.
Qed.

Lemma nth_set_all_out p : forall v x j, ~ In j p -> nth j (set_all p v x) 0%nat = nth j x 0%nat.
Proof.
  unfold set_all. induction p as [|i p IH]; intros [|c v] x j Hj; simpl; auto.
  rewrite IH by (intros H; apply Hj; right; auto). apply nth_upd_neq. intros ->. apply Hj; left; auto.
Qed.

Lemma nth_set_all_fun (g : nat -> nat) p : forall x j, In j p -> (j < length x)%nat ->
  nth j (set_all p (map g p) x) 0%nat = g j.
Proof.
  induction p as [|i p IH]; intros x j Hj Hl; [destruct Hj|].
  change (set_all (i :: p) (map g (i :: p)) x) with (set_all p (map g p) (upd i (g i) x)).
  destruct (in_dec Nat.eq_dec j p) as [Hin|Hin]; [apply IH; auto; rewrite upd_length; auto|].
  destruct Hj as [->|Hj]; [|contradiction].
  rewrite (nth_set_all_out p (map g p)) by auto. apply nth_upd_eq; auto.
Qed.

Lemma set_all_read p : forall v x, NoDup p -> length v = length p -> Forall (fun i => (i < length x)%nat) p ->
  map (fun i => nth i (set_all p v x) 0%nat) p = v.
Proof.
  induction p as [|i p IH]; intros [|c v] x Hnd Hl HF; simpl in Hl; try discriminate; auto.
  inversion Hnd; inversion HF; subst. change (set_all (i :: p) (c :: v) x) with (set_all p v (upd i c x)). cbn [map]. f_equal.
  - rewrite nth_set_all_out by auto. apply nth_upd_eq; auto.
  - apply IH; auto. eapply Forall_impl; [|eassumption]. intros; rewrite upd_length; auto.
Qed.

Lemma set_all_in d C p v x : In x (states d C) -> Forall (fun c => (c < C)%nat) v -> In (set_all p v x) (states d C).
Proof.
  intros Hx Hv. apply in_states in Hx. destruct Hx as [Hl HF]. apply in_states. rewrite set_all_length. split; auto.
  clear Hl. unfold set_all. revert v x Hv HF. induction p as [|i p IH]; intros [|c v] x Hv HF; simpl; auto.
  inversion Hv; subst. apply IH; auto. apply Forall_upd; auto.
Qed.

Lemma mask_apply_set k o x nv :
  mask_apply k o x nv = set_all (firstn k o) (map (fun i => nth i nv 0%nat) (firstn k o)) x.
Proof.
  apply (list_eq_nth 0%nat); [rewrite mask_apply_length, set_all_length; auto|]. rewrite mask_apply_length. intros i Hi.
  unfold mask_apply. rewrite nth_map_seq by auto. destruct (in_sel k o i) eqn:He.
  - apply in_sel_spec in He. rewrite (nth_set_all_fun (fun i => nth i nv 0%nat)); auto.
  - rewrite nth_set_all_out; auto. intros H. apply in_sel_spec in H. congruence.
Qed.

(** ** Blocks *)
Lemma rsum_blocks (f : nat -> R) C d :
  rsum (seq 0 (d * C)) f = rsum (seq 0 d) (fun i => rsum (seq 0 C) (fun c => f (i * C + c)%nat)).
Proof.
  induction d as [|d IH]; [reflexivity|].
  replace (S d * C)%nat with (d * C + C)%nat by lia. rewrite seq_app, rsum_app, IH.
  rewrite seq_S, rsum_app. cbn [rsum]. rewrite Rplus_0_r. f_equal. rewrite Nat.add_0_l.
  assert (H : forall n s, rsum (seq s n) f = rsum (seq 0 n) (fun c => f (s + c)%nat)).
  { clear. induction n as [|n IH]; intros s; [reflexivity|]. cbn [seq rsum]. rewrite Nat.add_0_r. f_equal.
    rewrite IH, <- seq_shift, rsum_map. apply rsum_ext. intros c _. f_equal. lia. }
  apply H.
Qed.

Lemma blk_length C lp i : length (blk C lp i) = C.
Proof. unfold blk. rewrite map_length, seq_length. reflexivity. Qed.

Lemma cond_length C lp i : length (cond_lp C lp i) = C.
Proof. unfold cond_lp. rewrite log_softmax_length, blk_length. reflexivity. Qed.

Lemma cond_sum C lp i : (0 < C)%nat -> sumexp (cond_lp C lp i) = 1.
Proof.
  intros HC. apply sumexp_log_softmax. intros H. pose proof (blk_length C lp i) as HL. rewrite H in HL. simpl in HL. lia.
Qed.

Lemma site_exp C lp i : (0 < C)%nat -> exp (site_lp C lp i) = rsum (seq 0 C) (fun c => exp (nth (i * C + c) lp 0)).
Proof.
  intros HC. unfold site_lp. rewrite exp_ln.
  - unfold sumexp, blk. rewrite rsum_map. reflexivity.
  - apply sumexp_pos. intros H. pose proof (blk_length C lp i) as HL. rewrite H in HL. simpl in HL. lia.
Qed.

Lemma cond_prob C lp i : (0 < C)%nat -> is_prob (categorical (cond_lp C lp i)).
Proof.
  intros HC. apply is_prob_categorical. intros H. pose proof (cond_length C lp i) as HL. rewrite H in HL. simpl in HL. lia.
Qed.

Lemma E_indep_cond C lp p : forall f, (0 < C)%nat ->
  E (indep (map (fun i => categorical (cond_lp C lp i)) p)) f
  = rsum (lists_over (seq 0 C) (length p)) (fun v => exp (val_ll C lp p v) * f v).
Proof.
  induction p as [|i p IH]; intros f HC.
  - cbn [map indep length lists_over rsum]. unfold val_ll. cbn [combine rsum]. rewrite exp_0, E_ret. ring.
  - cbn [map indep length]. rewrite E_bind, E_categorical, cond_length, cond_sum, rsum_lists_over_cons by auto.
    apply rsum_ext. intros c _. rewrite E_dmap, IH, <- rsum_scal by auto. apply rsum_ext. intros v _.
    unfold val_ll. cbn [combine rsum fst snd]. rewrite exp_plus. field.
Qed.

(** ** Marginalising independent draws *)
Lemma E_resample {A} (dflt : A) : forall (l : list (dist A)) i F, (i < length l)%nat -> (forall dd, In dd l -> is_prob dd) ->
  E (indep l) F = E (nth i l []) (fun a => E (indep l) (fun u => F (upd i a u))).
Proof.
  induction l as [|dd l IH]; intros i F Hi Hp; [simpl in Hi; lia|].
  cbn [indep]. rewrite E_bind. destruct i as [|i]; cbn [nth].
  - apply E_ext. intros a. rewrite E_dmap, E_bind.
    transitivity (E dd (fun _ => E (indep l) (fun u => F (a :: u)))).
    + rewrite E_const. destruct (Hp dd (or_introl eq_refl)) as [_ Hm]. rewrite Hm. ring.
    + apply E_ext. intros b. rewrite E_dmap. apply E_ext. intros u. reflexivity.
  - transitivity (E dd (fun b => E (nth i l []) (fun a => E (indep l) (fun u => F (b :: upd i a u))))).
    + apply E_ext. intros b. rewrite E_dmap. apply (IH i (fun u => F (b :: u))); [simpl in Hi; lia|].
      intros; apply Hp; right; auto.
    + assert (Hsw : forall (d1 : dist A) (d2 : dist A) (G : A -> A -> R),
        E d1 (fun b => E d2 (fun a => G b a)) = E d2 (fun a => E d1 (fun b => G b a))).
      { clear. intros d1 d2 G. unfold E.
        transitivity (rsum d1 (fun p => rsum d2 (fun q => snd p * (snd q * G (fst p) (fst q))))).
        - apply rsum_ext. intros p _. rewrite rsum_scal. reflexivity.
        - rewrite rsum_swap. apply rsum_ext. intros q _. rewrite <- rsum_scal. apply rsum_ext. intros p _. ring. }
      rewrite Hsw. apply E_ext. intros a. rewrite E_bind. apply E_ext. intros b. rewrite E_dmap. reflexivity.
Qed.

Lemma in_indep_length {A} : forall (l : list (dist A)) u w, In (u, w) (indep l) -> length u = length l.
Proof.
  induction l as [|dd l IH]; intros u w H; simpl in *.
  - destruct H as [H|[]]; inversion H; auto.
  - unfold bind, dmap in H. apply in_flat_map in H. destruct H as ([a q] & _ & H). apply in_map_iff in H.
    destruct H as ([u' w'] & He & H). apply in_map_iff in H. destruct H as ([u'' w''] & He' & H).
    cbn in *. inversion He; inversion He'; subst. simpl. f_equal. eapply IH; eauto.
Qed.

Lemma E_indep_marginal {A} (dflt : A) (l : list (dist A)) : (forall dd, In dd l -> is_prob dd) ->
  forall p f, NoDup p -> Forall (fun i => (i < length l)%nat) p ->
  E (indep l) (fun u => f (map (fun i => nth i u dflt) p)) = E (indep (map (fun i => nth i l []) p)) f.
Proof.
  intros Hp. induction p as [|i p IH]; intros f Hnd HF.
  - cbn [map indep]. rewrite E_const, E_ret. rewrite (proj2 (is_prob_indep l Hp)). ring.
  - inversion Hnd; inversion HF; subst. rewrite (E_resample dflt l i) by auto.
    cbn [map indep]. rewrite E_bind. apply E_ext. intros a. rewrite E_dmap.
    rewrite <- (IH (fun v => f (a :: v))) by auto. apply E_ext_in. intros u w Hu. apply in_indep_length in Hu.
    f_equal. rewrite nth_upd_eq by lia. f_equal. apply map_ext_in. intros j Hj. apply nth_upd_neq.
    intros ->. contradiction.
Qed.

Lemma rsum_selected k o n (g : nat -> R) : NoDup o -> incl o (seq 0 n) ->
  rsum (seq 0 n) (fun i => if in_sel k o i then g i else 0) = rsum (firstn k o) g.
Proof.
  intros Hnd Hi. rewrite <- (rsum_filter (seq 0 n) (in_sel k o) g). apply rsum_perm. apply NoDup_Permutation.
  - apply NoDup_filter, seq_NoDup.
  - apply NoDup_firstn; auto.
  - intros i. rewrite filter_In, in_sel_spec. split; [tauto|]. intros H. split; auto. apply Hi.
    rewrite <- (firstn_skipn k o). apply in_or_app; auto.
Qed.

Lemma val_ll_fun C lp p (g : nat -> nat) : val_ll C lp p (map g p) = rsum p (fun i => nth (g i) (cond_lp C lp i) 0).
Proof. unfold val_ll. induction p as [|i p IH]; simpl; auto. rewrite IH. reflexivity. Qed.

Section Cat.
  Variables (fw : list nat -> R) (wf : R -> R) (lr : list nat -> nat -> R) (mask : option (nat -> R)) (d C k : nat).
  Hypothesis Hk : (1 <= k <= d)%nat.
  Hypothesis HC : (0 < C)%nat.

  Let lpv (x : list nat) := pafc_dist wf lr mask C x.
  Let lp (x : list nat) (i : nat) := site_lp C (lpv x) i.
  Let Aux := list_prod (kperms k (seq 0 d)) (lists_over (seq 0 C) k).
  Let ll (x : list nat) (a : list nat * list nat) := path_ll (lp x) (fst a) + val_ll C (lpv x) (fst a) (snd a).
  Let T (x : list nat) (a : list nat * list nat) := set_all (fst a) (snd a) x.
  Let I (x : list nat) (a : list nat * list nat) := (rev (fst a), map (fun i => nth i x 0%nat) (rev (fst a))).
  Let la (x : list nat) (a : list nat * list nat) := fw (T x a) + ll (T x a) (I x a) - fw x - ll x a.
  Let prop (x : list nat) :=
    bind (norepl_law (fun i => exp (lp x i)) k (seq 0 d))
         (fun p => dmap (pair p) (indep (map (fun i => categorical (cond_lp C (lpv x) i)) p))).

  Lemma pafc_dist_length x : length (lpv x) = (length x * C)%nat.
  Proof. unfold lpv, pafc_dist. rewrite log_softmax_length, map_length, seq_length. reflexivity. Qed.

  Lemma lpc_sum x : length x = d -> rsum (seq 0 d) (fun i => exp (lp x i)) = 1.
  Proof.
    intros H. unfold lp.
    rewrite (rsum_ext _ _ (fun i => rsum (seq 0 C) (fun c => exp (nth (i * C + c) (lpv x) 0)))) by (intros; apply site_exp; auto).
    rewrite <- (rsum_blocks (fun j => exp (nth j (lpv x) 0)) C d). rewrite <- H, <- (pafc_dist_length x).
    rewrite <- (rsum_nth (lpv x) 0 exp).
    apply sumexp_log_softmax. rewrite H. destruct (d * C)%nat eqn:Ed; [nia|discriminate].
  Qed.

  Lemma auxp_facts p : In p (kperms k (seq 0 d)) -> NoDup p /\ incl p (seq 0 d) /\ length p = k /\ p <> [] /\ Forall (fun i => (i < d)%nat) p.
  Proof.
    intros Hp. apply in_kperms in Hp; [|apply seq_NoDup]. destruct Hp as (H1 & H2 & H3).
    repeat split; auto; [intros ->; simpl in H1; lia|]. apply Forall_forall. intros i Hi. apply H3, in_seq in Hi. lia.
  Qed.

  Lemma exp_ll x p : length x = d -> In p (kperms k (seq 0 d)) ->
    exp (path_ll (lp x) p) = path_prob (fun i => exp (lp x i)) (seq 0 d) p.
  Proof.
    intros Hl Hp. destruct (auxp_facts p Hp) as (H1 & H2 & _). apply seq_cond_path; auto; [apply seq_NoDup|].
    rewrite lpc_sum by auto. ring.
  Qed.

  Lemma stc_len x : In x (states d C) -> length x = d.
  Proof. intros H. apply in_states in H. tauto. Qed.

  Lemma propc_prob x : is_prob (prop x).
  Proof.
    apply is_prob_bind.
    - apply is_prob_norepl; [intros; apply exp_pos|apply seq_NoDup|]. rewrite seq_length. lia.
    - intros p w _. apply is_prob_dmap, is_prob_indep. intros dd Hdd. apply in_map_iff in Hdd. destruct Hdd as (i & <- & _).
      apply cond_prob; auto.
  Qed.

  Lemma propc_E x f : length x = d -> E (prop x) f = rsum Aux (fun a => exp (ll x a) * f a).
  Proof.
    intros Hl. unfold prop, Aux. rewrite E_bind, E_norepl, rsum_list_prod. apply rsum_ext. intros p Hp.
    rewrite E_dmap, E_indep_cond by auto. destruct (auxp_facts p Hp) as (_ & _ & Hlen & _). rewrite Hlen, <- rsum_scal.
    apply rsum_ext. intros v _. unfold ll. cbn [fst snd]. rewrite exp_plus, exp_ll by auto. ring.
  Qed.

  Lemma Tc_in x a : In x (states d C) -> In a Aux -> In (T x a) (states d C).
  Proof.
    intros Hx Ha. destruct a as [p v]. apply in_prod_iff in Ha. destruct Ha as [_ Hv]. apply in_lists_over in Hv.
    apply set_all_in; auto. eapply Forall_impl; [|apply Hv]. intros c Hc. apply in_seq in Hc. lia.
  Qed.
  Lemma Ic_in x a : In x (states d C) -> In a Aux -> In (I x a) Aux.
  Proof.
    intros Hx Ha. destruct a as [p v]. apply in_prod_iff in Ha. destruct Ha as [Hp _]. apply in_prod_iff.
    pose proof (auxp_facts p Hp) as (H1 & H2 & H3 & H4 & H5).
    split; [apply kperms_rev; auto using seq_NoDup|]. apply in_lists_over. cbn [fst]. rewrite map_length, rev_length. split; auto.
    apply Forall_forall. intros c Hc. apply in_map_iff in Hc. destruct Hc as (i & <- & Hi). apply in_rev in Hi.
    apply in_seq. rewrite Forall_forall in H5. pose proof (in_states_nth d C x i Hx (H5 i Hi)). lia.
  Qed.
  Lemma TTc x a : In x (states d C) -> In a Aux -> T (T x a) (I x a) = x.
  Proof.
    intros Hx Ha. destruct a as [p v]. unfold T, I. cbn [fst snd].
    apply (list_eq_nth 0%nat); [rewrite !set_all_length; auto|]. rewrite !set_all_length. intros j Hj.
    destruct (in_dec Nat.eq_dec j p) as [Hin|Hin].
    - rewrite (nth_set_all_fun (fun i => nth i x 0%nat)); auto; [apply in_rev in Hin; auto|rewrite set_all_length; auto].
    - rewrite !nth_set_all_out; auto. intros H. apply in_rev in H. contradiction.
  Qed.
  Lemma IIc x a : In x (states d C) -> In a Aux -> I (T x a) (I x a) = a.
  Proof.
    intros Hx Ha. destruct a as [p v]. apply in_prod_iff in Ha. destruct Ha as [Hp Hv]. apply in_lists_over in Hv.
    pose proof (auxp_facts p Hp) as (H1 & H2 & H3 & H4 & H5). pose proof (stc_len x Hx) as Hl.
    unfold I, T. cbn [fst snd]. rewrite rev_involutive, set_all_read; auto; [lia|rewrite Hl; auto].
  Qed.

  Lemma kernelc_rev : reversible (states d C) (fun x => exp (fw x)) (mh_kernel prop T la 0).
  Proof.
    apply (ll_kernel_reversible (states d C) Aux T I) with (ll := ll); auto using Tc_in, Ic_in, TTc, IIc.
    - apply NoDup_states.
    - apply NoDup_list_prod; [apply NoDup_kperms, seq_NoDup|apply NoDup_lists_over, seq_NoDup].
    - intros x f Hx. apply propc_E, stc_len; auto.
  Qed.
  Lemma kernelc_upto g : 0 <= g -> invariant_upto (2 * g) (states d C) (fun x => exp (fw x)) (mh_kernel prop T la g).
  Proof.
    intros Hg. apply (ll_kernel_invariant_upto (states d C) Aux T I) with (ll := ll); auto using Tc_in, Ic_in, TTc, IIc.
    - apply NoDup_states.
    - apply NoDup_list_prod; [apply NoDup_kperms, seq_NoDup|apply NoDup_lists_over, seq_NoDup].
    - intros x Hx. apply propc_prob.
    - intros x f Hx. apply propc_E, stc_len; auto.
  Qed.

  Variable radius : R.
  Hypothesis Hr : num_sites d radius = k.

  Lemma apafsc_la x o nv : length x = d -> length nv = d -> In o (kperms d (seq 0 d)) ->
    apafsc_log_acc fw wf lr mask C k x o nv = Some (la x (firstn k o, map (fun i => nth i nv 0%nat) (firstn k o))).
  Proof.
    intros Hl Hn Ho. destruct (order_facts d k Hk o Ho) as (H1 & H2 & H3 & H4 & H5). unfold apafsc_log_acc. rewrite mask_apply_set.
    set (a := (firstn k o, map (fun i => nth i nv 0%nat) (firstn k o))).
    change (set_all (firstn k o) (map (fun i => nth i nv 0%nat) (firstn k o)) x) with (T x a).
    fold (lpv x). fold (lpv (T x a)).
    change (site_lp C (lpv x)) with (lp x). change (site_lp C (lpv (T x a))) with (lp (T x a)).
    rewrite (bwd_ll_adapt_path _ k o (seq 0 d)), (fwd_ll_adapt_path _ k o (seq 0 d)); auto using seq_NoDup.
    - unfold val_ll_mask. rewrite Hl, Hn, !rsum_selected by auto.
      unfold oplus, osub, la, ll, I. cbn [fst snd a]. f_equal. rewrite !val_ll_fun.
      rewrite (rsum_perm (rev (firstn k o)) (firstn k o)) by (symmetry; apply Permutation_rev). subst a; cbn [fst snd]. ring.
    - apply lpc_sum; auto.
    - apply lpc_sum. unfold T. rewrite set_all_length. auto.
  Qed.

  Lemma apafsc_step_E g x f : In x (states d C) ->
    E (apafsc_step g fw wf lr mask C radius x) f = E (mh_kernel prop T la g x) f.
  Proof.
    intros Hx. pose proof (stc_len x Hx) as Hl. unfold apafsc_step. rewrite Hl, Hr. unfold mh_kernel, prop. rewrite !E_bind.
    fold (lpv x). 
    set (G := fun p v => E (mh_law g (la x (p, v)) x (T x (p, v))) f).
    set (W := fun p => E (indep (map (fun i => categorical (cond_lp C (lpv x) i)) p)) (G p)).
    transitivity (E (norepl_law (fun i => exp (lp x i)) d (seq 0 d)) (fun o => W (firstn k o))).
    - apply E_ext_in. intros o w Ho. apply in_norepl in Ho. rewrite E_bind.
      destruct (order_facts d k Hk o Ho) as (H1 & H2 & H3 & H4 & H5). destruct (auxp_facts _ H5) as (A1 & A2 & A3 & A4 & A5).
      set (L := map (fun i => categorical (cond_lp C (lpv x) i)) (seq 0 d)).
      transitivity (E (indep L) (fun u => G (firstn k o) (map (fun i => nth i u 0%nat) (firstn k o)))).
      + apply E_ext_in. intros nv w' Hnv. apply in_indep_length in Hnv. unfold L in Hnv. rewrite map_length, seq_length in Hnv.
        rewrite apafsc_la by auto. rewrite mask_apply_set. reflexivity.
      + rewrite (E_indep_marginal 0%nat L).
        * unfold W. f_equal. f_equal. apply map_ext_in. intros i Hi. unfold L.
          apply (nth_map_seq (fun i => categorical (cond_lp C (lpv x) i))). rewrite Forall_forall in A5. apply A5; auto.
        * intros dd Hdd. apply in_map_iff in Hdd. destruct Hdd as (i & <- & _). apply cond_prob; auto.
        * auto.
        * unfold L. rewrite map_length, seq_length. auto.
    - rewrite (E_norepl_firstn _ k d (seq 0 d) W).
      + apply E_ext. intros p. unfold W. rewrite E_dmap. reflexivity.
      + rewrite seq_length. lia.
      + apply seq_NoDup.
      + intros; apply exp_pos.
  Qed.

  Lemma apafsc_is_prob0 g x : In x (states d C) -> is_prob (apafsc_step g fw wf lr mask C radius x).
  Proof.
    intros Hx. pose proof (stc_len x Hx) as Hl. unfold apafsc_step. rewrite Hl, Hr. fold (lpv x).
    apply is_prob_bind.
    - apply is_prob_norepl; [intros; apply exp_pos|apply seq_NoDup|]. rewrite seq_length. lia.
    - intros o w Ho. apply in_norepl in Ho. apply is_prob_bind.
      + apply is_prob_indep. intros dd Hdd. apply in_map_iff in Hdd. destruct Hdd as (i & <- & _). apply cond_prob; auto.
      + intros nv w' Hnv. apply in_indep_length in Hnv. rewrite map_length, seq_length in Hnv.
        rewrite apafsc_la by auto. apply is_prob_mh_law.
  Qed.

  Lemma apafsc_reversible0 : reversible (states d C) (fun x => exp (fw x)) (apafsc_step 0 fw wf lr mask C radius).
  Proof. eapply reversible_ext; [|apply kernelc_rev]. intros; apply apafsc_step_E; auto. Qed.
  Lemma apafsc_invariant_upto0 g : 0 <= g ->
    invariant_upto (2 * g) (states d C) (fun x => exp (fw x)) (apafsc_step g fw wf lr mask C radius).
  Proof. intros Hg. eapply invariant_upto_ext; [|apply kernelc_upto; auto]. intros; apply apafsc_step_E; auto. Qed.
End Cat.

Theorem apafsc_reversible fw wf lr mask d C radius : (1 <= d)%nat -> (0 < C)%nat ->
  reversible (states d C) (fun x => exp (fw x)) (apafsc_step 0 fw wf lr mask C radius).
Proof. intros Hd HC. apply (apafsc_reversible0 fw wf lr mask d C (num_sites d radius)); auto. apply num_sites_range; auto. Qed.
Theorem apafsc_invariant_upto fw wf lr mask d C radius g : (1 <= d)%nat -> (0 < C)%nat -> 0 <= g ->
  invariant_upto (2 * g) (states d C) (fun x => exp (fw x)) (apafsc_step g fw wf lr mask C radius).
Proof. intros Hd HC Hg. apply (apafsc_invariant_upto0 fw wf lr mask d C (num_sites d radius)); auto. apply num_sites_range; auto. Qed.
Theorem apafsc_is_prob fw wf lr mask d C radius g x : (1 <= d)%nat -> (0 < C)%nat -> In x (states d C) ->
  is_prob (apafsc_step g fw wf lr mask C radius x).
Proof. intros Hd HC Hx. apply (apafsc_is_prob0 fw wf lr mask d C (num_sites d radius)); auto. apply num_sites_range; auto. Qed.
