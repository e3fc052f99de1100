(** Product-form proposals (DMALA, DLMC): proofs. *)
From Coq Require Import String Reals List Lra Lia Arith ZArith.
From Verif.Base Require Import RSum Cube Dist XFloat MH.
From Verif.Spec Require Import Chain.
From Verif.Model Require Import MathUtil RandomWalk LocallyBalanced PathAux Langevin.
From Verif.Proof Require Import MHKernel MathUtilProof GWGProof.
Import ListNotations.
Local Open Scope R_scope.

(** ** Acceptance computed from reported weights [v] that exceed the true proposal weights [w] *)
Section Reported.
  Context {A B : Type}.
  Variables (S : list A) (Aux : list B) (T : A -> B -> A) (I : A -> B -> B).
  Hypothesis HS : NoDup S.
  Hypothesis HAux : NoDup Aux.
  Hypothesis HT : forall x a, In x S -> In a Aux -> In (T x a) S.
  Hypothesis HI : forall x a, In x S -> In a Aux -> In (I x a) Aux.
  Hypothesis HTT : forall x a, In x S -> In a Aux -> T (T x a) (I x a) = x.
  Hypothesis HII : forall x a, In x S -> In a Aux -> I (T x a) (I x a) = a.
  Variables (fw : A -> R) (w : A -> B -> R) (ll : A -> B -> R) (la : A -> B -> R) (prop : A -> dist B) (eta : R).
  Hypothesis Hprob : forall x, In x S -> is_prob (prop x).
  Hypothesis Hprop : forall x f, In x S -> E (prop x) f = rsum Aux (fun a => w x a * f a).
  Hypothesis Hw : forall x a, In x S -> In a Aux -> 0 <= w x a <= exp (ll x a).
  Hypothesis Heta : forall x, In x S -> rsum Aux (fun a => exp (ll x a)) <= 1 + eta.
  Hypothesis Hla : forall x a, In x S -> In a Aux -> la x a = fw (T x a) + ll (T x a) (I x a) - fw x - ll x a.

  Let pi (x : A) := exp (fw x).
  Let G (x : A) (a : B) := pi x * ((exp (ll x a) - w x a) * accept_prob 0 (la x a)).

  Lemma G_nonneg x a : In x S -> In a Aux -> 0 <= G x a.
  Proof.
    intros Hx Ha. unfold G. apply Rmult_le_pos; [left; apply exp_pos|]. apply Rmult_le_pos.
    - pose proof (Hw x a Hx Ha); lra.
    - apply accept_prob_range.
  Qed.

  Lemma G_sum : rsum S (fun x => rsum Aux (fun a => G x a)) <= eta * rsum S pi.
  Proof.
    rewrite <- rsum_scal. apply rsum_le. intros x Hx. unfold G.
    rewrite (rsum_scal Aux (pi x)). rewrite Rmult_comm. apply Rmult_le_compat_r; [left; apply exp_pos|].
    apply Rle_trans with (rsum Aux (fun a => exp (ll x a) - w x a)).
    - apply rsum_le. intros a Ha. rewrite <- (Rmult_1_r (exp (ll x a) - w x a)) at 2.
      apply Rmult_le_compat_l; [pose proof (Hw x a Hx Ha); lra|]. apply accept_prob_range.
    - apply Rle_trans with (rsum Aux (fun a => exp (ll x a)) - rsum Aux (fun a => w x a));
        [rewrite rsum_minus; right; reflexivity|]. pose proof (Heta x Hx).
      assert (rsum Aux (fun a => w x a) = 1).
      { rewrite (rsum_ext Aux (fun a => w x a) (fun a => w x a * 1)) by (intros; ring).
        rewrite <- (Hprop x (fun _ => 1)) by auto. apply (Hprob x Hx). }
      lra.
  Qed.

  Theorem reported_invariant_upto0 : invariant_upto (2 * eta) S pi (mh_kernel prop T la 0).
  Proof.
    intros f Hf.
    pose proof (kernel_flow S Aux T I HT HI pi (fun x a => exp (ll x a)) la) as HF.
    assert (Hflow : forall x a, In x S -> In a Aux ->
      pi x * (exp (ll x a) * accept_prob 0 (la x a))
      = pi (T x a) * (exp (ll (T x a) (I x a)) * accept_prob 0 (la (T x a) (I x a)))).
    { apply HF; auto.
      - intros; left; apply exp_pos.
      - intros; left; apply exp_pos.
      - intros x a Hx Ha. apply (ll_balance S Aux T I fw ll la Hla x a Hx Ha).
      - intros x a Hx Ha. apply (ll_anti S Aux T I HT HI HTT HII fw ll la Hla x a Hx Ha). }
    clear HF.
    assert (Hdiff : rsum S (fun x => pi x * E (mh_kernel prop T la 0 x) f) - rsum S (fun x => pi x * f x)
      = rsum S (fun x => rsum Aux (fun a => (G x a - G (T x a) (I x a)) * f x))).
    { rewrite <- rsum_minus.
      transitivity (rsum S (fun x => rsum Aux (fun a => pi x * (w x a * accept_prob 0 (la x a)) * f (T x a)))
                    - rsum S (fun x => rsum Aux (fun a => pi x * (w x a * accept_prob 0 (la x a)) * f x))).
      - rewrite <- rsum_minus. apply rsum_ext. intros x Hx. rewrite <- rsum_minus.
        unfold mh_kernel. rewrite E_bind, Hprop by auto.
        assert (H1 : rsum Aux (fun a => w x a) = 1).
        { rewrite (rsum_ext Aux (fun a => w x a) (fun a => w x a * 1)) by (intros; ring).
          rewrite <- (Hprop x (fun _ => 1)) by auto. apply (Hprob x Hx). }
        transitivity (pi x * rsum Aux (fun a => w x a * E (mh_law 0 (la x a) x (T x a)) f) - pi x * (rsum Aux (fun a => w x a) * f x)).
        + rewrite H1. ring.
        + rewrite <- rsum_scal_r, <- !rsum_scal, <- rsum_minus. apply rsum_ext. intros a Ha. rewrite E_mh_law. ring.
      - rewrite (pair_reindex S Aux T I HS HAux HT HI HTT HII
                   (fun x a => pi x * (w x a * accept_prob 0 (la x a)) * f (T x a))).
        rewrite <- rsum_minus. apply rsum_ext. intros x Hx. rewrite <- rsum_minus. apply rsum_ext. intros a Ha.
        rewrite HTT by auto. unfold G. pose proof (f_equal (fun t => t * f x) (Hflow x a Hx Ha)) as Hm. cbv beta in Hm. lra. }
    rewrite Hdiff. eapply Rle_trans; [apply rsum_abs|].
    apply Rle_trans with (rsum S (fun x => rsum Aux (fun a => G x a)) + rsum S (fun x => rsum Aux (fun a => G (T x a) (I x a)))).
    - rewrite <- rsum_plus. apply rsum_le. intros x Hx. eapply Rle_trans; [apply rsum_abs|].
      rewrite <- rsum_plus. apply rsum_le. intros a Ha. rewrite Rabs_mult.
      pose proof (G_nonneg x a Hx Ha). pose proof (G_nonneg (T x a) (I x a) (HT x a Hx Ha) (HI x a Hx Ha)).
      pose proof (Hf x). pose proof (Rabs_pos (f x)).
      assert (Rabs (G x a - G (T x a) (I x a)) <= G x a + G (T x a) (I x a)).
      { apply Rabs_le. lra. }
      pose proof (Rabs_pos (G x a - G (T x a) (I x a))). nra.
    - rewrite <- (pair_reindex S Aux T I HS HAux HT HI HTT HII G). pose proof G_sum. lra.
  Qed.

  Theorem reported_invariant_upto g : 0 <= g -> invariant_upto (2 * eta + 2 * g) S pi (mh_kernel prop T la g).
  Proof.
    intros Hg f Hf. pose proof (reported_invariant_upto0 f Hf) as H0.
    assert (H1 : Rabs (rsum S (fun x => pi x * E (mh_kernel prop T la g x) f) - rsum S (fun x => pi x * E (mh_kernel prop T la 0 x) f)) <= 2 * g * rsum S pi).
    { rewrite <- rsum_minus, <- rsum_scal. eapply Rle_trans; [apply rsum_abs|]. apply rsum_le. intros x Hx.
      rewrite <- Rmult_minus_distr_l, Rabs_mult, (Rabs_pos_eq (pi x)) by (left; apply exp_pos).
      rewrite Rmult_comm. apply Rmult_le_compat_r; [left; apply exp_pos|]. apply mh_kernel_guard; auto. }
    replace (rsum S (fun x => pi x * E (mh_kernel prop T la g x) f) - rsum S (fun x => pi x * f x))
      with ((rsum S (fun x => pi x * E (mh_kernel prop T la g x) f) - rsum S (fun x => pi x * E (mh_kernel prop T la 0 x) f))
            + (rsum S (fun x => pi x * E (mh_kernel prop T la 0 x) f) - rsum S (fun x => pi x * f x))) by ring.
    eapply Rle_trans; [apply Rabs_triang|]. lra.
  Qed.
End Reported.

(** ** Binary product kernel *)
Definition bw (dg p : R) (b : bool) : R := if b then p + dg else 1 - p + dg.

Lemma bern_ll_exp dg : forall ps flips, 0 <= dg -> Forall (fun p => 0 < p < 1) ps -> length flips = length ps ->
  exp (bern_ll dg ps flips) = prod_at (map (bw dg) ps) flips.
Proof.
  unfold bern_ll. induction ps as [|p ps IH]; intros [|b flips] Hd HF Hl; try discriminate; simpl in *.
  - apply exp_0.
  - inversion HF; subst. rewrite exp_plus, IH by auto. f_equal.
    destruct b; unfold bw; simpl.
    + replace (ln (p + dg) * 1 + ln (1 - p + dg) * (1 - 1)) with (ln (p + dg)) by ring. apply exp_ln; lra.
    + replace (ln (p + dg) * 0 + ln (1 - p + dg) * (1 - 0)) with (ln (1 - p + dg)) by ring. apply exp_ln; lra.
Qed.

Lemma prod_at_le : forall (fs gs : list (bool -> R)) l, length fs = length gs -> length l = length fs ->
  (forall i b, (i < length fs)%nat -> 0 <= nth i fs (fun _ => 0) b <= nth i gs (fun _ => 0) b) ->
  0 <= prod_at fs l <= prod_at gs l.
Proof.
  induction fs as [|f fs IH]; intros [|g gs] [|b l] H1 H2 H; try discriminate; simpl in *; [lra|].
  assert (0 <= prod_at fs l <= prod_at gs l).
  { apply IH; auto. intros i c Hi. apply (H (S i) c). lia. }
  pose proof (H 0%nat b ltac:(lia)) as Hb. simpl in Hb. split; [apply Rmult_le_pos; lra|].
  apply Rmult_le_compat; lra.
Qed.

Lemma flip_bits_length flips x : length flips = length x -> length (flip_bits flips x) = length x.
Proof. intros H. unfold flip_bits. rewrite map_length, combine_length, H. lia. Qed.

Lemma flip_bits_states d : forall flips x, In x (states d 2) -> length flips = d -> In (flip_bits flips x) (states d 2).
Proof.
  intros flips x Hx Hl. apply in_states in Hx. destruct Hx as [Hx HF]. apply in_states.
  split; [rewrite flip_bits_length; lia|]. apply Forall_forall. intros v Hv.
  apply in_map_iff in Hv. destruct Hv as ([b a] & <- & Hin). apply in_combine_r in Hin.
  rewrite Forall_forall in HF. specialize (HF a Hin). destruct b; cbn [fst snd]; lia.
Qed.

Lemma flip_bits_invol : forall flips x, length flips = length x -> Forall (fun v => (v < 2)%nat) x ->
  flip_bits flips (flip_bits flips x) = x.
Proof.
  unfold flip_bits. induction flips as [|b flips IH]; intros [|a x] Hl HF; try discriminate; auto. cbn [combine map fst snd length] in *.
  inversion HF; subst. rewrite IH by (auto; lia). f_equal. destruct b; lia.
Qed.

Lemma bernoulli_weighted p : bernoulli p = weighted [true; false] (bw 0 p).
Proof. unfold bernoulli, weighted, bw. simpl. rewrite !Rplus_0_r. reflexivity. Qed.

Lemma E_flips ps f :
  E (indep (map bernoulli ps)) f = rsum (lists_over [true; false] (length ps)) (fun l => prod_at (map (bw 0) ps) l * f l).
Proof.
  rewrite (map_ext bernoulli (fun p => weighted [true; false] (bw 0 p))) by apply bernoulli_weighted.
  rewrite <- (map_map (bw 0) (weighted [true; false])). rewrite E_indep_weighted, map_length. reflexivity.
Qed.

Lemma is_prob_flips ps : Forall (fun p => 0 < p < 1) ps -> is_prob (indep (map bernoulli ps)).
Proof.
  intros H. apply is_prob_indep. intros d Hd. apply in_map_iff in Hd. destruct Hd as (p & <- & Hp).
  rewrite Forall_forall in H. specialize (H p Hp). apply is_prob_bernoulli. lra.
Qed.

Lemma in_indep_len {A} : forall (ds : list (dist A)) l w, In (l, w) (indep ds) -> length l = length ds.
Proof.
  induction ds as [|d ds IH]; intros l w H; simpl in *.
  - destruct H as [H|[]]. inversion H; auto.
  - unfold bind in H. apply in_flat_map in H. destruct H as ([a u] & Ha & H). apply in_map_iff in H.
    destruct H as ([l' u'] & Heq & H). unfold dmap in H. apply in_map_iff in H. destruct H as ([l'' u''] & Heq' & H).
    cbn in *. inversion Heq; inversion Heq'; subst. simpl. f_equal. eapply IH; eauto.
Qed.

Section Flips.
  Variable d : nat.
  Let Aux := lists_over [true; false] d.
  Let T (x : list nat) (f : list bool) := flip_bits f x.
  Let I (x : list nat) (f : list bool) := f.
  Lemma in_aux f : In f Aux <-> length f = d.
  Proof.
    unfold Aux. rewrite in_lists_over. split; [tauto|]. intros H; split; auto.
    apply Forall_forall. intros [|] _; simpl; auto.
  Qed.
  Lemma A_HS : NoDup (states d 2). Proof. apply NoDup_states. Qed.
  Lemma A_HAux : NoDup Aux.
  Proof. apply NoDup_lists_over. repeat constructor; simpl; intuition discriminate. Qed.
  Lemma A_HT : forall x a, In x (states d 2) -> In a Aux -> In (T x a) (states d 2).
  Proof. intros x a Hx Ha. apply flip_bits_states; auto. apply in_aux; auto. Qed.
  Lemma A_HI : forall x a, In x (states d 2) -> In a Aux -> In (I x a) Aux.
  Proof. auto. Qed.
  Lemma A_HTT : forall x a, In x (states d 2) -> In a Aux -> T (T x a) (I x a) = x.
  Proof.
    intros x a Hx Ha. apply in_aux in Ha. apply in_states in Hx. apply flip_bits_invol; [lia|tauto].
  Qed.
  Lemma A_HII : forall x a, In x (states d 2) -> In a Aux -> I (T x a) (I x a) = a.
  Proof. auto. Qed.
End Flips.

Section BernKernel.
  Variables (fw : list nat -> R) (ps : list nat -> option (list R)) (d : nat) (dg : R).
  Hypothesis Hps : forall x, In x (states d 2) -> exists p, ps x = Some p /\ length p = d /\ Forall (fun p => 0 < p < 1) p.
  Hypothesis Hdg : 0 <= dg.

  Let pr (x : list nat) : list R := match ps x with Some p => p | None => [] end.
  Let prop (x : list nat) := indep (map bernoulli (pr x)).
  Let ll (x : list nat) (f : list bool) := bern_ll dg (pr x) f.
  Let la (x : list nat) (f : list bool) := fw (flip_bits f x) + ll (flip_bits f x) f - fw x - ll x f.
  Let Aux := lists_over [true; false] d.
  Let T (x : list nat) (f : list bool) := flip_bits f x.
  Let I (x : list nat) (f : list bool) := f.

  Lemma pr_ok x : In x (states d 2) -> ps x = Some (pr x) /\ length (pr x) = d /\ Forall (fun p => 0 < p < 1) (pr x).
  Proof. intros Hx. unfold pr. destruct (Hps x Hx) as (p & -> & H). auto. Qed.

  Lemma bern_step_kernel g x f : In x (states d 2) -> E (bern_step g dg fw ps x) f = E (mh_kernel prop T la g x) f.
  Proof.
    intros Hx. destruct (pr_ok x Hx) as (Hp & Hl & HF). unfold bern_step, mh_kernel. rewrite Hp, !E_bind.
    apply E_ext_in. intros a w Ha. apply in_indep_len in Ha. rewrite map_length in Ha.
    destruct (pr_ok (flip_bits a x)) as (Hq & _ & _); [apply flip_bits_states; auto; lia|]. rewrite Hq. reflexivity.
  Qed.

  Lemma A_Hprob : forall x, In x (states d 2) -> is_prob (prop x).
  Proof. intros x Hx. apply is_prob_flips, (pr_ok x Hx). Qed.
  Lemma A_Hprop : forall x f, In x (states d 2) -> E (prop x) f = rsum Aux (fun a => prod_at (map (bw 0) (pr x)) a * f a).
  Proof. intros x f Hx. unfold prop. rewrite E_flips. destruct (pr_ok x Hx) as (_ & -> & _). reflexivity. Qed.
  Lemma A_ll : forall x a, In x (states d 2) -> In a Aux -> exp (ll x a) = prod_at (map (bw dg) (pr x)) a.
  Proof.
    intros x a Hx Ha. apply in_aux in Ha. destruct (pr_ok x Hx) as (_ & Hl & HF). apply bern_ll_exp; auto; lia.
  Qed.
  Lemma A_la : forall x a, In x (states d 2) -> In a Aux -> la x a = fw (T x a) + ll (T x a) (I x a) - fw x - ll x a.
  Proof. reflexivity. Qed.

  Theorem bern_invariant_upto g : 0 <= g ->
    invariant_upto (2 * ((1 + 2 * dg) ^ d - 1) + 2 * g) (states d 2) (fun x => exp (fw x)) (bern_step g dg fw ps).
  Proof.
    intros Hg. apply (invariant_upto_ext _ _ _ _ (mh_kernel prop T la g)).
    { intros; apply bern_step_kernel; auto. }
    apply (reported_invariant_upto (states d 2) Aux T I (A_HS d) (A_HAux d) (A_HT d) (A_HI d) (A_HTT d) (A_HII d) fw
             (fun x a => prod_at (map (bw 0) (pr x)) a) ll la prop ((1 + 2 * dg) ^ d - 1) A_Hprob A_Hprop); auto.
    - intros x a Hx Ha. rewrite A_ll by auto. apply in_aux in Ha. destruct (pr_ok x Hx) as (_ & Hl & HF).
      apply prod_at_le; rewrite ?map_length; try lia. intros i b Hi.
      rewrite (nth_indep _ _ (bw 0 0)) by (rewrite map_length; lia). rewrite (nth_indep (map (bw dg) (pr x)) _ (bw dg 0)) by (rewrite map_length; lia).
      rewrite !map_nth. rewrite Forall_forall in HF. specialize (HF (nth i (pr x) 0) (nth_In _ _ Hi)).
      destruct b; unfold bw; lra.
    - intros x Hx. right. destruct (pr_ok x Hx) as (_ & Hl & HF).
      rewrite (rsum_ext Aux _ (prod_at (map (bw dg) (pr x)))) by (intros; apply A_ll; auto).
      unfold Aux. rewrite <- Hl at 1. rewrite <- (map_length (bw dg) (pr x)), rsum_prod_at.
      replace (1 + ((1 + 2 * dg) ^ d - 1)) with ((1 + 2 * dg) ^ d) by ring. rewrite <- Hl. clear.
      induction (pr x) as [|p l IH]; [reflexivity|]. cbn [map rprod length pow]. rewrite IH. f_equal. unfold bw; simpl. ring.
  Qed.

  Theorem bern_is_prob g x : In x (states d 2) -> is_prob (bern_step g dg fw ps x).
  Proof.
    intros Hx. unfold bern_step. destruct (pr_ok x Hx) as (-> & Hl & HF).
    apply is_prob_bind; [apply is_prob_flips; auto|]. intros a w Ha. apply in_indep_len in Ha. rewrite map_length in Ha.
    destruct (pr_ok (flip_bits a x)) as (-> & _ & _); [apply flip_bits_states; auto; lia|]. apply is_prob_mh_law.
  Qed.

  Theorem bern_stays g x y w : In x (states d 2) -> In (y, w) (bern_step g dg fw ps x) -> In y (states d 2).
  Proof.
    intros Hx. unfold bern_step. destruct (pr_ok x Hx) as (-> & Hl & HF). intros H.
    unfold bind in H. apply in_flat_map in H. destruct H as ([a u] & Ha & H). apply in_indep_len in Ha. rewrite map_length in Ha.
    apply in_map_iff in H. destruct H as ([z v] & Heq & H). cbn [fst snd] in *. injection Heq as Hzy _. subst z.
    assert (In (flip_bits a x) (states d 2)) by (apply flip_bits_states; auto; lia).
    destruct (pr_ok (flip_bits a x)) as (Hq & _ & _); auto. rewrite Hq in H. apply in_mh_law in H.
    destruct H as [-> | ->]; auto.
  Qed.
End BernKernel.

Theorem bern_reversible fw ps d :
  (forall x, In x (states d 2) -> exists p, ps x = Some p /\ length p = d /\ Forall (fun p => 0 < p < 1) p) ->
  reversible (states d 2) (fun x => exp (fw x)) (bern_step 0 0 fw ps).
Proof.
  intros Hps.
  apply (reversible_ext _ _ _ (mh_kernel (fun x => indep (map bernoulli match ps x with Some p => p | None => [] end))
     (fun x f => flip_bits f x)
     (fun x f => fw (flip_bits f x) + bern_ll 0 match ps (flip_bits f x) with Some p => p | None => [] end f
                 - fw x - bern_ll 0 match ps x with Some p => p | None => [] end f) 0)).
  { intros; apply (bern_step_kernel fw ps d 0 Hps); auto. }
  apply (ll_kernel_reversible (states d 2) (lists_over [true; false] d) (fun x f => flip_bits f x) (fun _ f => f)
           (A_HS d) (A_HAux d) (A_HT d) (A_HI d) (A_HTT d) (A_HII d) fw
           (fun x f => bern_ll 0 match ps x with Some p => p | None => [] end f)).
  - intros x f Hx. rewrite (A_Hprop ps d Hps) by auto. apply rsum_ext. intros a Ha.
    rewrite (A_ll ps d 0 Hps (Rle_refl 0)) by auto. reflexivity.
  - reflexivity.
Qed.

(** ** Categorical product kernel *)
Definition cw (l : list R) (c : nat) : R := exp (nth c l 0) / sumexp l.

Lemma nth_log_softmax l c : (c < length l)%nat -> nth c (log_softmax l) 0 = nth c l 0 - ln (sumexp l).
Proof.
  intros H. unfold log_softmax. rewrite (nth_indep _ 0 (0 - ln (sumexp l))) by (rewrite map_length; auto).
  rewrite (map_nth (fun a => a - ln (sumexp l))). reflexivity.
Qed.

Lemma row_ll_exp C : forall rows y, (0 < C)%nat -> Forall (fun l => length l = C) rows -> length y = length rows ->
  Forall (fun v => (v < C)%nat) y -> exp (row_ll rows y) = prod_at (map cw rows) y.
Proof.
  unfold row_ll. intros rows y HC. revert y.
  induction rows as [|l rows IH]; intros [|v y] HF Hl HV; try discriminate; simpl in *; [apply exp_0|].
  inversion HF; inversion HV; subst. rewrite exp_plus, IH by auto. f_equal.
  rewrite nth_log_softmax by auto. unfold Rminus. rewrite exp_plus, exp_Ropp, exp_ln; [reflexivity|].
  apply sumexp_pos. destruct l; simpl in *; [lia|discriminate].
Qed.

Lemma E_rows C rows f : Forall (fun l => length l = C) rows ->
  E (indep (map categorical rows)) f = rsum (states (length rows) C) (fun y => prod_at (map cw rows) y * f y).
Proof.
  intros HF. unfold states.
  assert (map categorical rows = map (weighted (seq 0 C)) (map cw rows)) as ->.
  { rewrite map_map. apply map_ext_in. intros l Hl. rewrite Forall_forall in HF. unfold categorical, cw. rewrite (HF l Hl). reflexivity. }
  rewrite E_indep_weighted, map_length. reflexivity.
Qed.

Lemma in_indep_rows C : forall rows y w, Forall (fun l => length l = C) rows -> In (y, w) (indep (map categorical rows)) ->
  In y (states (length rows) C).
Proof.
  induction rows as [|l rows IH]; intros y w HF H; cbn [map indep length] in *.
  - destruct H as [H|[]]. inversion H; subst. left; auto.
  - inversion HF; subst. unfold bind in H. apply in_flat_map in H. destruct H as ([a u] & Ha & H). apply in_map_iff in H.
    destruct H as ([l' u'] & Heq & H). unfold dmap in H. apply in_map_iff in H. destruct H as ([l'' u''] & Heq' & H).
    cbn [fst snd] in *. inversion Heq; inversion Heq'; subst. apply IH in H; auto. apply in_states in H. apply in_states.
    apply in_map_iff in Ha. destruct Ha as (i & Hi & Hin). inversion Hi; subst. apply in_seq in Hin. simpl.
    split; [f_equal; tauto|]. constructor; [lia|tauto].
Qed.

Section RowKernel.
  Variables (fw : list nat -> R) (rows : list nat -> option (list (list R))) (d C : nat).
  Hypothesis HC : (0 < C)%nat.
  Hypothesis Hrows : forall x, In x (states d C) -> exists r, rows x = Some r /\ length r = d /\ Forall (fun l => length l = C) r.

  Let rr (x : list nat) : list (list R) := match rows x with Some r => r | None => [] end.
  Let prop (x : list nat) := indep (map categorical (rr x)).
  Let ll (x y : list nat) := row_ll (rr x) y.
  Let la (x y : list nat) := fw y + ll y x - fw x - ll x y.

  Lemma rr_ok x : In x (states d C) -> rows x = Some (rr x) /\ length (rr x) = d /\ Forall (fun l => length l = C) (rr x).
  Proof. intros Hx. unfold rr. destruct (Hrows x Hx) as (r & -> & H). auto. Qed.

  Lemma cat_step_kernel g x f : In x (states d C) -> E (cat_step g fw rows x) f = E (mh_kernel prop (fun _ y => y) la g x) f.
  Proof.
    intros Hx. destruct (rr_ok x Hx) as (Hr & Hl & HF). unfold cat_step, mh_kernel. rewrite Hr, !E_bind.
    apply E_ext_in. intros y w Hy. apply (in_indep_rows C) in Hy; auto. rewrite Hl in Hy.
    destruct (rr_ok y Hy) as (-> & _ & _). reflexivity.
  Qed.

  Lemma rr_prob x : In x (states d C) -> is_prob (prop x).
  Proof.
    intros Hx. destruct (rr_ok x Hx) as (_ & _ & HF). apply is_prob_indep. intros m Hm.
    apply in_map_iff in Hm. destruct Hm as (l & <- & Hl). apply is_prob_categorical.
    rewrite Forall_forall in HF. specialize (HF l Hl). destruct l; simpl in *; [lia|discriminate].
  Qed.

  Lemma rr_prop x f : In x (states d C) -> E (prop x) f = rsum (states d C) (fun y => exp (ll x y) * f y).
  Proof.
    intros Hx. destruct (rr_ok x Hx) as (_ & Hl & HF). unfold prop. rewrite (E_rows C) by auto. rewrite Hl.
    apply rsum_ext. intros y Hy. apply in_states in Hy. unfold ll. rewrite (row_ll_exp C); auto; try tauto. lia.
  Qed.

  Theorem cat_reversible : reversible (states d C) (fun x => exp (fw x)) (cat_step 0 fw rows).
  Proof.
    apply (reversible_ext _ _ _ (mh_kernel prop (fun _ y => y) la 0)); [intros; apply cat_step_kernel; auto|].
    apply (ll_kernel_reversible (states d C) (states d C) (fun _ y => y) (fun x _ => x)
             (NoDup_states _ _) (NoDup_states _ _)) with (ll := ll); auto.
    exact rr_prop.
  Qed.

  Theorem cat_invariant_upto g : 0 <= g -> invariant_upto (2 * g) (states d C) (fun x => exp (fw x)) (cat_step g fw rows).
  Proof.
    intros Hg. apply (invariant_upto_ext _ _ _ _ (mh_kernel prop (fun _ y => y) la g)); [intros; apply cat_step_kernel; auto|].
    apply (ll_kernel_invariant_upto (states d C) (states d C) (fun _ y => y) (fun x _ => x)
             (NoDup_states _ _) (NoDup_states _ _)) with (ll := ll); auto.
    - exact rr_prob.
    - exact rr_prop.
  Qed.

  Theorem cat_is_prob g x : In x (states d C) -> is_prob (cat_step g fw rows x).
  Proof.
    intros Hx. unfold cat_step. pose proof (rr_prob x Hx) as Hp. unfold prop in Hp.
    destruct (rr_ok x Hx) as (Hr & Hl & HF). rewrite Hr.
    apply is_prob_bind; auto. intros y w Hy. apply (in_indep_rows C) in Hy; auto. rewrite Hl in Hy.
    destruct (rr_ok y Hy) as (-> & _ & _). apply is_prob_mh_law.
  Qed.
End RowKernel.

(** ** The concrete proposals *)
Lemma dmala_p_eq lt w : dmala_p lt w = exp lt * exp w / (1 + exp lt * exp w).
Proof.
  unfold dmala_p. rewrite exp_0. pose proof (exp_pos (lt + w)).
  rewrite Rmin_left.
  - unfold Rminus. rewrite exp_plus, exp_Ropp, exp_ln by lra. rewrite exp_plus. unfold Rdiv. f_equal. f_equal. ring.
  - apply Rle_minus. rewrite <- (ln_exp (lt + w)) at 1. left. apply ln_increasing; lra.
Qed.

Lemma dmala_p_range lt w : 0 < dmala_p lt w < 1.
Proof.
  rewrite dmala_p_eq. pose proof (Rmult_lt_0_compat _ _ (exp_pos lt) (exp_pos w)).
  split; [apply Rdiv_lt_0_compat; lra|]. apply (Rmult_lt_reg_r (1 + exp lt * exp w)); [lra|].
  unfold Rdiv. rewrite Rmult_assoc, Rinv_l by lra. lra.
Qed.

Lemma dmala_ps_ok lt wf lr d x : In x (states d 2) ->
  exists p, dmala_ps lt wf lr x = Some p /\ length p = d /\ Forall (fun p => 0 < p < 1) p.
Proof.
  intros Hx. apply in_states in Hx. eexists. split; [reflexivity|].
  rewrite map_length, seq_length. split; [tauto|]. apply Forall_forall. intros p Hp. apply in_map_iff in Hp.
  destruct Hp as (i & <- & _). apply dmala_p_range.
Qed.

Lemma all_some_ok {A} (P : A -> Prop) (l : list (option A)) :
  (forall o, In o l -> exists a, o = Some a /\ P a) -> exists r, all_some l = Some r /\ length r = length l /\ Forall P r.
Proof.
  induction l as [|o l IH]; intros H; [exists []; auto|].
  destruct (H o ltac:(left; auto)) as (a & -> & Ha). destruct IH as (r & Hr & Hl & HF); [intros; apply H; right; auto|].
  exists (a :: r). simpl. rewrite Hr. split; [reflexivity|]. split; [f_equal; auto|]. constructor; auto.
Qed.

Lemma exp_log_sigmoid x : exp (log_sigmoid x) = / (1 + exp (- x)).
Proof. unfold log_sigmoid. pose proof (exp_pos (- x)). rewrite exp_Ropp, exp_ln by lra. reflexivity. Qed.

(** The interpolation solver: nu * (1 - exp(-tau*g/nu)). *)
Lemma dlmc_thr_interp lt w ln_nu :
  dlmc_thr "interpolate" lt w ln_nu = Some (Fin (ln_nu + ln (1 - exp (- exp (lt + w - ln_nu))))).
Proof.
  unfold dlmc_thr. simpl String.eqb. cbv iota. pose proof (exp_pos (lt + w - ln_nu)).
  rewrite log1mexp_fin by lra. rewrite Rabs_Ropp, Rabs_pos_eq by lra. reflexivity.
Qed.
Lemma dlmc_thr_euler lt w ln_nu : dlmc_thr "euler_forward" lt w ln_nu = Some (Fin (lt + w)).
Proof. reflexivity. Qed.

Lemma one_minus_exp_range e : 0 < e -> 0 < 1 - exp (- e) < 1.
Proof.
  intros H. pose proof (exp_pos (- e)). assert (exp (- e) < 1) by (rewrite <- exp_0; apply exp_increasing; lra). lra.
Qed.

Lemma dlmc_p_interp lt w delta :
  let nu := / (1 + exp (- delta)) in
  dlmc_p "interpolate" lt w delta = Some (nu * (1 - exp (- (exp lt * exp w / nu)))).
Proof.
  intros nu. unfold dlmc_p. rewrite dlmc_thr_interp, xmin_fin. cbn [xexp].
  pose proof (one_minus_exp_range (exp (lt + w - log_sigmoid delta)) (exp_pos _)) as Hr.
  rewrite Rmin_left.
  - rewrite exp_plus, exp_ln by lra. rewrite exp_log_sigmoid. do 2 f_equal. f_equal. f_equal. f_equal.
    unfold Rminus. rewrite exp_plus, exp_Ropp, exp_log_sigmoid, exp_plus. reflexivity.
  - assert (ln (1 - exp (- exp (lt + w - log_sigmoid delta))) < 0).
    { rewrite <- ln_1. apply ln_increasing; lra. }
    lra.
Qed.

Lemma dlmc_p_euler lt w delta :
  dlmc_p "euler_forward" lt w delta = Some (Rmin (exp lt * exp w) (/ (1 + exp (- delta)))).
Proof.
  unfold dlmc_p. rewrite dlmc_thr_euler, xmin_fin. cbn [xexp]. f_equal.
  rewrite <- exp_log_sigmoid, <- exp_plus. unfold Rmin.
  destruct (Rle_dec (lt + w) (log_sigmoid delta)) as [H|H], (Rle_dec (exp (lt + w)) (exp (log_sigmoid delta))) as [H'|H']; auto.
  - exfalso. apply H'. destruct H as [H| ->]; [left; apply exp_increasing; auto|right; auto].
  - exfalso. apply H. destruct H' as [H'|H']; [left; apply exp_lt_inv; auto|right; apply exp_inv; auto].
Qed.

Lemma sigmoid_range x : 0 < / (1 + exp (- x)) < 1.
Proof.
  pose proof (exp_pos (- x)). split; [apply Rinv_0_lt_compat; lra|].
  rewrite <- Rinv_1 at 2. apply Rinv_lt_contravar; lra.
Qed.

Definition known_solver (s : string) : Prop := s = "interpolate"%string \/ s = "euler_forward"%string.

Lemma dlmc_p_ok solver lt w delta : known_solver solver -> exists p, dlmc_p solver lt w delta = Some p /\ 0 < p < 1.
Proof.
  pose proof (sigmoid_range delta) as Hs. pose proof (Rmult_lt_0_compat _ _ (exp_pos lt) (exp_pos w)) as He.
  intros [-> | ->].
  - rewrite dlmc_p_interp. eexists; split; [reflexivity|].
    assert (H : 0 < exp lt * exp w / / (1 + exp (- delta))) by (apply Rdiv_lt_0_compat; lra).
    pose proof (one_minus_exp_range _ H). nra.
  - rewrite dlmc_p_euler. eexists; split; [reflexivity|]. split; [apply Rmin_glb_lt; lra|].
    eapply Rle_lt_trans; [apply Rmin_r|]. lra.
Qed.

Lemma dlmc_p_unknown solver lt w delta : ~ known_solver solver -> dlmc_p solver lt w delta = None.
Proof.
  intros H. unfold dlmc_p, dlmc_thr. destruct (String.eqb_spec solver "interpolate") as [->|]; [exfalso; apply H; left; auto|].
  destruct (String.eqb_spec solver "euler_forward") as [->|]; [exfalso; apply H; right; auto|]. reflexivity.
Qed.

Lemma dlmc_ps_ok solver lt wf lr d x : known_solver solver -> In x (states d 2) ->
  exists p, dlmc_ps solver lt wf lr x = Some p /\ length p = d /\ Forall (fun p => 0 < p < 1) p.
Proof.
  intros Hk Hx. apply in_states in Hx. unfold dlmc_ps.
  destruct (all_some_ok (fun p => 0 < p < 1) (map (fun i => dlmc_p solver lt (wf (lr x i)) (lr x i)) (seq 0 (length x)))) as (r & Hr & Hl & HF).
  - intros o Ho. apply in_map_iff in Ho. destruct Ho as (i & <- & _). apply dlmc_p_ok; auto.
  - exists r. split; auto. split; auto. rewrite Hl, map_length, seq_length. tauto.
Qed.

Lemma dmala_rows_ok lt wf lr d C x : In x (states d C) ->
  exists r, all_some (map (dmala_row lt wf lr C x) (seq 0 (length x))) = Some r /\ length r = d /\ Forall (fun l => length l = C) r.
Proof.
  intros Hx. apply in_states in Hx.
  destruct (all_some_ok (fun l => length l = C) (map (dmala_row lt wf lr C x) (seq 0 (length x)))) as (r & Hr & Hl & HF).
  - intros o Ho. apply in_map_iff in Ho. destruct Ho as (i & <- & _). eexists. split; [reflexivity|].
    rewrite log_softmax_length, map_length, seq_length. reflexivity.
  - exists r. split; auto. split; auto. rewrite Hl, map_length, seq_length. tauto.
Qed.

Lemma dlmc_thr_ok solver lt w ln_nu : known_solver solver -> exists t, dlmc_thr solver lt w ln_nu = Some (Fin t).
Proof. intros [-> | ->]; [rewrite dlmc_thr_interp|rewrite dlmc_thr_euler]; eauto. Qed.

Lemma dlmc_rows_ok solver lt wf lr d C x : known_solver solver -> In x (states d C) ->
  exists r, all_some (map (dlmc_row solver lt wf lr C x) (seq 0 (length x))) = Some r /\ length r = d /\ Forall (fun l => length l = C) r.
Proof.
  intros Hk Hx. apply in_states in Hx.
  destruct (all_some_ok (fun l => length l = C) (map (dlmc_row solver lt wf lr C x) (seq 0 (length x)))) as (r & Hr & Hl & HF).
  - intros o Ho. apply in_map_iff in Ho. destruct Ho as (i & <- & _). unfold dlmc_row. cbv zeta.
    match goal with |- context [all_some ?l] => destruct (all_some_ok (fun _ => True) l) as (q & Hq & Hlq & _) end.
    + intros o Ho. apply in_map_iff in Ho. destruct Ho as (c & <- & _).
      destruct (dlmc_thr_ok solver lt (wf (lr x (i * C + c)%nat)) (nth c (log_softmax (map (fun c => lr x (i * C + c)%nat) (seq 0 C))) 0) Hk) as (t & ->).
      eauto.
    + rewrite Hq. eexists; split; [reflexivity|]. rewrite map_length, seq_length. reflexivity.
  - exists r. split; auto. split; auto. rewrite Hl, map_length, seq_length. tauto.
Qed.
