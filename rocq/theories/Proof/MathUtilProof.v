(** Proofs about math_util and the weight functions. *)
From Coq Require Import String Reals List Lra Lia Arith Permutation Sorted.
From Verif.Base Require Import RSum Cube Dist XFloat MH.
From Verif.Model Require Import MathUtil LocallyBalanced.
From Verif.Proof Require Import MHKernel.
Import ListNotations.
Local Open Scope R_scope.

(** ** mh_step *)
Lemma acc_guard_pos : 0 < acc_guard.
Proof. unfold acc_guard. apply Rinv_0_lt_compat. apply pow_lt; lra. Qed.

Lemma acc_guard_lt1 : acc_guard < 1.
Proof.
  unfold acc_guard. rewrite <- Rinv_1. apply Rinv_lt_contravar; [|apply Rlt_pow_R1; [lra|lia]].
  rewrite Rmult_1_l. apply pow_lt; lra.
Qed.

Lemma ln_lt_iff a b : 0 < a -> (ln a < b <-> a < exp b).
Proof.
  intros Ha. split; intros H.
  - rewrite <- (exp_ln a Ha). apply exp_increasing; auto.
  - rewrite <- (ln_exp b). apply ln_increasing; auto.
Qed.

Lemma bernoulli_logp_fin u la : 0 <= u -> (bernoulli_logp u (Fin la) = true <-> u < exp la - acc_guard).
Proof.
  intros Hu. pose proof acc_guard_pos. unfold bernoulli_logp. rewrite xlog_pos by lra. simpl.
  destruct (Rlt_dec (ln (u + acc_guard)) la) as [H1|H1].
  - split; auto. intros _. apply ln_lt_iff in H1; lra.
  - split; [discriminate|]. intros H2. exfalso. apply H1. apply ln_lt_iff; lra.
Qed.

Lemma bernoulli_logp_measure u la : 0 <= u < 1 ->
  (bernoulli_logp u (Fin la) = true <-> u < accept_prob acc_guard la).
Proof.
  intros Hu. rewrite bernoulli_logp_fin by lra. unfold accept_prob, Rmax, Rmin.
  destruct (Rle_dec 1 (exp la - acc_guard));
  repeat match goal with |- context [Rle_dec ?a ?b] => destruct (Rle_dec a b) end; lra.
Qed.

Lemma bernoulli_logp_nan u : bernoulli_logp u NaN = false.
Proof. unfold bernoulli_logp. destruct (xlog _); reflexivity. Qed.
Lemma bernoulli_logp_ninf u : 0 <= u -> bernoulli_logp u NInf = false.
Proof. intros. pose proof acc_guard_pos. unfold bernoulli_logp. rewrite xlog_pos by lra. reflexivity. Qed.
Lemma bernoulli_logp_pinf u : 0 <= u -> bernoulli_logp u PInf = true.
Proof. intros. pose proof acc_guard_pos. unfold bernoulli_logp. rewrite xlog_pos by lra. reflexivity. Qed.

Lemma mh_step_nth {A} noise lp (cur new : list A) i u l c n :
  nth_error noise i = Some u -> nth_error lp i = Some l -> nth_error cur i = Some c -> nth_error new i = Some n ->
  nth_error (mh_step noise lp cur new) i = Some (mh_step1 u l c n).
Proof.
  revert lp cur new i; induction noise as [|u' noise IH]; intros [|l' lp] [|c' cur] [|n' new] [|i]; simpl; try discriminate.
  - intros H1 H2 H3 H4; inversion H1; inversion H2; inversion H3; inversion H4; subst; auto.
  - apply IH.
Qed.

(** ** Weight functions *)
Definition balancing_names : list string := ["SQRT"; "RATIO"; "MAX"; "MIN"]%string.

Lemma weight_cases ty t :
  (ty = "SQRT"%string /\ apply_weight_function ty t = Some (sqrt t)) \/
  (ty = "RATIO"%string /\ apply_weight_function ty t = Some (t / (t + 1))) \/
  (ty = "MAX"%string /\ apply_weight_function ty t = Some (Rmax t 1)) \/
  (ty = "MIN"%string /\ apply_weight_function ty t = Some (Rmin t 1)) \/
  (~ In ty balancing_names /\ apply_weight_function ty t = None).
Proof.
  unfold apply_weight_function.
  destruct (String.eqb_spec ty "SQRT"); [auto|].
  destruct (String.eqb_spec ty "RATIO"); [auto|].
  destruct (String.eqb_spec ty "MAX"); [auto|].
  destruct (String.eqb_spec ty "MIN"); [auto 6|].
  do 4 right. split; auto. simpl. intros H. repeat (destruct H as [H|H]; [congruence|]). contradiction.
Qed.

Lemma weight_balanced ty t g : 0 < t -> apply_weight_function ty t = Some g ->
  0 < g /\ exists g', apply_weight_function ty (/ t) = Some g' /\ g = t * g'.
Proof.
  intros Ht Hg. assert (Hi : 0 < / t) by (apply Rinv_0_lt_compat; auto).
  destruct (weight_cases ty t) as [[-> H]|[[-> H]|[[-> H]|[[-> H]|[_ H]]]]]; rewrite H in Hg; inversion Hg; subst; clear Hg.
  - split; [apply sqrt_lt_R0; auto|]. eexists; split; [reflexivity|].
    rewrite <- (sqrt_square t) at 2 by lra. rewrite sqrt_mult by lra.
    rewrite Rmult_assoc, <- sqrt_mult by lra. rewrite Rinv_r by lra. rewrite sqrt_1. ring.
  - split; [apply Rdiv_lt_0_compat; lra|]. eexists; split; [reflexivity|]. field. lra.
  - split; [apply Rlt_le_trans with 1; [lra|apply Rmax_r]|]. eexists; split; [reflexivity|].
    unfold Rmax. assert (t * / t = 1) by (apply Rinv_r; lra).
    destruct (Rle_dec t 1), (Rle_dec (/ t) 1); try lra.
    + assert (t = 1); [|lra]. apply Rle_antisym; auto.
      apply (Rmult_le_reg_r (/ t)); auto. lra.
    + exfalso. assert (1 < / t) by lra. assert (t * 1 < t * / t) by (apply Rmult_lt_compat_l; lra). lra.
  - split; [apply Rmin_glb_lt; lra|]. eexists; split; [reflexivity|].
    unfold Rmin. assert (t * / t = 1) by (apply Rinv_r; lra).
    destruct (Rle_dec t 1), (Rle_dec (/ t) 1); try lra.
    + assert (t = 1); [|lra]. apply Rle_antisym; auto.
      apply (Rmult_le_reg_r (/ t)); auto. lra.
    + exfalso. assert (1 < / t) by lra. assert (t * 1 < t * / t) by (apply Rmult_lt_compat_l; lra). lra.
Qed.

Lemma exp_le a b : a <= b -> exp a <= exp b.
Proof. intros [H| ->]; [left; apply exp_increasing; auto|lra]. Qed.

Lemma weight_logscale ty s :
  match apply_weight_function ty (exp s), apply_weight_function_logscale ty s with
  | Some g, Some l => l = ln g
  | None, None => ~ In ty balancing_names
  | _, _ => False
  end.
Proof.
  pose proof (exp_pos s) as He.
  unfold apply_weight_function_logscale.
  destruct (weight_cases ty (exp s)) as [[-> H]|[[-> H]|[[-> H]|[[-> H]|[Hni H]]]]]; rewrite H; simpl.
  - replace (exp s) with (exp (s / 2) * exp (s / 2)) by (rewrite <- exp_plus; f_equal; field).
    rewrite sqrt_square by (left; apply exp_pos). rewrite ln_exp; reflexivity.
  - unfold log_sigmoid. rewrite <- ln_Rinv by (pose proof (exp_pos (-s)); lra). f_equal.
    rewrite exp_Ropp. field. lra.
  - unfold Rmax. destruct (Rle_dec s 0) as [Hs|Hs], (Rle_dec (exp s) 1) as [H1|H1]; rewrite ?ln_1, ?ln_exp; auto.
    + exfalso; apply H1. rewrite <- exp_0. apply exp_le; auto.
    + assert (exp 0 < exp s) by (apply exp_increasing; lra). rewrite exp_0 in *. lra.
  - unfold Rmin. destruct (Rle_dec s 0) as [Hs|Hs], (Rle_dec (exp s) 1) as [H1|H1]; rewrite ?ln_1, ?ln_exp; auto.
    + exfalso; apply H1. rewrite <- exp_0. apply exp_le; auto.
    + assert (exp 0 < exp s) by (apply exp_increasing; lra). rewrite exp_0 in *. lra.
  - destruct (String.eqb_spec ty "SQRT"); [subst; simpl in Hni; tauto|].
    destruct (String.eqb_spec ty "RATIO"); [subst; simpl in Hni; tauto|].
    destruct (String.eqb_spec ty "MAX"); [subst; simpl in Hni; tauto|].
    destruct (String.eqb_spec ty "MIN"); [subst; simpl in Hni; tauto|]. auto.
Qed.

(** ** log1mexp *)
Lemma log1mexp_fin x : x <> 0 -> log1mexp (Fin x) = Fin (ln (1 - exp (- Rabs x))).
Proof.
  intros Hx. pose proof (Rabs_pos_lt x Hx) as Ha.
  assert (He : exp (- Rabs x) < 1) by (rewrite <- exp_0; apply exp_increasing; lra).
  unfold log1mexp. cbn [xabs xneg]. destruct (xltb _ _).
  - unfold xexpm1, xsub. cbn [xexp xneg xadd]. rewrite xlog_pos by lra. do 2 f_equal. ring.
  - unfold xlog1p. cbn [xexp xneg xadd]. rewrite xlog_pos by lra. do 2 f_equal.
Qed.

Lemma log1mexp_0 : log1mexp (Fin 0) = NInf.
Proof.
  unfold log1mexp. cbn [xabs xneg]. rewrite Rabs_R0, Ropp_0. unfold xltb.
  destruct (Rlt_dec _ _); [|lra].
  unfold xexpm1, xsub. cbn [xexp xneg xadd]. rewrite exp_0.
  replace (- (1 + - (1))) with 0 by ring. apply xlog_0.
Qed.

Lemma log1mexp_inf : log1mexp NInf = Fin 0 /\ log1mexp PInf = Fin 0.
Proof.
  assert (H : xlog (Fin (1 + - 0)) = Fin 0) by (rewrite xlog_pos by lra; f_equal; rewrite Ropp_0, Rplus_0_r; apply ln_1).
  split; unfold log1mexp; cbn [xabs xneg xltb xexp]; unfold xlog1p; cbn [xadd]; exact H.
Qed.

(** ** renormalize *)

(** Specification: conditional log-probabilities of drawing the listed outcomes one after the other
    without replacement, [acc] being the probability already used up. *)
Fixpoint seq_cond (acc : R) (ll : list R) : list R :=
  match ll with
  | [] => []
  | l :: ll' => ln (exp l / (1 - acc)) :: seq_cond (acc + exp l) ll'
  end.

Lemma rmax_list_some l : l <> [] -> exists m, rmax_list l = Some m.
Proof.
  destruct l as [|a l]; [congruence|]. intros _. simpl. destruct (rmax_list l); eauto.
Qed.

Lemma renorm_aux base ll accp acc :
  accp = acc * exp (- base) -> 0 <= acc -> acc + rsum ll exp <= 1 ->
  map (fun ld => xmin (xsub (Fin (fst ld)) (log1mexp (snd ld))) (Fin 0))
    (combine ll (map (fun cp => xadd (xlog (Fin (fst cp - snd cp))) (Fin base))
       (combine (cumsum accp (map (fun l => exp (l - base)) ll)) (map (fun l => exp (l - base)) ll))))
  = map Fin (seq_cond acc ll).
Proof.
  revert accp acc; induction ll as [|l ll IH]; intros accp acc Hacc H0 H1; [reflexivity|].
  cbn [map cumsum combine fst snd seq_cond].
  cbn [rsum] in H1. pose proof (exp_pos l) as Hl.
  assert (Hrest : 0 <= rsum ll exp) by (apply rsum_nonneg; intros; left; apply exp_pos).
  f_equal.
  - replace (accp + exp (l - base) - exp (l - base)) with accp by ring.
    assert (Hfin : forall v, v = ln (1 - acc) ->
      xmin (xsub (Fin l) (Fin v)) (Fin 0) = Fin (ln (exp l / (1 - acc)))).
    { intros v ->. unfold xsub. cbn [xneg xadd]. rewrite xmin_fin. f_equal.
      unfold Rdiv. rewrite ln_mult, ln_exp, ln_Rinv by (try apply Rinv_0_lt_compat; lra).
      apply Rmin_left.
      assert (Hle : exp l <= 1 - acc) by lra.
      apply (Rplus_le_reg_r (ln (1 - acc))). rewrite Rplus_assoc, Rplus_opp_l, Rplus_0_r, Rplus_0_l.
      rewrite <- (ln_exp l) at 1. destruct Hle as [Hlt|Heq]; [left; apply ln_increasing; lra|right; f_equal; exact Heq]. }
    destruct (Req_dec acc 0) as [->|Hne].
    + rewrite Hacc, Rmult_0_l, xlog_0. cbn [xadd]. rewrite (proj1 log1mexp_inf).
      apply Hfin. rewrite Rminus_0_r, ln_1. reflexivity.
    + assert (Hap : 0 < acc) by lra.
      rewrite Hacc, xlog_pos by (apply Rmult_lt_0_compat; [auto|apply exp_pos]).
      rewrite ln_mult, ln_exp by (auto; apply exp_pos). cbn [xadd].
      replace (ln acc + - base + base) with (ln acc) by ring.
      assert (Hln : ln acc < 0) by (rewrite <- ln_1; apply ln_increasing; lra).
      rewrite log1mexp_fin by lra. apply Hfin.
      rewrite Rabs_left by auto. rewrite Ropp_involutive, exp_ln by auto. reflexivity.
  - apply IH; [|lra|lra]. rewrite Hacc. unfold Rminus. rewrite exp_plus. ring.
Qed.

Theorem renormalize_correct ll :
  ll <> [] -> rsum ll exp <= 1 -> renormalize ll = Some (map Fin (seq_cond 0 ll)).
Proof.
  intros Hne Hs. unfold renormalize. destruct (rmax_list_some ll Hne) as (m & ->). f_equal.
  apply renorm_aux; lra.
Qed.

(** ** multinomial counts *)
Lemma vadd_length a b : length a = length b -> length (vadd a b) = length a.
Proof. intros. unfold vadd. rewrite map_length, combine_length. lia. Qed.

Lemma onehot_length n i : length (onehot n i) = n.
Proof. unfold onehot. rewrite map_length, seq_length; auto. Qed.

Lemma nth_onehot n i j : (j < n)%nat -> nth j (onehot n i) 0%nat = if Nat.eqb j i then 1%nat else 0%nat.
Proof.
  intros H. unfold onehot.
  rewrite (nth_indep _ 0%nat ((fun j => if Nat.eqb j i then 1%nat else 0%nat) 0%nat)) by (rewrite map_length, seq_length; auto).
  rewrite (map_nth (fun j => if Nat.eqb j i then 1%nat else 0%nat)), seq_nth by auto. reflexivity.
Qed.

Lemma nth_vadd a b j : length a = length b -> nth j (vadd a b) 0%nat = (nth j a 0 + nth j b 0)%nat.
Proof.
  revert b j; induction a as [|x a IH]; intros [|y b] [|j] H; simpl in *; try discriminate; auto.
  unfold vadd in *. simpl. apply IH. lia.
Qed.

Definition counts_of (n : nat) (draws : list nat) : list nat :=
  map (fun j => count_occ Nat.eq_dec draws j) (seq 0 n).

Lemma counts_of_length n dr : length (counts_of n dr) = n.
Proof. unfold counts_of. rewrite map_length, seq_length; auto. Qed.

Lemma nth_counts_of n dr j : (j < n)%nat -> nth j (counts_of n dr) 0%nat = count_occ Nat.eq_dec dr j.
Proof.
  intros H. unfold counts_of.
  rewrite (nth_indep _ 0%nat (count_occ Nat.eq_dec dr 0%nat)) by (rewrite map_length, seq_length; auto).
  rewrite (map_nth (fun j => count_occ Nat.eq_dec dr j)), seq_nth by auto. reflexivity.
Qed.

Lemma count_occ_app (l1 l2 : list nat) x :
  count_occ Nat.eq_dec (l1 ++ l2) x = (count_occ Nat.eq_dec l1 x + count_occ Nat.eq_dec l2 x)%nat.
Proof. induction l1 as [|a l IH]; simpl; auto. destruct (Nat.eq_dec a x); rewrite IH; auto. Qed.

Lemma vadd_counts n dr i : vadd (counts_of n dr) (onehot n i) = counts_of n (dr ++ [i]).
Proof.
  apply (list_eq_nth 0%nat).
  - rewrite vadd_length by (rewrite counts_of_length, onehot_length; auto). rewrite !counts_of_length; auto.
  - intros j Hj. rewrite vadd_length, counts_of_length in Hj by (rewrite counts_of_length, onehot_length; auto).
    rewrite nth_vadd by (rewrite counts_of_length, onehot_length; auto).
    rewrite !nth_counts_of, nth_onehot, count_occ_app by auto. f_equal. simpl.
    destruct (Nat.eqb_spec j i), (Nat.eq_dec i j); auto; congruence.
Qed.

Lemma add_masked_spec n num idx : forall pos dr,
  length dr = Nat.min pos num ->
  exists dr', add_masked n num pos idx (counts_of n dr) = counts_of n (dr ++ dr') /\
    dr' = firstn (num - pos) idx.
Proof.
  induction idx as [|i idx IH]; intros pos dr Hl; simpl.
  - exists []. rewrite app_nil_r, firstn_nil. auto.
  - destruct (Nat.ltb_spec pos num) as [Hlt|Hge].
    + rewrite vadd_counts. destruct (IH (S pos) (dr ++ [i])) as (dr' & H1 & H2).
      { rewrite app_length; cbn [length]. lia. }
      exists (i :: dr'). rewrite H1, <- app_assoc. simpl. split; auto.
      replace (num - pos)%nat with (S (num - S pos)) by lia. simpl. rewrite H2. reflexivity.
    + destruct (IH (S pos) dr) as (dr' & H1 & H2); [lia|].
      exists dr'. split; auto. rewrite H2. replace (num - pos)%nat with 0%nat by lia.
      replace (num - S pos)%nat with 0%nat by lia. reflexivity.
Qed.

(** All draws made in iterations [it .. it+k-1], in order. *)
Definition draws_upto (draw : nat -> list nat) (it k : nat) : list nat :=
  flat_map draw (seq it k).

Lemma firstn_app_le {A} k (l1 l2 : list A) : (k <= length l1)%nat -> firstn k (l1 ++ l2) = firstn k l1.
Proof. intros H. rewrite firstn_app. replace (k - length l1)%nat with 0%nat by lia. simpl. apply app_nil_r. Qed.

Lemma multinomial_loop_spec n num bs draw : (0 < bs)%nat -> (forall it, length (draw it) = bs) ->
  forall fuel it cnt dr,
  (num - cnt <= fuel)%nat -> length dr = Nat.min cnt num ->
  exists tl, multinomial_loop fuel n num bs draw it cnt (counts_of n dr) = Some (counts_of n (dr ++ tl)) /\
    tl = firstn (num - cnt) (draws_upto draw it (num - cnt)).
Proof.
  intros Hbs Hdraw. induction fuel as [|fuel IH]; intros it cnt dr Hf Hl; simpl.
  - destruct (Nat.ltb_spec cnt num); [lia|]. exists []. rewrite app_nil_r. split; auto.
    replace (num - cnt)%nat with 0%nat by lia. reflexivity.
  - destruct (Nat.ltb_spec cnt num) as [Hlt|Hge].
    + destruct (add_masked_spec n num (draw it) cnt dr Hl) as (dr' & H1 & H2). rewrite H1.
      assert (Hlen' : length dr' = Nat.min (num - cnt) bs) by (rewrite H2, firstn_length, Hdraw; auto).
      destruct (IH (S it) (cnt + bs)%nat (dr ++ dr')) as (tl & H3 & H4).
      * lia.
      * rewrite app_length, Hlen'. lia.
      * exists (dr' ++ tl). rewrite H3, app_assoc. split; auto.
        unfold draws_upto in *. replace (num - cnt)%nat with (S (num - cnt - 1)) at 2 by lia. cbn [seq flat_map].
        destruct (Nat.le_gt_cases (num - cnt) bs) as [Hle|Hgt].
        -- replace (num - (cnt + bs))%nat with 0%nat in H4 by lia. simpl in H4. subst tl. rewrite app_nil_r, H2.
           rewrite firstn_app_le by (rewrite Hdraw; auto). reflexivity.
        -- rewrite firstn_app, Hdraw. f_equal; [rewrite H2; reflexivity|].
           rewrite H4. replace (num - cnt - bs)%nat with (num - (cnt + bs))%nat by lia.
           (* more iterations than needed do not matter *)
           assert (Hmono : forall m m' s k, (k <= m)%nat -> (m <= m')%nat ->
             firstn k (flat_map draw (seq s m)) = firstn k (flat_map draw (seq s m'))).
           { intros m m' s k Hk Hm. replace m' with (m + (m' - m))%nat by lia.
             rewrite seq_app, flat_map_app. rewrite firstn_app_le; auto.
             assert (Hfl : forall m s, (m <= length (flat_map draw (seq s m)))%nat).
             { intros m0; induction m0 as [|m0 IHm]; intros s0; simpl; [lia|].
               rewrite app_length, Hdraw. specialize (IHm (S s0)). lia. }
             specialize (Hfl m s). lia. }
           apply Hmono; lia.
    + exists []. rewrite app_nil_r. split; auto. replace (num - cnt)%nat with 0%nat by lia. reflexivity.
Qed.

Lemma counts_of_nil n : counts_of n [] = repeat 0%nat n.
Proof.
  unfold counts_of. simpl.
  assert (H : forall s m, map (fun _ : nat => 0%nat) (seq s m) = repeat 0%nat m).
  { intros s m; revert s; induction m as [|m IH]; intros s; simpl; auto. rewrite IH; auto. }
  apply H.
Qed.

Theorem multinomial_counts_spec n num bs draw fuel :
  (0 < bs)%nat -> (forall it, length (draw it) = bs) -> (num <= fuel)%nat ->
  multinomial_counts fuel n num bs draw
  = Some (counts_of n (firstn num (draws_upto draw 0 num))).
Proof.
  intros Hbs Hd Hf. unfold multinomial_counts. rewrite <- counts_of_nil.
  destruct (multinomial_loop_spec n num bs draw Hbs Hd fuel 0 0 []) as (tl & H1 & H2); [lia|reflexivity|].
  rewrite H1, H2. simpl. rewrite Nat.sub_0_r. reflexivity.
Qed.

Lemma list_sum_counts n dr : Forall (fun i => (i < n)%nat) dr -> list_sum (counts_of n dr) = length dr.
Proof.
  intros H. induction H as [|i dr Hi H IH].
  - rewrite counts_of_nil. clear. induction n; simpl; auto.
  - simpl length. rewrite <- IH. clear IH H. unfold counts_of.
    assert (Hg : forall s m, (s <= i < s + m)%nat ->
      list_sum (map (fun j => count_occ Nat.eq_dec (i :: dr) j) (seq s m))
      = S (list_sum (map (fun j => count_occ Nat.eq_dec dr j) (seq s m)))).
    { intros s m; revert s; induction m as [|m IHm]; intros s Hs; [lia|].
      cbn [seq map list_sum fold_right count_occ].
      destruct (Nat.eq_dec i s) as [->|Hne].
      - simpl. f_equal. f_equal. f_equal. apply map_ext_in. intros j Hj. apply in_seq in Hj.
        destruct (Nat.eq_dec s j); [lia|reflexivity].
      - fold (list_sum (map (fun j => if Nat.eq_dec i j then S (count_occ Nat.eq_dec dr j) else count_occ Nat.eq_dec dr j) (seq (S s) m))).
        specialize (IHm (S s)). cbn [count_occ] in IHm. rewrite IHm by lia.
        unfold list_sum. lia. }
    apply Hg; lia.
Qed.

Lemma counts_ll_sum logp dr : Forall (fun i => (i < length logp)%nat) dr ->
  rsum (counts_ll logp (counts_of (length logp) dr)) (fun v => v) = rsum dr (fun i => nth i logp 0).
Proof.
  intros H. unfold counts_ll. rewrite rsum_map.
  assert (Hc : rsum (combine logp (counts_of (length logp) dr)) (fun b => fst b * INR (snd b))
               = rsum (seq 0 (length logp)) (fun j => nth j logp 0 * INR (count_occ Nat.eq_dec dr j))).
  { rewrite (rsum_nth (combine logp (counts_of (length logp) dr)) (0, 0%nat)).
    rewrite combine_length, counts_of_length, Nat.min_id. apply rsum_ext. intros j Hj. apply in_seq in Hj.
    rewrite combine_nth by (rewrite counts_of_length; auto). cbn [fst snd]. rewrite nth_counts_of by lia. reflexivity. }
  rewrite Hc. clear Hc. induction H as [|i dr Hi H IH].
  - simpl rsum at 2. apply rsum_const0. intros; simpl; ring.
  - cbn [rsum]. rewrite <- IH.
    rewrite (rsum_ext (seq 0 (length logp)) _
       (fun j => (if Nat.eq_dec i j then nth j logp 0 else 0) + nth j logp 0 * INR (count_occ Nat.eq_dec dr j))).
    2:{ intros j _. cbn [count_occ]. destruct (Nat.eq_dec i j); [rewrite S_INR|]; ring. }
    rewrite rsum_plus. f_equal.
    rewrite (rsum_single _ _ i).
    + destruct (Nat.eq_dec i i); [reflexivity|congruence].
    + apply seq_NoDup.
    + apply in_seq; lia.
    + intros b _ Hb. destruct (Nat.eq_dec i b); [congruence|reflexivity].
Qed.

(** ** select_mask *)
Lemma insert_sorted_perm a l : Permutation (insert_sorted a l) (a :: l).
Proof.
  induction l as [|b l IH]; simpl; auto. destruct (Rle_dec a b); auto.
  transitivity (b :: a :: l); [constructor; auto|constructor].
Qed.
Lemma sort_asc_perm l : Permutation (sort_asc l) l.
Proof. induction l as [|a l IH]; simpl; auto. rewrite insert_sorted_perm. auto. Qed.
Lemma insert_sorted_sorted a l : StronglySorted Rle l -> StronglySorted Rle (insert_sorted a l).
Proof.
  induction 1 as [|b l Hl IH Hb]; simpl; [repeat constructor|].
  destruct (Rle_dec a b) as [Hab|Hab].
  - constructor; [constructor; auto|]. constructor; auto. eapply Forall_impl; [|exact Hb]. intros; simpl in *; lra.
  - constructor; auto. eapply Permutation_Forall; [symmetry; apply insert_sorted_perm|].
    constructor; auto. lra.
Qed.
Lemma sort_asc_sorted l : StronglySorted Rle (sort_asc l).
Proof. induction l; simpl; [constructor|]. apply insert_sorted_sorted; auto. Qed.

Definition ge_count (thr : R) (l : list R) : nat :=
  length (filter (fun p => if Rle_dec thr p then true else false) l).

Lemma ge_count_perm thr l1 l2 : Permutation l1 l2 -> ge_count thr l1 = ge_count thr l2.
Proof.
  unfold ge_count. induction 1; simpl; auto.
  - destruct (Rle_dec thr x); simpl; auto.
  - destruct (Rle_dec thr x), (Rle_dec thr y); simpl; auto.
  - congruence.
Qed.

Lemma ge_count_sorted l i thr : StronglySorted Rle l -> nth_error l i = Some thr ->
  (length l - i <= ge_count thr l)%nat /\ (NoDup l -> ge_count thr l = length l - i)%nat.
Proof.
  intros Hs; revert i; induction Hs as [|b l Hl IH Hb]; intros i Hi; [destruct i; discriminate|].
  destruct i as [|i]; simpl in Hi.
  - inversion Hi; subst. assert (Hall : ge_count thr (thr :: l) = S (length l)).
    { unfold ge_count. simpl. destruct (Rle_dec thr thr); [|lra]. simpl. f_equal.
      clear -Hb. induction Hb as [|c l Hc Hl IH]; simpl; auto.
      destruct (Rle_dec thr c); [simpl; f_equal; auto|contradiction]. }
    rewrite Hall. simpl. split; auto.
  - destruct (IH i Hi) as [H1 H2]. unfold ge_count in *. simpl.
    assert (Hthr : b <= thr) by (rewrite Forall_forall in Hb; apply Hb; eapply nth_error_In; eauto).
    destruct (Rle_dec thr b) as [Hge|Hlt]; simpl.
    + split; [lia|]. intros Hnd. inversion Hnd; subst. exfalso. apply H3.
      replace b with thr by lra. eapply nth_error_In; eauto.
    + split; [lia|]. intros Hnd. inversion Hnd; subst. auto.
Qed.

Theorem select_mask_spec p k : (1 <= k <= length p)%nat ->
  exists m, select_mask p k = Some m /\ length m = length p /\
    (k <= length (filter (fun b => b) m))%nat /\
    (NoDup p -> length (filter (fun b => b) m) = k) /\
    (forall i j, nth i m false = true -> (j < length p)%nat -> nth j m false = false -> nth j p 0 < nth i p 0).
Proof.
  intros Hk. unfold select_mask. destruct (Nat.ltb_spec 0 k); [|lia].
  assert (Hlen : length (sort_asc p) = length p) by (apply Permutation_length, sort_asc_perm).
  destruct (nth_error (sort_asc p) (length p - k)) as [thr|] eqn:Hthr.
  2:{ exfalso. apply nth_error_None in Hthr. lia. }
  destruct (ge_count_sorted (sort_asc p) (length p - k) thr (sort_asc_sorted p) Hthr) as [G1 G2].
  rewrite (ge_count_perm thr _ _ (sort_asc_perm p)) in G1, G2. rewrite Hlen in G1, G2.
  set (f := fun q => if Rle_dec thr q then true else false).
  assert (Hcount : length (filter (fun b : bool => b) (map f p)) = ge_count thr p).
  { unfold ge_count. fold f. clear. induction p as [|a p IH]; simpl; auto. destruct (f a); simpl; auto. }
  exists (map f p). repeat split.
  - apply map_length.
  - rewrite Hcount. lia.
  - intros Hnd. rewrite Hcount. rewrite G2; [lia|].
    eapply Permutation_NoDup; [symmetry; apply sort_asc_perm|auto].
  - intros i j Hi Hj Hjm.
    assert (Hib : (i < length p)%nat).
    { destruct (Nat.lt_ge_cases i (length p)); auto. rewrite nth_overflow in Hi by (rewrite map_length; auto). discriminate. }
    rewrite (nth_indep _ false (f 0)) in Hi by (rewrite map_length; auto).
    rewrite (nth_indep _ false (f 0)) in Hjm by (rewrite map_length; auto).
    rewrite map_nth in Hi, Hjm. unfold f in Hi, Hjm.
    destruct (Rle_dec thr (nth i p 0)); [|discriminate]. destruct (Rle_dec thr (nth j p 0)); [discriminate|]. lra.
Qed.

Lemma draws_upto_length draw bs k s : (forall it, length (draw it) = bs) -> length (draws_upto draw s k) = (k * bs)%nat.
Proof.
  intros H. unfold draws_upto. revert s; induction k as [|k IH]; intros s; simpl; auto.
  rewrite app_length, H, IH. reflexivity.
Qed.

Lemma Forall_firstn' {A} (P : A -> Prop) n l : Forall P l -> Forall P (firstn n l).
Proof. intros H; revert n; induction H; intros [|n]; simpl; auto. Qed.

Theorem multinomial_counts_full logp num bs draw fuel :
  (0 < bs)%nat -> (forall it, length (draw it) = bs) ->
  (forall it, Forall (fun i => (i < length logp)%nat) (draw it)) -> (num <= fuel)%nat ->
  let used := firstn num (flat_map draw (seq 0 num)) in
  length used = num /\
  exists counts, multinomial_counts fuel (length logp) num bs draw = Some counts /\
    length counts = length logp /\ list_sum counts = num /\
    (forall j, (j < length logp)%nat -> nth j counts 0%nat = count_occ Nat.eq_dec used j) /\
    rsum (counts_ll logp counts) (fun v => v) = rsum (snd (multinomial_const_repl logp used)) (fun v => v).
Proof.
  intros Hbs Hlen Hrange Hf used.
  assert (Hul : length used = num).
  { unfold used. rewrite firstn_length. fold (draws_upto draw 0 num). rewrite (draws_upto_length draw bs) by auto. nia. }
  split; auto. exists (counts_of (length logp) used).
  assert (HF : Forall (fun i => (i < length logp)%nat) used).
  { unfold used. apply Forall_firstn'. clear -Hrange. generalize 0%nat. induction num; intros s; simpl; [constructor|].
    apply Forall_app; auto. }
  split; [apply multinomial_counts_spec; auto|]. split; [apply counts_of_length|].
  split; [rewrite list_sum_counts; auto|]. split; [intros; apply nth_counts_of; auto|].
  rewrite counts_ll_sum by auto. simpl. rewrite rsum_map. reflexivity.
Qed.
