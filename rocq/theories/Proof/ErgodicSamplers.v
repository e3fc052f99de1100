(** Convergence (or not) of the samplers. *)
From Coq Require Import String Reals List Lra Lia Arith ZArith.
From Verif.Base Require Import RSum Cube Dist XFloat MH.
From Verif.Spec Require Import Chain Ergodic.
From Verif.Model Require Import MathUtil Gibbs RandomWalk LocallyBalanced GWG PathAux Langevin.
From Verif.Proof Require Import MHKernel MathUtilProof ChainProof GibbsProof ScanProof RandomWalkProof GWGProof NoReplProof PathAuxProof LangevinProof LBProof ErgodicProof.
Import ListNotations.
Local Open Scope R_scope.

Definition sdec := list_eq_dec Nat.eq_dec.

Lemma Z_pos d C (fw : list nat -> R) : (0 < C)%nat -> 0 < rsum (states d C) (fun x => exp (fw x)).
Proof.
  intros HC. apply rsum_pos; [|intros; apply exp_pos]. intros H.
  assert (In (repeat 0%nat d) (states d C)).
  { apply in_states. split; [apply repeat_length|]. apply Forall_forall. intros x Hx. apply repeat_spec in Hx. lia. }
  rewrite H in *. contradiction.
Qed.

(** ** Gibbs *)
Section GibbsConv.
  Variables (fw : list nat -> R) (d C : nat).
  Hypothesis Hd : (0 < d)%nat.

  Lemma gibbs_move idx x y : (idx < d)%nat -> In x (states d C) -> In y (states d C) ->
    (forall j, (j < d)%nat -> j <> idx -> nth j y 0%nat = nth j x 0%nat) -> can_move sdec (gibbs_step fw C idx) x y.
  Proof.
    intros Hi Hx Hy He. unfold can_move.
    assert (y = upd idx (nth idx y 0%nat) x) as ->.
    { pose proof Hx as Hx'. pose proof Hy as Hy'. apply in_states in Hx', Hy'. apply (list_eq_nth 0%nat); [rewrite upd_length; lia|].
      intros j Hj. destruct (Nat.eq_dec j idx) as [->|Hne]; [rewrite nth_upd_eq by lia; reflexivity|].
      rewrite nth_upd_neq by auto. apply He; auto; lia. }
    pose proof (in_states_nth d C y idx Hy Hi). unfold sdec. rewrite (gibbs_conditional fw d C idx x) by auto.
    apply Rdiv_lt_0_compat; [apply exp_pos|]. apply rsum_pos; [|intros; apply exp_pos]. destruct C; [lia|discriminate].
  Qed.

  Let k := fun t => gibbs_step fw C (t mod d).

  Lemma gibbs_proper t : proper (states d C) (k t).
  Proof.
    intros x Hx. split; [apply gibbs_is_prob|]. intros y w Hy.
    apply (gibbs_support fw d C (t mod d) ltac:(apply Nat.mod_upper_bound; lia) x y w Hx Hy).
  Qed.

  Definition mix (j : nat) (x y : list nat) : list nat := map (fun i => if Nat.ltb i j then nth i y 0%nat else nth i x 0%nat) (seq 0 d).

  Lemma nth_mix j x y i : (i < d)%nat -> nth i (mix j x y) 0%nat = if Nat.ltb i j then nth i y 0%nat else nth i x 0%nat.
  Proof. intros Hi. unfold mix. rewrite (nth_map_lt _ _ _ 0%nat) by (rewrite seq_length; auto). rewrite seq_nth by auto. reflexivity. Qed.

  Lemma mix_length j x y : length (mix j x y) = d.
  Proof. unfold mix. rewrite map_length, seq_length. reflexivity. Qed.

  Lemma mix_in j x y : In x (states d C) -> In y (states d C) -> In (mix j x y) (states d C).
  Proof.
    intros Hx Hy. apply in_states. rewrite mix_length. split; auto. apply (Forall_nth_iff _ 0%nat). rewrite mix_length.
    intros i Hi. rewrite nth_mix by auto. destruct (Nat.ltb i j); eapply in_states_nth; eauto.
  Qed.

  Lemma mix_0 x y : In x (states d C) -> mix 0 x y = x.
  Proof.
    intros Hx. apply in_states in Hx. apply (list_eq_nth 0%nat); rewrite mix_length; [lia|]. intros i Hi. rewrite nth_mix by auto. reflexivity.
  Qed.

  Lemma mix_all j x y : (d <= j)%nat -> In y (states d C) -> mix j x y = y.
  Proof.
    intros Hj Hy. apply in_states in Hy. apply (list_eq_nth 0%nat); rewrite mix_length; [lia|]. intros i Hi. rewrite nth_mix by auto.
    destruct (Nat.ltb_spec i j); [reflexivity|lia].
  Qed.

  Theorem gibbs_converges : (0 < C)%nat -> converges (states d C) (fun x => exp (fw x)) k.
  Proof.
    intros HC. apply (periodic_converges sdec _ _ _ (NoDup_states d C) gibbs_proper d Hd).
    - intros t. unfold k. replace (d + t)%nat with (t + 1 * d)%nat by lia. rewrite Nat.mod_add by lia. reflexivity.
    - intros t. apply gibbs_invariant. apply Nat.mod_upper_bound. lia.
    - intros; left; apply exp_pos.
    - apply Z_pos; auto.
    - intros x y Hx Hy. rewrite <- (mix_0 x y Hx) at 1. rewrite <- (mix_all d x y (le_n _) Hy) at 2.
      apply (move_path sdec (states d C) k gibbs_proper (fun j => mix j x y)); [intros; apply mix_in; auto|].
      intros j Hj. unfold k. rewrite Nat.add_0_l, Nat.mod_small by auto. apply gibbs_move; auto using mix_in.
      intros i Hi Hne. rewrite !nth_mix by auto. destruct (Nat.ltb_spec i (S j)), (Nat.ltb_spec i j); auto; lia.
  Qed.

  (** ** Block Gibbs *)
  Variable b : nat.
  Hypothesis Hb : (0 < b)%nat.
  Let kb := fun t => block_step fw C b ((t * b) mod d).

  Lemma block_move start x y : (0 < C)%nat -> In x (states d C) -> In y (states d C) ->
    (forall j, (j < d)%nat -> ~ (start <= j < start + b)%nat -> nth j y 0%nat = nth j x 0%nat) ->
    can_move sdec (block_step fw C b start) x y.
  Proof.
    intros HC Hx Hy He. unfold can_move. rewrite E_block_step by auto.
    set (v := map (fun j => nth (start + j) y 0%nat) (seq 0 b)).
    assert (Hv : In v (categories_iter C b)).
    { apply in_cat_iter. unfold v. rewrite map_length, seq_length. split; auto. apply Forall_map, Forall_forall. intros j _.
      destruct (Nat.lt_ge_cases (start + j) d); [eapply in_states_nth; eauto|]. apply in_states in Hy. rewrite nth_overflow; lia. }
    pose proof Hx as Hx'. pose proof Hy as Hy'. apply in_states in Hx', Hy'.
    assert (Hsc : scatter_block start v x = y).
    { apply (list_eq_nth 0%nat); rewrite scatter_block_length; [lia|]. intros i Hi. rewrite nth_scatter_block by auto.
      assert (Hlv : length v = b) by (unfold v; rewrite map_length, seq_length; auto). rewrite Hlv.
      destruct (Nat.leb_spec start i), (Nat.ltb_spec i (start + b)); simpl; try (symmetry; apply He; lia).
      unfold v. rewrite (nth_map_lt _ _ _ 0%nat) by (rewrite seq_length; lia). rewrite seq_nth by lia. f_equal. lia. }
    assert (HZ : 0 < rsum (categories_iter C b) (fun v0 => exp (fw (scatter_block start v0 x)))).
    { apply rsum_pos; [apply cat_iter_nonempty; auto|intros; apply exp_pos]. }
    eapply Rlt_le_trans; [|apply (rsum_ge_term _ _ v Hv)].
    - cbv beta. rewrite Hsc. destruct (sdec y y); [|congruence]. rewrite Rmult_1_r. apply Rdiv_lt_0_compat; [apply exp_pos|auto].
    - intros u _. apply Rmult_le_pos; [left; apply Rdiv_lt_0_compat; [apply exp_pos|auto]|]. destruct (sdec _ _); lra.
  Qed.

  Lemma block_proper t : (0 < C)%nat -> proper (states d C) (kb t).
  Proof.
    intros HC x Hx. split; [apply block_is_prob; auto|]. intros y w Hy. apply (block_support fw d C b ((t * b) mod d) HC x y w Hx Hy).
  Qed.

  Theorem block_converges : (0 < C)%nat -> converges (states d C) (fun x => exp (fw x)) kb.
  Proof.
    intros HC. apply (periodic_converges sdec _ _ _ (NoDup_states d C) (fun t => block_proper t HC) d Hd).
    - intros t. unfold kb. rewrite Nat.mul_add_distr_r. replace (d * b + t * b)%nat with (t * b + b * d)%nat by lia.
      rewrite Nat.mod_add by lia. reflexivity.
    - intros t. apply block_invariant. auto.
    - intros; left; apply exp_pos.
    - apply Z_pos; auto.
    - intros x y Hx Hy. rewrite <- (mix_0 x y Hx) at 1.
      assert (Hdb : (d <= d * b)%nat) by (clear -Hb; nia).
      rewrite <- (mix_all (d * b) x y Hdb Hy) at 2.
      apply (move_path sdec (states d C) kb (fun t => block_proper t HC) (fun j => mix (j * b) x y)); [intros; apply mix_in; auto|].
      intros j Hj. unfold kb. rewrite Nat.add_0_l. apply block_move; auto using mix_in.
      intros i Hi Hne. rewrite !nth_mix by auto.
      destruct (Nat.lt_ge_cases (j * b) d) as [Hlt|Hge].
      + rewrite (Nat.mod_small (j * b)) in Hne by auto.
        destruct (Nat.ltb_spec i (S j * b)), (Nat.ltb_spec i (j * b)); auto; simpl in *; lia.
      + destruct (Nat.ltb_spec i (S j * b)), (Nat.ltb_spec i (j * b)); auto; simpl in *; lia.
  Qed.
End GibbsConv.

(** ** Metropolis-Hastings kernels *)
Lemma mh_move {B} (S : list (list nat)) (Aux : list B) prop T la (q : list nat -> B -> R) x y a :
  (forall f, E (prop x) f = rsum Aux (fun a => q x a * f a)) -> (forall a, In a Aux -> 0 <= q x a) ->
  In a Aux -> 0 < q x a -> T x a = y -> can_move sdec (mh_kernel prop T la 0) x y.
Proof.
  intros HE Hq Ha Hp HT. unfold can_move, mh_kernel. rewrite E_bind, HE.
  assert (Hacc : forall l, 0 < accept_prob 0 l).
  { intros l. rewrite accept_prob_0. apply Rmin_glb_lt; [lra|apply exp_pos]. }
  eapply Rlt_le_trans; [|apply (rsum_ge_term _ _ a Ha)].
  - cbv beta. apply Rmult_lt_0_compat; auto. rewrite E_mh_law, HT. destruct (sdec y y); [|congruence].
    pose proof (Hacc (la x a)). pose proof (accept_prob_range 0 (la x a)).
    destruct (sdec x y); lra.
  - intros c Hc. apply Rmult_le_pos; auto. rewrite E_mh_law. pose proof (accept_prob_range 0 (la x c)).
    destruct (sdec (T x c) y), (sdec x y); lra.
Qed.

Lemma homog_converges d C (fw : list nat -> R) step : (0 < C)%nat -> proper (states d C) step ->
  invariant (states d C) (fun x => exp (fw x)) step ->
  (forall x y, In x (states d C) -> In y (states d C) -> can_move sdec step x y) ->
  converges (states d C) (fun x => exp (fw x)) (fun _ => step).
Proof.
  intros HC Hp Hi Hm. apply (periodic_converges sdec _ _ _ (NoDup_states d C) (fun _ => Hp) 1); auto.
  - intros; left; apply exp_pos.
  - apply Z_pos; auto.
  - intros x y Hx Hy. apply move_one. auto.
Qed.

Lemma prod_at_pos {A} (ws : list (A -> R)) : forall l, length l = length ws -> (forall w a, In w ws -> In a l -> 0 < w a) -> 0 < prod_at ws l.
Proof.
  induction ws as [|w ws IH]; intros [|a l] Hl H; simpl in *; try discriminate; [lra|].
  apply Rmult_lt_0_compat; [apply H; auto|]. apply IH; [lia|]. intros; apply H; auto.
Qed.

(** ** Random walk *)
Section RWConv.
  Variables (fw : list nat -> R) (d C : nat) (radius : R).
  Hypothesis HC : (2 <= C)%nat.
  Hypothesis Hr : 0 < radius < INR d.
  Hypothesis Hd : (0 < d)%nat.

  Let Hr' : 0 <= radius <= INR d. Proof. lra. Qed.

  Lemma rw_proper g : proper (states d C) (rw_step g fw radius d C).
  Proof.
    intros x Hx. split.
    - exact (is_prob_mh_kernel (fun _ => rw_draws radius d C) (rw_apply C) (fun x dr => fw (rw_apply C x dr) - fw x) g x (rw_draws_is_prob d C radius HC Hr' Hd)).
    - intros y w. apply rw_support; auto.
  Qed.

  Definition rw_draw_to (x y : list nat) : list (bool * nat) :=
    map (fun p : nat * nat => if Nat.eqb (fst p) (snd p) then (false, 1%nat) else (true, ((snd p + (C - fst p)) mod C)%nat)) (combine x y).

  Lemma rw_draw_in x y : In x (states d C) -> In y (states d C) -> In (rw_draw_to x y) (lists_over (rw_vals C) d).
  Proof.
    intros Hx Hy. apply in_states in Hx, Hy. apply in_lists_over. unfold rw_draw_to. rewrite map_length, combine_length. split; [lia|].
    apply Forall_map, Forall_forall. intros [u v] Huv. apply in_rw_vals. simpl.
    assert (Hu : (u < C)%nat) by (apply in_combine_l in Huv; destruct Hx as [_ HF]; rewrite Forall_forall in HF; auto).
    assert (Hv : (v < C)%nat) by (apply in_combine_r in Huv; destruct Hy as [_ HF]; rewrite Forall_forall in HF; auto).
    destruct (Nat.eqb_spec u v); simpl; [lia|].
    destruct (Nat.lt_ge_cases v u).
    - rewrite Nat.mod_small by lia. lia.
    - replace (v + (C - u))%nat with ((v - u) + 1 * C)%nat by lia. rewrite Nat.mod_add, Nat.mod_small by lia. lia.
  Qed.

  Lemma rw_apply_draw x y : In x (states d C) -> In y (states d C) -> rw_apply C x (rw_draw_to x y) = y.
  Proof.
    intros Hx Hy. apply in_states in Hx, Hy. destruct Hx as [Hl HF], Hy as [Hl' HF'].
    assert (Hll : length x = length y) by lia. clear Hl Hl' Hr Hr' Hd. revert y HF' Hll.
    induction HF as [|u x Hu HF IH]; intros [|v y] HF' Hll; simpl in *; try discriminate; auto.
    inversion HF' as [|? ? Hv HF2]; subst. unfold rw_apply, rw_draw_to in *. cbn [combine map fst snd]. rewrite IH by (auto; lia). f_equal.
    destruct (Nat.eqb_spec u v) as [->|Hne]; cbn [fst snd].
    - rewrite Nat.mul_0_l, Nat.add_0_l. apply Nat.mod_small; auto.
    - rewrite Nat.mul_1_l, Nat.add_mod_idemp_l by lia. replace (v + (C - u) + u)%nat with (v + 1 * C)%nat by lia.
      rewrite Nat.mod_add by lia. apply Nat.mod_small; auto.
  Qed.

  Lemma rw_p_open : 0 < radius / INR d < 1.
  Proof.
    assert (0 < INR d) by (apply lt_0_INR; lia). split; [apply Rdiv_lt_0_compat; lra|].
    apply (Rmult_lt_reg_r (INR d)); auto. unfold Rdiv. rewrite Rmult_assoc, Rinv_l by lra. lra.
  Qed.

  Lemma rw_w_pos a : 0 < rw_w (radius / INR d) C a.
  Proof.
    pose proof rw_p_open. unfold rw_w. apply Rmult_lt_0_compat; [destruct (fst a); lra|].
    apply Rinv_0_lt_compat, lt_0_INR. lia.
  Qed.

  Theorem rw_converges : converges (states d C) (fun x => exp (fw x)) (fun _ => rw_step 0 fw radius d C).
  Proof.
    apply homog_converges; [lia|apply rw_proper|apply rw_invariant; auto|].
    intros x y Hx Hy.
    apply (mh_move (states d C) (lists_over (rw_vals C) d) (fun _ => rw_draws radius d C) (rw_apply C) (fun x dr => fw (rw_apply C x dr) - fw x)
             (fun _ l => prod_at (repeat (rw_w (radius / INR d) C) d) l) x y (rw_draw_to x y)).
    - intros f. apply E_rw_draws.
    - intros a Ha. apply in_lists_over in Ha. left. apply prod_at_pos; [rewrite repeat_length; tauto|].
      intros w u Hw _. apply repeat_spec in Hw. subst w. apply rw_w_pos.
    - apply rw_draw_in; auto.
    - apply prod_at_pos; [rewrite repeat_length; pose proof (rw_draw_in x y Hx Hy) as H; apply in_lists_over in H; tauto|].
      intros w u Hw _. apply repeat_spec in Hw. subst w. apply rw_w_pos.
    - apply rw_apply_draw; auto.
  Qed.
End RWConv.

(** ** Product-form proposals *)
Theorem bern_converges fw ps d :
  (forall x, In x (states d 2) -> exists p, ps x = Some p /\ length p = d /\ Forall (fun p => 0 < p < 1) p) ->
  converges (states d 2) (fun x => exp (fw x)) (fun _ => bern_step 0 0 fw ps).
Proof.
  intros Hps. assert (H0 : 0 <= 0) by lra.
  assert (Hpr : proper (states d 2) (bern_step 0 0 fw ps)).
  { intros x Hx. split; [apply (bern_is_prob fw ps d 0 Hps); auto|]. intros y w. apply (bern_stays fw ps d 0 Hps); auto. }
  apply homog_converges; [lia|auto| |].
  - apply reversible_invariant; [|apply bern_reversible; auto]. intros x Hx. apply (bern_is_prob fw ps d 0 Hps); auto.
  - intros x y Hx Hy. unfold can_move. rewrite (bern_step_kernel fw ps d 0 Hps) by auto.
    match goal with |- 0 < E (mh_kernel ?P ?T ?L 0 x) _ => set (P0 := P); set (T0 := T); set (L0 := L) end.
    destruct (Hps x Hx) as (p & Hp & Hl & HF).
    set (fl := map (fun q : nat * nat => negb (Nat.eqb (fst q) (snd q))) (combine x y)).
    pose proof Hx as Hx'. pose proof Hy as Hy'. apply in_states in Hx', Hy'.
    assert (Hfl : length fl = d) by (unfold fl; rewrite map_length, combine_length; lia).
    assert (Hpos : forall a, In a (lists_over [true; false] d) -> 0 < prod_at (map (bw 0) p) a).
    { intros a Ha. apply in_lists_over in Ha. apply prod_at_pos; [rewrite map_length; lia|]. intros w u Hw _.
      apply in_map_iff in Hw. destruct Hw as (r & <- & Hr). rewrite Forall_forall in HF. specialize (HF r Hr). unfold bw. destruct u; lra. }
    apply (mh_move (states d 2) (lists_over [true; false] d) P0 T0 L0 (fun x a => prod_at (map (bw 0) (match ps x with Some p => p | None => [] end)) a) x y fl).
    + intros f. apply (A_Hprop ps d Hps x f Hx).
    + intros a Ha. rewrite Hp. left; auto.
    + apply in_aux. auto.
    + rewrite Hp. apply Hpos. apply in_aux; auto.
    + unfold T0, fl. destruct Hx' as [Hlx HFx], Hy' as [Hly HFy]. assert (Hll : length x = length y) by lia.
      clear - Hll HFx HFy. revert y HFy Hll. induction HFx as [|u x Hu HFx IH]; intros [|v y] HFy Hll; simpl in *; try discriminate; auto.
      inversion HFy; subst. unfold flip_bits in *. cbn [combine map fst snd]. rewrite IH by (auto; lia). f_equal.
      cbv beta in *. destruct (Nat.eqb_spec u v); simpl; try lia; destruct u as [|[|u]]; simpl in *; lia.
Qed.

Theorem cat_converges fw rows d C : (0 < C)%nat ->
  (forall x, In x (states d C) -> exists r, rows x = Some r /\ length r = d /\ Forall (fun l => length l = C) r) ->
  converges (states d C) (fun x => exp (fw x)) (fun _ => cat_step 0 fw rows).
Proof.
  intros HC Hrows.
  assert (Hpr : proper (states d C) (cat_step 0 fw rows)).
  { intros x Hx. split; [apply (cat_is_prob fw rows d C HC Hrows); auto|]. intros y w Hy.
    destruct (Hrows x Hx) as (r & Hr & Hl & HF). unfold cat_step in Hy. rewrite Hr in Hy. unfold bind in Hy. apply in_flat_map in Hy.
    destruct Hy as ([a u] & Ha & Hy). apply (in_indep_rows C r a u HF) in Ha. rewrite Hl in Ha.
    apply in_map_iff in Hy. destruct Hy as ([z v] & Heq & Hz). cbn [fst snd] in *. injection Heq as Hzy _. subst z.
    destruct (Hrows a Ha) as (r' & Hr' & _). rewrite Hr' in Hz. apply in_mh_law in Hz. destruct Hz as [-> | ->]; auto. }
  apply homog_converges; auto.
  - apply reversible_invariant; [|apply (cat_reversible fw rows d C HC Hrows)]. intros x Hx. apply (cat_is_prob fw rows d C HC Hrows); auto.
  - intros x y Hx Hy. unfold can_move. rewrite (cat_step_kernel fw rows d C Hrows) by auto.
    match goal with |- 0 < E (mh_kernel ?P ?T ?L 0 x) _ => set (P0 := P); set (T0 := T); set (L0 := L) end.
    apply (mh_move (states d C) (states d C) P0 T0 L0 (fun x a => exp (row_ll (match rows x with Some r => r | None => [] end) a)) x y y).
    + intros f. apply (rr_prop fw rows d C HC Hrows x f Hx).
    + intros; left; apply exp_pos.
    + auto.
    + apply exp_pos.
    + reflexivity.
Qed.

(** ** Parity *)
Definition par (x : list nat) : R := (-1) ^ (list_sum x).

Lemma par_sq x : par x * par x = 1.
Proof. unfold par. rewrite <- pow_add. replace (list_sum x + list_sum x)%nat with (2 * list_sum x)%nat by lia. apply pow_1_even. Qed.

Lemma par_cases x : par x = 1 \/ par x = -1.
Proof. pose proof (par_sq x) as H. assert ((par x - 1) * (par x + 1) = 0) by lra. apply Rmult_integral in H0. destruct H0; [left|right]; lra. Qed.

Lemma list_sum_upd i v l : (i < length l)%nat -> (list_sum (upd i v l) + nth i l 0 = list_sum l + v)%nat.
Proof.
  revert i; induction l as [|a l IH]; intros [|i] Hi; simpl in *; try lia.
  specialize (IH i ltac:(lia)). unfold upd in *. simpl. fold (@upd nat) in *. lia.
Qed.

Lemma par_flip d x i v : In x (states d 2) -> (i < d)%nat -> v = (1 - nth i x 0)%nat -> par (upd i v x) = - par x.
Proof.
  intros Hx Hi ->. pose proof (in_states_nth d 2 x i Hx Hi). apply in_states in Hx. unfold par.
  pose proof (list_sum_upd i (1 - nth i x 0)%nat x ltac:(lia)) as Hs.
  destruct (nth i x 0%nat) as [|[|n]]; [| |lia]; simpl in Hs.
  - replace (list_sum (upd i (1 - 0)%nat x)) with (S (list_sum x)) by (simpl; lia). simpl. ring.
  - replace (list_sum x) with (S (list_sum (upd i (1 - 1)%nat x))) by (simpl; lia). simpl. ring.
Qed.

Lemma par_flips d : forall idx x y, In x (states d 2) -> In y (states d 2) -> NoDup idx -> (forall i, In i idx -> (i < d)%nat) ->
  (forall i, In i idx -> nth i y 0%nat = nth i x 0%nat) ->
  par (fold_left (fun y i => upd i (1 - nth i x 0)%nat y) idx y) = (-1) ^ (length idx) * par y.
Proof.
  induction idx as [|i idx IH]; intros x y Hx Hy Hnd Hlt He; [simpl; ring|]; cbn [fold_left length pow]. inversion Hnd as [|? ? Hni Hnd']; subst.
  rewrite IH; auto.
  - rewrite (par_flip d y i); [ring|auto|apply Hlt; left; auto|rewrite (He i) by (left; auto); reflexivity].
  - apply upd_in_states; auto. lia.
  - intros; apply Hlt; right; auto.
  - intros j Hj. rewrite nth_upd_neq by (intros ->; contradiction). apply He; right; auto.
Qed.

Lemma par_flip_idx d idx x : In x (states d 2) -> NoDup idx -> (forall i, In i idx -> (i < d)%nat) ->
  par (flip_idx idx x) = (-1) ^ (length idx) * par x.
Proof. intros. unfold flip_idx. apply (par_flips d); auto. Qed.

(** ** Chains whose single-site flips are all possible *)
Section Flip1.
  Variables (d : nat) (step : list nat -> dist (list nat)).
  Hypothesis Hd : (0 < d)%nat.
  Hypothesis Hpr : proper (states d 2) step.
  Hypothesis Hflip : forall x i, In x (states d 2) -> (i < d)%nat -> can_move sdec step x (neighbor x i).
  Let k := fun _ : nat => step.

  Lemma par_neighbor x i : In x (states d 2) -> (i < d)%nat -> par (neighbor x i) = - par x.
  Proof. intros Hx Hi. apply (par_flip d); auto. Qed.

  Lemma reach j : forall x y, (j <= d)%nat -> In x (states d 2) -> In y (states d 2) ->
    (forall i, (j <= i < d)%nat -> nth i x 0%nat = nth i y 0%nat) ->
    exists h, (h <= j)%nat /\ (-1) ^ h = par x * par y /\ can_move sdec (run_seq k h 0) x y.
  Proof.
    induction j as [|j IH]; intros x y Hj Hx Hy He.
    - assert (x = y) as ->.
      { apply in_states in Hx, Hy. apply (list_eq_nth 0%nat); [lia|]. intros i Hi. apply He. lia. }
      exists 0%nat. split; [lia|]. split; [rewrite par_sq; reflexivity|]. apply move_ret.
    - destruct (Nat.eq_dec (nth j x 0%nat) (nth j y 0%nat)) as [Heq|Hne].
      + destruct (IH x y ltac:(lia) Hx Hy) as (h & H1 & H2 & H3).
        { intros i Hi. destruct (Nat.eq_dec i j) as [->|]; auto. apply He. lia. }
        exists h. split; [lia|auto].
      + assert (Hz : In (neighbor x j) (states d 2)) by (apply neighbor_states; auto).
        destruct (IH (neighbor x j) y ltac:(lia) Hz Hy) as (h & H1 & H2 & H3).
        { intros i Hi. pose proof Hx as Hx'. apply in_states in Hx'. unfold neighbor. destruct (Nat.eq_dec i j) as [->|].
          - rewrite nth_upd_eq by lia. pose proof (in_states_nth d 2 x j Hx ltac:(lia)). pose proof (in_states_nth d 2 y j Hy ltac:(lia)). lia.
          - rewrite nth_upd_neq by auto. apply He. lia. }
        exists (1 + h)%nat. split; [lia|]. split.
        * rewrite pow_add, H2, par_neighbor by (auto; lia). simpl. ring.
        * apply (move_add sdec (states d 2) k (fun _ => Hpr) 1 h 0 x (neighbor x j)); auto.
          -- apply move_one. apply Hflip; auto.
          -- unfold can_move in *. rewrite (run_seq_shift k h (0 + 1) 0) by reflexivity. exact H3.
  Qed.

  Lemma reach_pad x y h e : In x (states d 2) -> In y (states d 2) -> can_move sdec (run_seq k h 0) x y -> can_move sdec (run_seq k (h + 2 * e) 0) x y.
  Proof.
    intros Hx Hy Hm. induction e as [|e IH]; [rewrite Nat.add_0_r; auto|].
    replace (h + 2 * S e)%nat with (S (S (h + 2 * e))) by lia.
    assert (Hz : In (neighbor y 0) (states d 2)) by (apply neighbor_states; auto).
    apply (move_snoc sdec (states d 2) k (fun _ => Hpr) _ 0 x (neighbor y 0)); auto.
    - apply (move_snoc sdec (states d 2) k (fun _ => Hpr) _ 0 x y); auto.
    - pose proof (Hflip (neighbor y 0) 0 Hz Hd) as H. rewrite (neighbor_involutive d) in H by auto. exact H.
  Qed.

  Lemma pow_m1_odd_even a b : (b <= a)%nat -> (-1) ^ a = (-1) ^ b -> exists e, (a = b + 2 * e)%nat.
  Proof.
    intros Hab H. destruct (Nat.Even_or_Odd (a - b)) as [[e He]|[e He]]; [exists e; lia|].
    exfalso. replace a with (b + (2 * e + 1))%nat in H by lia. rewrite !pow_add, pow_1_even in H. simpl in H.
    assert ((-1) ^ b <> 0) by (apply pow_nonzero; lra). lra.
  Qed.

  Lemma reach_exact x y n : In x (states d 2) -> In y (states d 2) -> (d <= n)%nat -> (-1) ^ n = par x * par y -> can_move sdec (run_seq k n 0) x y.
  Proof.
    intros Hx Hy Hn Hp. destruct (reach d x y (le_n _) Hx Hy) as (h & H1 & H2 & H3); [intros; lia|].
    destruct (pow_m1_odd_even n h ltac:(lia) ltac:(congruence)) as [e ->]. apply reach_pad; auto.
  Qed.

  Lemma m1_cases n : (-1) ^ n = 1 \/ (-1) ^ n = -1.
  Proof. induction n as [|n [IH|IH]]; simpl; [left; auto|rewrite IH; right; ring|rewrite IH; left; ring]. Qed.

  Theorem flip_converges (fw : list nat -> R) : invariant (states d 2) (fun x => exp (fw x)) step ->
    (exists x1 x2, In x1 (states d 2) /\ In x2 (states d 2) /\ par x1 = par x2 /\ can_move sdec step x1 x2) ->
    converges (states d 2) (fun x => exp (fw x)) k.
  Proof.
    intros Hinv (x1 & x2 & Hx1 & Hx2 & Hpar & Hmv).
    apply (periodic_converges sdec _ _ k (NoDup_states d 2) (fun _ => Hpr) (2 * d + 2)); auto; [lia| | |].
    - intros; left; apply exp_pos.
    - apply Z_pos; auto.
    - intros x y Hx Hy.
      assert (Hm : (-1) ^ (2 * d + 2) = 1) by (rewrite pow_add, pow_1_even; simpl; ring).
      destruct (Req_dec 1 (par x * par y)) as [He|Hne]; [apply reach_exact; auto; [lia|lra]|].
      assert (Hxy : par x * par y = -1) by (destruct (par_cases x) as [Ha|Ha], (par_cases y) as [Hb|Hb]; rewrite Ha, Hb in *; lra).
      assert (Hn : exists n1 n2, (n1 + 1 + n2 = 2 * d + 2)%nat /\ (d <= n1)%nat /\ (d <= n2)%nat /\ (-1) ^ n1 = par x * par x1 /\ (-1) ^ n2 = par x2 * par y).
      { assert (H1 : exists n1, (n1 = d \/ n1 = d + 1)%nat /\ (-1) ^ n1 = par x * par x1).
        { destruct (m1_cases d) as [Hc|Hc]; destruct (par_cases x) as [Ha|Ha]; destruct (par_cases x1) as [Hb|Hb]; rewrite Ha, Hb;
            first [exists d; split; [left; reflexivity|rewrite Hc; lra] | exists (d + 1)%nat; split; [right; reflexivity|rewrite pow_add, Hc; simpl; lra]]. }
        destruct H1 as (n1 & Hn1 & Hp1). exists n1, (2 * d + 1 - n1)%nat. split; [lia|]. split; [lia|]. split; [lia|]. split; auto.
        assert (Hprod : (-1) ^ n1 * (-1) ^ (2 * d + 1 - n1) = -1).
        { rewrite <- pow_add. replace (n1 + (2 * d + 1 - n1))%nat with (2 * d + 1)%nat by lia. rewrite pow_add, pow_1_even. simpl. ring. }
        rewrite Hp1 in Hprod. rewrite <- Hpar.
        destruct (par_cases x) as [Ha|Ha]; destruct (par_cases x1) as [Hb|Hb]; destruct (par_cases y) as [Hc|Hc]; rewrite Ha, Hb, Hc in *; lra. }
      destruct Hn as (n1 & n2 & Hsum & Hn1 & Hn2 & Hp1 & Hp2). rewrite <- Hsum.
      apply (move_add sdec (states d 2) k (fun _ => Hpr) (n1 + 1) n2 0 x x2); auto.
      + rewrite Nat.add_1_r. apply (move_snoc sdec (states d 2) k (fun _ => Hpr) n1 0 x x1); auto. apply reach_exact; auto.
      + unfold can_move. rewrite (run_seq_shift k n2 (0 + (n1 + 1)) 0) by reflexivity. apply reach_exact; auto.
  Qed.
End Flip1.

(** ** Gibbs with gradients *)
Section GWGConv.
  Variables (fw : list nat -> R) (wf : R -> R) (grad : list nat -> nat -> R) (mask : option (nat -> R)) (d nf : nat).
  Hypothesis Hd : (0 < d)%nat.
  Hypothesis Hnf : (0 < nf)%nat.

  Lemma gwg_proper g : proper (states d 2) (gwg_step g fw wf grad mask nf).
  Proof. intros x Hx. split; [apply (gwg_is_prob fw wf grad mask d nf Hd); auto|]. intros y w. apply gwg_support; auto. Qed.

  Lemma gwg_move x a : In x (states d 2) -> length a = nf -> (forall i, In i a -> (i < d)%nat) ->
    can_move sdec (gwg_step 0 fw wf grad mask nf) x (flip_idx a x).
  Proof.
    intros Hx Hl Ha. destruct (gwg_hyps wf grad mask d nf Hd) as [_ H2].
    apply (mh_move (states d 2) (lists_over (seq 0 d) nf) (fun x => multinomial_repl_law (gwg_dist_at wf grad mask x) nf)
             (fun x a => flip_idx a x) (gwg_log_acc fw wf grad mask) (fun x a => exp (gwg_ll (gwg_dist_at wf grad mask x) a)) x _ a); auto.
    - intros; left; apply exp_pos.
    - apply in_lists_over. split; auto. apply Forall_forall. intros i Hi. apply in_seq. specialize (Ha i Hi). lia.
    - apply exp_pos.
  Qed.

  Lemma flip_idx_same a a' x : (forall i, In i a <-> In i a') -> flip_idx a x = flip_idx a' x.
  Proof.
    intros H. apply (list_eq_nth 0%nat); [rewrite !flip_idx_length; auto|]. rewrite flip_idx_length. intros j Hj. rewrite !nth_flip_idx by auto.
    destruct (in_dec Nat.eq_dec j a) as [Hi|Hi], (in_dec Nat.eq_dec j a') as [Hi'|Hi']; auto; exfalso; [apply Hi'|apply Hi]; apply H; auto.
  Qed.

  Lemma gwg_flip1 x i : In x (states d 2) -> (i < d)%nat -> can_move sdec (gwg_step 0 fw wf grad mask nf) x (neighbor x i).
  Proof.
    intros Hx Hi. replace (neighbor x i) with (flip_idx (repeat i nf) x).
    - apply gwg_move; auto; [apply repeat_length|]. intros j Hj. apply repeat_spec in Hj. lia.
    - rewrite (flip_idx_same (repeat i nf) [i]); [reflexivity|]. intros j. simpl. split; intros H.
      + apply repeat_spec in H. auto.
      + destruct H as [<-|[]]. destruct nf; [lia|left; auto].
  Qed.

  Lemma gwg_invariant : invariant (states d 2) (fun x => exp (fw x)) (gwg_step 0 fw wf grad mask nf).
  Proof. apply reversible_invariant; [|apply gwg_reversible; auto]. intros x Hx. apply (gwg_proper 0 x Hx). Qed.

  Theorem gwg_multi_converges : (2 <= d)%nat -> (2 <= nf)%nat ->
    converges (states d 2) (fun x => exp (fw x)) (fun _ => gwg_step 0 fw wf grad mask nf).
  Proof.
    intros Hd2 Hnf2. apply (flip_converges d _ Hd (gwg_proper 0) gwg_flip1 fw gwg_invariant).
    set (x0 := repeat 0%nat d).
    assert (Hx0 : In x0 (states d 2)).
    { apply in_states. split; [apply repeat_length|]. apply Forall_forall. intros x Hx. apply repeat_spec in Hx. lia. }
    set (a := 0%nat :: repeat 1%nat (nf - 1)).
    assert (Ha : forall i, In i a <-> In i [0%nat; 1%nat]).
    { intros i. unfold a. simpl. split; intros [H|H]; auto; [apply repeat_spec in H; auto|].
      destruct H as [<-|[]]. right. destruct nf as [|[|n]]; [lia|lia|left; auto]. }
    exists x0, (flip_idx a x0). split; auto. split; [apply flip_idx_in; auto|]. split.
    - rewrite (flip_idx_same a [0%nat; 1%nat]) by auto. rewrite (par_flip_idx d); auto.
      + simpl. ring.
      + constructor; [simpl; lia|]. constructor; [simpl; tauto|constructor].
      + simpl. intros i [<-|[<-|[]]]; lia.
    - apply gwg_move; auto.
      + unfold a. simpl. rewrite repeat_length. lia.
      + intros i Hi. apply Ha in Hi. simpl in Hi. destruct Hi as [<-|[<-|[]]]; lia.
  Qed.
End GWGConv.

(** One flip per step: convergence exactly when some proposal can be rejected. *)
Lemma E_gwg1 g fw wf grad mask d x f : (0 < d)%nat -> In x (states d 2) ->
  E (gwg_step g fw wf grad mask 1 x) f
  = rsum (seq 0 d) (fun i => exp (nth i (gwg_dist_at wf grad mask x) 0) *
      (accept_prob g (gwg_log_acc fw wf grad mask x [i]) * f (neighbor x i) + (1 - accept_prob g (gwg_log_acc fw wf grad mask x [i])) * f x)).
Proof.
  intros Hd Hx. destruct (gwg_hyps wf grad mask d 1 Hd) as [_ H2]. unfold gwg_step. rewrite E_bind, H2 by auto.
  cbn [lists_over]. rewrite rsum_flat_map. apply rsum_ext. intros i _. simpl. rewrite E_mh_law. unfold gwg_ll. simpl. rewrite !Rplus_0_r. reflexivity.
Qed.

Lemma gwg1_sum wf grad mask d x : (0 < d)%nat -> In x (states d 2) -> rsum (seq 0 d) (fun i => exp (nth i (gwg_dist_at wf grad mask x) 0)) = 1.
Proof.
  intros Hd Hx. apply in_states in Hx. destruct Hx as [Hl _]. rewrite <- Hl at 1. rewrite <- (gwg_dist_length wf grad mask x).
  rewrite <- (rsum_nth (gwg_dist_at wf grad mask x) 0 exp). apply (gwg_dist_sum wf grad mask d); auto.
Qed.

Lemma gwg1_par g fw wf grad mask d x : (0 < d)%nat -> 0 <= g <= 1 -> In x (states d 2) ->
  (forall i, (i < d)%nat -> gwg_log_acc fw wf grad mask x [i] = 0) ->
  E (gwg_step g fw wf grad mask 1 x) par = - (1 - 2 * g) * par x.
Proof.
  intros Hd Hg Hx Hla. rewrite (E_gwg1 _ _ _ _ _ d) by auto.
  rewrite (rsum_ext _ _ (fun i => (- (1 - 2 * g) * par x) * exp (nth i (gwg_dist_at wf grad mask x) 0))).
  - rewrite rsum_scal, gwg1_sum by auto. ring.
  - intros i Hi. apply in_seq in Hi. rewrite Hla by lia. unfold accept_prob. rewrite exp_0.
    rewrite Rmin_right, Rmax_right by lra. rewrite (par_neighbor d) by (auto; lia). ring.
Qed.

Theorem gwg_one_iff fw wf grad mask d : (0 < d)%nat ->
  converges (states d 2) (fun x => exp (fw x)) (fun _ => gwg_step 0 fw wf grad mask 1) <->
  exists x i, In x (states d 2) /\ (i < d)%nat /\ gwg_log_acc fw wf grad mask x [i] < 0.
Proof.
  intros Hd. split.
  - intros Hc.
    destruct (Exists_dec (fun p => gwg_log_acc fw wf grad mask (fst p) [snd p] < 0) (list_prod (states d 2) (seq 0 d)) (fun p => Rlt_dec _ _)) as [H|H].
    + apply Exists_exists in H. destruct H as ([x i] & Hin & Hlt). apply in_prod_iff in Hin. destruct Hin as [Hx Hi]. apply in_seq in Hi.
      exists x, i. repeat split; auto; lia.
    + exfalso. rewrite <- Forall_Exists_neg in H. rewrite Forall_forall in H.
      assert (Hge : forall x i, In x (states d 2) -> (i < d)%nat -> accept_prob 0 (gwg_log_acc fw wf grad mask x [i]) = 1).
      { intros x i Hx Hi. specialize (H (x, i) ltac:(apply in_prod_iff; split; auto; apply in_seq; lia)). simpl in H.
        rewrite accept_prob_0, Rmin_left; auto. rewrite <- exp_0. destruct (Rle_lt_or_eq_dec 0 (gwg_log_acc fw wf grad mask x [i]) ltac:(lra)) as [Hlt|Heq].
        - left. apply exp_increasing. auto.
        - rewrite <- Heq. lra. }
      refine (alternating_not_converges (states d 2) (fun x => exp (fw x)) (fun _ => gwg_step 0 fw wf grad mask 1) _ par (repeat 0%nat d) _ _ _ Hc).
      * intros t. apply gwg_proper; auto.
      * apply in_states. split; [apply repeat_length|]. apply Forall_forall. intros y Hy. apply repeat_spec in Hy. lia.
      * intros; apply par_cases.
      * intros _ x Hx. rewrite (E_gwg1 _ _ _ _ _ d) by auto.
        rewrite (rsum_ext _ _ (fun i => (- par x) * exp (nth i (gwg_dist_at wf grad mask x) 0))).
        -- rewrite rsum_scal, gwg1_sum by auto. ring.
        -- intros i Hi. apply in_seq in Hi. rewrite Hge by (auto; lia). rewrite (par_neighbor d) by (auto; lia). ring.
  - intros (x & i & Hx & Hi & Hlt).
    apply (flip_converges d _ Hd (gwg_proper fw wf grad mask d 1 Hd 0)); auto.
    + intros; apply (gwg_flip1 fw wf grad mask d 1); auto.
    + apply gwg_invariant; auto.
    + exists x, x. repeat split; auto. unfold can_move. rewrite (E_gwg1 _ _ _ _ _ d) by auto.
      assert (Hacc : forall j, 0 <= accept_prob 0 (gwg_log_acc fw wf grad mask x [j]) <= 1) by (intros; apply accept_prob_range).
      eapply Rlt_le_trans; [|apply (rsum_ge_term _ _ i)].
      * cbv beta. apply Rmult_lt_0_compat; [apply exp_pos|]. destruct (sdec x x); [|congruence].
        assert (accept_prob 0 (gwg_log_acc fw wf grad mask x [i]) < 1).
        { rewrite accept_prob_0. eapply Rle_lt_trans; [apply Rmin_r|]. rewrite <- exp_0. apply exp_increasing. auto. }
        specialize (Hacc i). destruct (sdec (neighbor x i) x); lra.
      * apply in_seq. lia.
      * intros j _. specialize (Hacc j). apply Rmult_le_pos; [left; apply exp_pos|]. destruct (sdec (neighbor x j) x), (sdec x x); lra.
Qed.

(** ** Path auxiliary sampler without adaptation *)
Theorem pafs_even_not_converges g fw wf lr mask d nf pi : (1 <= nf <= d)%nat -> Nat.Even nf ->
  ~ converges (states d 2) pi (fun _ => pafs_step g fw wf lr mask nf).
Proof.
  intros Hnf [h He]. subst nf.
  set (x0 := repeat 0%nat d).
  assert (Hx0 : In x0 (states d 2)).
  { apply in_states. split; [apply repeat_length|]. apply Forall_forall. intros y Hy. apply repeat_spec in Hy. lia. }
  assert (Hpar0 : par x0 = 1) by (unfold par, x0; replace (list_sum (repeat 0%nat d)) with 0%nat; [reflexivity|clear; induction d; simpl; auto]).
  apply (conserved_not_converges (states d 2) pi (fun _ => pafs_step g fw wf lr mask (2 * h))) with (g := par) (x := x0) (y := neighbor x0 0); auto.
  - intros _ x Hx. split; [apply (pafs_is_prob fw wf lr mask d (2 * h) Hnf); auto|]. intros y w Hy.
    unfold pafs_step, bind in Hy. apply in_flat_map in Hy. destruct Hy as ([a u] & Ha & Hy). apply in_map_iff in Hy.
    destruct Hy as ([z v] & Heq & Hz). cbn [fst snd] in *. injection Heq as Hzy _. subst z. unfold omh_law in Hz.
    destruct (pafs_log_acc fw wf lr mask x a); [|destruct Hz]. apply in_mh_law in Hz. destruct Hz as [-> | ->]; auto. apply flip_idx_in; auto.
  - apply neighbor_states; auto.
  - rewrite (par_neighbor d) by (auto; lia). rewrite Hpar0. ring.
  - intros z Hz. destruct (par_cases z) as [-> | ->]; [rewrite Rabs_R1|rewrite Rabs_left]; lra.
  - intros _ x Hx. rewrite (pafs_step_E fw wf lr mask d (2 * h) Hnf) by auto. unfold mh_kernel. rewrite E_bind.
    rewrite (E_ext_in _ _ (fun _ => par x)).
    + rewrite E_const. rewrite (proj2 (prop_prob wf lr mask d (2 * h) Hnf x (proj1 (proj1 (in_states d 2 x) Hx)))). ring.
    + intros a u Ha. apply in_norepl in Ha. apply in_kperms in Ha; [|apply seq_NoDup]. destruct Ha as (H1 & H2 & H3).
      rewrite E_mh_law. rewrite (par_flip_idx d); auto.
      * rewrite H1, pow_1_even. ring.
      * intros i Hi. apply H3 in Hi. apply in_seq in Hi. lia.
Qed.

(** ** Locally balanced sampler: one site is always flipped *)
Lemma lb_prob wf lr d x : (0 < d)%nat -> In x (states d 2) -> is_prob (lb_move wf lr x).
Proof.
  intros Hd Hx. apply in_states in Hx. destruct Hx as [Hl _]. apply is_prob_dmap, is_prob_categorical. rewrite Hl. destruct d; [lia|discriminate].
Qed.

Theorem lb_not_converges wf lr d pi : (0 < d)%nat -> ~ converges (states d 2) pi (fun _ => lb_move wf lr).
Proof.
  intros Hd. apply (alternating_not_converges (states d 2) pi (fun _ => lb_move wf lr)) with (g := par) (x := repeat 0%nat d).
  - intros _ x Hx. split; [apply (lb_prob wf lr d); auto|]. intros y w Hy. unfold lb_move, dmap in Hy. apply in_map_iff in Hy.
    destruct Hy as ([i u] & Heq & _). inversion Heq; subst. apply neighbor_states; auto.
  - apply in_states. split; [apply repeat_length|]. apply Forall_forall. intros y Hy. apply repeat_spec in Hy. lia.
  - intros; apply par_cases.
  - intros _ x Hx. destruct (lb_prob wf lr d x Hd Hx) as [_ Hm]. unfold lb_move in *. rewrite mass_dmap in Hm. rewrite E_dmap.
    rewrite (E_ext_in _ _ (fun _ => - par x)); [rewrite E_const, Hm; ring|].
    intros i w Hi. unfold categorical, weighted in Hi. apply in_map_iff in Hi. destruct Hi as (j & Heq & Hj). inversion Heq; subst.
    apply in_seq in Hj. rewrite map_length, seq_length in Hj. apply (par_neighbor d); auto. apply in_states in Hx. lia.
Qed.

(** ** Random walk at the largest radius on two categories and a flat target: every site is flipped every time *)
Theorem rw_full_radius_not_converges d c pi : (0 < d)%nat -> ~ converges (states d 2) pi (fun _ => rw_step 0 (fun _ => c) (INR d) d 2).
Proof.
  intros Hd. assert (HdR : 0 < INR d) by (apply lt_0_INR; lia).
  assert (Hr : 0 <= INR d <= INR d) by lra.
  apply (alternating_not_converges (states d 2) pi (fun _ => rw_step 0 (fun _ => c) (INR d) d 2)) with (g := fun x => (-1) ^ (nth 0 x 0%nat)) (x := repeat 0%nat d).
  - intros _ x Hx. split.
    + exact (is_prob_mh_kernel (fun _ => rw_draws (INR d) d 2) (rw_apply 2) (fun _ _ => c - c) 0 x (rw_draws_is_prob d 2 (INR d) (le_n _) Hr Hd)).
    + intros y w. apply rw_support; auto.
  - apply in_states. split; [apply repeat_length|]. apply Forall_forall. intros y Hy. apply repeat_spec in Hy. lia.
  - intros; apply m1_cases.
  - intros _ x Hx. unfold rw_step. rewrite E_bind. rewrite Rminus_diag_eq by reflexivity.
    rewrite (E_ext _ _ (fun dr => (-1) ^ nth 0 (rw_apply 2 x dr) 0%nat)).
    2:{ intros dr. rewrite E_mh_law, accept_prob_0, exp_0, Rmin_left by lra. ring. }
    unfold rw_draws. replace (INR d / INR d) with 1 by (field; lra).
    pose proof (in_states_nth d 2 x 0 Hx Hd) as H0. apply in_states in Hx. destruct d as [|n]; [lia|]. destruct x as [|x0 x]; [simpl in Hx; lia|].
    cbn [repeat indep]. rewrite E_bind. unfold rw_site at 1. rewrite E_bind, E_bernoulli. rewrite Rminus_diag_eq by reflexivity.
    rewrite Rmult_0_l, Rplus_0_r, Rmult_1_l, E_dmap. cbn [Nat.sub seq]. unfold uniform. rewrite E_weighted. simpl rsum.
    rewrite E_dmap. unfold rw_apply. cbn [combine map nth fst snd].
    rewrite E_const. rewrite (proj2 (is_prob_indep (repeat (rw_site 1 2) n) ltac:(intros s Hs; apply repeat_spec in Hs; subst s;
      apply is_prob_bind; [apply is_prob_bernoulli; lra|]; intros b w _; apply is_prob_dmap, is_prob_uniform; discriminate))).
    simpl in H0. destruct x0 as [|[|x0]]; [| |lia]; simpl; field.
Qed.

(** ** Explicit rate for the random walk as coded (with the acceptance guard) *)
Lemma prod_at_ge {A} (w : A -> R) c n : 0 <= c -> forall l, length l = n -> (forall a, In a l -> c <= w a) -> c ^ n <= prod_at (repeat w n) l.
Proof.
  intros Hc. induction n as [|n IH]; intros [|a l] Hl H; simpl in *; try discriminate; [lra|].
  apply Rmult_le_compat; auto. apply pow_le; auto.
Qed.

Definition rw_min_prob (d C : nat) (radius D g : R) : R :=
  (Rmin (radius / INR d) (1 - radius / INR d) / INR (C - 1)) ^ d * (exp (- D) - g).

Lemma rw_minor fw d C radius D g : (2 <= C)%nat -> 0 < radius < INR d -> (0 < d)%nat -> 0 <= g ->
  (forall x y, In x (states d C) -> In y (states d C) -> Rabs (fw x - fw y) <= D) -> g < exp (- D) ->
  forall x y, In x (states d C) -> In y (states d C) ->
  rw_min_prob d C radius D g <= E (rw_step g fw radius d C x) (fun z => if sdec z y then 1 else 0).
Proof.
  intros HC Hr Hd Hg HD HgD x y Hx Hy. unfold rw_min_prob. set (p := radius / INR d).
  pose proof (rw_p_open d C radius HC Hr Hd) as Hp. fold p in Hp.
  assert (HCR : 0 < INR (C - 1)) by (apply lt_0_INR; lia).
  assert (Hc : 0 <= Rmin p (1 - p) / INR (C - 1)) by (apply Rmult_le_pos; [apply Rmin_glb; lra|left; apply Rinv_0_lt_compat; auto]).
  unfold rw_step. rewrite E_bind, E_rw_draws. fold p.
  pose proof (rw_draw_in d C HC Hd x y Hx Hy) as Hin.
  assert (Hwp : forall a, 0 <= rw_w p C a) by (intros a; left; unfold p; apply rw_w_pos; auto).
  eapply Rle_trans; [|apply (rsum_ge_term _ _ (rw_draw_to C x y) Hin)].
  - cbv beta. apply Rmult_le_compat; [apply pow_le; auto|lra| |].
    + apply prod_at_ge; auto; [apply in_lists_over in Hin; tauto|]. intros a _. unfold rw_w.
      apply Rmult_le_compat_r; [left; apply Rinv_0_lt_compat; auto|]. destruct (fst a); [apply Rmin_l|apply Rmin_r].
    + rewrite E_mh_law. rewrite (rw_apply_draw d C HC Hd x y Hx Hy).
      destruct (sdec y y) as [_|]; [|congruence]. pose proof (accept_prob_range g (fw y - fw x)) as Ha.
      assert (exp (- D) - g <= accept_prob g (fw y - fw x)).
      { unfold accept_prob. eapply Rle_trans; [|apply Rmax_r]. apply Rmin_glb.
        - assert (exp (- D) <= 1); [|lra]. rewrite <- exp_0. specialize (HD x x Hx Hx). rewrite Rminus_diag_eq, Rabs_R0 in HD by reflexivity.
          destruct HD as [HD|HD]; [left; apply exp_increasing; lra|rewrite <- HD, Ropp_0; lra].
        - assert (exp (- D) <= exp (fw y - fw x)); [|lra]. specialize (HD y x Hy Hx). apply Rabs_def2_le in HD.
          destruct (Rle_lt_or_eq_dec (- D) (fw y - fw x) ltac:(lra)) as [Hlt|Heq]; [left; apply exp_increasing; lra|rewrite Heq; lra]. }
      destruct (sdec x y); lra.
  - intros a Ha. apply Rmult_le_pos.
    + apply (prod_at_nonneg (rw_vals C)); [|apply in_lists_over in Ha; tauto]. apply Forall_forall. intros w Hw. apply repeat_spec in Hw. subst. auto.
    + rewrite E_mh_law. pose proof (accept_prob_range g (fw (rw_apply C x a) - fw x)). destruct (sdec (rw_apply C x a) y), (sdec x y); lra.
Qed.

Lemma length_states d C : length (states d C) = (C ^ d)%nat.
Proof. unfold states. rewrite length_lists_over, seq_length. reflexivity. Qed.

Theorem rw_code_rate fw d C radius D : (2 <= C)%nat -> 0 < radius < INR d -> (0 < d)%nat ->
  (forall x y, In x (states d C) -> In y (states d C) -> Rabs (fw x - fw y) <= D) -> acc_guard < exp (- D) ->
  forall n x f, In x (states d C) -> (forall y, In y (states d C) -> Rabs (f y) <= 1) ->
  Rabs (E (run_seq (fun _ => rw_step acc_guard fw radius d C) n 0 x) f - mean (states d C) (fun x => exp (fw x)) f)
  <= 2 * (1 - rw_min_prob d C radius D acc_guard * INR (C ^ d)) ^ n + 2 * acc_guard / (rw_min_prob d C radius D acc_guard * INR (C ^ d)).
Proof.
  intros HC Hr Hd HD HgD n x f Hx Hf. pose proof acc_guard_pos as Hg. rewrite <- length_states.
  apply (upto_rate sdec (states d C) (fun x => exp (fw x)) (rw_step acc_guard fw radius d C) (rw_min_prob d C radius D acc_guard) (2 * acc_guard)); auto.
  - apply NoDup_states.
  - apply rw_proper; auto.
  - intros; left; apply exp_pos.
  - apply Z_pos. lia.
  - unfold rw_min_prob. pose proof (rw_p_open d C radius HC Hr Hd). apply Rmult_lt_0_compat; [|lra]. apply pow_lt. apply Rdiv_lt_0_compat; [apply Rmin_glb_lt; lra|apply lt_0_INR; lia].
  - intros. apply rw_minor; auto; lra.
  - lra.
  - apply rw_invariant_upto; auto; lra.
Qed.

(** ** Explicit rate for the Gibbs sweep *)
Lemma gibbs_site_ge fw d C D j v z : (0 < C)%nat ->
  (forall x y, In x (states d C) -> In y (states d C) -> Rabs (fw x - fw y) <= D) ->
  In z (states d C) -> (j < d)%nat -> (v < C)%nat ->
  exp (- D) / INR C <= E (gibbs_step fw C j z) (fun a => if sdec a (upd j v z) then 1 else 0).
Proof.
  intros HC HD Hz Hj Hv. assert (HCR : 0 < INR C) by (apply lt_0_INR; auto).
  set (c := exp (- D) / INR C). assert (Hc : 0 < c) by (apply Rdiv_lt_0_compat; [apply exp_pos|auto]).
  unfold sdec. rewrite (gibbs_conditional fw d C j z) by auto.
  assert (HZ : 0 < rsum (seq 0 C) (fun u0 => exp (fw (upd j u0 z)))).
  { apply rsum_pos; [|intros; apply exp_pos]. destruct C; [lia|discriminate]. }
  apply (Rmult_le_reg_r _ _ _ HZ).
  unfold Rdiv at 1. rewrite Rmult_assoc, Rinv_l, Rmult_1_r by lra.
  apply Rle_trans with (c * (INR C * (exp D * exp (fw (upd j v z))))).
  - apply Rmult_le_compat_l; [lra|]. rewrite <- (seq_length C 0) at 2. rewrite <- rsum_const. apply rsum_le. intros i Hi. apply in_seq in Hi.
    rewrite <- exp_plus. specialize (HD (upd j i z) (upd j v z) ltac:(apply upd_in_states; auto; lia) ltac:(apply upd_in_states; auto)).
    apply Rabs_def2_le in HD. destruct (Rle_lt_or_eq_dec (fw (upd j i z)) (D + fw (upd j v z)) ltac:(lra)) as [Hlt|Heq]; [left; apply exp_increasing; auto|rewrite Heq; lra].
  - right. unfold c. replace (exp (- D) / INR C * (INR C * (exp D * exp (fw (upd j v z))))) with (exp (- D) * exp D * exp (fw (upd j v z))) by (field; lra).
    rewrite <- exp_plus. replace (- D + D) with 0 by ring. rewrite exp_0. ring.
Qed.

(** One sweep over all sites, the energy possibly changing from step to step. *)
Lemma gibbs_sweep_ge (fw : nat -> list nat -> R) (k : nat -> list nat -> dist (list nat)) d C D t : (0 < d)%nat -> (0 < C)%nat ->
  (forall s, proper (states d C) (k s)) -> (forall j, (j < d)%nat -> k (t + j)%nat = gibbs_step (fw j) C j) ->
  (forall j x y, In x (states d C) -> In y (states d C) -> Rabs (fw j x - fw j y) <= D) ->
  forall u y, In u (states d C) -> In y (states d C) ->
  (exp (- D) / INR C) ^ d <= E (run_seq k d t u) (fun a => if sdec a y then 1 else 0).
Proof.
  intros Hd HC Hp Hk HD u y Hu Hy. assert (HCR : 0 < INR C) by (apply lt_0_INR; auto).
  pose proof (path_ge sdec (states d C) k Hp (fun j => mix d j u y) t (exp (- D) / INR C) d) as HP. cbv beta in HP.
  rewrite (mix_0 d C Hd u y Hu), (mix_all d C Hd d u y (le_n _) Hy) in HP.
  apply HP; [left; apply Rdiv_lt_0_compat; [apply exp_pos|auto]|intros; apply mix_in; auto|]. clear HP.
  intros j Hj. rewrite (Hk j Hj).
  pose proof (mix_in d C j u y Hu Hy) as Hz. set (z := mix d j u y) in *.
  assert (Hz' : mix d (S j) u y = upd j (nth j y 0%nat) z).
  { apply (list_eq_nth 0%nat); [rewrite upd_length; unfold z; rewrite !mix_length; auto|]. rewrite mix_length. intros i Hi. rewrite nth_mix by auto.
    destruct (Nat.eq_dec i j) as [->|Hne].
    - rewrite nth_upd_eq by (unfold z; rewrite mix_length; auto). destruct (Nat.ltb_spec j (S j)); [auto|lia].
    - rewrite nth_upd_neq by auto. unfold z. rewrite nth_mix by auto. destruct (Nat.ltb_spec i (S j)), (Nat.ltb_spec i j); auto; lia. }
  rewrite Hz'. pose proof (in_states_nth d C y j Hy Hj) as Hv. apply (gibbs_site_ge (fw j) d C D j); auto.
Qed.

Theorem gibbs_rate fw d C D : (0 < d)%nat -> (0 < C)%nat ->
  (forall x y, In x (states d C) -> In y (states d C) -> Rabs (fw x - fw y) <= D) ->
  forall n x f, In x (states d C) -> (forall y, In y (states d C) -> Rabs (f y) <= 1) ->
  Rabs (E (run_seq (fun t => gibbs_step fw C (t mod d)) n 0 x) f - mean (states d C) (fun x => exp (fw x)) f)
  <= 2 * (1 - exp (- D) ^ d) ^ (n / d).
Proof.
  intros Hd HC HD n x f Hx Hf.
  assert (HCR : 0 < INR C) by (apply lt_0_INR; auto).
  set (c := exp (- D) / INR C).
  assert (Hc : 0 < c) by (apply Rdiv_lt_0_compat; [apply exp_pos|auto]).
  replace (exp (- D) ^ d) with (c ^ d * INR (length (states d C))).
  2:{ rewrite length_states, pow_INR, <- Rpow_mult_distr. unfold c. f_equal. field. lra. }
  apply (periodic_rate sdec (states d C) (fun x => exp (fw x)) _ (NoDup_states d C) (gibbs_proper fw d C Hd) d (c ^ d) Hd); auto.
  - intros t. replace (d + t)%nat with (t + 1 * d)%nat by lia. rewrite Nat.mod_add by lia. reflexivity.
  - apply pow_le. lra.
  - intros u y Hu Hy. apply (gibbs_sweep_ge (fun _ => fw) _ d C D 0 Hd HC (gibbs_proper fw d C Hd)); auto.
    intros j Hj. rewrite Nat.add_0_l, Nat.mod_small by auto. reflexivity.
  - intros t. apply gibbs_invariant. apply Nat.mod_upper_bound. lia.
  - intros; left; apply exp_pos.
  - apply Z_pos; auto.
Qed.

(** ** Schedules read off the sampler state *)
Lemma run_seq_ext {A} (k k' : nat -> A -> dist A) n : (forall t, k t = k' t) -> forall t x, run_seq k n t x = run_seq k' n t x.
Proof.
  intros H. induction n as [|n IH]; intros t x; simpl; auto. rewrite H. unfold bind. apply flat_map_ext. intros p. rewrite IH. reflexivity.
Qed.

Lemma converges_ext {A} (S : list A) pi (k k' : nat -> A -> dist A) : (forall t, k t = k' t) -> converges S pi k' -> converges S pi k.
Proof.
  intros H Hc eps He. destruct (Hc eps He) as [N HN]. exists N. intros n x f Hn Hx Hf. rewrite (run_seq_ext k k' n H). auto.
Qed.

Theorem gibbs_state_converges fw d C : (0 < d)%nat -> (0 < C)%nat ->
  converges (states d C) (fun x => exp (fw x)) (fun t => gibbs_step fw C (g_index (Nat.iter t (gibbs_update d C) g_init))).
Proof.
  intros Hd HC. eapply converges_ext; [|apply (gibbs_converges fw d C Hd HC)].
  intros t. rewrite gibbs_iter_state by auto. reflexivity.
Qed.

Theorem gibbs_state_rate fw d C D : (0 < d)%nat -> (0 < C)%nat ->
  (forall x y, In x (states d C) -> In y (states d C) -> Rabs (fw x - fw y) <= D) ->
  forall n x f, In x (states d C) -> (forall y, In y (states d C) -> Rabs (f y) <= 1) ->
  Rabs (E (run_seq (fun t => gibbs_step fw C (g_index (Nat.iter t (gibbs_update d C) g_init))) n 0 x) f - mean (states d C) (fun x => exp (fw x)) f)
  <= 2 * (1 - exp (- D) ^ d) ^ (n / d).
Proof.
  intros Hd HC HD n x f Hx Hf. rewrite (run_seq_ext _ (fun t => gibbs_step fw C (t mod d)) n).
  - apply gibbs_rate; auto.
  - intros t. rewrite gibbs_iter_state by auto. reflexivity.
Qed.

Theorem block_state_converges fw d C b : (0 < d)%nat -> (0 < C)%nat -> (0 < b)%nat ->
  converges (states d C) (fun x => exp (fw x)) (fun t => block_step fw C b (g_index (Nat.iter t (block_update d C b) g_init))).
Proof.
  intros Hd HC Hb. eapply converges_ext; [|apply (block_converges fw d C Hd b Hb HC)].
  intros t. rewrite block_iter_state by auto. reflexivity.
Qed.

Theorem gwg_flat_run g fw wf grad mask d n x : (0 < d)%nat -> 0 <= g <= 1 -> In x (states d 2) ->
  (forall y i, In y (states d 2) -> (i < d)%nat -> gwg_log_acc fw wf grad mask y [i] = 0) ->
  E (run_seq (fun _ => gwg_step g fw wf grad mask 1) n 0 x) (fun y => (-1) ^ list_sum y) = (- (1 - 2 * g)) ^ n * (-1) ^ list_sum x.
Proof.
  intros Hd Hg Hx Hla. apply (eigen_run (states d 2) (fun _ => gwg_step g fw wf grad mask 1) (fun _ => gwg_proper fw wf grad mask d 1 Hd g) par); auto.
  intros _ y Hy. apply (gwg1_par g fw wf grad mask d); auto.
Qed.

Lemma known_cat_converges fw rows d C : (0 < C)%nat ->
  (forall x, In x (states d C) -> exists r, all_some (rows x) = Some r /\ length r = d /\ Forall (fun l : list R => length l = C) r) ->
  converges (states d C) (fun x => exp (fw x)) (fun _ => cat_step 0 fw (fun x => all_some (rows x))).
Proof. intros HC H. apply cat_converges; auto. Qed.
