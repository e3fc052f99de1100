(** Proofs about restricted Boltzmann machines. *)
From Coq Require Import Reals List Arith Lra Lia.
From Verif.Base Require Import RSum Cube Dist.
From Verif.Spec Require Import Chain.
From Verif.Model Require Import RBM.
Import ListNotations.
Local Open Scope R_scope.

Lemma one_plus_exp z : 0 < 1 + exp z.
Proof. pose proof (exp_pos z). lra. Qed.
Lemma exp_softplus z : exp (softplus z) = 1 + exp z.
Proof. unfold softplus. apply exp_ln, one_plus_exp. Qed.
Lemma sigmoid_range z : 0 < sigmoid z < 1.
Proof.
  unfold sigmoid. pose proof (exp_pos z). pose proof (one_plus_exp z). split; [apply Rdiv_lt_0_compat; auto|].
  apply (Rmult_lt_reg_r (1 + exp z)); auto. unfold Rdiv. rewrite Rmult_assoc, Rinv_l by lra. lra.
Qed.

(** Independent sigmoid draws: the exponential-family form. *)
Lemma bern_vec_law zs g : E (bern_vec (map sigmoid zs)) g
  = rsum (states (length zs) 2) (fun h => exp (rsum (combine h zs) (fun p => INR (fst p) * snd p)) / rprod zs (fun z => 1 + exp z) * g h).
Proof.
  revert g. induction zs as [|z zs IH]; intros g.
  - cbn. rewrite exp_0. field.
  - unfold bern_vec in *. cbn [map indep]. rewrite E_bind, E_dmap, E_bernoulli, !E_dmap, !IH.
    unfold states. cbn [length lists_over]. rewrite rsum_flat_map. cbn [seq rsum]. rewrite !rsum_map. fold (states (length zs) 2).
    rewrite Rplus_0_r. rewrite <- !rsum_scal. rewrite Rplus_comm.
    assert (HP : 0 < rprod zs (fun z => 1 + exp z)) by (apply rprod_pos; intros; apply one_plus_exp). pose proof (one_plus_exp z).
    f_equal; apply rsum_ext; intros h _; cbn [combine rsum rprod fst snd INR]; rewrite exp_plus; unfold sigmoid.
    + rewrite Rmult_0_l, exp_0. field. lra.
    + rewrite Rmult_1_l. field. lra.
Qed.
Lemma sum_exp_hidden zs : rsum (states (length zs) 2) (fun h => exp (rsum (combine h zs) (fun p => INR (fst p) * snd p))) = rprod zs (fun z => 1 + exp z).
Proof.
  assert (HP : 0 < rprod zs (fun z => 1 + exp z)) by (apply rprod_pos; intros; apply one_plus_exp).
  pose proof (bern_vec_law zs (fun _ => 1)) as H.
  assert (Hm : mass (bern_vec (map sigmoid zs)) = 1).
  { apply is_prob_indep. intros d Hd. apply in_map_iff in Hd. destruct Hd as (p & <- & Hp). apply is_prob_dmap, is_prob_bernoulli.
    apply in_map_iff in Hp. destruct Hp as (z & <- & _). pose proof (sigmoid_range z). lra. }
  unfold mass in Hm. rewrite Hm in H.
  rewrite (rsum_ext _ _ (fun h => / rprod zs (fun z => 1 + exp z) * exp (rsum (combine h zs) (fun p => INR (fst p) * snd p)))) in H by (intros; unfold Rdiv; ring).
  rewrite rsum_scal in H. apply (Rmult_eq_reg_l (/ rprod zs (fun z => 1 + exp z))); [|apply Rinv_neq_0_compat; lra]. rewrite <- H, Rinv_l by lra. reflexivity.
Qed.

Lemma combine_map_seq (h : list nat) (f : nat -> R) n : length h = n ->
  rsum (combine h (map f (seq 0 n))) (fun p => INR (fst p) * snd p) = rsum (seq 0 n) (fun j => at_ h j * f j).
Proof.
  intros <-. revert f. induction h as [|a h IH]; intros f; [reflexivity|].
  cbn [length]. cbn [seq map combine rsum fst snd]. f_equal. rewrite <- !seq_shift, map_map, rsum_map. rewrite (IH (fun j => f (S j))). reflexivity.
Qed.

Section Binary.
Variables (nv nh : nat) (w : nat -> nat -> R) (b_v b_h : nat -> R).
(** The joint log-weight of visible and hidden units. *)
Definition joint (v h : list nat) : R :=
  rsum (seq 0 nv) (fun i => rsum (seq 0 nh) (fun j => at_ v i * w i j * at_ h j)) + rsum (seq 0 nv) (fun i => at_ v i * b_v i) + rsum (seq 0 nh) (fun j => at_ h j * b_h j).

Lemma joint_h v h : joint v h = rsum (seq 0 nh) (fun j => at_ h j * pre_h nv w b_h v j) + rsum (seq 0 nv) (fun i => at_ v i * b_v i).
Proof.
  unfold joint, pre_h. rewrite rsum_swap.
  rewrite (rsum_ext (seq 0 nh) (fun j => at_ h j * (rsum (seq 0 nv) (fun i => at_ v i * w i j) + b_h j))
    (fun j => rsum (seq 0 nv) (fun i => at_ v i * w i j * at_ h j) + at_ h j * b_h j)).
  - rewrite rsum_plus. ring.
  - intros j _. rewrite Rmult_plus_distr_l, <- rsum_scal. f_equal. apply rsum_ext. intros; ring.
Qed.
Lemma joint_v v h : joint v h = rsum (seq 0 nv) (fun i => at_ v i * pre_v nh w b_v h i) + rsum (seq 0 nh) (fun j => at_ h j * b_h j).
Proof.
  unfold joint, pre_v.
  rewrite (rsum_ext (seq 0 nv) (fun i => at_ v i * (rsum (seq 0 nh) (fun j => at_ h j * w i j) + b_v i))
    (fun i => rsum (seq 0 nh) (fun j => at_ v i * w i j * at_ h j) + at_ v i * b_v i)).
  - rewrite rsum_plus. ring.
  - intros i _. rewrite Rmult_plus_distr_l, <- rsum_scal. f_equal. apply rsum_ext. intros; ring.
Qed.

Lemma rprod_softplus (f : nat -> R) l : rprod (map f l) (fun z => 1 + exp z) = exp (rsum l (fun j => softplus (f j))).
Proof. induction l as [|a l IH]; cbn [map rprod rsum]; [symmetry; apply exp_0|]. rewrite IH, exp_plus, exp_softplus. reflexivity. Qed.

(** The free energy is the log of the marginal. *)
Theorem rbm_marginal v : exp (rbm_call nv nh w b_v b_h v) = rsum (states nh 2) (fun h => exp (joint v h)).
Proof.
  unfold rbm_call. rewrite exp_plus, <- rprod_softplus, <- sum_exp_hidden, map_length, seq_length.
  rewrite Rmult_comm, <- rsum_scal. apply rsum_ext. intros h Hh. apply in_states in Hh. destruct Hh as [Hl _].
  rewrite <- exp_plus, combine_map_seq by auto. f_equal. rewrite joint_h. ring.
Qed.

Lemma step_h_law v g : E (step_h nv nh w b_h v) g * exp (rbm_call nv nh w b_v b_h v) = rsum (states nh 2) (fun h => exp (joint v h) * g h).
Proof.
  unfold step_h. rewrite <- (map_map (pre_h nv w b_h v) sigmoid). rewrite bern_vec_law, map_length, seq_length, rprod_softplus.
  unfold rbm_call. rewrite exp_plus, Rmult_comm, <- rsum_scal. apply rsum_ext. intros h Hh. apply in_states in Hh. destruct Hh as [Hl _].
  rewrite combine_map_seq by auto. rewrite joint_h, exp_plus. field. pose proof (exp_pos (rsum (seq 0 nh) (fun j => softplus (pre_h nv w b_h v j)))). lra.
Qed.
Lemma step_v_law h f : E (step_v nv nh w b_v h) f * rsum (states nv 2) (fun v => exp (joint v h)) = rsum (states nv 2) (fun v => exp (joint v h) * f v).
Proof.
  unfold step_v. rewrite <- (map_map (pre_v nh w b_v h) sigmoid). rewrite bern_vec_law, map_length, seq_length.
  assert (HS : rsum (states nv 2) (fun v => exp (joint v h)) = exp (rsum (seq 0 nh) (fun j => at_ h j * b_h j)) * rprod (map (pre_v nh w b_v h) (seq 0 nv)) (fun z => 1 + exp z)).
  { rewrite <- sum_exp_hidden, map_length, seq_length, <- rsum_scal. apply rsum_ext. intros v Hv. apply in_states in Hv. destruct Hv as [Hl _].
    rewrite combine_map_seq by auto. rewrite joint_v, exp_plus. ring. }
  rewrite HS, Rmult_comm, <- rsum_scal. apply rsum_ext. intros v Hv. apply in_states in Hv. destruct Hv as [Hl _]. rewrite combine_map_seq by auto.
  rewrite joint_v, exp_plus. field. assert (0 < rprod (map (pre_v nh w b_v h) (seq 0 nv)) (fun z => 1 + exp z)) by (apply rprod_pos; intros; apply one_plus_exp). lra.
Qed.

Lemma states_ne n : states n 2 <> [].
Proof. induction n as [|n IH]; [discriminate|]. unfold states in *. cbn [lists_over]. cbn [seq flat_map] in *. destruct (lists_over [0%nat; 1%nat] n); [congruence|discriminate]. Qed.

Theorem rbm_block_reversible : reversible (states nv 2) (fun v => exp (rbm_call nv nh w b_v b_h v)) (rbm_block_step nv nh w b_v b_h).
Proof.
  set (M := fun h => rsum (states nv 2) (fun v => exp (joint v h))).
  assert (HM : forall h, 0 < M h).
  { intros h. unfold M. destruct (states nv 2) as [|v l] eqn:E; [destruct (states_ne nv E)|]. cbn [rsum]. pose proof (exp_pos (joint v h)).
    assert (0 <= rsum l (fun v => exp (joint v h))) by (apply rsum_nonneg; intros; left; apply exp_pos). lra. }
  assert (K : forall f g, rsum (states nv 2) (fun x => exp (rbm_call nv nh w b_v b_h x) * f x * E (rbm_block_step nv nh w b_v b_h x) g)
      = rsum (states nh 2) (fun h => rsum (states nv 2) (fun x => exp (joint x h) * f x) * rsum (states nv 2) (fun y => exp (joint y h) * g y) / M h)).
  { intros f g. rewrite (rsum_ext _ _ (fun x => rsum (states nh 2) (fun h => exp (joint x h) * f x * (rsum (states nv 2) (fun y => exp (joint y h) * g y) / M h)))).
    - rewrite rsum_swap. apply rsum_ext. intros h _. rewrite rsum_scal_r. unfold Rdiv. ring.
    - intros x _. unfold rbm_block_step. rewrite E_bind.
      transitivity (f x * (E (step_h nv nh w b_h x) (fun a => E (step_v nv nh w b_v a) g) * exp (rbm_call nv nh w b_v b_h x))); [ring|].
      rewrite step_h_law, <- rsum_scal. apply rsum_ext. intros h _. rewrite <- (step_v_law h g). fold (M h). pose proof (HM h). field. lra. }
  intros f g. rewrite !K. apply rsum_ext. intros h _. unfold Rdiv. ring.
Qed.

Lemma bern_vec_prob zs : is_prob (bern_vec (map sigmoid zs)).
Proof.
  apply is_prob_indep. intros d Hd. apply in_map_iff in Hd. destruct Hd as (p & <- & Hp). apply is_prob_dmap, is_prob_bernoulli.
  apply in_map_iff in Hp. destruct Hp as (z & <- & _). pose proof (sigmoid_range z). lra.
Qed.
Lemma rbm_block_prob v : is_prob (rbm_block_step nv nh w b_v b_h v).
Proof.
  unfold rbm_block_step. apply is_prob_bind.
  - unfold step_h. rewrite <- (map_map (pre_h nv w b_h v) sigmoid). apply bern_vec_prob.
  - intros h q _. unfold step_v. rewrite <- (map_map (pre_v nh w b_v h) sigmoid). apply bern_vec_prob.
Qed.
End Binary.

Lemma rbm_block_invariant nv nh w b_v b_h : invariant (states nv 2) (fun v => exp (rbm_call nv nh w b_v b_h v)) (rbm_block_step nv nh w b_v b_h).
Proof.
  intros f. pose proof (rbm_block_reversible nv nh w b_v b_h (fun _ => 1) f) as H.
  rewrite (rsum_ext _ _ (fun x => exp (rbm_call nv nh w b_v b_h x) * 1 * E (rbm_block_step nv nh w b_v b_h x) f)) by (intros; ring). rewrite H.
  apply rsum_ext. intros v _. change (E (rbm_block_step nv nh w b_v b_h v) (fun _ => 1)) with (mass (rbm_block_step nv nh w b_v b_h v)).
  rewrite (proj2 (rbm_block_prob nv nh w b_v b_h v)). ring.
Qed.

(** ** Categorical visible units *)
Lemma hot_sum v i C (f : nat -> R) : (nth i v 0 < C)%nat -> rsum (seq 0 C) (fun c => hot v i c * f c) = f (nth i v 0%nat).
Proof.
  intros H. rewrite (rsum_single _ _ (nth i v 0%nat)).
  - unfold hot. rewrite Nat.eqb_refl. ring.
  - apply seq_NoDup.
  - apply in_seq. lia.
  - intros c _ Hc. unfold hot. destruct (Nat.eqb_spec (nth i v 0%nat) c); [congruence|ring].
Qed.
Section Categ.
Variables (nv nh C : nat) (w : nat -> nat -> nat -> R) (b_v : nat -> nat -> R) (b_h : nat -> R).
Definition cat_joint (v h : list nat) : R :=
  rsum (seq 0 nv) (fun i => rsum (seq 0 nh) (fun j => w j i (nth i v 0%nat) * at_ h j)) + rsum (seq 0 nv) (fun i => b_v i (nth i v 0%nat)) + rsum (seq 0 nh) (fun j => at_ h j * b_h j).
Theorem cat_rbm_marginal v : In v (states nv C) -> exp (cat_rbm_call nv nh C w b_v b_h v) = rsum (states nh 2) (fun h => exp (cat_joint v h)).
Proof.
  intros Hv. apply in_states in Hv. destruct Hv as [Hl Hr]. rewrite Forall_nth_iff with (d := 0%nat) in Hr.
  assert (Hi : forall i, In i (seq 0 nv) -> (nth i v 0 < C)%nat) by (intros i Hi; apply in_seq in Hi; apply Hr; lia).
  unfold cat_rbm_call. rewrite exp_plus, <- (rprod_softplus (cat_pre nv C w b_h v)), <- sum_exp_hidden, map_length, seq_length.
  rewrite Rmult_comm, <- rsum_scal. apply rsum_ext. intros h Hh. apply in_states in Hh. destruct Hh as [Hlh _].
  rewrite <- exp_plus, combine_map_seq by auto. f_equal. unfold cat_joint, cat_pre.
  rewrite (rsum_ext (seq 0 nv) (fun i => rsum (seq 0 C) (fun c => hot v i c * b_v i c)) (fun i => b_v i (nth i v 0%nat))) by (intros; apply hot_sum; auto).
  rewrite rsum_swap.
  rewrite (rsum_ext (seq 0 nh) (fun j => at_ h j * (rsum (seq 0 nv) (fun i => rsum (seq 0 C) (fun c => hot v i c * w j i c)) + b_h j))
    (fun j => rsum (seq 0 nv) (fun i => w j i (nth i v 0%nat) * at_ h j) + at_ h j * b_h j)).
  - rewrite rsum_plus. ring.
  - intros j _. rewrite Rmult_plus_distr_l, <- rsum_scal. f_equal. apply rsum_ext. intros i Hin. rewrite hot_sum by auto. ring.
Qed.
End Categ.

(** With zero couplings the bias taken from the data mean makes every visible unit 1 with exactly that probability. *)
Theorem rbm_bias_init nv nh (mean : nat -> R) v : (forall i, (i < nv)%nat -> 0 < mean i < 1) -> In v (states nv 2) ->
  exp (rbm_call nv nh (fun _ _ => 0) (fun i => bias_from_mean (mean i)) (fun _ => 0) v)
  = 2 ^ nh * / rprod (seq 0 nv) (fun i => 1 - mean i) * rprod (seq 0 nv) (fun i => if Nat.eqb (nth i v 0%nat) 1 then mean i else 1 - mean i).
Proof.
  intros Hm Hv. apply in_states in Hv. destruct Hv as [Hl Hr]. rewrite Forall_nth_iff with (d := 0%nat) in Hr. unfold rbm_call. rewrite exp_plus, Rmult_assoc. f_equal.
  - rewrite (rsum_ext _ _ (fun _ => ln 2)).
    + rewrite rsum_const, seq_length. rewrite <- Rpower_pow by lra. unfold Rpower. reflexivity.
    + intros j _. unfold softplus, pre_h. rewrite (rsum_const0 (seq 0 nv)) by (intros; ring). rewrite Rplus_0_l, exp_0. f_equal.
  - assert (K : forall l, (forall i, In i l -> (i < nv)%nat) -> exp (rsum l (fun i => at_ v i * bias_from_mean (mean i))) = / rprod l (fun i => 1 - mean i) * rprod l (fun i => if Nat.eqb (nth i v 0%nat) 1 then mean i else 1 - mean i)).
    { induction l as [|i l IH]; intros H; cbn [rsum rprod]; [rewrite exp_0; field|]. rewrite exp_plus, IH by (intros; apply H; right; auto).
      assert (Hi : (i < nv)%nat) by (apply H; left; auto). pose proof (Hm i Hi) as Hmi.
      assert (HP : 0 < rprod l (fun i => 1 - mean i)) by (clear IH; induction l as [|k l IHl]; cbn [rprod]; [lra|]; apply Rmult_lt_0_compat; [pose proof (Hm k ltac:(apply H; cbn; auto)); lra|apply IHl; intros k' [->|Hk]; apply H; cbn; auto]).
      specialize (Hr i ltac:(lia)). unfold at_. destruct (nth i v 0%nat) as [|[|n]]; [| |lia]; cbn [Nat.eqb INR].
      - rewrite Rmult_0_l, exp_0. field. lra.
      - rewrite Rmult_1_l. unfold bias_from_mean. rewrite exp_ln by (apply Rdiv_lt_0_compat; lra). field. lra. }
    apply K. intros i Hi. apply in_seq in Hi. lia.
Qed.

(** Initialising the categorical network fails unless the number of visible units is 1 or the number of categories is 1 or both agree. *)
Lemma cat_init_fails nv nh C : (1 < nv)%nat -> (1 < C)%nat -> nv <> C -> cat_init_shape nv nh C = None.
Proof.
  intros H1 H2 H3. unfold cat_init_shape. cbn [bcast_shape]. unfold bcast at 3.
  destruct (Nat.eqb_spec nv C); [contradiction|]. destruct (Nat.eqb_spec nv 1); [lia|]. destruct (Nat.eqb_spec C 1); [lia|].
  destruct (bcast 1 nv), (bcast 1 nh); reflexivity.
Qed.
