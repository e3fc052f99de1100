(** Property theorems C38 to C40 and C59: restricted Boltzmann machines and factorial hidden Markov models. *)
From Coq Require Import Reals List Arith Lra Lia.
From Verif.Base Require Import RSum Cube Dist XFloat.
From Verif.Spec Require Import Chain Latent.
From Verif.Model Require Import RBM FHMM.
From Verif.Proof Require Import RBMProof FHMMProof.
Import ListNotations.
Local Open Scope R_scope.

(** ** C38 *)
(** The energy of a visible vector is the log of the sum over all hidden vectors. *)
Theorem C38_binary_marginal : forall nv nh w b_v b_h v,
  exp (rbm_call nv nh w b_v b_h v)
  = rsum (states nh 2) (fun h => exp (
      rsum (seq 0 nv) (fun i => rsum (seq 0 nh) (fun j => INR (nth i v 0%nat) * w i j * INR (nth j h 0%nat)))
      + rsum (seq 0 nv) (fun i => INR (nth i v 0%nat) * b_v i) + rsum (seq 0 nh) (fun j => INR (nth j h 0%nat) * b_h j))).
Proof. exact rbm_marginal. Qed.
Print Assumptions C38_binary_marginal.
Theorem C38_categorical_marginal : forall nv nh C w b_v b_h v, In v (states nv C) ->
  exp (cat_rbm_call nv nh C w b_v b_h v)
  = rsum (states nh 2) (fun h => exp (
      rsum (seq 0 nv) (fun i => rsum (seq 0 nh) (fun j => w j i (nth i v 0%nat) * INR (nth j h 0%nat)))
      + rsum (seq 0 nv) (fun i => b_v i (nth i v 0%nat)) + rsum (seq 0 nh) (fun j => INR (nth j h 0%nat) * b_h j))).
Proof. exact cat_rbm_marginal. Qed.
Print Assumptions C38_categorical_marginal.
Theorem C38_block_reversible : forall nv nh w b_v b_h,
  reversible (states nv 2) (fun v => exp (rbm_call nv nh w b_v b_h v)) (rbm_block_step nv nh w b_v b_h).
Proof. exact rbm_block_reversible. Qed.
Print Assumptions C38_block_reversible.
Theorem C38_block_invariant : forall nv nh w b_v b_h,
  invariant (states nv 2) (fun v => exp (rbm_call nv nh w b_v b_h v)) (rbm_block_step nv nh w b_v b_h).
Proof. exact rbm_block_invariant. Qed.
Print Assumptions C38_block_invariant.
Theorem C38_block_is_prob : forall nv nh w b_v b_h v, is_prob (rbm_block_step nv nh w b_v b_h v).
Proof. exact rbm_block_prob. Qed.
Print Assumptions C38_block_is_prob.
(** The initial visible bias reproduces the data mean when the couplings vanish. *)
Theorem C38_bias_init : forall nv nh (mean : nat -> R) v, (forall i, (i < nv)%nat -> 0 < mean i < 1) -> In v (states nv 2) ->
  exp (rbm_call nv nh (fun _ _ => 0) (fun i => bias_from_mean (mean i)) (fun _ => 0) v)
  = 2 ^ nh * / rprod (seq 0 nv) (fun i => 1 - mean i) * rprod (seq 0 nv) (fun i => if Nat.eqb (nth i v 0%nat) 1 then mean i else 1 - mean i).
Proof. exact rbm_bias_init. Qed.
Print Assumptions C38_bias_init.
Example C38_ex : In [1; 0]%nat (states 2 2) /\ In [2; 0; 1]%nat (states 3 3)
  /\ rbm_call 2 1 (fun i _ => INR i) (fun _ => 3) (fun _ => 0) [1; 0]%nat = ln 2 + 3.
Proof.
  split; [apply in_states; split; [reflexivity|repeat constructor]|]. split; [apply in_states; split; [reflexivity|repeat constructor]|].
  unfold rbm_call, softplus, pre_h, at_. cbn [seq rsum nth INR]. replace (1 * 0 + (0 * 1 + 0) + 0) with 0 by ring. rewrite exp_0. replace (1 + 1) with 2 by ring. ring.
Qed.

(** ** C39 *)
(** The exponential of the energy is prior times Gaussian likelihood (unnormalised). *)
Theorem C39_joint_density : forall alpha beta sigma b w y k l rows, 0 < alpha < 1 -> 0 < beta < 1 -> (0 < l)%nat -> In rows (lists_over (states k 2) l) ->
  exp (bin_forward alpha beta sigma b w y rows)
  = path_prob (one_with alpha) (stay beta) rows
    * rprod (combine rows y) (fun ry => exp (- (snd ry - (rsum (combine (fst ry) w) (fun xw => INR (fst xw) * snd xw) + b)) ^ 2 / (2 * sigma ^ 2))).
Proof. exact bin_forward_joint. Qed.
Print Assumptions C39_joint_density.
Theorem C39_prior_total : forall alpha beta l k, (0 < l)%nat -> rsum (lists_over (states k 2) l) (path_prob (one_with alpha) (stay beta)) = 1.
Proof. intros alpha beta l k Hl. apply path_prob_total; [exact Hl|apply one_with_total|intros; apply stay_total; assumption]. Qed.
Print Assumptions C39_prior_total.
(** The hidden paths used to generate the data follow the same prior. *)
Theorem C39_generator_law : forall alpha beta l k g, (0 < l)%nat ->
  E (bin_sample_X alpha beta l k) g = rsum (lists_over (states k 2) l) (fun rows => path_prob (one_with alpha) (stay beta) rows * g rows).
Proof. exact bin_sample_law. Qed.
Print Assumptions C39_generator_law.
(** At beta = 1 a chain that never changes has positive probability, but its energy term is not a number (0 * log 0). *)
Theorem C39_degenerate_refuted : exists beta a b, 0 <= beta <= 1 /\ (a < 2)%nat /\ (b < 2)%nat /\ 0 < stay beta a b /\ log_px_xf (1 - beta) (x_change (INR a) (INR b)) = NaN.
Proof.
  exists 1, 0%nat, 0%nat. split; [lra|]. split; [lia|]. split; [lia|]. split; [unfold stay; cbn; lra|].
  replace (x_change (INR 0) (INR 0)) with 0 by (unfold x_change; cbn; ring). exact degenerate_nan.
Qed.
Print Assumptions C39_degenerate_refuted.
Example C39_ex : In [[0; 1]; [1; 1]; [1; 0]]%nat (lists_over (states 2 2) 3)
  /\ path_prob (one_with (/ 4)) (stay (/ 3)) [[0; 1]; [1; 1]; [1; 0]]%nat = 3 / 4 * / 4 * (2 / 3 * / 3) * (/ 3 * (2 / 3)).
Proof.
  split; [apply in_lists_over; split; [reflexivity|repeat constructor; apply in_states; split; auto; repeat constructor]|]. unfold path_prob, one_with, stay. cbn. lra.
Qed.

(** ** C40 *)
Theorem C40_rows_refuted : exists n beta i, (2 < n)%nat /\ 0 < beta < 1 /\ (i < n)%nat /\
  rsum (seq 0 n) (trans_table n beta i) <> 1 /\ trans_table n beta i i / rsum (seq 0 n) (trans_table n beta i) <> beta.
Proof.
  destruct table_refuted as (n & beta & i & H1 & H2 & H3 & H4 & H5). exists n, beta, i. split; [exact H1|]. split; [exact H2|]. split; [exact H3|]. split; [exact H4|].
  rewrite row_sum by lia. intros H. apply H5. unfold eff_stay. transitivity (trans_table n beta i i / row_total n beta); [f_equal; rewrite !table_diag; reflexivity|exact H].
Qed.
Print Assumptions C40_rows_refuted.
(** No parameter makes it right: every row sums to more than 1. *)
Theorem C40_rows_above_one : forall n beta i, (1 < n)%nat -> 0 <= beta <= 1 -> (i < n)%nat -> 1 < rsum (seq 0 n) (trans_table n beta i).
Proof. intros n beta i Hn. exact (row_sum_above_one n Hn beta i). Qed.
Print Assumptions C40_rows_above_one.
(** All rows have the same sum, so the energy is that of a proper chain with another stay probability, up to a constant;
    the paths generated by the model follow that same chain. *)
Theorem C40_energy_of_proper_chain : forall n, (1 < n)%nat -> forall beta, 0 <= beta <= 1 -> exists q c, 0 < q < 1 /\ 0 < c /\
  (forall a, (a < n)%nat -> rsum (seq 0 n) (stay_cat n q a) = 1) /\
  (forall alpha sigma b w y k l rows, (0 < l)%nat -> In rows (lists_over (states k n) l) ->
    exp (cat_forward n alpha beta sigma b w k y rows)
    = c ^ (k * (l - 1)) * path_prob (fun v => exp (alpha v)) (stay_cat n q) rows
      * rprod (combine rows y) (fun ry => exp (- (snd ry - (rsum (seq 0 k) (fun i => w i (nth i (fst ry) 0%nat)) + b)) ^ 2 / (2 * sigma ^ 2)))) /\
  (forall p0 l k g, (0 < l)%nat -> (forall v, (v < n)%nat -> 0 < p0 v) -> rsum (seq 0 n) p0 = 1 ->
    E (cat_sample_X n (fun v => ln (p0 v)) beta l k) g = rsum (lists_over (states k n) l) (fun rows => path_prob p0 (stay_cat n q) rows * g rows)).
Proof.
  intros n Hn beta Hb. exists (eff_stay n beta), (row_total n beta). split; [apply eff_stay_range; auto|]. split; [unfold row_total; pose proof (diag_pos n Hn beta Hb); lra|].
  split; [intros a Ha; apply (stay_cat_total n Hn); exact Ha|]. split.
  - intros alpha sigma b w y k l rows Hl Hin. exact (cat_forward_joint n Hn alpha beta sigma b w y k l rows Hb Hl Hin).
  - intros p0 l k g Hl Hp Hp1. exact (cat_sample_law n Hn p0 beta l k g Hb Hl Hp Hp1).
Qed.
Print Assumptions C40_energy_of_proper_chain.
(** The initial probabilities do sum to 1. *)
Theorem C40_initial_total : forall n alpha u, (1 < n)%nat -> rsum (seq 1 (n - 1)) u <> 0 -> rsum (seq 0 n) (init_alpha n alpha u) = 1.
Proof. intros n alpha u Hn. exact (init_alpha_total n Hn alpha u). Qed.
Print Assumptions C40_initial_total.
Example C40_ex : rsum (seq 0 3) (trans_table 3 (/ 2) 1) = 13 / 8 /\ rsum (seq 0 3) (init_alpha 3 (/ 4) (fun c => INR c)) = 1.
Proof. split; [unfold trans_table; cbn; lra|unfold init_alpha; cbn; lra]. Qed.

(** ** C59 *)
Theorem C59_one_energy_per_chain : forall n B l k, (0 < l)%nat -> (0 < k)%nat -> (0 < n)%nat -> k <> n -> cat_num_energies n B l k = Some B.
Proof. exact num_energies_ok. Qed.
Print Assumptions C59_one_energy_per_chain.
(** With as many hidden chains as categories the integer batch is taken for one-hot: never the right number of energies. *)
Theorem C59_as_many_chains_as_categories_refuted : exists n B l k, (0 < l)%nat /\ (0 < B)%nat /\ (2 < n)%nat /\ (0 < k)%nat /\ cat_num_energies n B l k <> Some B.
Proof. exists 4%nat, 8%nat, 16%nat, 4%nat. split; [lia|]. split; [lia|]. split; [lia|]. split; [lia|]. apply num_energies_wrong; lia. Qed.
Print Assumptions C59_as_many_chains_as_categories_refuted.
Theorem C59_as_many_chains_as_categories : forall n B l k, (0 < l)%nat -> (0 < B)%nat -> (1 < n)%nat -> k = n -> cat_num_energies n B l k <> Some B.
Proof. exact num_energies_wrong. Qed.
Print Assumptions C59_as_many_chains_as_categories.
Example C59_ex : cat_num_energies 4 8 16 10 = Some 8%nat /\ cat_num_energies 4 8 16 4 = Some 2%nat.
Proof. split; reflexivity. Qed.

(** ** C60 *)
(** A categorical RBM without stored parameters cannot be initialised, except in degenerate sizes. *)
Theorem C60_categorical_init_refuted : exists nv nh C, (0 < nv)%nat /\ (0 < nh)%nat /\ (2 < C)%nat /\ cat_init_shape nv nh C = None.
Proof. exists 4%nat, 2%nat, 3%nat. split; [lia|]. split; [lia|]. split; [lia|]. reflexivity. Qed.
Print Assumptions C60_categorical_init_refuted.
Theorem C60_categorical_init_fails : forall nv nh C, (1 < nv)%nat -> (1 < C)%nat -> nv <> C -> cat_init_shape nv nh C = None.
Proof. exact cat_init_fails. Qed.
Print Assumptions C60_categorical_init_fails.
Example C60_ex : cat_init_shape 784 25 256 = None.
Proof. apply C60_categorical_init_fails; lia. Qed.
