(** Property theorems C37, C58 and the Bernoulli/categorical part of C21. *)
From Coq Require Import Reals List Lra Lia Arith.
From Verif.Base Require Import RSum Cube.
From Verif.Model Require Import MathUtil Factorised.
From Verif.Proof Require Import AffineProof FactorisedProof CombProof.
Import ListNotations.
Local Open Scope R_scope.

(** ** C37 *)
(** Under the law proportional to exp(forward) the expectation of any product of single-site functions is the product of the
    single-site expectations with success probability get_expected_val: full joint law, independence included. *)
Theorem C37_bernoulli_law : forall theta (fs : list (nat -> R)), length fs = length theta ->
  rsum (states (length theta) 2) (fun x => exp (bern_forward_int theta x) * prod_at fs x)
  / rsum (states (length theta) 2) (fun x => exp (bern_forward_int theta x))
  = rprod (combine (bern_expected theta) fs) (fun p => (1 - fst p) * snd p 0%nat + fst p * snd p 1%nat).
Proof. exact bern_independent. Qed.
Print Assumptions C37_bernoulli_law.

Theorem C37_bernoulli_partition : forall theta,
  rsum (states (length theta) 2) (fun x => exp (bern_forward_int theta x)) = rprod theta (fun t => 1 + exp t).
Proof. exact bern_partition. Qed.
Print Assumptions C37_bernoulli_partition.

Theorem C37_bernoulli_mean : forall theta i, (i < length theta)%nat ->
  rsum (states (length theta) 2) (fun x => exp (bern_forward_int theta x) * INR (nth i x 0%nat))
  / rsum (states (length theta) 2) (fun x => exp (bern_forward_int theta x)) = nth i (bern_expected theta) 0.
Proof. exact bern_mean. Qed.
Print Assumptions C37_bernoulli_mean.

Theorem C37_bernoulli_variance : forall theta i, (i < length theta)%nat ->
  rsum (states (length theta) 2) (fun x => exp (bern_forward_int theta x) * (INR (nth i x 0%nat) - nth i (bern_expected theta) 0) ^ 2)
  / rsum (states (length theta) 2) (fun x => exp (bern_forward_int theta x)) = nth i (bern_var theta) 0.
Proof. exact bern_variance. Qed.
Print Assumptions C37_bernoulli_variance.

Theorem C37_bernoulli_expected_range : forall theta i, (i < length theta)%nat -> 0 < nth i (bern_expected theta) 0 < 1.
Proof. exact bern_expected_range. Qed.
Print Assumptions C37_bernoulli_expected_range.

(** Categorical: site-wise softmax, sites independent. *)
Theorem C37_categorical_law : forall C theta (fs : list (nat -> R)), (0 < C)%nat ->
  Forall (fun row => length row = C) theta -> length fs = length theta ->
  rsum (states (length theta) C) (fun x => exp (cat_forward C theta x) * prod_at fs x)
  / rsum (states (length theta) C) (fun x => exp (cat_forward C theta x))
  = rprod (combine theta fs) (fun p => rsum (seq 0 C) (fun c =>
      (exp (nth c (fst p) 0) / rsum (seq 0 (length (fst p))) (fun c' => exp (nth c' (fst p) 0))) * snd p c)).
Proof. exact cat_independent. Qed.
Print Assumptions C37_categorical_law.

(** Integer input: the sum of the selected parameters; float one-hot input gives the same by definition of one-hot. *)
Theorem C37_categorical_energy : forall C theta x, Forall (fun row => length row = C) theta ->
  cat_forward C theta x = rsum (combine x theta) (fun p => nth (fst p) (snd p) 0)
  /\ cat_forward_onehot theta (map (fun v => map (fun c => if Nat.eqb v c then 1 else 0) (seq 0 C)) x) = cat_forward C theta x.
Proof. intros C theta x H. exact (conj (cat_forward_spec C theta x H) eq_refl). Qed.
Print Assumptions C37_categorical_energy.

(** theta = (0, ln 3): means 1/2 and 3/4. *)
Example C37_case : nth 0 (bern_expected [0; ln 3]) 0 = / 2 /\ nth 1 (bern_expected [0; ln 3]) 0 = 3 / 4.
Proof. unfold bern_expected. cbn [map nth]. rewrite exp_0, exp_ln by lra. lra. Qed.
Example C37_case_categorical : Forall (fun row => length row = 3%nat) [[0; 1; 2]; [5; 5; 5]] /\ cat_forward 3 [[0; 1; 2]; [5; 5; 5]] [2; 0]%nat = 7.
Proof. split; [repeat constructor|]. unfold cat_forward, cat_forward_onehot, one_hot. cbn. ring. Qed.

(** ** C21, Bernoulli and categorical *)
Theorem C21_bernoulli_gradient_exact : forall theta x i g, length x = length theta -> (i < length x)%nat -> (nth i x 0 < 2)%nat ->
  derivable_pt_lim (fun t => bern_forward theta (upd i t (map INR x))) (INR (nth i x 0%nat)) g ->
  (1 - 2 * INR (nth i x 0%nat)) * g = bern_forward_int theta (upd i (1 - nth i x 0)%nat x) - bern_forward_int theta x.
Proof. exact bern_grad_exact. Qed.
Print Assumptions C21_bernoulli_gradient_exact.

Theorem C21_bernoulli_logratio_exact : forall theta x i, length x = length theta -> (i < length x)%nat -> (nth i x 0 < 2)%nat ->
  nth i (bern_logratio theta x) 0 = bern_forward_int theta (upd i (1 - nth i x 0)%nat x) - bern_forward_int theta x.
Proof. exact bern_logratio_exact. Qed.
Print Assumptions C21_bernoulli_logratio_exact.

(** Categorical: the energy is linear in the one-hot entries, so the parameter row is the gradient and differences of its
    entries are the exact changes. *)
Theorem C21_categorical_exact : forall C theta x i v, Forall (fun row => length row = C) theta -> length x = length theta -> (i < length x)%nat ->
  cat_forward C theta (upd i v x) - cat_forward C theta x = nth v (nth i theta []) 0 - nth (nth i x 0%nat) (nth i theta []) 0.
Proof. exact cat_upd. Qed.
Print Assumptions C21_categorical_exact.

Example C21_bernoulli_case : nth 1 (bern_logratio [2; 3] [0; 1]%nat) 0 = -3 /\ bern_forward_int [2; 3] [0; 1]%nat = 3 /\ bern_forward_int [2; 3] [0; 0]%nat = 0.
Proof. unfold bern_logratio, bern_forward_int, bern_forward. cbn. repeat split; ring. Qed.

(** ** C58: comb and prod *)
(** comb n k is the number of 0/1 vectors of length n with k ones (of k-element subsets). *)
Theorem C58_comb_counts_subsets : forall n k, (k <= n)%nat -> comb n k = length (filter (fun s => Nat.eqb (list_sum s) k) (states n 2)).
Proof. exact comb_counts. Qed.
Print Assumptions C58_comb_counts_subsets.

Theorem C58_comb_factorials : forall n k, (k <= n)%nat -> (comb n k * (fact k * fact (n - k)) = fact n)%nat.
Proof. intros n k H. rewrite (comb_choose n k H). exact (choose_fact n k H). Qed.
Print Assumptions C58_comb_factorials.

(** prod shape is the number of cells of an array of that shape. *)
Theorem C58_prod_counts_cells : forall l,
  MathUtil.prod l = length (fold_right (fun n acc => flat_map (fun i => map (cons i) acc) (seq 0 n)) [[]] l).
Proof. exact prod_states. Qed.
Print Assumptions C58_prod_counts_cells.

Example C58_case : comb 5 2 = 10%nat /\ MathUtil.prod [3; 4; 2]%nat = 24%nat /\ MathUtil.prod [] = 1%nat.
Proof. repeat split. Qed.
