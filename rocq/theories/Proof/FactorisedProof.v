(** Normalisation and moments of the factorised models; exact flip scores. *)
From Coq Require Import Reals List Lra Lia Arith.
From Verif.Base Require Import RSum Cube.
From Verif.Model Require Import Factorised.
From Verif.Proof Require Import AffineProof.
Import ListNotations.
Local Open Scope R_scope.

Lemma exp_bern theta : forall x, length x = length theta -> exp (bern_forward_int theta x) = prod_at (map (fun t v => exp (INR v * t)) theta) x.
Proof.
  induction theta as [|t theta IH]; intros [|v x] H; simpl in H; try discriminate.
  - unfold bern_forward_int, bern_forward. simpl. apply exp_0.
  - unfold bern_forward_int, bern_forward in *. cbn [map combine rsum prod_at fst snd]. rewrite exp_plus, IH by lia. reflexivity.
Qed.

Lemma prod_at_mult {A} (fs gs : list (A -> R)) : forall x, length fs = length gs -> length x = length fs ->
  prod_at fs x * prod_at gs x = prod_at (map (fun p a => fst p a * snd p a) (combine fs gs)) x.
Proof.
  revert gs; induction fs as [|f fs IH]; intros [|g gs] [|a x] H Hx; simpl in *; try discriminate; try ring.
  rewrite <- IH by lia. ring.
Qed.

(** Weighted sum of a product over sites. *)
Lemma bern_product theta (fs : list (nat -> R)) : length fs = length theta ->
  rsum (states (length theta) 2) (fun x => exp (bern_forward_int theta x) * prod_at fs x)
  = rprod (combine theta fs) (fun p => snd p 0%nat + exp (fst p) * snd p 1%nat).
Proof.
  intros Hl.
  transitivity (rsum (states (length theta) 2) (prod_at (map (fun p a => fst p a * snd p a) (combine (map (fun t v => exp (INR v * t)) theta) fs)))).
  - apply rsum_ext. intros x Hx. apply in_states in Hx. destruct Hx as [Hx _]. rewrite exp_bern by auto.
    apply prod_at_mult; rewrite map_length; auto.
  - set (G := map _ _). unfold states. replace (length theta) with (length G).
    + rewrite rsum_prod_at. unfold G. clear. revert fs. induction theta as [|t theta IH]; intros [|f fs]; cbn [map combine rprod]; try reflexivity.
      rewrite IH. f_equal. cbn [seq rsum fst snd INR]. rewrite Rmult_0_l, exp_0, !Rmult_1_l. ring.
    + unfold G. rewrite map_length, combine_length, map_length. lia.
Qed.

Lemma prod_at_ones {A} n (x : list A) : prod_at (repeat (fun _ => 1) n) x = 1.
Proof. revert x; induction n as [|n IH]; intros [|a x]; simpl; auto. rewrite IH. ring. Qed.

Lemma bern_partition theta : rsum (states (length theta) 2) (fun x => exp (bern_forward_int theta x)) = rprod theta (fun t => 1 + exp t).
Proof.
  rewrite (rsum_ext _ _ (fun x => exp (bern_forward_int theta x) * prod_at (repeat (fun _ => 1) (length theta)) x)) by (intros; rewrite prod_at_ones; ring).
  rewrite bern_product by apply repeat_length. clear. induction theta as [|t theta IH]; cbn [repeat combine length rprod]; auto.
  rewrite IH. cbn [fst snd]. f_equal. ring.
Qed.

Lemma rprod_pos {A} (l : list A) f : (forall a, In a l -> 0 < f a) -> 0 < rprod l f.
Proof. induction l as [|a l IH]; intros H; simpl; [lra|]. apply Rmult_lt_0_compat; [apply H; left; auto|apply IH; intros; apply H; right; auto]. Qed.

Theorem bern_independent theta (fs : list (nat -> R)) : length fs = length theta ->
  rsum (states (length theta) 2) (fun x => exp (bern_forward_int theta x) * prod_at fs x)
  / rsum (states (length theta) 2) (fun x => exp (bern_forward_int theta x))
  = rprod (combine (bern_expected theta) fs) (fun p => (1 - fst p) * snd p 0%nat + fst p * snd p 1%nat).
Proof.
  intros Hl. rewrite bern_product, bern_partition by auto.
  assert (Hp : 0 < rprod theta (fun t => 1 + exp t)) by (apply rprod_pos; intros t _; pose proof (exp_pos t); lra).
  apply (Rmult_eq_reg_r (rprod theta (fun t => 1 + exp t))); [|lra].
  unfold Rdiv. rewrite Rmult_assoc, Rinv_l, Rmult_1_r by lra. clear Hp.
  revert fs Hl. induction theta as [|t theta IH]; intros [|f fs] Hl; try discriminate; cbn [combine bern_expected map rprod]; [ring|].
  simpl in Hl. rewrite (IH fs) by lia. cbn [fst snd]. pose proof (exp_pos t).
  change (map (fun t => exp t / (exp t + 1)) theta) with (bern_expected theta).
  generalize (rprod (combine (bern_expected theta) fs) (fun p => (1 - fst p) * snd p 0%nat + fst p * snd p 1%nat)). intros P.
  generalize (rprod theta (fun t => 1 + exp t)). intros Q. field. lra.
Qed.

(** The law with one site singled out. *)
Definition single {A} (i n : nat) (f : A -> R) : list (A -> R) := map (fun j => if Nat.eqb j i then f else (fun _ => 1)) (seq 0 n).

Lemma prod_at_single_gen {A} (f : A -> R) (d : A) : forall n i k (x : list A), length x = n -> (k <= i < k + n)%nat ->
  prod_at (map (fun j => if Nat.eqb j i then f else (fun _ => 1)) (seq k n)) x = f (nth (i - k) x d).
Proof.
  assert (Hone : forall n i k (x : list A), (i < k)%nat -> prod_at (map (fun j => if Nat.eqb j i then f else (fun _ => 1)) (seq k n)) x = 1).
  { induction n as [|n IH]; intros i k [|a x] H; simpl; auto. destruct (Nat.eqb_spec k i); [lia|]. rewrite IH by lia. ring. }
  induction n as [|n IH]; intros i k [|a x] Hx Hi; simpl in Hx; try discriminate; [lia|]. cbn [seq map prod_at].
  destruct (Nat.eqb_spec k i) as [->|Hne].
  - rewrite Hone by lia. rewrite Nat.sub_diag. simpl. ring.
  - rewrite IH by lia. replace (i - k)%nat with (S (i - S k)) by lia. simpl. ring.
Qed.

Lemma prod_at_single {A} (f : A -> R) (d : A) n i (x : list A) : length x = n -> (i < n)%nat -> prod_at (single i n f) x = f (nth i x d).
Proof. intros Hx Hi. unfold single. rewrite (prod_at_single_gen f d n i 0 x Hx) by lia. rewrite Nat.sub_0_r. reflexivity. Qed.

Lemma rprod_single_gen (f : nat -> R) (P : list R) : forall i k, (k <= i < k + length P)%nat ->
  rprod (combine P (map (fun j => if Nat.eqb j i then f else (fun _ => 1)) (seq k (length P)))) (fun p => (1 - fst p) * snd p 0%nat + fst p * snd p 1%nat)
  = (1 - nth (i - k) P 0) * f 0%nat + nth (i - k) P 0 * f 1%nat.
Proof.
  assert (Hone : forall (P : list R) i k, (i < k)%nat ->
    rprod (combine P (map (fun j => if Nat.eqb j i then f else (fun _ => 1)) (seq k (length P)))) (fun p => (1 - fst p) * snd p 0%nat + fst p * snd p 1%nat) = 1).
  { clear P. induction P as [|p P IH]; intros i k H; cbn [length seq map combine rprod]; auto. destruct (Nat.eqb_spec k i); [lia|]. rewrite IH by lia. cbn [fst snd]. ring. }
  induction P as [|p P IH]; intros i k Hi; cbn [length seq map combine rprod] in *; [lia|].
  destruct (Nat.eqb_spec k i) as [->|Hne].
  - rewrite Hone by lia. rewrite Nat.sub_diag. cbn [fst snd nth]. ring.
  - rewrite IH by lia. replace (i - k)%nat with (S (i - S k)) by lia. cbn [fst snd nth]. ring.
Qed.

Theorem bern_marginal theta i (f : nat -> R) : (i < length theta)%nat ->
  rsum (states (length theta) 2) (fun x => exp (bern_forward_int theta x) * f (nth i x 0%nat))
  / rsum (states (length theta) 2) (fun x => exp (bern_forward_int theta x))
  = (1 - nth i (bern_expected theta) 0) * f 0%nat + nth i (bern_expected theta) 0 * f 1%nat.
Proof.
  intros Hi. transitivity (rsum (states (length theta) 2) (fun x => exp (bern_forward_int theta x) * prod_at (single i (length theta) f) x)
    / rsum (states (length theta) 2) (fun x => exp (bern_forward_int theta x))).
  - f_equal. apply rsum_ext. intros x Hx. apply in_states in Hx. rewrite (prod_at_single f 0%nat) by tauto. reflexivity.
  - rewrite bern_independent by (unfold single; rewrite map_length, seq_length; auto).
    assert (Hle : length (bern_expected theta) = length theta) by apply map_length.
    unfold single. rewrite <- Hle. rewrite (rprod_single_gen f (bern_expected theta) i 0) by (rewrite Hle; lia).
    rewrite Nat.sub_0_r. reflexivity.
Qed.

Theorem bern_mean theta i : (i < length theta)%nat ->
  rsum (states (length theta) 2) (fun x => exp (bern_forward_int theta x) * INR (nth i x 0%nat))
  / rsum (states (length theta) 2) (fun x => exp (bern_forward_int theta x)) = nth i (bern_expected theta) 0.
Proof. intros Hi. rewrite (bern_marginal theta i INR Hi). simpl. ring. Qed.

Theorem bern_variance theta i : (i < length theta)%nat ->
  rsum (states (length theta) 2) (fun x => exp (bern_forward_int theta x) * (INR (nth i x 0%nat) - nth i (bern_expected theta) 0) ^ 2)
  / rsum (states (length theta) 2) (fun x => exp (bern_forward_int theta x)) = nth i (bern_var theta) 0.
Proof.
  intros Hi. rewrite (bern_marginal theta i (fun v => (INR v - nth i (bern_expected theta) 0) ^ 2) Hi).
  unfold bern_var. rewrite (nth_indep (map _ (bern_expected theta)) 0 (0 * (1 - 0))) by (unfold bern_expected; rewrite !map_length; auto).
  rewrite (map_nth (fun p => p * (1 - p))). simpl. ring.
Qed.

Lemma bern_expected_range theta i : (i < length theta)%nat -> 0 < nth i (bern_expected theta) 0 < 1.
Proof.
  intros Hi. unfold bern_expected. rewrite (nth_indep _ 0 ((fun t => exp t / (exp t + 1)) 0)) by (rewrite map_length; auto).
  rewrite (map_nth (fun t => exp t / (exp t + 1))). pose proof (exp_pos (nth i theta 0)) as H. set (e := exp _) in *.
  split; [apply Rdiv_lt_0_compat; lra|]. apply (Rmult_lt_reg_r (e + 1)); [lra|]. unfold Rdiv. rewrite Rmult_assoc, Rinv_l by lra. lra.
Qed.

(** Flip scores. *)
Lemma bern_index theta : forall x, length x = length theta -> bern_forward theta x = rsum (seq 0 (length theta)) (fun i => nth i x 0 * nth i theta 0).
Proof.
  unfold bern_forward. induction theta as [|t theta IH]; intros [|v x] H; simpl in H; try discriminate; [reflexivity|].
  cbn [combine rsum length seq]. rewrite IH by lia. cbn [fst snd nth]. f_equal.
  rewrite <- seq_shift, rsum_map. reflexivity.
Qed.

Lemma bern_upd theta : forall x i v, length x = length theta -> (i < length x)%nat ->
  bern_forward theta (upd i v x) = bern_forward theta x + (v - nth i x 0) * nth i theta 0.
Proof.
  unfold bern_forward. induction theta as [|t theta IH]; intros [|u x] i v H Hi; simpl in H, Hi; try discriminate; try lia.
  destruct i as [|i]; cbn [upd combine rsum nth fst snd].
  - ring.
  - rewrite IH by lia. ring.
Qed.

Lemma map_upd {A B} (f : A -> B) i v l : map f (upd i v l) = upd i (f v) (map f l).
Proof. revert i; induction l as [|a l IH]; intros [|i]; simpl; auto. rewrite IH. auto. Qed.

Lemma nth_map_INR x i : nth i (map INR x) 0 = INR (nth i x 0%nat).
Proof. change 0 with (INR 0). apply map_nth. Qed.

Theorem bern_logratio_exact theta x i : length x = length theta -> (i < length x)%nat -> (nth i x 0 < 2)%nat ->
  nth i (bern_logratio theta x) 0 = bern_forward_int theta (upd i (1 - nth i x 0)%nat x) - bern_forward_int theta x.
Proof.
  intros H Hi Hb. unfold bern_forward_int. rewrite map_upd, bern_upd by (rewrite map_length; auto). rewrite nth_map_INR.
  rewrite minus_INR by lia. unfold bern_logratio.
  rewrite (nth_indep _ 0 ((fun p => (1 - 2 * INR (fst p)) * snd p) (0%nat, 0))) by (rewrite map_length, combine_length; lia).
  rewrite (map_nth (fun p : nat * R => (1 - 2 * INR (fst p)) * snd p)). rewrite combine_nth by auto. cbn [fst snd]. simpl. ring.
Qed.

Theorem bern_grad theta x i g : length x = length theta -> (i < length x)%nat ->
  derivable_pt_lim (fun t => bern_forward theta (upd i t (map INR x))) (INR (nth i x 0%nat)) g -> g = nth i theta 0.
Proof.
  intros H Hi Hd.
  assert (Ha : affine (fun t => bern_forward theta (upd i t (map INR x)))).
  { exists (bern_forward theta (map INR x) - INR (nth i x 0%nat) * nth i theta 0), (nth i theta 0). intros t.
    rewrite bern_upd by (rewrite map_length; auto). rewrite nth_map_INR. ring. }
  pose proof (affine_derivative _ _ _ Ha Hd 0 1) as K. cbv beta in K. rewrite !bern_upd in K by (rewrite map_length; auto). lra.
Qed.

Theorem bern_grad_exact theta x i g : length x = length theta -> (i < length x)%nat -> (nth i x 0 < 2)%nat ->
  derivable_pt_lim (fun t => bern_forward theta (upd i t (map INR x))) (INR (nth i x 0%nat)) g ->
  (1 - 2 * INR (nth i x 0%nat)) * g = bern_forward_int theta (upd i (1 - nth i x 0)%nat x) - bern_forward_int theta x.
Proof.
  intros H Hi Hb Hd. rewrite (bern_grad theta x i g H Hi Hd). unfold bern_forward_int. rewrite map_upd, bern_upd by (rewrite map_length; auto).
  rewrite nth_map_INR, minus_INR by lia. simpl. ring.
Qed.

(** Categorical. *)
Lemma one_hot_dot_gen v : forall (row : list R) k, (k <= v)%nat ->
  rsum (combine (map (fun c => if Nat.eqb v c then 1 else 0) (seq k (length row))) row) (fun q => fst q * snd q) = nth (v - k) row 0.
Proof.
  assert (H0 : forall (row : list R) k, (v < k)%nat -> rsum (combine (map (fun c => if Nat.eqb v c then 1 else 0) (seq k (length row))) row) (fun q => fst q * snd q) = 0).
  { induction row as [|r row IH]; intros k H; cbn [length seq map combine rsum]; auto. rewrite IH by lia. destruct (Nat.eqb_spec v k); [lia|]. cbn [fst snd]. ring. }
  induction row as [|r row IH]; intros k Hk; cbn [length seq map combine rsum].
  - destruct (v - k)%nat; reflexivity.
  - destruct (Nat.eqb_spec v k) as [->|Hne].
    + rewrite H0 by lia. rewrite Nat.sub_diag. cbn [fst snd nth]. ring.
    + rewrite IH by lia. replace (v - k)%nat with (S (v - S k)) by lia. cbn [fst snd nth]. ring.
Qed.

Lemma one_hot_dot C v (row : list R) : length row = C -> rsum (combine (one_hot C v) row) (fun q => fst q * snd q) = nth v row 0.
Proof. intros <-. unfold one_hot. rewrite one_hot_dot_gen by lia. rewrite Nat.sub_0_r. reflexivity. Qed.

Theorem cat_forward_spec C theta x : Forall (fun row => length row = C) theta ->
  cat_forward C theta x = rsum (combine x theta) (fun p => nth (fst p) (snd p) 0).
Proof.
  intros Ht. unfold cat_forward, cat_forward_onehot. revert x. induction Ht as [|row theta Hr Ht IH]; intros [|v x]; cbn [map combine rsum]; auto.
  rewrite IH. cbn [fst snd]. rewrite one_hot_dot by auto. reflexivity.
Qed.

Definition softmax (row : list R) (c : nat) : R := exp (nth c row 0) / rsum (seq 0 (length row)) (fun c' => exp (nth c' row 0)).

Lemma cat_product C theta (fs : list (nat -> R)) : Forall (fun row => length row = C) theta -> length fs = length theta ->
  rsum (states (length theta) C) (fun x => exp (cat_forward C theta x) * prod_at fs x)
  = rprod (combine theta fs) (fun p => rsum (seq 0 C) (fun c => exp (nth c (fst p) 0) * snd p c)).
Proof.
  intros Ht. unfold states. revert fs. induction Ht as [|row theta Hr Ht IH]; intros [|f fs] Hl; try discriminate.
  - unfold cat_forward, cat_forward_onehot. simpl. rewrite exp_0. ring.
  - simpl in Hl. cbn [length]. rewrite rsum_lists_over_cons. cbn [combine rprod]. rewrite <- (IH fs) by lia.
    rewrite rsum_mult. apply rsum_ext. intros v _. apply rsum_ext. intros x _. cbn [fst snd prod_at].
    rewrite (cat_forward_spec C (row :: theta)) by (constructor; auto). rewrite (cat_forward_spec C theta) by auto. cbn [combine rsum fst snd]. rewrite exp_plus. ring.
Qed.

Theorem cat_independent C theta (fs : list (nat -> R)) : (0 < C)%nat -> Forall (fun row => length row = C) theta -> length fs = length theta ->
  rsum (states (length theta) C) (fun x => exp (cat_forward C theta x) * prod_at fs x)
  / rsum (states (length theta) C) (fun x => exp (cat_forward C theta x))
  = rprod (combine theta fs) (fun p => rsum (seq 0 C) (fun c => softmax (fst p) c * snd p c)).
Proof.
  intros HC Ht Hl.
  assert (HZ : rsum (states (length theta) C) (fun x => exp (cat_forward C theta x)) = rprod theta (fun row => rsum (seq 0 C) (fun c => exp (nth c row 0)))).
  { rewrite (rsum_ext _ _ (fun x => exp (cat_forward C theta x) * prod_at (repeat (fun _ => 1) (length theta)) x)) by (intros; rewrite prod_at_ones; ring).
    rewrite cat_product by (auto; apply repeat_length). clear. induction theta as [|t theta IH]; cbn [repeat combine length rprod]; auto.
    rewrite IH. cbn [fst snd]. f_equal. apply rsum_ext. intros; ring. }
  rewrite cat_product, HZ by auto.
  assert (Hpos : forall row : list R, 0 < rsum (seq 0 C) (fun c => exp (nth c row 0))).
  { intros row. apply rsum_pos; [destruct C; [lia|discriminate]|]. intros; apply exp_pos. }
  assert (Hp : 0 < rprod theta (fun row => rsum (seq 0 C) (fun c => exp (nth c row 0)))) by (apply rprod_pos; auto).
  apply (Rmult_eq_reg_r (rprod theta (fun row => rsum (seq 0 C) (fun c => exp (nth c row 0))))); [|lra].
  unfold Rdiv at 1. rewrite Rmult_assoc, Rinv_l, Rmult_1_r by lra. clear Hp HZ.
  revert fs Hl. induction Ht as [|row theta Hr Ht IH]; intros [|f fs] Hl; try discriminate; cbn [combine rprod]; [ring|].
  simpl in Hl. rewrite (IH fs) by lia. cbn [fst snd]. unfold softmax at 2. rewrite Hr.
  rewrite (rsum_ext (seq 0 C) (fun c => exp (nth c row 0) / _ * f c) (fun c => / rsum (seq 0 C) (fun c' => exp (nth c' row 0)) * (exp (nth c row 0) * f c)))
    by (intros; unfold Rdiv; ring).
  rewrite rsum_scal. specialize (Hpos row). field. lra.
Qed.

Lemma cat_upd C theta x i v : Forall (fun row => length row = C) theta -> length x = length theta -> (i < length x)%nat ->
  cat_forward C theta (upd i v x) - cat_forward C theta x = nth v (nth i theta []) 0 - nth (nth i x 0%nat) (nth i theta []) 0.
Proof.
  intros Ht. rewrite !(cat_forward_spec C) by auto. clear Ht. revert x i.
  induction theta as [|row theta IH]; intros [|u x] i H Hi; simpl in H, Hi; try discriminate; try lia.
  destruct i as [|i]; cbn [upd combine rsum nth fst snd]; [ring|]. specialize (IH x i). rewrite <- IH by lia. ring.
Qed.
