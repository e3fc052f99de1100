(** C82: the training gradient and the likelihood. *)
From Coq Require Import Reals List Lra Lia Arith.
From Verif.Base Require Import RSum Cube Dist.
From Verif.Spec Require Import Chain Ergodic Learning.
From Verif.Model Require Import RBM Learning.
From Verif.Proof Require Import RBMProof LearningProof.
Import ListNotations.
Local Open Scope R_scope.

(** ** C82 *)
(** The loss of a batch has a gradient exactly when the two halves have the same positive size (or one of them is a single
    sample, which is broadcast), and then it is the mean slope on the negatives minus the mean slope on the positives. *)
Theorem C82_gradient : forall A (f : R -> A -> R) (f' : A -> R) t pos neg g,
  (forall x, In x pos \/ In x neg -> derivable_pt_lim (fun s => f s x) t (f' x)) ->
  (loss_grad (fun s => pcd_loss (f s) pos neg) t g <->
   (0 < length pos /\ 0 < length neg /\ (length pos = length neg \/ length pos = 1 \/ length neg = 1))%nat /\
   g = rsum neg f' / INR (length neg) - rsum pos f' / INR (length pos)).
Proof.
  intros A f f' t pos neg g Hd. rewrite (loss_gradient f f' t pos neg g Hd). unfold avg. rewrite !map_length, !rsum_map.
  assert (H : sizes_ok (length pos) (length neg) = true <-> (0 < length pos /\ 0 < length neg /\ (length pos = length neg \/ length pos = 1 \/ length neg = 1))%nat).
  { unfold sizes_ok. rewrite !Bool.andb_true_iff, !Bool.orb_true_iff, !Bool.negb_true_iff, !Nat.eqb_eq, !Nat.eqb_neq. lia. }
  rewrite H. reflexivity.
Qed.
Print Assumptions C82_gradient.

(** Shards of equal size: the mean of the shard gradients is the gradient on the whole batch. *)
Theorem C82_shards : forall A (f : R -> A -> R) (f' : A -> R) t (shards : list (list A * list A)) grads B, (0 < B)%nat -> shards <> [] ->
  (forall sh, In sh shards -> length (fst sh) = B /\ length (snd sh) = B) ->
  (forall sh x, In sh shards -> In x (fst sh) \/ In x (snd sh) -> derivable_pt_lim (fun s => f s x) t (f' x)) ->
  Forall2 (fun sh g => loss_grad (fun s => pcd_loss (f s) (fst sh) (snd sh)) t g) shards grads ->
  loss_grad (fun s => pcd_loss (f s) (concat (map fst shards)) (concat (map snd shards))) t (pmean grads).
Proof. intros A. exact shards_gradient. Qed.
Print Assumptions C82_shards.

(** Positives with the data law and negatives with the model law, one by one and however dependent: the expected gradient is
    the derivative of the negative log-likelihood. *)
Theorem C82_unbiased : forall A (S : list A) (f : R -> A -> R) (f' : A -> R) (data : dist A) t (D : dist (list A * list A)) G p n (a0 : A),
  S <> [] -> mass data = 1 -> (forall x w, In (x, w) data -> In x S) -> (forall x, In x S -> derivable_pt_lim (fun s => f s x) t (f' x)) ->
  (0 < p)%nat -> (0 < n)%nat ->
  (forall b w, In (b, w) D -> length (fst b) = p /\ length (snd b) = n /\ forall x, In x (fst b) \/ In x (snd b) -> In x S) ->
  (forall i, (i < p)%nat -> E D (fun b => f' (nth i (fst b) a0)) = E data f') ->
  (forall i, (i < n)%nat -> E D (fun b => f' (nth i (snd b) a0)) = mean S (fun x => exp (f t x)) f') ->
  (forall b w, In (b, w) D -> loss_grad (fun s => pcd_loss (f s) (fst b) (snd b)) t (G b)) ->
  derivable_pt_lim (neg_log_lik S f data) t (E D G).
Proof. intros A. exact gradient_unbiased. Qed.
Print Assumptions C82_unbiased.

(** Chains that have the model law at the current parameters, and a sampler that keeps it: the gradient is unbiased after any
    number of PCD steps. *)
Theorem C82_stationary : forall A (S : list A) (f : R -> A -> R) (f' : A -> R) (data : dist A) t (k : A -> dist A) (a0 : A) n B (P D : dist (list A)) G,
  S <> [] -> mass data = 1 -> (forall x w, In (x, w) data -> In x S) -> (forall x, In x S -> derivable_pt_lim (fun s => f s x) t (f' x)) ->
  proper S k -> invariant S (fun x => exp (f t x)) k -> (0 < B)%nat ->
  mass P = 1 -> (forall l w, In (l, w) P -> length l = B /\ forall x, In x l -> In x S) ->
  (forall i h, (i < B)%nat -> E P (fun l => h (nth i l a0)) = E data h) ->
  mass D = 1 -> (forall l w, In (l, w) D -> length l = B /\ forall x, In x l -> In x S) ->
  (forall i h, (i < B)%nat -> E D (fun l => h (nth i l a0)) = mean S (fun x => exp (f t x)) h) ->
  (forall pos neg, length pos = B -> length neg = B -> (forall x, In x pos \/ In x neg -> In x S) -> loss_grad (fun s => pcd_loss (f s) pos neg) t (G pos neg)) ->
  derivable_pt_lim (neg_log_lik S f data) t (E P (fun pos => E (bind D (pcd_batch k n)) (G pos))).
Proof. intros A. exact pcd_gradient_exact. Qed.
Print Assumptions C82_stationary.

(** From any stored chains, with a sampler that converges: the bias is as small as wished once pcd_steps is large enough, for
    batches of every size and every starting point at once. *)
Theorem C82_many_steps : forall A (S : list A) (f : R -> A -> R) (f' : A -> R) (data : dist A) t (k : A -> dist A) (a0 : A),
  S <> [] -> mass data = 1 -> (forall x w, In (x, w) data -> In x S) -> (forall x, In x S -> derivable_pt_lim (fun s => f s x) t (f' x)) ->
  proper S k -> converges S (fun x => exp (f t x)) (fun _ => k) ->
  forall eps, 0 < eps -> exists N, forall n B xs (P : dist (list A)) G g, (N <= n)%nat -> (0 < B)%nat -> length xs = B -> (forall x, In x xs -> In x S) ->
  mass P = 1 -> (forall l w, In (l, w) P -> length l = B /\ forall x, In x l -> In x S) ->
  (forall i, (i < B)%nat -> E P (fun l => f' (nth i l a0)) = E data f') ->
  (forall pos neg, length pos = B -> length neg = B -> (forall x, In x pos \/ In x neg -> In x S) -> loss_grad (fun s => pcd_loss (f s) pos neg) t (G pos neg)) ->
  derivable_pt_lim (neg_log_lik S f data) t g ->
  Rabs (E P (fun pos => E (pcd_batch k n xs) (G pos)) - g) <= eps.
Proof. intros A. exact pcd_gradient_limit. Qed.
Print Assumptions C82_many_steps.

(** The restricted Boltzmann machine: slope of the forward function along any direction of the weights and biases. *)
Theorem C82_rbm_slope : forall nv nh w dw bv dbv bh dbh v, derivable_pt_lim (fun t => rbm_line nv nh w dw bv dbv bh dbh t v) 0
  (rsum (seq 0 nh) (fun j => exp (pre_h nv w bh v j) / (1 + exp (pre_h nv w bh v j)) * (rsum (seq 0 nv) (fun i => at_ v i * dw i j) + dbh j)) + rsum (seq 0 nv) (fun i => at_ v i * dbv i)).
Proof. exact rbm_line_derivative. Qed.
Print Assumptions C82_rbm_slope.

(** The block sampler used by the trainer converges from every start for all weights. *)
Theorem C82_rbm_block_converges : forall nv nh w bv bh,
  converges (states nv 2) (fun v => exp (rbm_call nv nh w bv bh v)) (fun _ => rbm_block_step nv nh w bv bh).
Proof. exact rbm_block_converges. Qed.
Print Assumptions C82_rbm_block_converges.

(** So training the RBM follows the likelihood gradient to any accuracy once pcd_steps is large enough. *)
Theorem C82_rbm_pcd : forall nv nh w dw bv dbv bh dbh (data : dist (list nat)), mass data = 1 -> (forall x q, In (x, q) data -> In x (states nv 2)) ->
  forall eps, 0 < eps -> exists N, forall n B xs (P : dist (list (list nat))) G g, (N <= n)%nat -> (0 < B)%nat -> length xs = B -> (forall x, In x xs -> In x (states nv 2)) ->
  mass P = 1 -> (forall l q, In (l, q) P -> length l = B /\ forall x, In x l -> In x (states nv 2)) ->
  (forall i h, (i < B)%nat -> E P (fun l => h (nth i l [])) = E data h) ->
  (forall pos neg, length pos = B -> length neg = B -> (forall x, In x pos \/ In x neg -> In x (states nv 2)) ->
     loss_grad (fun s => pcd_loss (rbm_line nv nh w dw bv dbv bh dbh s) pos neg) 0 (G pos neg)) ->
  derivable_pt_lim (neg_log_lik (states nv 2) (rbm_line nv nh w dw bv dbv bh dbh) data) 0 g ->
  Rabs (E P (fun pos => E (pcd_batch (rbm_block_step nv nh w bv bh) n xs) (G pos)) - g) <= eps.
Proof. exact rbm_pcd_limit. Qed.
Print Assumptions C82_rbm_pcd.

(** No number of PCD steps makes it exact: one visible and one hidden unit with weight ln 2, direction of the visible bias,
    chain and data point at 0. *)
Theorem C82_finite_steps_refuted : exists nv nh w dw bv dbv bh dbh, forall n, exists (data : dist (list nat)) xs G g,
  mass data = 1 /\ (forall x q, In (x, q) data -> In x (states nv 2)) /\ (forall x, In x xs -> In x (states nv 2)) /\ length xs = 1%nat /\
  (forall pos neg, length pos = 1%nat -> length neg = 1%nat -> loss_grad (fun s => pcd_loss (rbm_line nv nh w dw bv dbv bh dbh s) pos neg) 0 (G pos neg)) /\
  derivable_pt_lim (neg_log_lik (states nv 2) (rbm_line nv nh w dw bv dbv bh dbh) data) 0 g /\
  E (dmap (fun x => [x]) data) (fun pos => E (pcd_batch (rbm_block_step nv nh w bv bh) n xs) (G pos)) < g.
Proof.
  exists 1%nat, 1%nat, (fun _ _ => ln 2), (fun _ _ => 0), (fun _ => 0), (fun _ => 1), (fun _ => 0), (fun _ => 0). intros n.
  destruct (pcd_biased n) as (data & xs & G & g & H1 & H2 & H3 & H4 & H5 & H6 & H7). exists data, xs, G, g. repeat (split; [assumption |]).
  unfold k1 in H7. rewrite H7. pose proof (pow_lt (1 / 36) n ltac:(lra)). lra.
Qed.
Print Assumptions C82_finite_steps_refuted.

(** *** Examples: a Bernoulli site with log-odds t, at t = 0; the data point is always 1. *)
Definition bern_f (t : R) (x : nat) : R := t * INR x.
Example C82_bern_slope x : derivable_pt_lim (fun s => bern_f s x) 0 (INR x).
Proof.
  unfold bern_f. apply (dlim_ext (fun s => INR x * s)); [intros; ring |]. pose proof (dlim_scal (INR x) id 0 1 (derivable_pt_lim_id 0)) as H.
  rewrite Rmult_1_r in H. exact H.
Qed.
Example C82_gradient_case : loss_grad (fun s => pcd_loss (bern_f s) [1; 1]%nat [0; 1]%nat) 0 (- (1 / 2)).
Proof. apply (C82_gradient _ bern_f INR 0); [intros x _; apply C82_bern_slope |]. cbn [length rsum INR]. split; [lia | lra]. Qed.
Example C82_shards_case : loss_grad (fun s => pcd_loss (bern_f s) [1; 1; 1; 0]%nat [0; 1; 1; 1]%nat) 0 (pmean [- (1 / 2); 1 / 2]).
Proof.
  apply (C82_shards _ bern_f INR 0 [([1; 1], [0; 1]); ([1; 0], [1; 1])]%nat _ 2); [lia | discriminate | | intros; apply C82_bern_slope |].
  - intros sh [<- | [<- | []]]; split; reflexivity.
  - repeat constructor; apply (C82_gradient _ bern_f INR 0); try (intros x _; apply C82_bern_slope); cbn [fst snd length rsum INR]; split; try lia; lra.
Qed.
Example C82_unbiased_case : derivable_pt_lim (neg_log_lik [0; 1]%nat bern_f (ret 1%nat)) 0 (- (1 / 2)).
Proof.
  set (D := [(([1]%nat, [0]%nat), 1 / 2); (([1]%nat, [1]%nat), 1 / 2)]).
  replace (- (1 / 2)) with (E D (fun b => avg (map INR (snd b)) - avg (map INR (fst b)))) by (unfold E, D, avg; cbn; lra).
  apply (C82_unbiased nat [0; 1]%nat bern_f INR (ret 1%nat) 0 D _ 1 1 0%nat); try lia; try discriminate.
  - apply is_prob_ret.
  - intros x w [H | []]. injection H as <- _. right; left; reflexivity.
  - intros x _. apply C82_bern_slope.
  - intros b w [H | [H | []]]; injection H as <- _; cbn [fst snd length In]; (split; [reflexivity | split; [reflexivity | intros x; tauto]]).
  - intros i Hi. replace i with 0%nat by lia. unfold E, D, ret. cbn. lra.
  - intros i Hi. replace i with 0%nat by lia. unfold mean, E, D, bern_f. cbn. rewrite Rmult_0_l, exp_0. rewrite Rmult_0_l, exp_0. lra.
  - intros b w [H | [H | []]]; injection H as <- _; apply (C82_gradient _ bern_f INR 0); try (intros x _; apply C82_bern_slope); unfold avg; cbn [fst snd length rsum map]; (split; [lia | reflexivity]).
Qed.
(** Independent resampling of the fair site: invariant and proper, chains already fair. *)
Example C82_stationary_case : derivable_pt_lim (neg_log_lik [0; 1]%nat bern_f (ret 1%nat)) 0
  (E (ret [1%nat]) (fun pos => E (bind [([0%nat], 1 / 2); ([1%nat], 1 / 2)] (pcd_batch (fun _ => [(0%nat, 1 / 2); (1%nat, 1 / 2)]) 7)) (fun neg => avg (map INR neg) - avg (map INR pos)))).
Proof.
  assert (Hexp : forall x, exp (bern_f 0 x) = 1) by (intros x; unfold bern_f; rewrite Rmult_0_l; apply exp_0).
  apply (C82_stationary nat [0; 1]%nat bern_f INR (ret 1%nat) 0 (fun _ => [(0%nat, 1 / 2); (1%nat, 1 / 2)]) 0%nat 7 1 (ret [1%nat]) [([0%nat], 1 / 2); ([1%nat], 1 / 2)]
           (fun pos neg => avg (map INR neg) - avg (map INR pos))); try lia; try discriminate.
  - apply is_prob_ret.
  - intros x w [H | []]. injection H as <- _. right; left; reflexivity.
  - intros x _. apply C82_bern_slope.
  - intros x Hx. split.
    + split; [| unfold mass, E; cbn; lra]. intros p [<- | [<- | []]]; cbn; lra.
    + intros y w [H | [H | []]]; injection H as <- _; cbn; tauto.
  - intros h. cbn [rsum]. rewrite !Hexp. unfold E. cbn. lra.
  - apply is_prob_ret.
  - intros l w [H | []]. injection H as <- _. split; [reflexivity |]. intros x [<- | []]. right; left; reflexivity.
  - intros i h Hi. replace i with 0%nat by lia. rewrite !E_ret. reflexivity.
  - unfold mass, E. cbn. lra.
  - intros l w [H | [H | []]]; injection H as <- _; (split; [reflexivity |]); intros x [<- | []]; cbn; tauto.
  - intros i h Hi. replace i with 0%nat by lia. unfold mean, E. cbn [rsum fst snd nth]. rewrite !Hexp. lra.
  - intros pos neg Hp Hn _. apply (C82_gradient _ bern_f INR 0); [intros x _; apply C82_bern_slope |]. split; [lia |]. unfold avg. rewrite !map_length, !rsum_map. reflexivity.
Qed.
(** The data of the RBM theorem: one image, batches of one. *)
Example C82_rbm_pcd_case : exists N, forall n, (N <= n)%nat ->
  Rabs (E (ret [[1%nat]]) (fun pos => E (pcd_batch (rbm_block_step 1 1 (fun _ _ => ln 2) (fun _ => 0) (fun _ => 0)) n [[0%nat]]) (fun neg => avg (map (fun v => at_ v 0) neg) - avg (map (fun v => at_ v 0) pos)))
    - (3 / 5 - 1)) <= 1 / 100.
Proof.
  assert (Hsup : forall x q, In (x, q) (ret [1%nat]) -> In x (states 1 2)) by (intros x q [H | []]; injection H as <- _; right; left; reflexivity).
  destruct (C82_rbm_pcd 1 1 (fun _ _ => ln 2) (fun _ _ => 0) (fun _ => 0) (fun _ => 1) (fun _ => 0) (fun _ => 0) (ret [1%nat]) (proj2 (is_prob_ret _)) Hsup (1 / 100) ltac:(lra)) as [N HN].
  exists N. intros n Hn. apply (HN n 1%nat [[0%nat]]); try lia; try reflexivity.
  - intros x [<- | []]. left; reflexivity.
  - apply is_prob_ret.
  - intros l q [H | []]. injection H as <- _. split; [reflexivity |]. intros x [<- | []]. right; left; reflexivity.
  - intros i h Hi. replace i with 0%nat by lia. rewrite !E_ret. reflexivity.
  - intros pos neg Hp Hn' _. apply (C82_gradient _ line1 (fun v => at_ v 0) 0); [intros x _; apply line1_deriv |]. split; [lia |]. unfold avg. rewrite !map_length, !rsum_map. reflexivity.
  - pose proof (lik_gradient (states 1 2) line1 (fun v => at_ v 0) (ret [1%nat]) 0 ltac:(discriminate) (proj2 (is_prob_ret _)) Hsup (fun x _ => line1_deriv x)) as H.
    rewrite line1_model, E_ret in H. exact H.
Qed.
