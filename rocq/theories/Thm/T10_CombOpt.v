(** Property theorems C21 (graph models) to C29. *)
From Coq Require Import Reals List Lra Lia Arith.
From Verif.Base Require Import RSum.
From Verif.Spec Require Import GraphSpec.
From Verif.Model Require Import CombOpt.
From Verif.Proof Require Import GraphProof CombOptProof NormCutProof.
Import ListNotations.
Local Open Scope R_scope.

(** The cases below use a triangle 0-1-2 with a pendant node 3 attached to 2. *)
Definition paw : graph := {| g_nodes := [0; 1; 2; 3]%nat; g_edges := [((0, 1)%nat, 1); ((0, 2)%nat, 2); ((1, 2)%nat, 3); ((2, 3)%nat, 5)] |}.
Example paw_simple : simple 4 (map ends (g_edges paw)).
Proof.
  split.
  - intros u v [H|[H|[H|[H|[]]]]]; injection H as <- <-; repeat split; lia.
  - cbn. repeat constructor; cbn; intuition congruence.
Qed.

(** ** C21 *)
(** The score (1 - 2 x_i) dE/dx_i of the gradient-based samplers; d is the partial derivative of the energy in coordinate i. *)
Theorem C21_mis_exact : forall g N M pw coeff T x i d, loopless (length (g_nodes g)) (map ends (g_edges g)) ->
  derivable_pt_lim (fun t => comb_forward (mis_objective N (graph2edges M pw g)) (mis_penalty coeff (graph2edges M pw g)) T (put1 (vec x) i t)) (vec x i) d ->
  (1 - 2 * vec x i) * d
  = comb_forward (mis_objective N (graph2edges M pw g)) (mis_penalty coeff (graph2edges M pw g)) T (vec (flip1 x i))
     - comb_forward (mis_objective N (graph2edges M pw g)) (mis_penalty coeff (graph2edges M pw g)) T (vec x).
Proof. intros g N M pw. exact (mis_grad_exact g N M pw). Qed.
Print Assumptions C21_mis_exact.

Theorem C21_maxcut_exact : forall g M T x i d, loopless (length (g_nodes g)) (map ends (g_edges g)) ->
  derivable_pt_lim (fun t => comb_forward (maxcut_objective (graph2edges M 0 g)) (no_penalty) T (put1 (vec x) i t)) (vec x i) d ->
  (1 - 2 * vec x i) * d
  = comb_forward (maxcut_objective (graph2edges M 0 g)) (no_penalty) T (vec (flip1 x i))
     - comb_forward (maxcut_objective (graph2edges M 0 g)) (no_penalty) T (vec x).
Proof. intros g M T x i d. apply (maxcut_grad_exact g M 0); reflexivity. Qed.
Print Assumptions C21_maxcut_exact.

(** The derivative exists, so the two statements above are not vacuous. *)
Theorem C21_mis_differentiable : forall g N M pw coeff T y i, loopless (length (g_nodes g)) (map ends (g_edges g)) ->
  exists d, forall t, derivable_pt_lim (fun t => comb_forward (mis_objective N (graph2edges M pw g)) (mis_penalty coeff (graph2edges M pw g)) T (put1 y i t)) t d.
Proof. exact mis_differentiable. Qed.
Print Assumptions C21_mis_differentiable.

Theorem C21_maxcut_differentiable : forall g M T y i, loopless (length (g_nodes g)) (map ends (g_edges g)) ->
  exists d, forall t, derivable_pt_lim (fun t => comb_forward (maxcut_objective (graph2edges M 0 g)) (no_penalty) T (put1 y i t)) t d.
Proof. exact maxcut_differentiable. Qed.
Print Assumptions C21_maxcut_differentiable.

(** ** C22 *)
(** The gradient score is not the energy change: the clique size enters the penalty squared. *)
Theorem C22_clique_gradient_refuted : exists g N M pw coeff T x i d, simple (length (g_nodes g)) (map ends (g_edges g)) /\ (i < length (g_nodes g))%nat /\ 1 <= coeff /\ 0 < T /\
  derivable_pt_lim (fun t => comb_forward (mis_objective N (graph2edges M pw g)) (clique_penalty N coeff (graph2edges M pw g)) T (put1 (vec x) i t)) (vec x i) d /\
  (1 - 2 * vec x i) * d <> comb_forward (mis_objective N (graph2edges M pw g)) (clique_penalty N coeff (graph2edges M pw g)) T (vec (flip1 x i))
     - comb_forward (mis_objective N (graph2edges M pw g)) (clique_penalty N coeff (graph2edges M pw g)) T (vec x).
Proof. exact clique_gradient_wrong. Qed.
Print Assumptions C22_clique_gradient_refuted.

(** What it is: the true change plus coeff / (2T), the same constant for every node. *)
Theorem C22_clique_gradient_excess : forall g N M pw, (length (g_nodes g) <= N)%nat -> forall coeff T x i d, loopless (length (g_nodes g)) (map ends (g_edges g)) -> (i < length (g_nodes g))%nat ->
  derivable_pt_lim (fun t => comb_forward (mis_objective N (graph2edges M pw g)) (clique_penalty N coeff (graph2edges M pw g)) T (put1 (vec x) i t)) (vec x i) d ->
  (1 - 2 * vec x i) * d
  = comb_forward (mis_objective N (graph2edges M pw g)) (clique_penalty N coeff (graph2edges M pw g)) T (vec (flip1 x i))
     - comb_forward (mis_objective N (graph2edges M pw g)) (clique_penalty N coeff (graph2edges M pw g)) T (vec x) + coeff / T / 2.
Proof. exact clique_grad_excess. Qed.
Print Assumptions C22_clique_gradient_excess.

(** Hence differences of scores between nodes, and so softmax selection probabilities with unscaled scores, are exact. *)
Theorem C22_clique_ranking : forall g N M pw, (length (g_nodes g) <= N)%nat -> forall coeff T x i j d d', loopless (length (g_nodes g)) (map ends (g_edges g)) -> (i < length (g_nodes g))%nat -> (j < length (g_nodes g))%nat ->
  derivable_pt_lim (fun t => comb_forward (mis_objective N (graph2edges M pw g)) (clique_penalty N coeff (graph2edges M pw g)) T (put1 (vec x) i t)) (vec x i) d ->
  derivable_pt_lim (fun t => comb_forward (mis_objective N (graph2edges M pw g)) (clique_penalty N coeff (graph2edges M pw g)) T (put1 (vec x) j t)) (vec x j) d' ->
  (1 - 2 * vec x i) * d - (1 - 2 * vec x j) * d'
  = comb_forward (mis_objective N (graph2edges M pw g)) (clique_penalty N coeff (graph2edges M pw g)) T (vec (flip1 x i))
     - comb_forward (mis_objective N (graph2edges M pw g)) (clique_penalty N coeff (graph2edges M pw g)) T (vec (flip1 x j)).
Proof. exact clique_ranking. Qed.
Print Assumptions C22_clique_ranking.

(** ** C23 *)
Theorem C23_independent_value : forall g N M pw, (length (g_nodes g) <= N)%nat -> forall coeff T x, loopless (length (g_nodes g)) (map ends (g_edges g)) -> T <> 0 ->
  independent (length (g_nodes g)) (map ends (g_edges g)) (selected (length (g_nodes g)) x) ->
  comb_evaluate (mis_objective N (graph2edges M pw g)) (mis_penalty coeff (graph2edges M pw g)) T (vec x) = INR (length (selected (length (g_nodes g)) x)).
Proof. exact mis_independent. Qed.
Print Assumptions C23_independent_value.

Theorem C23_extract : forall g N M pw, (length (g_nodes g) <= N)%nat -> forall coeff T x, loopless (length (g_nodes g)) (map ends (g_edges g)) -> T <> 0 -> 1 <= coeff ->
  exists S, independent (length (g_nodes g)) (map ends (g_edges g)) S /\ incl S (selected (length (g_nodes g)) x) /\
    comb_evaluate (mis_objective N (graph2edges M pw g)) (mis_penalty coeff (graph2edges M pw g)) T (vec x) <= INR (length S).
Proof. exact mis_extract. Qed.
Print Assumptions C23_extract.

Theorem C23_optimum : forall g N M pw, (length (g_nodes g) <= N)%nat -> forall coeff T k, loopless (length (g_nodes g)) (map ends (g_edges g)) -> T <> 0 -> 1 <= coeff ->
  (exists S, independent (length (g_nodes g)) (map ends (g_edges g)) S /\ length S = k) ->
  (forall S, independent (length (g_nodes g)) (map ends (g_edges g)) S -> (length S <= k)%nat) ->
  (exists x, comb_evaluate (mis_objective N (graph2edges M pw g)) (mis_penalty coeff (graph2edges M pw g)) T (vec x) = INR k)
  /\ (forall x, comb_evaluate (mis_objective N (graph2edges M pw g)) (mis_penalty coeff (graph2edges M pw g)) T (vec x) <= INR k).
Proof. exact mis_optimum. Qed.
Print Assumptions C23_optimum.

(** The bound on the coefficient is needed: below 1 an infeasible vector can evaluate to more than every independent set. *)
Theorem C23_small_coefficient_refuted : exists g N M pw coeff T x, (length (g_nodes g) <= N)%nat /\ simple (length (g_nodes g)) (map ends (g_edges g)) /\ T <> 0 /\ 0 < coeff /\
  forall S, independent (length (g_nodes g)) (map ends (g_edges g)) S -> INR (length S) < comb_evaluate (mis_objective N (graph2edges M pw g)) (mis_penalty coeff (graph2edges M pw g)) T (vec x).
Proof. exact mis_small_coefficient. Qed.
Print Assumptions C23_small_coefficient_refuted.

Example C23_case : independent 4 (map ends (g_edges paw)) (selected 4 (fun i => orb (Nat.eqb i 0) (Nat.eqb i 3)))
  /\ comb_evaluate (mis_objective 6 (graph2edges 9 0 paw)) (mis_penalty 1 (graph2edges 9 0 paw)) 5 (vec (fun i => orb (Nat.eqb i 0) (Nat.eqb i 3))) = 2.
Proof. split; [split; [split; [cbn; repeat constructor; cbn; intuition congruence|cbn; intros; lia]|cbn; intros u v Hu Hv [H|H]; cbn in H; intuition congruence]|unfold comb_evaluate, comb_forward, mis_objective, mis_penalty, vec; cbn; lra]. Qed.

(** ** C24 *)
Theorem C24_clique_value : forall g N M pw, (length (g_nodes g) <= N)%nat -> forall coeff T x, simple (length (g_nodes g)) (map ends (g_edges g)) -> T <> 0 ->
  clique (length (g_nodes g)) (map ends (g_edges g)) (selected (length (g_nodes g)) x) ->
  comb_evaluate (mis_objective N (graph2edges M pw g)) (clique_penalty N coeff (graph2edges M pw g)) T (vec x) = INR (length (selected (length (g_nodes g)) x)).
Proof. exact clique_clique. Qed.
Print Assumptions C24_clique_value.

Theorem C24_extract : forall g N M pw, (length (g_nodes g) <= N)%nat -> forall coeff T x, simple (length (g_nodes g)) (map ends (g_edges g)) -> T <> 0 -> 1 <= coeff ->
  exists S, clique (length (g_nodes g)) (map ends (g_edges g)) S /\ incl S (selected (length (g_nodes g)) x) /\
    comb_evaluate (mis_objective N (graph2edges M pw g)) (clique_penalty N coeff (graph2edges M pw g)) T (vec x) <= INR (length S).
Proof. exact clique_extract. Qed.
Print Assumptions C24_extract.

Theorem C24_optimum : forall g N M pw, (length (g_nodes g) <= N)%nat -> forall coeff T k, simple (length (g_nodes g)) (map ends (g_edges g)) -> T <> 0 -> 1 <= coeff ->
  (exists S, clique (length (g_nodes g)) (map ends (g_edges g)) S /\ length S = k) ->
  (forall S, clique (length (g_nodes g)) (map ends (g_edges g)) S -> (length S <= k)%nat) ->
  (exists x, comb_evaluate (mis_objective N (graph2edges M pw g)) (clique_penalty N coeff (graph2edges M pw g)) T (vec x) = INR k)
  /\ (forall x, comb_evaluate (mis_objective N (graph2edges M pw g)) (clique_penalty N coeff (graph2edges M pw g)) T (vec x) <= INR k).
Proof. exact clique_optimum. Qed.
Print Assumptions C24_optimum.

Example C24_case : clique 4 (map ends (g_edges paw)) (selected 4 (fun i => Nat.ltb i 3))
  /\ comb_evaluate (mis_objective 6 (graph2edges 9 0 paw)) (clique_penalty 6 1 (graph2edges 9 0 paw)) 5 (vec (fun i => Nat.ltb i 3)) = 3
  /\ comb_evaluate (mis_objective 6 (graph2edges 9 0 paw)) (clique_penalty 6 1 (graph2edges 9 0 paw)) 5 (vec (fun i => Nat.ltb i 4)) = 2.
Proof. split; [split; [split; [cbn; repeat constructor; cbn; intuition congruence|cbn; intros; lia]|cbn; intros u v Hu Hv Hne; unfold adjacent; cbn; intuition (subst; cbn; intuition congruence)]|unfold comb_evaluate, comb_forward, mis_objective, clique_penalty, vec; cbn; lra]. Qed.

(** ** C25 *)
(** Any padding M; nodes beyond the graph never matter. *)
Theorem C25_value : forall g M T x, T <> 0 ->
  comb_evaluate (maxcut_objective (graph2edges M 0 g)) no_penalty T (vec x) = cut_value (g_edges g) x.
Proof. intros g M T x HT. exact (maxcut_value g M 0 T x eq_refl HT). Qed.
Print Assumptions C25_value.

Theorem C25_complement : forall g M T x, T <> 0 ->
  comb_evaluate (maxcut_objective (graph2edges M 0 g)) no_penalty T (vec (fun i => negb (x i))) = comb_evaluate (maxcut_objective (graph2edges M 0 g)) no_penalty T (vec x).
Proof. exact maxcut_complement. Qed.
Print Assumptions C25_complement.

Theorem C25_flip_scores : forall g M T x i, T <> 0 -> loopless (length (g_nodes g)) (map ends (g_edges g)) ->
  maxcut_logratio (graph2edges M 0 g) T (vec x) i = (cut_value (g_edges g) (flip1 x i) - cut_value (g_edges g) x) / T.
Proof. exact maxcut_scores. Qed.
Print Assumptions C25_flip_scores.

(** The value returned next to the scores (get_neighbor path) is the same energy. *)
Theorem C25_cut_weight : forall g M T x, T <> 0 -> maxcut_cut_weight (graph2edges M 0 g) T (vec x) = cut_value (g_edges g) x / T.
Proof. exact maxcut_weight. Qed.
Print Assumptions C25_cut_weight.

Example C25_case : cut_value (g_edges paw) (fun i => Nat.eqb i 2) = 10 /\ cut_value (g_edges paw) (flip1 (fun i => Nat.eqb i 2) 3) = 5.
Proof. unfold cut_value; cbn; lra. Qed.

(** ** C26 *)
Theorem C26_temperature_free : forall objective penalty T x, T <> 0 ->
  comb_evaluate objective penalty T x = objective x - penalty x
  /\ comb_forward objective penalty T x = (objective x - penalty x) / T.
Proof. intros o p T x H. split; [exact (evaluate_temperature o p T x H)|reflexivity]. Qed.
Print Assumptions C26_temperature_free.

(** Concretely: selected nodes minus coeff times the edges with both ends selected / the missing edges. *)
Theorem C26_mis_value : forall g N M pw, (length (g_nodes g) <= N)%nat -> forall coeff T x, loopless (length (g_nodes g)) (map ends (g_edges g)) -> T <> 0 ->
  comb_evaluate (mis_objective N (graph2edges M pw g)) (mis_penalty coeff (graph2edges M pw g)) T (vec x)
  = INR (length (selected (length (g_nodes g)) x))
    - coeff * INR (length (filter (fun e => andb (x (fst e)) (x (snd e))) (map ends (g_edges g)))).
Proof. exact mis_value_counts. Qed.
Print Assumptions C26_mis_value.

Theorem C26_clique_value : forall g N M pw, (length (g_nodes g) <= N)%nat -> forall coeff T x, loopless (length (g_nodes g)) (map ends (g_edges g)) -> T <> 0 ->
  let k := INR (length (selected (length (g_nodes g)) x)) in
  comb_evaluate (mis_objective N (graph2edges M pw g)) (clique_penalty N coeff (graph2edges M pw g)) T (vec x)
  = k - coeff * (k * (k - 1) / 2 - INR (length (filter (fun e => andb (x (fst e)) (x (snd e))) (map ends (g_edges g))))).
Proof. exact clique_value_counts. Qed.
Print Assumptions C26_clique_value.

(** At temperature 0 it fails even with division totalised; the exclusion T <> 0 is needed. *)
Theorem C26_zero_temperature_refuted : exists objective penalty T x, comb_evaluate objective penalty T x <> objective x - penalty x.
Proof. exact evaluate_zero_temperature. Qed.
Print Assumptions C26_zero_temperature_refuted.

Example C26_case : comb_evaluate (mis_objective 4 (graph2edges 0 0 paw)) (mis_penalty 2 (graph2edges 0 0 paw)) (/ 10) (vec (fun _ => true)) = 4 - 2 * 4.
Proof. unfold comb_evaluate, comb_forward, mis_objective, mis_penalty, vec; cbn; lra. Qed.

(** ** C27 *)
(** The cut size of cluster c counts the edges with exactly one end in c; padding edges add nothing. *)
Theorem C27_cut_size : forall M pw g x c, cut_sizes (graph2edges M pw g) (onehot x) c
  = INR (length (filter (fun e => xorb (Nat.eqb (x (fst e)) c) (Nat.eqb (x (snd e)) c)) (map ends (g_edges g)))).
Proof. exact cut_sizes_count. Qed.
Print Assumptions C27_cut_size.

Theorem C27_cut_total : forall M pw g x C, (forall e, In e (map ends (g_edges g)) -> (x (fst e) < C)%nat /\ (x (snd e) < C)%nat) ->
  rsum (seq 0 C) (cut_sizes (graph2edges M pw g) (onehot x))
  = 2 * INR (length (filter (fun e => negb (Nat.eqb (x (fst e)) (x (snd e)))) (map ends (g_edges g)))).
Proof. exact cut_sizes_total. Qed.
Print Assumptions C27_cut_total.

(** Volume of a cluster = total degree of its nodes, when the graph lists its nodes in index order. *)
Theorem C27_volume : forall M pw g x c n, g_nodes g = seq 0 n ->
  volume n (graph2edges M pw g) (onehot x) c = rsum (seq 0 n) (fun v => if Nat.eqb (x v) c then INR (degree g v) else 0).
Proof. exact volume_spec. Qed.
Print Assumptions C27_volume.

Theorem C27_volume_total : forall M pw g x C n, g_nodes g = seq 0 n -> loopless n (map ends (g_edges g)) -> (forall v, (v < n)%nat -> (x v < C)%nat) ->
  rsum (seq 0 C) (volume n (graph2edges M pw g) (onehot x)) = 2 * INR (length (g_edges g)).
Proof. exact volume_total. Qed.
Print Assumptions C27_volume_total.

(** With another node order the degrees are attached to the wrong nodes. *)
Theorem C27_volume_node_order_refuted : exists M pw g x c, Permutation.Permutation (g_nodes g) (seq 0 (length (g_nodes g))) /\ simple (length (g_nodes g)) (map ends (g_edges g)) /\
  volume (length (g_nodes g)) (graph2edges M pw g) (onehot x) c <> rsum (seq 0 (length (g_nodes g))) (fun v => if Nat.eqb (x v) c then INR (degree g v) else 0).
Proof. exact volume_order_wrong. Qed.
Print Assumptions C27_volume_node_order_refuted.

(** Without padding the score of moving node i to cluster c' is the exact energy change. *)
Theorem C27_scores : forall g M pw, loopless (length (g_nodes g)) (map ends (g_edges g)) -> (M <= length (g_edges g))%nat -> forall C T x i c', (i < length (g_nodes g))%nat ->
  normcut_logratio (length (g_nodes g)) C (graph2edges M pw g) T x i c'
  = normcut_forward (normcut_objective (length (g_nodes g)) C (graph2edges M pw g) (onehot (put1 x i c'))) T - normcut_forward (normcut_objective (length (g_nodes g)) C (graph2edges M pw g) (onehot x)) T.
Proof. exact normcut_logratio_exact. Qed.
Print Assumptions C27_scores.

(** With a padding edge the scores of node 0 are wrong. *)
Theorem C27_padded_scores_refuted : exists g M pw C T x i c', simple (length (g_nodes g)) (map ends (g_edges g)) /\ (i < length (g_nodes g))%nat /\ (c' < C)%nat /\ 0 < T /\
  normcut_logratio (length (g_nodes g)) C (graph2edges M pw g) T x i c'
  <> normcut_forward (normcut_objective (length (g_nodes g)) C (graph2edges M pw g) (onehot (put1 x i c'))) T - normcut_forward (normcut_objective (length (g_nodes g)) C (graph2edges M pw g) (onehot x)) T.
Proof. exact normcut_padded_wrong. Qed.
Print Assumptions C27_padded_scores_refuted.

(** Padding nodes make the energy raise: node_degrees is not padded. *)
Theorem C27_padded_nodes_refuted : exists g N M pw C T, simple (length (g_nodes g)) (map ends (g_edges g)) /\ (length (g_nodes g) <= N)%nat /\ forall x, normcut_forward_checked N C (graph2edges M pw g) T x = None.
Proof. exact normcut_padded_nodes. Qed.
Print Assumptions C27_padded_nodes_refuted.

Example C27_case : cut_sizes (graph2edges 7 0 paw) (onehot (fun i => Nat.div i 2)) 0 = 2 /\ volume 4 (graph2edges 0 0 paw) (onehot (fun i => Nat.div i 2)) 1 = 4.
Proof. unfold cut_sizes, volume, onehot; cbn; lra. Qed.

(** ** C28 *)
Theorem C28_padded_refuted : exists g N M pw coeff T x i, (length (g_nodes g) <= N)%nat /\ simple (length (g_nodes g)) (map ends (g_edges g)) /\ (i < length (g_nodes g))%nat /\ 1 <= coeff /\ 0 < T /\
  mis_logratio coeff (graph2edges M pw g) T (vec x) i
  <> comb_forward (mis_objective N (graph2edges M pw g)) (mis_penalty coeff (graph2edges M pw g)) T (vec (flip1 x i))
     - comb_forward (mis_objective N (graph2edges M pw g)) (mis_penalty coeff (graph2edges M pw g)) T (vec x).
Proof. exact mis_padded_wrong. Qed.
Print Assumptions C28_padded_refuted.

(** Exactly what is computed: only the score for removing node 0 is inflated, by 2 coeff / T per padding edge. *)
Theorem C28_formula : forall g N M pw, (length (g_nodes g) <= N)%nat -> forall coeff T x i, loopless (length (g_nodes g)) (map ends (g_edges g)) -> (i < length (g_nodes g))%nat ->
  mis_logratio coeff (graph2edges M pw g) T (vec x) i
  = comb_forward (mis_objective N (graph2edges M pw g)) (mis_penalty coeff (graph2edges M pw g)) T (vec (flip1 x i))
     - comb_forward (mis_objective N (graph2edges M pw g)) (mis_penalty coeff (graph2edges M pw g)) T (vec x)
    + (if andb (Nat.eqb i 0) (x 0%nat) then 2 * INR (M - length (g_edges g)) * coeff / T else 0).
Proof. exact mis_logratio_formula. Qed.
Print Assumptions C28_formula.

Theorem C28_exact : forall g N M pw, (length (g_nodes g) <= N)%nat -> forall coeff T x i, loopless (length (g_nodes g)) (map ends (g_edges g)) -> (i < length (g_nodes g))%nat -> ((M <= length (g_edges g))%nat \/ i <> 0%nat \/ x 0%nat = false) ->
  mis_logratio coeff (graph2edges M pw g) T (vec x) i
  = comb_forward (mis_objective N (graph2edges M pw g)) (mis_penalty coeff (graph2edges M pw g)) T (vec (flip1 x i))
     - comb_forward (mis_objective N (graph2edges M pw g)) (mis_penalty coeff (graph2edges M pw g)) T (vec x).
Proof. exact mis_logratio_exact. Qed.
Print Assumptions C28_exact.

(** Padding nodes get the score -1e9, whatever the state. *)
Theorem C28_masked_nodes : forall g M pw coeff T x i, (length (g_nodes g) <= i)%nat ->
  mis_logratio coeff (graph2edges M pw g) T (vec x) i = - IZR 1000000000.
Proof. intros g M pw. exact (mis_logratio_masked g _ M pw (le_n _)). Qed.
Print Assumptions C28_masked_nodes.

Example C28_case : mis_logratio 2 (graph2edges 0 0 paw) 1 (vec (fun i => Nat.eqb i 2)) 0 = -1 /\ mis_logratio 2 (graph2edges 0 0 paw) 1 (vec (fun i => Nat.eqb i 2)) 2 = -1
  /\ mis_logratio 2 (graph2edges 6 0 paw) 1 (vec (fun i => Nat.eqb i 0)) 0 = 7.
Proof. unfold mis_logratio, vec; cbn; lra. Qed.

(** ** C29 *)
Theorem C29_lengths : forall m pw g, let p := graph2edges m pw g in
  length (ep_edges p) = Nat.max m (length (g_edges g)) /\ length (ep_mask p) = Nat.max m (length (g_edges g))
  /\ length (ep_weight p) = Nat.max m (length (g_edges g)) /\ length (ep_bidir p) = (2 * Nat.max m (length (g_edges g)))%nat
  /\ length (ep_bidir_weight p) = (2 * Nat.max m (length (g_edges g)))%nat.
Proof. exact graph2edges_lengths. Qed.
Print Assumptions C29_lengths.

Theorem C29_edges_first : forall m pw g k e, nth_error (g_edges g) k = Some e -> let p := graph2edges m pw g in
  nth_error (ep_edges p) k = Some (ends e) /\ nth_error (ep_mask p) k = Some 1 /\ nth_error (ep_weight p) k = Some (snd e).
Proof. exact graph2edges_prefix. Qed.
Print Assumptions C29_edges_first.

Theorem C29_padding_masked : forall m pw g k, (length (g_edges g) <= k < Nat.max m (length (g_edges g)))%nat -> let p := graph2edges m pw g in
  nth_error (ep_edges p) k = Some (0, 0)%nat /\ nth_error (ep_mask p) k = Some 0 /\ nth_error (ep_weight p) k = Some (0 + pw).
Proof. exact graph2edges_padding. Qed.
Print Assumptions C29_padding_masked.

Theorem C29_bidirectional : forall m pw g k, (k < length (ep_edges (graph2edges m pw g)))%nat -> let p := graph2edges m pw g in
  nth_error (ep_bidir p) k = nth_error (ep_edges p) k
  /\ nth_error (ep_bidir p) (length (ep_edges p) + k) = option_map (fun e => (snd e, fst e)) (nth_error (ep_edges p) k)
  /\ nth_error (ep_bidir_weight p) k = nth_error (ep_weight p) k
  /\ nth_error (ep_bidir_weight p) (length (ep_edges p) + k) = nth_error (ep_weight p) k.
Proof. exact graph2edges_bidir. Qed.
Print Assumptions C29_bidirectional.

(** Objectives and penalties of every real-valued sample do not depend on how much padding is added. *)
Theorem C29_energies_padding_free : forall g M M' N N' pw, (length (g_nodes g) <= N)%nat -> (length (g_nodes g) <= N')%nat -> forall coeff x,
  mis_objective N (graph2edges M pw g) x = mis_objective N' (graph2edges M' pw g) x
  /\ mis_penalty coeff (graph2edges M pw g) x = mis_penalty coeff (graph2edges M' pw g) x
  /\ clique_penalty N coeff (graph2edges M pw g) x = clique_penalty N' coeff (graph2edges M' pw g) x
  /\ maxcut_objective (graph2edges M 0 g) x = maxcut_objective (graph2edges M' 0 g) x.
Proof. exact padding_free. Qed.
Print Assumptions C29_energies_padding_free.

Example C29_case : ep_edges (graph2edges 6 0 paw) = [(0, 1); (0, 2); (1, 2); (2, 3); (0, 0); (0, 0)]%nat /\ ep_mask (graph2edges 6 0 paw) = [1; 1; 1; 1; 0; 0].
Proof. split; reflexivity. Qed.
