(** C84: penalised balanced partitioning. *)
From Coq Require Import Reals List Lra Lia Arith Permutation.
From Verif.Base Require Import RSum.
From Verif.Spec Require Import GraphSpec Partition.
From Verif.Model Require Import CombOpt.
From Verif.Proof Require Import PartitionProof.
Import ListNotations.
Local Open Scope R_scope.

(** ** C84 *)
(** With a penalty the objective is minus twice the cut edges minus the squared distances of the part sizes from the tolerated interval. *)
Theorem C84_span_objective : forall g M n C pw P tol x, loopless n (map ends (g_edges g)) -> 0 <= tol -> assigned n C x ->
  normcut_objective_pen false n C P tol (graph2edges M pw g) (onehot x)
  = - (2 * INR (cut_count (map ends (g_edges g)) x)
       + P * rsum (seq 0 C) (fun c => off (INR n / INR C - INR n * tol) (INR n / INR C + INR n * tol) (INR (part_count n x c)) ^ 2)).
Proof. intros. apply span_objective; assumption. Qed.
Print Assumptions C84_span_objective.

Theorem C84_quad_objective : forall g M n C pw P tol x, loopless n (map ends (g_edges g)) -> assigned n C x ->
  normcut_objective_pen true n C P tol (graph2edges M pw g) (onehot x)
  = - (2 * INR (cut_count (map ends (g_edges g)) x) + P * rsum (seq 0 C) (fun c => (INR (part_count n x c) - INR n / INR C) ^ 2)).
Proof. intros. apply quad_objective; assumption. Qed.
Print Assumptions C84_quad_objective.

(** A partition loses nothing to the penalty exactly when it is balanced within the tolerance; otherwise it loses. *)
Theorem C84_balanced_iff : forall g M n C pw P tol x, loopless n (map ends (g_edges g)) -> 0 <= tol -> 0 < P -> assigned n C x ->
  normcut_objective_pen false n C P tol (graph2edges M pw g) (onehot x) <= - (2 * INR (cut_count (map ends (g_edges g)) x)) /\
  (normcut_objective_pen false n C P tol (graph2edges M pw g) (onehot x) = - (2 * INR (cut_count (map ends (g_edges g)) x)) <->
   balanced n C (INR n / INR C - INR n * tol) (INR n / INR C + INR n * tol) x).
Proof. intros. apply span_balanced; assumption. Qed.
Print Assumptions C84_balanced_iff.

Theorem C84_quad_iff : forall g M n C pw P tol x, loopless n (map ends (g_edges g)) -> 0 < P -> assigned n C x ->
  normcut_objective_pen true n C P tol (graph2edges M pw g) (onehot x) <= - (2 * INR (cut_count (map ends (g_edges g)) x)) /\
  (normcut_objective_pen true n C P tol (graph2edges M pw g) (onehot x) = - (2 * INR (cut_count (map ends (g_edges g)) x)) <->
   balanced n C (INR n / INR C) (INR n / INR C) x).
Proof. intros. apply quad_balanced; assumption. Qed.
Print Assumptions C84_quad_iff.

(** If a balanced partition exists, the best one violates balance by at most the edges saved divided by the penalty. *)
Theorem C84_optimum_violation : forall g M n C pw P tol x y, loopless n (map ends (g_edges g)) -> 0 <= tol -> 0 < P -> assigned n C x -> assigned n C y ->
  (forall z, assigned n C z -> normcut_objective_pen false n C P tol (graph2edges M pw g) (onehot z) <= normcut_objective_pen false n C P tol (graph2edges M pw g) (onehot x)) ->
  balanced n C (INR n / INR C - INR n * tol) (INR n / INR C + INR n * tol) y ->
  rsum (seq 0 C) (fun c => off (INR n / INR C - INR n * tol) (INR n / INR C + INR n * tol) (INR (part_count n x c)) ^ 2)
  <= 2 * (INR (cut_count (map ends (g_edges g)) y) - INR (cut_count (map ends (g_edges g)) x)) / P.
Proof. intros g M n C pw P tol x y Hl. intros. apply (span_optimum g M n C pw Hl P tol x y); assumption. Qed.
Print Assumptions C84_optimum_violation.

(** A penalty large against the number of edges makes the best partitions balanced. *)
Theorem C84_large_penalty : forall g M n C pw P tol delta x y, loopless n (map ends (g_edges g)) -> 0 <= tol -> 0 < delta ->
  2 * INR (length (g_edges g)) < P * delta ^ 2 -> assigned n C x -> assigned n C y ->
  (forall k, (k <= n)%nat -> INR n / INR C - INR n * tol <= INR k <= INR n / INR C + INR n * tol \/
                             delta <= off (INR n / INR C - INR n * tol) (INR n / INR C + INR n * tol) (INR k)) ->
  (forall z, assigned n C z -> normcut_objective_pen false n C P tol (graph2edges M pw g) (onehot z) <= normcut_objective_pen false n C P tol (graph2edges M pw g) (onehot x)) ->
  balanced n C (INR n / INR C - INR n * tol) (INR n / INR C + INR n * tol) y ->
  balanced n C (INR n / INR C - INR n * tol) (INR n / INR C + INR n * tol) x.
Proof. intros g M n C pw P tol delta x y Hl. intros. apply (span_large_penalty g M n C pw Hl P tol delta x y); assumption. Qed.
Print Assumptions C84_large_penalty.

(** The configured penalty 0.0005 and tolerance 0.03 are not enough: everything in one part beats every balanced partition. *)
Theorem C84_default_refuted : exists g x, simple 2 (map ends (g_edges g)) /\ assigned 2 2 x /\
  ~ balanced 2 2 (2 / 2 - 2 * (3 / 100)) (2 / 2 + 2 * (3 / 100)) x /\
  forall y, assigned 2 2 y -> balanced 2 2 (2 / 2 - 2 * (3 / 100)) (2 / 2 + 2 * (3 / 100)) y ->
  normcut_objective_pen false 2 2 (5 / 10000) (3 / 100) (graph2edges 0 0 g) (onehot y) < normcut_objective_pen false 2 2 (5 / 10000) (3 / 100) (graph2edges 0 0 g) (onehot x).
Proof. destruct default_penalty_unbalanced as [x H]. exists one_edge, x. split; [exact one_edge_simple | exact H]. Qed.
Print Assumptions C84_default_refuted.

(** The neighbourhood scores ignore the penalty: a move that lowers the log-probability is scored as raising it. *)
Theorem C84_scores_refuted : exists g x i c, simple 2 (map ends (g_edges g)) /\
  0 < normcut_logratio 2 2 (graph2edges 0 0 g) 1 x i c /\
  normcut_forward (normcut_objective_pen false 2 2 (5 / 10000) (3 / 100) (graph2edges 0 0 g) (onehot (put1 x i c))) 1
  - normcut_forward (normcut_objective_pen false 2 2 (5 / 10000) (3 / 100) (graph2edges 0 0 g) (onehot x)) 1 < 0.
Proof. exists one_edge, (fun _ => 0%nat), 0%nat, 1%nat. split; [exact one_edge_simple | exact penalised_scores_wrong]. Qed.
Print Assumptions C84_scores_refuted.

(** Without a penalty an empty part costs at least 1e8, while parts that all touch an edge cost together at most C (1 + 1e-8). *)
Theorem C84_ratio_nonempty : forall g M n C pw x, loopless n (map ends (g_edges g)) -> g_nodes g = seq 0 n ->
  ((exists c, (c < C)%nat /\ forall i, (i < n)%nat -> x i <> c) -> normcut_objective n C (graph2edges M pw g) (onehot x) <= - / nc_eps) /\
  ((forall c, (c < C)%nat -> 0 < volume n (graph2edges M pw g) (onehot x) c) -> - (INR C * (1 + nc_eps)) <= normcut_objective n C (graph2edges M pw g) (onehot x)).
Proof. intros. apply ratio_bounds; assumption. Qed.
Print Assumptions C84_ratio_nonempty.

(** The initial samples have the right length and use every part; with fewer nodes than parts there are none. *)
Theorem C84_init : forall n C more shuf, (forall m, Permutation (shuf m) m) -> (forall v, In v more -> (v < C)%nat) ->
  (forall l, normcut_init n C more shuf = Some l -> length l = n /\ forall v, In v l <-> (v < C)%nat) /\
  ((C <= n)%nat -> length more = (n - C)%nat -> exists l, normcut_init n C more shuf = Some l) /\
  ((n < C)%nat -> normcut_init n C more shuf = None).
Proof.
  intros n C more shuf Hs Hm. split; [intros l; apply init_surjective; assumption | split]; unfold normcut_init.
  - intros H1 H2. apply Nat.leb_le in H1. rewrite H1, H2, Nat.eqb_refl. eexists; reflexivity.
  - intros H1. apply Nat.leb_gt in H1. rewrite H1. reflexivity.
Qed.
Print Assumptions C84_init.

(** *** Non-vacuity *)
Definition square : graph := {| g_nodes := [0; 1; 2; 3]%nat; g_edges := [((0, 1)%nat, 1); ((1, 2)%nat, 1); ((2, 3)%nat, 1); ((3, 0)%nat, 1)] |}.
Definition halves (i : nat) : nat := Nat.div i 2.

Example C84_loopless_example : loopless 4 (map ends (g_edges square)).
Proof. intros u v [H | [H | [H | [H | []]]]]; injection H as <- <-; lia. Qed.
Example C84_assigned_example : assigned 4 2 halves.
Proof. intros i Hi. unfold halves. apply Nat.div_lt_upper_bound; lia. Qed.
Example C84_balanced_example : balanced 4 2 (INR 4 / INR 2 - INR 4 * (3 / 100)) (INR 4 / INR 2 + INR 4 * (3 / 100)) halves /\ cut_count (map ends (g_edges square)) halves = 2%nat.
Proof. split; [| reflexivity]. intros [| [| c]] Hc; [| | lia]; unfold part_count; cbn; lra. Qed.
(** The gap: for four nodes and two parts every unbalanced size is at least 1/2 away; penalty 33 is enough for four edges. *)
Example C84_gap_example : forall k, (k <= 4)%nat -> INR 4 / INR 2 - INR 4 * (3 / 100) <= INR k <= INR 4 / INR 2 + INR 4 * (3 / 100) \/
  / 2 <= off (INR 4 / INR 2 - INR 4 * (3 / 100)) (INR 4 / INR 2 + INR 4 * (3 / 100)) (INR k).
Proof.
  intros [| [| [| [| [| k]]]]] Hk; try lia; cbn [INR]; [right | right | left; lra | right | right]; unfold off, Rmax; repeat destruct Rle_dec; lra.
Qed.
(** With that penalty [halves] is a best partition of the square, so all hypotheses of C84_optimum_violation and C84_large_penalty hold. *)
Example C84_optimum_example : 2 * INR (length (g_edges square)) < 33 * (/ 2) ^ 2 /\
  forall z, assigned 4 2 z -> normcut_objective_pen false 4 2 33 (3 / 100) (graph2edges 0 0 square) (onehot z) <= normcut_objective_pen false 4 2 33 (3 / 100) (graph2edges 0 0 square) (onehot halves).
Proof.
  split; [cbn; lra |]. intros z Hz.
  destruct (C84_balanced_iff square 0 4 2 0 33 (3 / 100) halves C84_loopless_example ltac:(lra) ltac:(lra) C84_assigned_example) as [_ Hb].
  rewrite (proj2 Hb (proj1 C84_balanced_example)). rewrite C84_span_objective by (exact C84_loopless_example || exact Hz || lra).
  rewrite (proj2 C84_balanced_example). unfold cut_count, part_count.
  pose proof (Hz 0%nat ltac:(lia)) as H0. pose proof (Hz 1%nat ltac:(lia)) as H1. pose proof (Hz 2%nat ltac:(lia)) as H2. pose proof (Hz 3%nat ltac:(lia)) as H3.
  cbn [map ends g_edges square filter fst snd seq rsum].
  destruct (z 0%nat) as [| [| ?]], (z 1%nat) as [| [| ?]], (z 2%nat) as [| [| ?]], (z 3%nat) as [| [| ?]]; try lia;
    cbn [Nat.eqb negb length INR]; unfold off, Rmax; repeat destruct Rle_dec; lra.
Qed.
Example C84_ratio_example : g_nodes square = seq 0 4 /\ forall c, (c < 2)%nat -> 0 < volume 4 (graph2edges 0 0 square) (onehot halves) c.
Proof.
  split; [reflexivity |]. intros c Hc. rewrite (volume_edges square 0 4 0 C84_loopless_example _ c eq_refl). destruct c as [| [| c]]; [| | lia]; cbn; lra.
Qed.
Example C84_init_example : normcut_init 5 3 [2; 0]%nat (@rev nat) = Some [0; 2; 2; 1; 0]%nat /\ (forall m : list nat, Permutation (rev m) m).
Proof. split; [reflexivity |]. intros m. apply Permutation_sym, Permutation_rev. Qed.
