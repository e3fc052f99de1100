(** A small run for the examples of C99. *)
From Coq Require Import String List Reals Arith Bool Lia Lra.
From Verif.Model Require Import CombOpt Experiment Loaders GraphRun.
From Verif.Spec Require Import GraphSpec GraphRunSpec.
Import ListNotations.

(** A run of two instances on a path of three nodes and on an edge, one chain each, two steps. *)
Definition demo (mis : bool) : co_conf :=
  {| k_schedule := constant_schedule 1; k_length := 2; k_ratio := 1; k_log := 1; k_models := 2; k_batch := 1; k_parallel := true; k_samples := true; k_mis := mis; k_group := 2 |}.
Definition demo_path : graph := {| g_nodes := [0; 1; 2]; g_edges := [((0, 1), 1%R); ((1, 2), 1%R)] |}.
Definition demo_edge : graph := {| g_nodes := [0; 1]; g_edges := [((0, 1), 1%R)] |}.
Definition demo_data : list (graph * R) := [(demo_path, 2%R); (demo_edge, 1%R)].
(** The first instance is sampled at [x] in the first step and at [y] in the second. *)
Definition demo_visits (x y : nat -> bool) : nat -> nat -> list (nat -> bool) := fun _ t => [if Nat.eqb t 1 then x else y; fun i => Nat.eqb i 0].
Definition demo_sizes : sizes := {| max_nodes := 3; max_edges := 2; instances := 2 |}.

Lemma demo_works b x y : works 2 (demo b) 2 /\ fed (demo b) 2 demo_data (demo_visits x y) /\ last_group 2 (k_models (demo b)) 0.
Proof.
  split; [|split].
  - repeat split; cbn; try lra; try lia. + right; right; left. split; [lia|exists 1%nat; reflexivity]. + intros t. unfold constant_schedule. lra.
  - split; [discriminate|]. split; [cbn; lia|reflexivity].
  - split; [exists 0%nat; reflexivity|cbn; lia].
Qed.
Lemma demo_loopless : loopless 3 (map ends (g_edges demo_path)).
Proof. unfold loopless. cbn. intros u v [E|[E|[]]]; injection E as <- <-; repeat split; lia. Qed.
Lemma demo_simple : simple 3 (map ends (g_edges demo_path)).
Proof. split; [exact demo_loopless|]. cbn. repeat constructor; cbn; intuition discriminate. Qed.
Lemma demo_shown L x y t z : shown 1 L 1 0 (demo_visits x y 0) t z -> z = x \/ z = y.
Proof. intros (_ & c & Hc & E). assert (c = 0)%nat by lia. subst c. cbn in E. destruct (Nat.eqb t 1); injection E as <-; auto. Qed.
Lemma demo_samples b x y z : samples (demo b) 0 (demo_visits x y) 0 z <-> z = x \/ z = y.
Proof.
  split; [intros [t H]; exact (demo_shown _ _ _ _ _ H)|]. intros [-> | ->]; [exists 1%nat|exists 2%nat]; (split; [split; [cbn; lia|eexists; cbn; symmetry; apply Nat.mul_1_r]|exists 0%nat; split; [cbn; lia|reflexivity]]).
Qed.
Lemma demo_independent S : independent 3 (map ends (g_edges demo_path)) S -> (length S <= 2)%nat.
Proof.
  intros [[Hd Hn] Ha]. destruct (in_dec Nat.eq_dec 1%nat S) as [H1|H1].
  - apply (NoDup_incl_length (l' := [1; 1]%nat) Hd). intros v Hv. pose proof (Hn v Hv). assert (v = 0 \/ v = 1 \/ v = 2)%nat as [-> | [-> | ->]] by lia; [| cbn; auto |].
    + exfalso. apply (Ha _ _ Hv H1). left. cbn. auto. + exfalso. apply (Ha _ _ H1 Hv). left. cbn. auto.
  - apply (NoDup_incl_length (l' := [0; 2]%nat) Hd). intros v Hv. pose proof (Hn v Hv). assert (v = 0 \/ v = 1 \/ v = 2)%nat as [-> | [-> | ->]] by lia; cbn; tauto.
Qed.
Lemma demo_clique S : clique 3 (map ends (g_edges demo_path)) S -> (length S <= 2)%nat.
Proof.
  intros [[Hd Hn] Ha]. destruct (in_dec Nat.eq_dec 0%nat S) as [H1|H1].
  - apply (NoDup_incl_length (l' := [0; 1]%nat) Hd). intros v Hv. pose proof (Hn v Hv). assert (v = 0 \/ v = 1 \/ v = 2)%nat as [-> | [-> | ->]] by lia; [cbn; auto|cbn; auto|].
    exfalso. assert (N : 0%nat <> 2%nat) by lia. destruct (Ha _ _ H1 Hv N) as [K|K]; cbn in K; intuition discriminate.
  - apply (NoDup_incl_length (l' := [1; 2]%nat) Hd). intros v Hv. pose proof (Hn v Hv). assert (v = 0 \/ v = 1 \/ v = 2)%nat as [-> | [-> | ->]] by lia; cbn; tauto.
Qed.
Lemma demo_outer : independent 3 (map ends (g_edges demo_path)) [0; 2]%nat.
Proof. split; [split; [repeat constructor; cbn; intuition discriminate|cbn; intuition lia]|]. intros u v Hu Hv [K|K]; cbn in *; intuition congruence. Qed.
Lemma demo_pair : clique 3 (map ends (g_edges demo_path)) [0; 1]%nat.
Proof. split; [split; [repeat constructor; cbn; intuition discriminate|cbn; intuition lia]|]. intros u v Hu Hv Huv. unfold adjacent. cbn in *. intuition (subst; auto; congruence). Qed.
Lemma demo_all_value : clique_at 1 demo_sizes demo_path 1 (fun _ => true) = 2%R.
Proof. unfold clique_at, comb_evaluate, comb_forward, clique_penalty, numbers. cbn. field. Qed.
Lemma demo_not_clique : ~ clique 3 (map ends (g_edges demo_path)) [0; 1; 2]%nat.
Proof. intros H. apply demo_clique in H. cbn in H. lia. Qed.
Lemma demo_heat b t : k_schedule (demo b) t = 1%R.
Proof. cbn. unfold constant_schedule. field. Qed.
