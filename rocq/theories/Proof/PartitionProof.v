(** Proofs about penalised partitioning. *)
From Coq Require Import Reals List Lra Lia Arith Permutation.
From Verif.Base Require Import RSum.
From Verif.Spec Require Import GraphSpec Partition.
From Verif.Model Require Import CombOpt.
From Verif.Proof Require Import GraphProof NormCutProof.
Import ListNotations.
Local Open Scope R_scope.

Lemma part_size_count n x c : part_size n (onehot x) c = INR (part_count n x c).
Proof. unfold part_size, part_count, onehot. apply (rsum_count (fun i => Nat.eqb (x i) c)). Qed.

Lemma off_nonneg lo hi v : 0 <= off lo hi v.
Proof. unfold off. apply Rmax_l. Qed.
Lemma off_zero lo hi v : off lo hi v = 0 <-> lo <= v <= hi.
Proof. unfold off, Rmax. split; intros H; repeat destruct Rle_dec; lra. Qed.
Lemma relu_off lo hi v : lo <= hi -> relu (v - hi) ^ 2 + relu (lo - v) ^ 2 = off lo hi v ^ 2.
Proof. intros H. unfold relu, off, Rmax. repeat destruct Rle_dec; try ring; nra. Qed.

Section Pen.
Variables (g : graph) (M n C : nat) (pw : R).
Let es := map ends (g_edges g).
Let p := graph2edges M pw g.
Hypothesis Hl : loopless n es.

Lemma assigned_edges x : assigned n C x -> forall e, In e es -> (x (fst e) < C)%nat /\ (x (snd e) < C)%nat.
Proof. intros Hx [u v] He. destruct (Hl u v He) as (H1 & H2 & _). split; apply Hx; assumption. Qed.

Theorem span_objective P tol x : 0 <= tol -> assigned n C x ->
  normcut_objective_pen false n C P tol p (onehot x)
  = - (2 * INR (cut_count es x) + P * rsum (seq 0 C) (fun c => off (INR n / INR C - INR n * tol) (INR n / INR C + INR n * tol) (INR (part_count n x c)) ^ 2)).
Proof.
  intros Ht Hx. unfold normcut_objective_pen. cbv zeta.
  assert (HC : rsum (seq 0 C) (fun c => cut_sizes p (onehot x) c) = 2 * INR (cut_count es x)) by exact (cut_sizes_total M pw g x C (assigned_edges x Hx)).
  rewrite HC. f_equal. f_equal. f_equal. apply rsum_ext. intros c _. rewrite part_size_count. rewrite <- relu_off.
  - f_equal; f_equal; f_equal; ring.
  - pose proof (pos_INR n). nra.
Qed.

Theorem quad_objective P tol x : assigned n C x ->
  normcut_objective_pen true n C P tol p (onehot x) = - (2 * INR (cut_count es x) + P * rsum (seq 0 C) (fun c => (INR (part_count n x c) - INR n / INR C) ^ 2)).
Proof.
  intros Hx. unfold normcut_objective_pen. cbv zeta.
  assert (HC : rsum (seq 0 C) (fun c => cut_sizes p (onehot x) c) = 2 * INR (cut_count es x)) by exact (cut_sizes_total M pw g x C (assigned_edges x Hx)).
  rewrite HC. f_equal. f_equal. f_equal. apply rsum_ext. intros c _. rewrite part_size_count. reflexivity.
Qed.

Lemma rsum_sq_zero {A} (l : list A) f : rsum l (fun a => f a ^ 2) = 0 <-> forall a, In a l -> f a = 0.
Proof.
  split.
  - intros H a Ha. pose proof (rsum_ge_term l (fun a => f a ^ 2) a Ha (fun b _ => pow2_ge_0 (f b))) as Hg. cbv beta in Hg. rewrite H in Hg. pose proof (pow2_ge_0 (f a)). nra.
  - intros H. apply rsum_const0. intros a Ha. rewrite H by exact Ha. ring.
Qed.
Lemma rsum_sq_nonneg {A} (l : list A) f : 0 <= rsum l (fun a => f a ^ 2).
Proof. apply rsum_nonneg. intros a _. apply pow2_ge_0. Qed.

Theorem span_balanced P tol x : 0 <= tol -> 0 < P -> assigned n C x ->
  normcut_objective_pen false n C P tol p (onehot x) <= - (2 * INR (cut_count es x)) /\
  (normcut_objective_pen false n C P tol p (onehot x) = - (2 * INR (cut_count es x)) <-> balanced n C (INR n / INR C - INR n * tol) (INR n / INR C + INR n * tol) x).
Proof.
  intros Ht HP Hx. rewrite span_objective by assumption.
  set (s := rsum (seq 0 C) _). assert (Hs : 0 <= s) by apply rsum_sq_nonneg.
  split; [nra |]. transitivity (s = 0); [split; intros H; nra |]. unfold s. rewrite rsum_sq_zero. unfold balanced. split; intros H c Hc.
  - apply off_zero, H, in_seq. lia.
  - apply off_zero, H. apply in_seq in Hc. lia.
Qed.

Theorem quad_balanced P tol x : 0 < P -> assigned n C x ->
  normcut_objective_pen true n C P tol p (onehot x) <= - (2 * INR (cut_count es x)) /\
  (normcut_objective_pen true n C P tol p (onehot x) = - (2 * INR (cut_count es x)) <-> balanced n C (INR n / INR C) (INR n / INR C) x).
Proof.
  intros HP Hx. rewrite quad_objective by assumption. set (s := rsum (seq 0 C) _). assert (Hs : 0 <= s) by apply rsum_sq_nonneg.
  split; [nra |]. transitivity (s = 0); [split; intros H; nra |]. unfold s. rewrite rsum_sq_zero. unfold balanced. split; intros H c Hc.
  - specialize (H c (proj2 (in_seq C 0 c) ltac:(lia))). lra.
  - apply in_seq in Hc. specialize (H c ltac:(lia)). lra.
Qed.

Lemma cut_le_edges x : (cut_count es x <= length (g_edges g))%nat.
Proof.
  unfold cut_count, es. rewrite <- (map_length ends (g_edges g)). generalize (map ends (g_edges g)) as l.
  induction l as [| e l IH]; [apply le_n |]. cbn [filter]. destruct (negb _); cbn [length]; lia.
Qed.

(** An optimum misses the balance by no more than the edges it saves are worth. *)
Theorem span_optimum P tol x y : 0 <= tol -> 0 < P -> assigned n C x -> assigned n C y ->
  (forall z, assigned n C z -> normcut_objective_pen false n C P tol p (onehot z) <= normcut_objective_pen false n C P tol p (onehot x)) ->
  balanced n C (INR n / INR C - INR n * tol) (INR n / INR C + INR n * tol) y ->
  rsum (seq 0 C) (fun c => off (INR n / INR C - INR n * tol) (INR n / INR C + INR n * tol) (INR (part_count n x c)) ^ 2) <= 2 * (INR (cut_count es y) - INR (cut_count es x)) / P.
Proof.
  intros Ht HP Hx Hy Hopt Hb. specialize (Hopt y Hy). apply (span_balanced P tol y Ht HP Hy) in Hb. rewrite Hb, span_objective in Hopt by assumption.
  set (s := rsum (seq 0 C) _) in *. apply (Rmult_le_reg_r P); [exact HP |]. unfold Rdiv. rewrite Rmult_assoc, Rinv_l by lra. lra.
Qed.

Theorem span_large_penalty P tol delta x y : 0 <= tol -> 0 < delta -> 2 * INR (length (g_edges g)) < P * delta ^ 2 -> assigned n C x -> assigned n C y ->
  (forall k, (k <= n)%nat -> INR n / INR C - INR n * tol <= INR k <= INR n / INR C + INR n * tol \/ delta <= off (INR n / INR C - INR n * tol) (INR n / INR C + INR n * tol) (INR k)) ->
  (forall z, assigned n C z -> normcut_objective_pen false n C P tol p (onehot z) <= normcut_objective_pen false n C P tol p (onehot x)) ->
  balanced n C (INR n / INR C - INR n * tol) (INR n / INR C + INR n * tol) y ->
  balanced n C (INR n / INR C - INR n * tol) (INR n / INR C + INR n * tol) x.
Proof.
  intros Ht Hd HP Hx Hy Hgap Hopt Hb.
  assert (HP0 : 0 < P) by (pose proof (pos_INR (length (g_edges g))); pose proof (pow_lt delta 2 Hd); destruct (Rle_lt_dec P 0); [nra | assumption]).
  pose proof (span_optimum P tol x y Ht HP0 Hx Hy Hopt Hb) as Ho.
  intros c Hc. assert (Hk : (part_count n x c <= n)%nat).
  { unfold part_count. rewrite <- (seq_length n 0) at 2. generalize (seq 0 n) as l. induction l as [| e l IH]; [apply le_n |]. cbn [filter]. destruct (Nat.eqb _ _); cbn [length]; lia. }
  destruct (Hgap (part_count n x c) Hk) as [H | H]; [exact H | exfalso].
  pose proof (rsum_ge_term (seq 0 C) (fun c => off (INR n / INR C - INR n * tol) (INR n / INR C + INR n * tol) (INR (part_count n x c)) ^ 2) c ltac:(apply in_seq; lia) (fun b _ => pow2_ge_0 _)) as Hg.
  cbv beta in Hg. pose proof (cut_le_edges y) as Hcy. apply le_INR in Hcy. pose proof (pos_INR (cut_count es x)).
  assert (Hdd : delta ^ 2 <= off (INR n / INR C - INR n * tol) (INR n / INR C + INR n * tol) (INR (part_count n x c)) ^ 2) by (apply pow_incr; lra).
  assert (Hup : 2 * (INR (cut_count es y) - INR (cut_count es x)) / P <= 2 * INR (length (g_edges g)) / P) by (apply Rmult_le_compat_r; [left; apply Rinv_0_lt_compat; exact HP0 | lra]).
  assert (Hlt : 2 * INR (length (g_edges g)) / P < delta ^ 2).
  { apply (Rmult_lt_reg_r P); [exact HP0 |]. unfold Rdiv. rewrite Rmult_assoc, Rinv_l by lra. lra. }
  lra.
Qed.

(** *** Ratio objective *)
Lemma volume_edges x c : g_nodes g = seq 0 n -> volume n p (onehot x) c = rsum es (fun e => (if Nat.eqb (x (fst e)) c then 1 else 0) + (if Nat.eqb (x (snd e)) c then 1 else 0)).
Proof.
  intros Hn. unfold p. rewrite volume_spec by exact Hn. unfold degree.
  rewrite (rsum_ext (seq 0 n) _ (fun v => rsum (g_edges g) (fun e => (if Nat.eqb (fst (ends e)) v then if Nat.eqb (x v) c then 1 else 0 else 0) + (if Nat.eqb (snd (ends e)) v then if Nat.eqb (x v) c then 1 else 0 else 0)))).
  - rewrite rsum_swap. unfold es. rewrite rsum_map. apply rsum_ext. intros e He. assert (Hin : In (ends e) es) by (apply in_map; exact He).
    destruct (ends e) as [u v] eqn:Ee. destruct (Hl u v Hin) as (Hu & Hv & _). cbn [fst snd].
    assert (Hs : forall k, (k < n)%nat -> rsum (seq 0 n) (fun i => if Nat.eqb k i then if Nat.eqb (x i) c then 1 else 0 else 0) = if Nat.eqb (x k) c then 1 else 0).
    { intros k Hk. rewrite (rsum_single (seq 0 n) _ k); [rewrite Nat.eqb_refl; reflexivity | apply seq_NoDup | apply in_seq; lia |]. intros b _ Hb. destruct (Nat.eqb_spec k b); [congruence | reflexivity]. }
    rewrite rsum_plus, !Hs by assumption. reflexivity.
  - intros v _. generalize (g_edges g) as l. induction l as [| e l IH]; [cbn; destruct (Nat.eqb (x v) c); reflexivity |]. cbn [map list_sum fold_right rsum].
    change (fold_right Nat.add 0%nat) with list_sum. rewrite <- IH. rewrite plus_INR. destruct (Nat.eqb (x v) c), (Nat.eqb (fst (ends e)) v), (Nat.eqb (snd (ends e)) v); simpl; ring.
Qed.

Lemma cut_le_volume x c : g_nodes g = seq 0 n -> cut_sizes p (onehot x) c <= volume n p (onehot x) c.
Proof.
  intros Hn. rewrite volume_edges by exact Hn. unfold p. rewrite cut_sizes_sum. apply rsum_le. intros e _. unfold boundary. destruct (Nat.eqb (x (fst e)) c), (Nat.eqb (x (snd e)) c); cbn [xorb]; lra.
Qed.

Lemma cut_nonneg x c : 0 <= cut_sizes p (onehot x) c.
Proof. unfold p. rewrite cut_sizes_count. apply pos_INR. Qed.

Lemma volume_integer x c : g_nodes g = seq 0 n -> 0 <= volume n p (onehot x) c /\ (volume n p (onehot x) c = 0 \/ 1 <= volume n p (onehot x) c).
Proof.
  intros Hn. assert (H : exists k : nat, volume n p (onehot x) c = INR k).
  { rewrite volume_edges by exact Hn. generalize es as l. induction l as [| e l [k IH]]; [exists 0%nat; reflexivity |]. cbn [rsum]. rewrite IH.
    destruct (Nat.eqb (x (fst e)) c), (Nat.eqb (x (snd e)) c); [exists (S (S k)) | exists (S k) | exists (S k) | exists k]; rewrite ?S_INR; ring. }
  destruct H as [k Hk]. rewrite Hk. split; [apply pos_INR |]. destruct k as [| k]; [left; reflexivity | right; rewrite S_INR; pose proof (pos_INR k); lra].
Qed.

Lemma eps_pos : 0 < nc_eps. Proof. unfold nc_eps. lra. Qed.

Lemma term_nonneg x c : g_nodes g = seq 0 n -> 0 <= (cut_sizes p (onehot x) c + nc_eps) / (volume n p (onehot x) c + nc_eps ^ 2).
Proof.
  intros Hn. pose proof (cut_nonneg x c). pose proof eps_pos. destruct (volume_integer x c Hn) as [Hv _]. pose proof (pow_lt nc_eps 2 eps_pos).
  apply Rmult_le_pos; [lra |]. left. apply Rinv_0_lt_compat. lra.
Qed.

Theorem ratio_bounds x : g_nodes g = seq 0 n ->
  ((exists c, (c < C)%nat /\ forall i, (i < n)%nat -> x i <> c) -> normcut_objective n C p (onehot x) <= - / nc_eps) /\
  ((forall c, (c < C)%nat -> 0 < volume n p (onehot x) c) -> - (INR C * (1 + nc_eps)) <= normcut_objective n C p (onehot x)).
Proof.
  intros Hn. unfold normcut_objective. split.
  - intros (c & Hc & He). apply Ropp_le_contravar.
    assert (Hz : volume n p (onehot x) c = 0).
    { unfold volume. apply rsum_const0. intros i Hi. apply in_seq in Hi. unfold onehot. destruct (Nat.eqb_spec (x i) c) as [Hx |]; [exfalso; apply (He i); [lia | exact Hx] | ring]. }
    pose proof (rsum_ge_term (seq 0 C) (fun c => (cut_sizes p (onehot x) c + nc_eps) / (volume n p (onehot x) c + nc_eps ^ 2)) c ltac:(apply in_seq; lia) (fun b _ => term_nonneg x b Hn)) as Hg.
    eapply Rle_trans; [| exact Hg]. cbv beta. rewrite Hz, Rplus_0_l. pose proof eps_pos. pose proof (cut_nonneg x c).
    apply Rle_trans with (nc_eps / nc_eps ^ 2); [right; field; lra |]. apply Rmult_le_compat_r; [left; apply Rinv_0_lt_compat, pow_lt, eps_pos | lra].
  - intros Hv. apply Ropp_le_contravar. replace (INR C * (1 + nc_eps)) with (rsum (seq 0 C) (fun _ => 1 + nc_eps)) by (rewrite rsum_const, seq_length; reflexivity).
    apply rsum_le. intros c Hc. apply in_seq in Hc. specialize (Hv c ltac:(lia)). destruct (volume_integer x c Hn) as [_ [H0 | H1]]; [lra |].
    pose proof (cut_le_volume x c Hn). pose proof eps_pos. pose proof (pow_lt nc_eps 2 eps_pos). apply (Rmult_le_reg_r (volume n p (onehot x) c + nc_eps ^ 2)); [lra |].
    unfold Rdiv. rewrite Rmult_assoc, Rinv_l by lra. nra.
Qed.
End Pen.

(** *** Witnesses: one edge, two parts, the configured penalty 0.0005 and tolerance 0.03 *)
Definition one_edge : graph := {| g_nodes := [0; 1]%nat; g_edges := [((0, 1)%nat, 1)] |}.
Lemma one_edge_simple : simple 2 (map ends (g_edges one_edge)).
Proof. split; [intros u v [H | []]; injection H as <- <-; lia | cbn; repeat constructor; cbn; tauto]. Qed.

Lemma one_edge_balanced x : assigned 2 2 x -> balanced 2 2 (2 / 2 - 2 * (3 / 100)) (2 / 2 + 2 * (3 / 100)) x -> cut_count (map ends (g_edges one_edge)) x = 1%nat.
Proof.
  intros Hx Hb. pose proof (Hx 0%nat ltac:(lia)) as H0. pose proof (Hx 1%nat ltac:(lia)) as H1. specialize (Hb 0%nat ltac:(lia)). unfold part_count in Hb. cbn [seq filter] in Hb.
  unfold cut_count. cbn [map ends g_edges one_edge filter fst snd].
  destruct (x 0%nat) as [| [| ?]], (x 1%nat) as [| [| ?]]; try lia; cbn in *; try reflexivity; lra.
Qed.

Theorem default_penalty_unbalanced : exists x, assigned 2 2 x /\ ~ balanced 2 2 (2 / 2 - 2 * (3 / 100)) (2 / 2 + 2 * (3 / 100)) x /\
  forall y, assigned 2 2 y -> balanced 2 2 (2 / 2 - 2 * (3 / 100)) (2 / 2 + 2 * (3 / 100)) y ->
  normcut_objective_pen false 2 2 (5 / 10000) (3 / 100) (graph2edges 0 0 one_edge) (onehot y) < normcut_objective_pen false 2 2 (5 / 10000) (3 / 100) (graph2edges 0 0 one_edge) (onehot x).
Proof.
  exists (fun _ => 0%nat). assert (Hx : assigned 2 2 (fun _ => 0%nat)) by (intros i _; lia). split; [exact Hx | split].
  - intros Hb. specialize (Hb 0%nat ltac:(lia)). unfold part_count in Hb. cbn in Hb. lra.
  - intros y Hy Hb. pose proof (proj1 one_edge_simple) as Hl.
    apply Rle_lt_trans with (- (2 * INR (cut_count (map ends (g_edges one_edge)) y))); [apply (span_balanced one_edge 0 2 2 0 Hl); [lra | lra | exact Hy] |].
    rewrite (one_edge_balanced y Hy Hb). rewrite (span_objective one_edge 0 2 2 0 Hl) by (try lra; exact Hx).
    unfold cut_count, part_count. cbn [map ends g_edges one_edge filter fst snd seq rsum length Nat.eqb negb INR].
    unfold off, Rmax. repeat destruct Rle_dec; lra.
Qed.

Theorem penalised_scores_wrong : normcut_logratio 2 2 (graph2edges 0 0 one_edge) 1 (fun _ => 0%nat) 0 1 > 0 /\
  normcut_forward (normcut_objective_pen false 2 2 (5 / 10000) (3 / 100) (graph2edges 0 0 one_edge) (onehot (put1 (fun _ => 0%nat) 0 1%nat))) 1
  - normcut_forward (normcut_objective_pen false 2 2 (5 / 10000) (3 / 100) (graph2edges 0 0 one_edge) (onehot (fun _ => 0%nat))) 1 < 0.
Proof.
  pose proof (proj1 one_edge_simple) as Hl. split.
  - change 2%nat with (length (g_nodes one_edge)) at 1. rewrite normcut_logratio_exact by (try exact Hl; cbn; lia). unfold normcut_forward.
    assert (Hn : g_nodes one_edge = seq 0 2) by reflexivity.
    pose proof (proj1 (ratio_bounds one_edge 0 2 2 0 Hl (fun _ => 0%nat) Hn) ltac:(exists 1%nat; split; [lia | intros; lia])) as H1.
    assert (Hv : forall c, (c < 2)%nat -> 0 < volume 2 (graph2edges 0 0 one_edge) (onehot (put1 (fun _ => 0%nat) 0 1%nat)) c).
    { intros c Hc. rewrite (volume_edges one_edge 0 2 0 Hl _ c Hn). destruct c as [| [| c]]; [| | lia]; cbn; lra. }
    pose proof (proj2 (ratio_bounds one_edge 0 2 2 0 Hl (put1 (fun _ => 0%nat) 0 1%nat) Hn) Hv) as H2.
    change (length (g_nodes one_edge)) with 2%nat. unfold nc_eps in H1, H2. rewrite Rinv_involutive in H1 by lra. cbn [INR] in H2. lra.
  - assert (Hy : assigned 2 2 (put1 (fun _ => 0%nat) 0 1%nat)) by (intros i _; unfold put1; destruct (Nat.eqb i 0); lia).
    assert (Hx : assigned 2 2 (fun _ => 0%nat)) by (intros i _; lia). unfold normcut_forward.
    rewrite !(span_objective one_edge 0 2 2 0 Hl) by (try lra; assumption). unfold cut_count, part_count, put1.
    cbn [map ends g_edges one_edge filter fst snd seq rsum length Nat.eqb negb INR]. unfold off, Rmax. repeat destruct Rle_dec; lra.
Qed.

(** *** Initial samples *)
Theorem init_surjective n C more shuf l : (forall m, Permutation (shuf m) m) -> (forall v, In v more -> (v < C)%nat) -> normcut_init n C more shuf = Some l ->
  length l = n /\ (forall v, In v l <-> (v < C)%nat).
Proof.
  intros Hs Hm Hi. unfold normcut_init in Hi. destruct (Nat.leb_spec C n); [| discriminate]. destruct (Nat.eqb_spec (length more) (n - C)); [| discriminate]. injection Hi as <-.
  split; [rewrite (Permutation_length (Hs _)), app_length, seq_length; lia |]. intros v. split; intros Hv.
  - apply (Permutation_in _ (Hs _)) in Hv. apply in_app_or in Hv. destruct Hv as [Hv | Hv]; [apply in_seq in Hv; lia | exact (Hm v Hv)].
  - apply (Permutation_in _ (Permutation_sym (Hs _))), in_or_app. left. apply in_seq. lia.
Qed.
