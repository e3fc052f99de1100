(** Energies and scores of the combinatorial models. *)
From Coq Require Import Reals List Lra Lia Arith.
From Verif.Base Require Import RSum.
From Verif.Spec Require Import GraphSpec.
From Verif.Model Require Import CombOpt.
From Verif.Proof Require Import AffineProof GraphProof.
Import ListNotations.
Local Open Scope R_scope.

Lemma evaluate_temperature obj pen T x : T <> 0 -> comb_evaluate obj pen T x = obj x - pen x.
Proof. intros H. unfold comb_evaluate, comb_forward. field. exact H. Qed.

Definition mask_of (n i : nat) : R := if Nat.ltb i n then 1 else 0.

Lemma count_hits n x es : loopless n es ->
  rsum es (fun e => vec x (fst e) * mask_of n (fst e) * (vec x (snd e) * mask_of n (snd e))) = INR (length (filter (hits (selected n x)) es)).
Proof.
  intros Hl. induction es as [|[u v] es IH]; [reflexivity|]. cbn [rsum filter fst snd].
  rewrite IH by (intros a b H; apply Hl; right; auto). destruct (Hl u v (or_introl eq_refl)) as (Hu & Hv & _).
  unfold mask_of. destruct (Nat.ltb_spec u n); [|lia]. destruct (Nat.ltb_spec v n); [|lia].
  destruct (hits (selected n x) (u, v)) eqn:E.
  - apply hits_iff in E. cbn [fst snd] in E. rewrite !in_selected in E. destruct E as [[_ E1] [_ E2]]. unfold vec. rewrite E1, E2.
    cbn [length]. rewrite S_INR. ring.
  - assert (Hx : x u = false \/ x v = false).
    { destruct (x u) eqn:E1; auto. destruct (x v) eqn:E2; auto. rewrite <- E. right. symmetry. apply hits_iff. cbn [fst snd].
      rewrite !in_selected. auto. }
    unfold vec. destruct Hx as [-> | ->]; [|destruct (x u)]; ring.
Qed.

Section Graph.
Variables (g : graph) (N M : nat) (pw : R).
Let n := length (g_nodes g).
Let es := map ends (g_edges g).
Let p := graph2edges M pw g.
Hypothesis HN : (n <= N)%nat.

Lemma masked_sum_p (F : nat * nat -> R) :
  rsum (combine (ep_edges p) (ep_mask p)) (fun em => F (fst em) * snd em) = rsum es F.
Proof. apply masked_sum. Qed.
Lemma weighted_sum_p (F : nat * nat -> R -> R) : (F (0, 0)%nat (0 + pw) = 0) ->
  rsum (combine (ep_edges p) (ep_weight p)) (fun ew => F (fst ew) (snd ew)) = rsum (g_edges g) (fun e => F (ends e) (snd e)).
Proof. apply weighted_sum. Qed.
Lemma bidir_sum_p (F : nat * nat -> R -> R) : F (0, 0)%nat (0 + pw) = 0 ->
  rsum (combine (ep_bidir p) (ep_bidir_weight p)) (fun ew => F (fst ew) (snd ew))
  = rsum (g_edges g) (fun e => F (ends e) (snd e)) + rsum (g_edges g) (fun e => F (swap (ends e)) (snd e)).
Proof. apply bidir_sum. Qed.
Lemma bidir_un_p (F : nat * nat -> R) :
  rsum (ep_bidir p) F = rsum (g_edges g) (fun e => F (ends e)) + rsum (g_edges g) (fun e => F (swap (ends e)))
    + 2 * INR (M - length (g_edges g)) * F (0, 0)%nat.
Proof. apply bidir_sum_unweighted. Qed.

Lemma objective_count x : mis_objective N p (vec x) = INR (length (selected n x)).
Proof. unfold mis_objective. cbn [p graph2edges ep_node_mask]. apply mask_sum. exact HN. Qed.

Lemma covered_count x : loopless n es ->
  rsum (combine (ep_edges p) (ep_mask p)) (fun em => vec x (fst (fst em)) * ep_node_mask p (fst (fst em)) * (vec x (snd (fst em)) * ep_node_mask p (snd (fst em))) * snd em)
  = INR (length (filter (hits (selected n x)) es)).
Proof.
  intros Hl. rewrite (masked_sum_p (fun e => vec x (fst e) * ep_node_mask p (fst e) * (vec x (snd e) * ep_node_mask p (snd e)))).
  apply (count_hits n x es Hl).
Qed.

Lemma mis_value coeff T x : loopless n es -> T <> 0 ->
  comb_evaluate (mis_objective N p) (mis_penalty coeff p) T (vec x)
  = INR (length (selected n x)) - coeff * INR (length (filter (hits (selected n x)) es)).
Proof. intros Hl HT. rewrite evaluate_temperature by exact HT. rewrite objective_count. unfold mis_penalty. rewrite covered_count by exact Hl. reflexivity. Qed.

Lemma clique_value coeff T x : loopless n es -> T <> 0 ->
  let k := INR (length (selected n x)) in
  comb_evaluate (mis_objective N p) (clique_penalty N coeff p) T (vec x)
  = k - coeff * (k * (k - 1) / 2 - INR (length (filter (hits (selected n x)) es))).
Proof.
  intros Hl HT k. rewrite evaluate_temperature by exact HT. rewrite objective_count. unfold clique_penalty. rewrite covered_count by exact Hl.
  change (rsum (seq 0 N) (fun i => vec x i * ep_node_mask p i)) with (mis_objective N p (vec x)). rewrite objective_count. reflexivity.
Qed.

Theorem mis_independent coeff T x : loopless n es -> T <> 0 -> independent n es (selected n x) ->
  comb_evaluate (mis_objective N p) (mis_penalty coeff p) T (vec x) = INR (length (selected n x)).
Proof.
  intros Hl HT [_ Hi]. rewrite mis_value by auto.
  assert (H : filter (hits (selected n x)) es = []).
  { clear -Hi. assert (HH : forall e, In e es -> hits (selected n x) e = false).
    { intros [u v] He. destruct (hits (selected n x) (u, v)) eqn:E; auto. apply hits_iff in E. exfalso. apply (Hi u v); try tauto. left; auto. }
    revert HH. generalize es as l. induction l as [|a l IH]; intros HH; simpl; auto. rewrite HH by (left; auto). apply IH. intros; apply HH; right; auto. }
  rewrite H. simpl. ring.
Qed.

Theorem mis_extract coeff T x : loopless n es -> T <> 0 -> 1 <= coeff ->
  exists S, independent n es S /\ incl S (selected n x) /\
    comb_evaluate (mis_objective N p) (mis_penalty coeff p) T (vec x) <= INR (length S).
Proof.
  intros Hl HT Hc. destruct (node_set_selected n x) as [H1 H2].
  destruct (extract es (selected n x) H1) as (S & K1 & K2 & K3 & K4).
  exists S. split; [|split]; auto.
  - split; [split; auto; intros; apply H2; auto|]. intros u v Hu Hv [Ha|Ha].
    + specialize (K3 _ Ha). assert (hits S (u, v) = true) by (apply hits_iff; auto). congruence.
    + specialize (K3 _ Ha). assert (hits S (v, u) = true) by (apply hits_iff; auto). congruence.
  - rewrite mis_value by auto. apply le_INR in K4. rewrite plus_INR in K4.
    pose proof (pos_INR (length (filter (hits (selected n x)) es))). nra.
Qed.

Theorem clique_clique coeff T x : simple n es -> T <> 0 -> clique n es (selected n x) ->
  comb_evaluate (mis_objective N p) (clique_penalty N coeff p) T (vec x) = INR (length (selected n x)).
Proof.
  intros Hs HT [[HS _] Hc]. rewrite clique_value by (try apply Hs; auto). cbv zeta.
  rewrite <- (count_split _ HS), (covered_pairs n es _ Hs HS).
  assert (H : filter (joined es) (pairs (selected n x)) = pairs (selected n x)).
  { assert (HH : forall e, In e (pairs (selected n x)) -> joined es e = true).
    { intros [u v] He. apply in_pairs in He. cbn [fst snd] in He. apply joined_iff; [tauto|]. apply Hc; try tauto. lia. }
    revert HH. generalize (pairs (selected n x)) as l. induction l as [|a l IH]; intros HH; simpl; auto. rewrite HH by (left; auto). f_equal.
    apply IH. intros; apply HH; right; auto. }
  rewrite H. ring.
Qed.

Theorem clique_extract coeff T x : simple n es -> T <> 0 -> 1 <= coeff ->
  exists S, clique n es S /\ incl S (selected n x) /\
    comb_evaluate (mis_objective N p) (clique_penalty N coeff p) T (vec x) <= INR (length S).
Proof.
  intros Hs HT Hc. destruct (extract_clique n es _ Hs (node_set_selected n x)) as (S & H1 & H2 & H3).
  exists S. split; [|split]; auto. rewrite clique_value by (try apply Hs; auto). cbv zeta.
  assert (0 <= INR (length (selected n x)) * (INR (length (selected n x)) - 1) / 2 - INR (length (filter (hits (selected n x)) es))).
  { destruct (node_set_selected n x) as [HS _]. rewrite <- (count_split _ HS), (covered_pairs n es _ Hs HS).
    rewrite (filter_compl_length (joined es) (pairs (selected n x))), plus_INR.
    pose proof (pos_INR (length (filter (fun a => negb (joined es a)) (pairs (selected n x))))). lra. }
  nra.
Qed.

(** ** Max cut *)
Theorem maxcut_value T x : pw = 0 -> T <> 0 ->
  comb_evaluate (maxcut_objective p) no_penalty T (vec x) = cut_value (g_edges g) x.
Proof.
  intros Hp HT. rewrite evaluate_temperature by exact HT. unfold maxcut_objective, no_penalty.
  rewrite (weighted_sum_p (fun e w => (1 - (vec x (fst e) * 2 - 1) * (vec x (snd e) * 2 - 1)) / 2 * w)).
  - rewrite Rminus_0_r. unfold cut_value. apply rsum_ext. intros [[u v] w] _. unfold ends, vec. cbn [fst snd].
    destruct (x u), (x v); cbn [xorb]; field.
  - rewrite Hp. ring.
Qed.

Theorem maxcut_cut_weight_value T x : pw = 0 -> maxcut_cut_weight p T (vec x) = maxcut_objective p (vec x) / T.
Proof.
  intros Hp. unfold maxcut_cut_weight, maxcut_objective.
  rewrite (weighted_sum_p (fun e w => (1 - (vec x (fst e) * 2 - 1) * (vec x (snd e) * 2 - 1)) / 2 * w)) by (rewrite Hp; ring).
  rewrite (bidir_sum_p (fun e w => (vec x (fst e) - vec x (snd e)) ^ 2 * w)) by (rewrite Hp; ring).
  f_equal. rewrite <- rsum_plus. unfold Rdiv at 1. rewrite <- rsum_scal_r. apply rsum_ext.
  intros [[u v] w] _. unfold ends, swap, vec. cbn [fst snd]. destruct (x u), (x v); field.
Qed.

Lemma loopless_edge e : loopless n es -> In e (g_edges g) -> fst (ends e) <> snd (ends e).
Proof. intros Hl He. assert (In (ends e) es) by (apply in_map; auto). destruct (ends e) as [u v] eqn:E. apply (Hl u v) in H. cbn [fst snd]. tauto. Qed.

Theorem maxcut_logratio_exact T x i : pw = 0 -> loopless n es ->
  maxcut_logratio p T (vec x) i = maxcut_objective p (vec (flip1 x i)) / T - maxcut_objective p (vec x) / T.
Proof.
  intros Hp Hl. unfold maxcut_logratio, maxcut_objective.
  rewrite rsum_filter_if.
  rewrite (bidir_sum_p (fun e w => if Nat.eqb (fst e) i then w * (1 - 2 * vec x (snd e)) else 0)) by (rewrite Hp; destruct (Nat.eqb _ _); ring).
  rewrite (weighted_sum_p (fun e w => (1 - (vec (flip1 x i) (fst e) * 2 - 1) * (vec (flip1 x i) (snd e) * 2 - 1)) / 2 * w)) by (rewrite Hp; ring).
  rewrite (weighted_sum_p (fun e w => (1 - (vec x (fst e) * 2 - 1) * (vec x (snd e) * 2 - 1)) / 2 * w)) by (rewrite Hp; ring).
  rewrite <- rsum_plus. unfold Rdiv. rewrite <- Rmult_minus_distr_r. f_equal.
  rewrite <- rsum_minus, <- rsum_scal_r. apply rsum_ext. intros [[u v] w] He. pose proof (loopless_edge _ Hl He) as Hne.
  unfold ends, swap in *. cbn [fst snd] in *. unfold vec, flip1, put1.
  destruct (Nat.eqb_spec u i) as [->|Hu]; destruct (Nat.eqb_spec v i) as [->|Hv]; try congruence;
    repeat match goal with |- context [x ?a] => destruct (x a) end; cbn [negb]; field.
Qed.

(** ** Scores and gradients as affine functions *)
Lemma put1_vec x i : put1 (vec x) i (vec x i) = fun j => put1 (vec x) i (vec x i) j.
Proof. reflexivity. Qed.

Lemma affine_put1 (y : nat -> R) i j : affine (fun t => put1 y i t j).
Proof. unfold put1. destruct (Nat.eqb j i); [apply affine_id|apply affine_const]. Qed.
Lemma put1_pair (y : nat -> R) i u v : u <> v ->
  (forall t t', put1 y i t u = put1 y i t' u) \/ (forall t t', put1 y i t v = put1 y i t' v).
Proof. intros H. unfold put1. destruct (Nat.eqb_spec u i); [|left; auto]. destruct (Nat.eqb_spec v i); [subst; congruence|right; auto]. Qed.

Lemma affine_pair (y : nat -> R) i u v (a b c d : R) : u <> v -> affine (fun t => (put1 y i t u * a + b) * (put1 y i t v * c + d)).
Proof.
  intros H. destruct (put1_pair y i u v H) as [K|K].
  - apply affine_mult_l; [intros; rewrite (K t t'); auto|]. apply affine_plus; [|apply affine_const]. apply affine_scal_r, affine_put1.
  - apply affine_mult_r; [intros; rewrite (K t t'); auto|]. apply affine_plus; [|apply affine_const]. apply affine_scal_r, affine_put1.
Qed.

Lemma mis_affine coeff T y i : loopless n es -> affine (fun t => comb_forward (mis_objective N p) (mis_penalty coeff p) T (put1 y i t)).
Proof.
  intros Hl. unfold comb_forward, Rdiv. apply affine_scal_r. apply affine_minus.
  - apply (affine_rsum _ (fun j t => put1 y i t j * ep_node_mask p j)). intros j _. apply affine_scal_r, affine_put1.
  - unfold mis_penalty. apply affine_scal. eapply affine_ext.
    + intros t. symmetry. apply (masked_sum_p (fun e => put1 y i t (fst e) * ep_node_mask p (fst e) * (put1 y i t (snd e) * ep_node_mask p (snd e)))).
    + apply (affine_rsum _ (fun e t => put1 y i t (fst e) * ep_node_mask p (fst e) * (put1 y i t (snd e) * ep_node_mask p (snd e)))).
      intros [u v] He. destruct (Hl u v He) as (_ & _ & Hne). cbn [fst snd].
      apply (affine_ext (fun t => (put1 y i t u * ep_node_mask p u + 0) * (put1 y i t v * ep_node_mask p v + 0))); [intros; ring|].
      apply affine_pair; auto.
Qed.

Lemma maxcut_affine T y i : pw = 0 -> loopless n es -> affine (fun t => comb_forward (maxcut_objective p) no_penalty T (put1 y i t)).
Proof.
  intros Hp Hl. unfold comb_forward, Rdiv, no_penalty. apply affine_scal_r. apply affine_minus; [|apply affine_const].
  unfold maxcut_objective. eapply affine_ext.
  - intros t. symmetry. apply (weighted_sum_p (fun e w => (1 - (put1 y i t (fst e) * 2 - 1) * (put1 y i t (snd e) * 2 - 1)) / 2 * w)). rewrite Hp; ring.
  - apply (affine_rsum _ (fun e t => (1 - (put1 y i t (fst (ends e)) * 2 - 1) * (put1 y i t (snd (ends e)) * 2 - 1)) / 2 * snd e)).
    intros e He. pose proof (loopless_edge _ Hl He) as Hne. apply affine_scal_r. unfold Rdiv. apply affine_scal_r. apply affine_minus; [apply affine_const|].
    apply (affine_pair y i _ _ 2 (-1) 2 (-1)). exact Hne.
Qed.

(** Energies depend on the entries only. *)
Lemma mis_forward_ext coeff T y y' : (forall i, y i = y' i) ->
  comb_forward (mis_objective N p) (mis_penalty coeff p) T y = comb_forward (mis_objective N p) (mis_penalty coeff p) T y'.
Proof.
  intros H. unfold comb_forward, mis_objective, mis_penalty. f_equal. f_equal.
  - apply rsum_ext. intros i _. rewrite H. auto.
  - f_equal. apply rsum_ext. intros e _. rewrite !H. auto.
Qed.
Lemma maxcut_forward_ext T y y' : (forall i, y i = y' i) ->
  comb_forward (maxcut_objective p) no_penalty T y = comb_forward (maxcut_objective p) no_penalty T y'.
Proof. intros H. unfold comb_forward, maxcut_objective, no_penalty. f_equal. f_equal. apply rsum_ext. intros e _. rewrite !H. auto. Qed.
Lemma clique_forward_ext coeff T y y' : (forall i, y i = y' i) ->
  comb_forward (mis_objective N p) (clique_penalty N coeff p) T y = comb_forward (mis_objective N p) (clique_penalty N coeff p) T y'.
Proof.
  intros H. unfold comb_forward, mis_objective, clique_penalty. f_equal.
  rewrite (rsum_ext (seq 0 N) (fun i => y i * ep_node_mask p i) (fun i => y' i * ep_node_mask p i)) by (intros; rewrite H; auto).
  f_equal. f_equal. f_equal. apply rsum_ext. intros e _. rewrite !H. auto.
Qed.

Lemma put1_same x i j : put1 (vec x) i (vec x i) j = vec x j.
Proof. unfold put1. destruct (Nat.eqb_spec j i); subst; auto. Qed.
Lemma put1_flip x i j : put1 (vec x) i (1 - vec x i) j = vec (flip1 x i) j.
Proof. unfold vec, flip1, put1. destruct (Nat.eqb_spec j i); subst; auto. destruct (x i); cbn [negb]; ring. Qed.

Lemma affine_flip (F : (nat -> R) -> R) x i d : (forall y y', (forall i, y i = y' i) -> F y = F y') ->
  affine (fun t => F (put1 (vec x) i t)) -> derivable_pt_lim (fun t => F (put1 (vec x) i t)) (vec x i) d ->
  (1 - 2 * vec x i) * d = F (vec (flip1 x i)) - F (vec x).
Proof.
  intros Hext Ha Hd. pose proof (affine_derivative _ _ _ Ha Hd (vec x i) (1 - vec x i)) as H. cbv beta in H.
  rewrite (Hext _ _ (put1_same x i)), (Hext _ _ (put1_flip x i)) in H. rewrite H. ring.
Qed.

Theorem mis_grad_exact coeff T x i d : loopless n es ->
  derivable_pt_lim (fun t => comb_forward (mis_objective N p) (mis_penalty coeff p) T (put1 (vec x) i t)) (vec x i) d ->
  (1 - 2 * vec x i) * d = comb_forward (mis_objective N p) (mis_penalty coeff p) T (vec (flip1 x i))
                          - comb_forward (mis_objective N p) (mis_penalty coeff p) T (vec x).
Proof. intros Hl. apply affine_flip; [apply mis_forward_ext|apply mis_affine; auto]. Qed.

Theorem maxcut_grad_exact T x i d : pw = 0 -> loopless n es ->
  derivable_pt_lim (fun t => comb_forward (maxcut_objective p) no_penalty T (put1 (vec x) i t)) (vec x i) d ->
  (1 - 2 * vec x i) * d = comb_forward (maxcut_objective p) no_penalty T (vec (flip1 x i)) - comb_forward (maxcut_objective p) no_penalty T (vec x).
Proof. intros Hp Hl. apply affine_flip; [apply maxcut_forward_ext|apply maxcut_affine; auto]. Qed.

(** Max clique: the energy is quadratic in a coordinate. *)
Lemma clique_quad coeff T y i : loopless n es -> (i < n)%nat ->
  exists a b, forall t, comb_forward (mis_objective N p) (clique_penalty N coeff p) T (put1 y i t) = a + b * t + (- coeff / T / 2) * t * t.
Proof.
  intros Hl Hi.
  assert (HS : exists s0, forall t, rsum (seq 0 N) (fun j => put1 y i t j * ep_node_mask p j) = s0 + t).
  { exists (rsum (seq 0 N) (fun j => put1 y i 0 j * ep_node_mask p j)). intros t.
    assert (Ht : rsum (seq 0 N) (fun j => if Nat.eqb j i then t else 0) = t).
    2:{ transitivity (rsum (seq 0 N) (fun j => put1 y i 0 j * ep_node_mask p j) + rsum (seq 0 N) (fun j => if Nat.eqb j i then t else 0)); [|rewrite Ht; reflexivity].
      rewrite <- rsum_plus. apply rsum_ext. intros j _. unfold put1. destruct (Nat.eqb_spec j i) as [->|]; [|ring].
      unfold p, graph2edges. cbn [ep_node_mask]. destruct (Nat.ltb_spec i (length (g_nodes g))) as [|Hge]; [ring|]. unfold n in Hi. lia. }
    rewrite (rsum_single (seq 0 N) _ i); [rewrite Nat.eqb_refl; auto|apply seq_NoDup|apply in_seq; lia|].
      intros b _ Hb. destruct (Nat.eqb_spec b i); congruence. }
  destruct HS as [s0 Hs].
  assert (Hc : affine (fun t => rsum (combine (ep_edges p) (ep_mask p)) (fun em => put1 y i t (fst (fst em)) * ep_node_mask p (fst (fst em)) * (put1 y i t (snd (fst em)) * ep_node_mask p (snd (fst em))) * snd em))).
  { eapply affine_ext.
    + intros t. symmetry. apply (masked_sum_p (fun e => put1 y i t (fst e) * ep_node_mask p (fst e) * (put1 y i t (snd e) * ep_node_mask p (snd e)))).
    + apply (affine_rsum _ (fun e t => put1 y i t (fst e) * ep_node_mask p (fst e) * (put1 y i t (snd e) * ep_node_mask p (snd e)))).
      intros [u v] He. destruct (Hl u v He) as (_ & _ & Hne). cbn [fst snd].
      apply (affine_ext (fun t => (put1 y i t u * ep_node_mask p u + 0) * (put1 y i t v * ep_node_mask p v + 0))); [intros; ring|].
      apply affine_pair; auto. }
  destruct Hc as (c0 & c1 & Hc).
  exists ((s0 - coeff * (s0 * (s0 - 1) / 2 - c0)) / T), ((1 - coeff * ((2 * s0 - 1) / 2 - c1)) / T). intros t.
  unfold comb_forward, mis_objective, clique_penalty. rewrite Hs, Hc. unfold Rdiv. generalize (/ T). intros iT. field.
Qed.

Theorem clique_grad_excess coeff T x i d : loopless n es -> (i < n)%nat ->
  derivable_pt_lim (fun t => comb_forward (mis_objective N p) (clique_penalty N coeff p) T (put1 (vec x) i t)) (vec x i) d ->
  (1 - 2 * vec x i) * d = comb_forward (mis_objective N p) (clique_penalty N coeff p) T (vec (flip1 x i))
                          - comb_forward (mis_objective N p) (clique_penalty N coeff p) T (vec x) + coeff / T / 2.
Proof.
  intros Hl Hi Hd. destruct (clique_quad coeff T (vec x) i Hl Hi) as (a & b & H).
  rewrite (quad_derivative _ a b (- coeff / T / 2) _ d H Hd).
  rewrite <- (clique_forward_ext coeff T _ _ (put1_flip x i)), <- (clique_forward_ext coeff T _ _ (put1_same x i)), !H.
  unfold vec, Rdiv. generalize (/ T). intros iT. destruct (x i); field.
Qed.

(** ** The scores MIS computes itself *)
Lemma mis_logratio_formula coeff T x i : loopless n es -> (i < n)%nat ->
  mis_logratio coeff p T (vec x) i
  = comb_forward (mis_objective N p) (mis_penalty coeff p) T (vec (flip1 x i)) - comb_forward (mis_objective N p) (mis_penalty coeff p) T (vec x)
    + (if andb (Nat.eqb i 0) (x 0%nat) then 2 * INR (M - length (g_edges g)) * coeff / T else 0).
Proof.
  intros Hl Hi. unfold mis_logratio, comb_forward, mis_objective, mis_penalty.
  rewrite rsum_filter_if.
  rewrite (bidir_un_p (fun e => if Nat.eqb (fst e) i then coeff * vec x (snd e) else 0)).
  rewrite (masked_sum_p (fun e => vec (flip1 x i) (fst e) * ep_node_mask p (fst e) * (vec (flip1 x i) (snd e) * ep_node_mask p (snd e)))).
  rewrite (masked_sum_p (fun e => vec x (fst e) * ep_node_mask p (fst e) * (vec x (snd e) * ep_node_mask p (snd e)))).
  assert (Hm : ep_node_mask p i = 1).
  { unfold p, graph2edges. cbn [ep_node_mask]. destruct (Nat.ltb_spec i (length (g_nodes g))) as [|Hge]; auto. unfold n in Hi. lia. }
  assert (Ho : rsum (seq 0 N) (fun j => vec (flip1 x i) j * ep_node_mask p j) - rsum (seq 0 N) (fun j => vec x j * ep_node_mask p j) = 1 - 2 * vec x i).
  { rewrite <- rsum_minus. rewrite (rsum_single (seq 0 N) _ i); [|apply seq_NoDup|apply in_seq; lia|].
    - rewrite Hm, <- put1_flip. unfold put1. rewrite Nat.eqb_refl. ring.
    - intros j _ Hj. rewrite <- put1_flip. unfold put1. destruct (Nat.eqb_spec j i); [congruence|]. ring. }
  assert (He : rsum es (fun e => vec (flip1 x i) (fst e) * ep_node_mask p (fst e) * (vec (flip1 x i) (snd e) * ep_node_mask p (snd e)))
     - rsum es (fun e => vec x (fst e) * ep_node_mask p (fst e) * (vec x (snd e) * ep_node_mask p (snd e)))
     = (1 - 2 * vec x i) * rsum (map ends (g_edges g)) (fun e => (if Nat.eqb (fst e) i then vec x (snd e) else 0) + (if Nat.eqb (snd e) i then vec x (fst e) else 0))).
  { rewrite <- rsum_minus, <- rsum_scal. apply rsum_ext. intros [u v] Hin. destruct (Hl u v Hin) as (Hu & Hv & Hne). cbn [fst snd].
    assert (Hmu : ep_node_mask p u = 1) by (unfold p, graph2edges; cbn [ep_node_mask]; destruct (Nat.ltb_spec u (length (g_nodes g))); auto; unfold n in Hu; lia).
    assert (Hmv : ep_node_mask p v = 1) by (unfold p, graph2edges; cbn [ep_node_mask]; destruct (Nat.ltb_spec v (length (g_nodes g))); auto; unfold n in Hv; lia).
    rewrite Hmu, Hmv. rewrite <- !put1_flip. unfold put1. destruct (Nat.eqb_spec u i); destruct (Nat.eqb_spec v i); subst; try congruence; ring. }
  assert (Hd : rsum (g_edges g) (fun e => if Nat.eqb (fst (ends e)) i then coeff * vec x (snd (ends e)) else 0)
     + rsum (g_edges g) (fun e => if Nat.eqb (fst (swap (ends e))) i then coeff * vec x (snd (swap (ends e))) else 0)
     = coeff * rsum (map ends (g_edges g)) (fun e => (if Nat.eqb (fst e) i then vec x (snd e) else 0) + (if Nat.eqb (snd e) i then vec x (fst e) else 0))).
  { rewrite rsum_map, <- rsum_plus, <- rsum_scal. apply rsum_ext. intros e _. unfold swap. cbn [fst snd].
    destruct (Nat.eqb (fst (ends e)) i), (Nat.eqb (snd (ends e)) i); ring. }
  rewrite Hd, Hm. unfold Rdiv.
  match type of He with ?A - ?B = _ => set (a := A) in *; set (b := B) in * end.
  match type of Ho with ?A - ?B = _ => set (o := A) in *; set (o' := B) in * end.
  match type of Hd with _ = _ * ?X => set (D := X) in * end.
  replace a with (b + (1 - 2 * vec x i) * D) by lra. replace o with (o' + (1 - 2 * vec x i)) by lra. generalize (/ T). intros iT.
  cbn [fst snd]. rewrite Nat.eqb_sym. destruct (Nat.eqb_spec i 0) as [->|]; cbn [andb]; [|ring]. unfold vec. destruct (x 0%nat); ring.
Qed.
Lemma mis_logratio_exact coeff T x i : loopless n es -> (i < n)%nat -> ((M <= length (g_edges g))%nat \/ i <> 0%nat \/ x 0%nat = false) ->
  mis_logratio coeff p T (vec x) i
  = comb_forward (mis_objective N p) (mis_penalty coeff p) T (vec (flip1 x i)) - comb_forward (mis_objective N p) (mis_penalty coeff p) T (vec x).
Proof.
  intros Hl Hi H. rewrite mis_logratio_formula by auto. destruct (Nat.eqb_spec i 0) as [->|]; cbn [andb]; [|ring].
  destruct (x 0%nat) eqn:E; [|ring]. destruct H as [H|[H|H]]; try congruence.
  replace (M - length (g_edges g))%nat with 0%nat by lia. cbn [INR]. unfold Rdiv. ring.
Qed.
(** Padding nodes get the score -1e9. *)
Lemma mis_logratio_masked coeff T x i : (n <= i)%nat -> mis_logratio coeff p T (vec x) i = - IZR 1000000000.
Proof.
  intros Hi. unfold mis_logratio. replace (ep_node_mask p i) with 0; [ring|]. unfold p, graph2edges. cbn [ep_node_mask].
  destruct (Nat.ltb_spec i (length (g_nodes g))) as [Hlt|]; auto. unfold n in Hi. lia.
Qed.

(** Node sets as vectors, optimum values. *)
Definition indicator (S : list nat) : nat -> bool := fun i => existsb (Nat.eqb i) S.
Lemma indicator_selected S : node_set n S -> forall v, In v (selected n (indicator S)) <-> In v S.
Proof.
  intros [_ HS] v. rewrite in_selected. unfold indicator. rewrite existsb_exists. split.
  - intros [_ (u & Hu & E)]. apply Nat.eqb_eq in E. subst; auto.
  - intros Hv. split; [auto|]. exists v. split; auto. apply Nat.eqb_refl.
Qed.
Lemma indicator_length S : node_set n S -> length (selected n (indicator S)) = length S.
Proof.
  intros HS. apply Nat.le_antisymm; apply NoDup_incl_length; try apply node_set_selected; try apply HS;
    intros v Hv; apply (indicator_selected S HS); auto.
Qed.
Theorem mis_optimum coeff T k : loopless n es -> T <> 0 -> 1 <= coeff ->
  (exists S, independent n es S /\ length S = k) -> (forall S, independent n es S -> (length S <= k)%nat) ->
  (exists x, comb_evaluate (mis_objective N p) (mis_penalty coeff p) T (vec x) = INR k)
  /\ (forall x, comb_evaluate (mis_objective N p) (mis_penalty coeff p) T (vec x) <= INR k).
Proof.
  intros Hl HT Hc (S & HS & Hk) Hmax. split.
  - exists (indicator S). rewrite mis_independent; auto.
    + rewrite indicator_length by apply HS. rewrite Hk. reflexivity.
    + split; [apply node_set_selected|]. intros u v Hu Hv. apply HS; apply (indicator_selected S (proj1 HS)); auto.
  - intros x. destruct (mis_extract coeff T x Hl HT Hc) as (S' & H1 & _ & H2). eapply Rle_trans; [exact H2|]. apply le_INR. auto.
Qed.
Theorem clique_optimum coeff T k : simple n es -> T <> 0 -> 1 <= coeff ->
  (exists S, clique n es S /\ length S = k) -> (forall S, clique n es S -> (length S <= k)%nat) ->
  (exists x, comb_evaluate (mis_objective N p) (clique_penalty N coeff p) T (vec x) = INR k)
  /\ (forall x, comb_evaluate (mis_objective N p) (clique_penalty N coeff p) T (vec x) <= INR k).
Proof.
  intros Hl HT Hc (S & HS & Hk) Hmax. split.
  - exists (indicator S). rewrite clique_clique; auto.
    + rewrite indicator_length by apply HS. rewrite Hk. reflexivity.
    + split; [apply node_set_selected|]. intros u v Hu Hv. apply HS; apply (indicator_selected S (proj1 HS)); auto.
  - intros x. destruct (clique_extract coeff T x Hl HT Hc) as (S' & H1 & _ & H2). eapply Rle_trans; [exact H2|]. apply le_INR. auto.
Qed.
End Graph.

(** Complementing the vector. *)
Lemma cut_value_complement l x : cut_value l (fun i => negb (x i)) = cut_value l x.
Proof. unfold cut_value. apply rsum_ext. intros e _. destruct (x (fst (fst e))), (x (snd (fst e))); reflexivity. Qed.

(** Too small a penalty: a single edge, coefficient 1/2, both ends selected. *)
Definition edge_g : graph := {| g_nodes := [0; 1]%nat; g_edges := [((0, 1)%nat, 1)] |}.
Lemma mis_small_penalty : comb_evaluate (mis_objective 2 (graph2edges 0 0 edge_g)) (mis_penalty (/ 2) (graph2edges 0 0 edge_g)) 1 (vec (fun _ => true)) = 3 / 2.
Proof. unfold comb_evaluate, comb_forward, mis_objective, mis_penalty, vec. cbn. lra. Qed.

(** Padding breaks it: a graph of two nodes and one edge, padded to two edges. *)
Definition pad_g : graph := {| g_nodes := [0; 1]%nat; g_edges := [((0, 1)%nat, 1)] |}.
Lemma mis_logratio_padded :
  mis_logratio 2 (graph2edges 2 0 pad_g) 1 (vec (fun i => Nat.eqb i 0)) 0
  <> comb_forward (mis_objective 2 (graph2edges 2 0 pad_g)) (mis_penalty 2 (graph2edges 2 0 pad_g)) 1 (vec (flip1 (fun i => Nat.eqb i 0) 0))
     - comb_forward (mis_objective 2 (graph2edges 2 0 pad_g)) (mis_penalty 2 (graph2edges 2 0 pad_g)) 1 (vec (fun i => Nat.eqb i 0)).
Proof.
  unfold mis_logratio, comb_forward, mis_objective, mis_penalty, vec, flip1, put1. cbn. lra.
Qed.

(** ** Closed forms for the property theorems *)
Lemma quad_has_derivative f a b c : (forall t : R, f t = a + b * t + c * t * t) -> forall t, derivable_pt_lim f t (b + 2 * c * t).
Proof.
  intros H t. intros eps He. destruct (Req_dec c 0) as [Hc|Hc].
  - exists (mkposreal 1 Rlt_0_1). intros h Hh _. rewrite !H, Hc.
    replace ((a + b * (t + h) + 0 * (t + h) * (t + h) - (a + b * t + 0 * t * t)) / h - (b + 2 * 0 * t)) with 0 by (field; auto). rewrite Rabs_R0. auto.
  - assert (Hd : 0 < eps / Rabs c) by (apply Rdiv_lt_0_compat; auto; apply Rabs_pos_lt; auto).
    exists (mkposreal _ Hd). intros h Hh Hlt. cbn [pos] in Hlt. rewrite !H.
    replace ((a + b * (t + h) + c * (t + h) * (t + h) - (a + b * t + c * t * t)) / h - (b + 2 * c * t)) with (c * h) by (field; auto).
    rewrite Rabs_mult. apply (Rmult_lt_compat_l (Rabs c)) in Hlt; [|apply Rabs_pos_lt; auto].
    replace (Rabs c * (eps / Rabs c)) with eps in Hlt; auto. field. apply Rabs_no_R0; auto.
Qed.

Lemma affine_slope f : affine f -> exists d, forall t, derivable_pt_lim f t d.
Proof.
  intros (a & b & H). exists b. intros t. pose proof (quad_has_derivative f a b 0) as K.
  replace b with (b + 2 * 0 * t) by ring. apply K. intros u. rewrite H. ring.
Qed.
Lemma mis_differentiable g N M pw coeff T y i : loopless (length (g_nodes g)) (map ends (g_edges g)) ->
  exists d, forall t, derivable_pt_lim (fun t => comb_forward (mis_objective N (graph2edges M pw g)) (mis_penalty coeff (graph2edges M pw g)) T (put1 y i t)) t d.
Proof. intros Hl. apply affine_slope. exact (mis_affine g N M pw coeff T y i Hl). Qed.
Lemma maxcut_differentiable g M T y i : loopless (length (g_nodes g)) (map ends (g_edges g)) ->
  exists d, forall t, derivable_pt_lim (fun t => comb_forward (maxcut_objective (graph2edges M 0 g)) no_penalty T (put1 y i t)) t d.
Proof. intros Hl. apply affine_slope. exact (maxcut_affine g M 0 T y i eq_refl Hl). Qed.

Lemma edge_g_simple : simple 2 (map ends (g_edges edge_g)).
Proof. split; [intros u v [H|[]]; injection H as <- <-; repeat split; lia|]. cbn. repeat constructor; cbn; tauto. Qed.

Lemma clique_gradient_wrong : exists g N M pw coeff T x i d, simple (length (g_nodes g)) (map ends (g_edges g)) /\ (i < length (g_nodes g))%nat /\ 1 <= coeff /\ 0 < T /\
  derivable_pt_lim (fun t => comb_forward (mis_objective N (graph2edges M pw g)) (clique_penalty N coeff (graph2edges M pw g)) T (put1 (vec x) i t)) (vec x i) d /\
  (1 - 2 * vec x i) * d <> comb_forward (mis_objective N (graph2edges M pw g)) (clique_penalty N coeff (graph2edges M pw g)) T (vec (flip1 x i))
     - comb_forward (mis_objective N (graph2edges M pw g)) (clique_penalty N coeff (graph2edges M pw g)) T (vec x).
Proof.
  destruct (clique_quad edge_g 2 1 0 (le_n 2) 1 1 (vec (fun _ => false)) 0 (proj1 edge_g_simple) ltac:(cbn; lia)) as (a & b & H).
  pose proof (quad_has_derivative _ _ _ _ H (vec (fun _ => false) 0%nat)) as Hd.
  exists edge_g, 2%nat, 1%nat, 0, 1, 1, (fun _ => false), 0%nat.
  eexists. split; [exact edge_g_simple|]. split; [cbn; lia|]. split; [lra|]. split; [lra|]. split; [exact Hd|].
  rewrite (clique_grad_excess edge_g 2 1 0 (le_n 2) 1 1 (fun _ => false) 0 _ (proj1 edge_g_simple) ltac:(cbn; lia) Hd).
  match goal with |- ?A + ?B <> ?A => generalize A end. intros A. lra.
Qed.

Lemma clique_ranking g N M pw : (length (g_nodes g) <= N)%nat -> forall coeff T x i j d d', loopless (length (g_nodes g)) (map ends (g_edges g)) ->
  (i < length (g_nodes g))%nat -> (j < length (g_nodes g))%nat ->
  derivable_pt_lim (fun t => comb_forward (mis_objective N (graph2edges M pw g)) (clique_penalty N coeff (graph2edges M pw g)) T (put1 (vec x) i t)) (vec x i) d ->
  derivable_pt_lim (fun t => comb_forward (mis_objective N (graph2edges M pw g)) (clique_penalty N coeff (graph2edges M pw g)) T (put1 (vec x) j t)) (vec x j) d' ->
  (1 - 2 * vec x i) * d - (1 - 2 * vec x j) * d'
  = comb_forward (mis_objective N (graph2edges M pw g)) (clique_penalty N coeff (graph2edges M pw g)) T (vec (flip1 x i))
    - comb_forward (mis_objective N (graph2edges M pw g)) (clique_penalty N coeff (graph2edges M pw g)) T (vec (flip1 x j)).
Proof.
  intros HN coeff T x i j d d' Hl Hi Hj Hd Hd'.
  rewrite (clique_grad_excess g N M pw HN coeff T x i d Hl Hi Hd), (clique_grad_excess g N M pw HN coeff T x j d' Hl Hj Hd'). ring.
Qed.

Lemma mis_small_coefficient : exists g N M pw coeff T x, (length (g_nodes g) <= N)%nat /\ simple (length (g_nodes g)) (map ends (g_edges g)) /\ T <> 0 /\ 0 < coeff /\
  forall S, independent (length (g_nodes g)) (map ends (g_edges g)) S ->
    INR (length S) < comb_evaluate (mis_objective N (graph2edges M pw g)) (mis_penalty coeff (graph2edges M pw g)) T (vec x).
Proof.
  exists edge_g, 2%nat, 0%nat, 0, (/ 2), 1, (fun _ => true). split; [cbn; lia|]. split; [exact edge_g_simple|]. split; [lra|]. split; [lra|].
  intros S [[Hnd HS] Hi]. rewrite mis_small_penalty. cbn in HS.
  assert (Hlen : (length S <= 1)%nat).
  { destruct S as [|a [|b S]]; cbn; try lia. exfalso. inversion Hnd as [|? ? Hn]; subst.
    pose proof (HS a (or_introl eq_refl)). pose proof (HS b (or_intror (or_introl eq_refl))).
    assert (a <> b) by (intros ->; apply Hn; left; auto).
    assert (Hab : (a = 0 /\ b = 1 \/ a = 1 /\ b = 0)%nat) by lia.
    destruct Hab as [[-> ->]|[-> ->]].
    - apply (Hi 0 1)%nat; [left; auto|right; left; auto|]. left. cbn. auto.
    - apply (Hi 0 1)%nat; [right; left; auto|left; auto|]. left. cbn. auto. }
  apply le_INR in Hlen. cbn [INR] in Hlen. lra.
Qed.

Lemma maxcut_complement g M T x : T <> 0 ->
  comb_evaluate (maxcut_objective (graph2edges M 0 g)) no_penalty T (vec (fun i => negb (x i))) = comb_evaluate (maxcut_objective (graph2edges M 0 g)) no_penalty T (vec x).
Proof. intros HT. rewrite !(maxcut_value g M 0 T _ eq_refl HT). apply cut_value_complement. Qed.
Lemma maxcut_objective_cut g M x : maxcut_objective (graph2edges M 0 g) (vec x) = cut_value (g_edges g) x.
Proof. rewrite <- (maxcut_value g M 0 1 x eq_refl R1_neq_R0), evaluate_temperature by exact R1_neq_R0. unfold no_penalty. ring. Qed.
Lemma maxcut_scores g M T x i : T <> 0 -> loopless (length (g_nodes g)) (map ends (g_edges g)) ->
  maxcut_logratio (graph2edges M 0 g) T (vec x) i = (cut_value (g_edges g) (flip1 x i) - cut_value (g_edges g) x) / T.
Proof. intros HT Hl. rewrite (maxcut_logratio_exact g M 0 T x i eq_refl Hl), !maxcut_objective_cut. field. auto. Qed.
Lemma maxcut_weight g M T x : T <> 0 -> maxcut_cut_weight (graph2edges M 0 g) T (vec x) = cut_value (g_edges g) x / T.
Proof. intros HT. rewrite (maxcut_cut_weight_value g M 0 T x eq_refl), maxcut_objective_cut. reflexivity. Qed.

Lemma hits_selected n x es : loopless n es -> filter (hits (selected n x)) es = filter (fun e => andb (x (fst e)) (x (snd e))) es.
Proof.
  intros Hl. apply filter_ext_in. intros [u v] He. destruct (Hl u v He) as (Hu & Hv & _). cbn [fst snd].
  apply Bool.eq_iff_eq_true. rewrite hits_iff, Bool.andb_true_iff. cbn [fst snd]. rewrite !in_selected. tauto.
Qed.
Lemma mis_value_counts g N M pw : (length (g_nodes g) <= N)%nat -> forall coeff T x, loopless (length (g_nodes g)) (map ends (g_edges g)) -> T <> 0 ->
  comb_evaluate (mis_objective N (graph2edges M pw g)) (mis_penalty coeff (graph2edges M pw g)) T (vec x)
  = INR (length (selected (length (g_nodes g)) x)) - coeff * INR (length (filter (fun e => andb (x (fst e)) (x (snd e))) (map ends (g_edges g)))).
Proof. intros HN coeff T x Hl HT. rewrite (mis_value g N M pw HN coeff T x Hl HT), hits_selected by auto. reflexivity. Qed.
Lemma clique_value_counts g N M pw : (length (g_nodes g) <= N)%nat -> forall coeff T x, loopless (length (g_nodes g)) (map ends (g_edges g)) -> T <> 0 ->
  let k := INR (length (selected (length (g_nodes g)) x)) in
  comb_evaluate (mis_objective N (graph2edges M pw g)) (clique_penalty N coeff (graph2edges M pw g)) T (vec x)
  = k - coeff * (k * (k - 1) / 2 - INR (length (filter (fun e => andb (x (fst e)) (x (snd e))) (map ends (g_edges g))))).
Proof. intros HN coeff T x Hl HT k. rewrite (clique_value g N M pw HN coeff T x Hl HT). cbv zeta. rewrite hits_selected by auto. reflexivity. Qed.

Lemma evaluate_zero_temperature : exists objective penalty T x, comb_evaluate objective penalty T x <> objective x - penalty x.
Proof. exists (fun _ => 1), no_penalty, 0, (fun _ => 0). unfold comb_evaluate, no_penalty. lra. Qed.

Lemma mis_padded_wrong : exists g N M pw coeff T x i, (length (g_nodes g) <= N)%nat /\ simple (length (g_nodes g)) (map ends (g_edges g)) /\ (i < length (g_nodes g))%nat /\ 1 <= coeff /\ 0 < T /\
  mis_logratio coeff (graph2edges M pw g) T (vec x) i
  <> comb_forward (mis_objective N (graph2edges M pw g)) (mis_penalty coeff (graph2edges M pw g)) T (vec (flip1 x i))
     - comb_forward (mis_objective N (graph2edges M pw g)) (mis_penalty coeff (graph2edges M pw g)) T (vec x).
Proof.
  exists pad_g, 2%nat, 2%nat, 0, 2, 1, (fun i => Nat.eqb i 0), 0%nat. split; [cbn; lia|]. split; [exact edge_g_simple|]. split; [cbn; lia|].
  split; [lra|]. split; [lra|]. exact mis_logratio_padded.
Qed.

Lemma masked_count m N (f : nat -> R) : (m <= N)%nat -> rsum (seq 0 N) (fun i => f i * (if Nat.ltb i m then 1 else 0)) = rsum (seq 0 m) f.
Proof.
  intros H. replace N with (m + (N - m))%nat by lia. rewrite seq_app, rsum_app.
  rewrite (rsum_const0 (seq (0 + m) (N - m))).
  - rewrite Rplus_0_r. apply rsum_ext. intros i Hi. apply in_seq in Hi. destruct (Nat.ltb_spec i m); [ring|lia].
  - intros i Hi. apply in_seq in Hi. destruct (Nat.ltb_spec i m); [lia|ring].
Qed.
Lemma padding_free g M M' N N' pw : (length (g_nodes g) <= N)%nat -> (length (g_nodes g) <= N')%nat -> forall coeff x,
  mis_objective N (graph2edges M pw g) x = mis_objective N' (graph2edges M' pw g) x
  /\ mis_penalty coeff (graph2edges M pw g) x = mis_penalty coeff (graph2edges M' pw g) x
  /\ clique_penalty N coeff (graph2edges M pw g) x = clique_penalty N' coeff (graph2edges M' pw g) x
  /\ maxcut_objective (graph2edges M 0 g) x = maxcut_objective (graph2edges M' 0 g) x.
Proof.
  intros HN HN' coeff x.
  assert (Hm : forall m K, (length (g_nodes g) <= K)%nat -> rsum (seq 0 K) (fun i => x i * ep_node_mask (graph2edges m pw g) i) = rsum (seq 0 (length (g_nodes g))) x).
  { intros m K HK. unfold graph2edges. cbn [ep_node_mask]. apply masked_count. auto. }
  assert (He : forall m, rsum (combine (ep_edges (graph2edges m pw g)) (ep_mask (graph2edges m pw g)))
       (fun em => x (fst (fst em)) * ep_node_mask (graph2edges m pw g) (fst (fst em)) * (x (snd (fst em)) * ep_node_mask (graph2edges m pw g) (snd (fst em))) * snd em)
     = rsum (map ends (g_edges g)) (fun e => x (fst e) * mask_of (length (g_nodes g)) (fst e) * (x (snd e) * mask_of (length (g_nodes g)) (snd e)))).
  { intros m. exact (masked_sum m pw g (fun e => x (fst e) * mask_of (length (g_nodes g)) (fst e) * (x (snd e) * mask_of (length (g_nodes g)) (snd e)))). }
  split; [|split; [|split]].
  - unfold mis_objective. rewrite !Hm by auto. reflexivity.
  - unfold mis_penalty. rewrite !He. reflexivity.
  - unfold clique_penalty. rewrite !He, !Hm by auto. reflexivity.
  - unfold maxcut_objective.
    rewrite !(weighted_sum _ 0 g (fun e w => (1 - (x (fst e) * 2 - 1) * (x (snd e) * 2 - 1)) / 2 * w)) by ring. reflexivity.
Qed.
