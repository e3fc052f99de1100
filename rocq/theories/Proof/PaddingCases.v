(** Padding: the combinatorial models, the adaptive masked samplers, and the two samplers whose tuning sees the padding. *)
From Coq Require Import String Reals List Lra Lia Arith ZArith Permutation.
From Verif.Base Require Import RSum Cube Dist XFloat MH.
From Verif.Spec Require Import Chain Ergodic Padding GraphSpec.
From Verif.Model Require Import MathUtil RandomWalk Gibbs GWG LocallyBalanced PathAux Langevin CombOpt Annealing.
From Verif.Proof Require Import MHKernel MathUtilProof NoReplProof GibbsProof RandomWalkProof GWGProof PathAuxProof LangevinProof LangevinAdapt ErgodicProof ErgodicSamplers ErgodicMore GraphProof CombOptProof PaddingProof.
Import ListNotations.
Local Open Scope R_scope.

(** ** Models *)
Definition bits (x : list nat) : nat -> R := fun i => INR (nth i x 0%nat).

Lemma bits_firstn n x i : bits x i * (if Nat.ltb i n then 1 else 0) = bits (firstn n x) i * (if Nat.ltb i n then 1 else 0).
Proof. unfold bits. destruct (Nat.ltb_spec i n); [rewrite nth_firstn_lt by auto; reflexivity|ring]. Qed.

Lemma mis_pads g M N pw coeff T : (length (g_nodes g) <= N)%nat -> let n := length (g_nodes g) in
  pads n (fun x => comb_forward (mis_objective N (graph2edges M pw g)) (mis_penalty coeff (graph2edges M pw g)) T (bits x))
         (fun x => comb_forward (mis_objective n (graph2edges 0 pw g)) (mis_penalty coeff (graph2edges 0 pw g)) T (bits x)).
Proof.
  intros HN n x. unfold comb_forward. destruct (padding_free g M 0 N n pw HN (Nat.le_refl _) coeff (bits x)) as (-> & -> & _).
  assert (H1 : mis_objective n (graph2edges 0 pw g) (bits x) = mis_objective n (graph2edges 0 pw g) (bits (firstn n x))).
  { unfold mis_objective. apply rsum_ext. intros i _. cbn [ep_node_mask graph2edges]. apply bits_firstn. }
  rewrite H1. unfold Rdiv, Rminus. do 3 f_equal. unfold mis_penalty. f_equal. apply rsum_ext. intros em _. cbn [ep_node_mask graph2edges]. rewrite !(bits_firstn n x). reflexivity.
Qed.

Lemma clique_pads g M N pw coeff T : (length (g_nodes g) <= N)%nat -> let n := length (g_nodes g) in
  pads n (fun x => comb_forward (mis_objective N (graph2edges M pw g)) (clique_penalty N coeff (graph2edges M pw g)) T (bits x))
         (fun x => comb_forward (mis_objective n (graph2edges 0 pw g)) (clique_penalty n coeff (graph2edges 0 pw g)) T (bits x)).
Proof.
  intros HN n x. unfold comb_forward. destruct (padding_free g M 0 N n pw HN (Nat.le_refl _) coeff (bits x)) as (-> & _ & -> & _).
  assert (Hs : rsum (seq 0 n) (fun i => bits x i * ep_node_mask (graph2edges 0 pw g) i)
     = rsum (seq 0 n) (fun i => bits (firstn n x) i * ep_node_mask (graph2edges 0 pw g) i)).
  { apply rsum_ext. intros i _. cbn [ep_node_mask graph2edges]. apply bits_firstn. }
  unfold mis_objective. rewrite Hs. unfold Rdiv, Rminus. do 3 f_equal. unfold clique_penalty. rewrite Hs. unfold Rminus. do 3 f_equal. apply rsum_ext. intros em _. cbn [ep_node_mask graph2edges]. rewrite !(bits_firstn n x). reflexivity.
Qed.

Lemma maxcut_pads g M T : loopless (length (g_nodes g)) (map ends (g_edges g)) -> let n := length (g_nodes g) in
  pads n (fun x => comb_forward (maxcut_objective (graph2edges M 0 g)) no_penalty T (bits x))
         (fun x => comb_forward (maxcut_objective (graph2edges 0 0 g)) no_penalty T (bits x)).
Proof.
  intros Hl n x. unfold comb_forward, no_penalty, Rdiv, Rminus. do 2 f_equal. 
  unfold maxcut_objective. pose (F := fun z (e : nat * nat) w => (1 - (bits z (fst e) * 2 - 1) * (bits z (snd e) * 2 - 1)) / 2 * w).
  pose proof (weighted_sum M 0 g (F x)) as A1. pose proof (weighted_sum 0 0 g (F (firstn n x))) as A2. unfold F in A1, A2.
  rewrite A1, A2 by (intros; field). apply rsum_ext.
  intros e He. assert (Hin : In (ends e) (map ends (g_edges g))) by (apply in_map; auto).
  rewrite (surjective_pairing (ends e)) in Hin. destruct (Hl _ _ Hin) as (H1 & H2 & _).
  unfold bits. rewrite !nth_firstn_lt by auto. reflexivity.
Qed.

(** ** Adaptive masked samplers *)
Lemma num_sites_pad d e radius : (1 <= d)%nat -> radius <= INR d -> num_sites (d + e) radius = num_sites d radius.
Proof.
  intros Hd Hr. unfold num_sites. pose proof (round_even_close radius) as Hc. apply ChainProof.Rabs_def2_le in Hc.
  assert (H1 : (round_even radius <= Z.of_nat d)%Z).
  { apply Z.lt_succ_r, lt_IZR. rewrite succ_IZR, <- INR_IZR_INZ. lra. }
  lia.
Qed.

Section AMasked.
  Variables (d e : nat) (wf : R -> R) (m radius g : R) (fwD fw : list nat -> R).
  Hypothesis Hd : (1 <= d)%nat.
  Hypothesis Hm : 0 < m.
  Hypothesis Hr : radius <= INR d.
  Hypothesis Hfw : pads d fwD fw.
  Hypothesis Hg : 0 <= g <= 1.

  Lemma apafs_masked lrD lr x f : (forall x i, (i < d)%nat -> lrD x i = lr (firstn d x) i) ->
    (forall u i, In u (states d 2) -> (i < d)%nat -> m <= exp (wf (lr u i))) -> In x (states (d + e) 2) -> (forall z, Rabs (f z) <= 1) ->
    Rabs (E (apafs_step g fwD wf lrD (Some (node_mask d)) radius x) (fun z => f (firstn d z)) - E (apafs_step g fw wf lr (Some (node_mask d)) radius (firstn d x)) f)
      <= 6 * (INR (num_sites d radius) * (INR e * exp (- 10 ^ 9) / m)).
  Proof.
    intros Hlr Hmin Hx Hf. pose proof (states_firstn d (d + e) 2 x ltac:(lia) Hx) as Hu.
    pose proof (num_sites_range d radius Hd) as Hk.
    rewrite (apafs_step_E fwD wf lrD (Some (node_mask d)) (d + e) (num_sites d radius) ltac:(lia) radius (num_sites_pad d e radius Hd Hr) g x _ Hx).
    rewrite <- (pafs_step_E fwD wf lrD (Some (node_mask d)) (d + e) (num_sites d radius) ltac:(lia) g x _ Hx).
    rewrite (apafs_step_E fw wf lr (Some (node_mask d)) d (num_sites d radius) Hk radius eq_refl g (firstn d x) f Hu).
    rewrite <- (pafs_step_E fw wf lr (Some (node_mask d)) d (num_sites d radius) Hk g (firstn d x) f Hu).
    apply (pafs_masked d e wf lrD lr m ltac:(lia) Hlr Hm Hmin (num_sites d radius) fwD fw Hfw g x f); auto.
  Qed.

  Lemma agwg_masked gradD grad x f : (forall x i, (i < d)%nat -> gradD x i = grad (firstn d x) i) ->
    (forall u i, In u (states d 2) -> (i < d)%nat -> m <= exp (wf (paf_lr_grad_bin grad u i))) -> In x (states (d + e) 2) -> (forall z, Rabs (f z) <= 1) ->
    Rabs (E (agwg_step g fwD wf gradD (Some (node_mask d)) radius x) (fun z => f (firstn d z)) - E (agwg_step g fw wf grad (Some (node_mask d)) radius (firstn d x)) f)
      <= 6 * (INR (num_sites d radius) * (INR e * exp (- 10 ^ 9) / m)).
  Proof.
    intros Hlr Hmin Hx Hf. pose proof (states_firstn d (d + e) 2 x ltac:(lia) Hx) as Hu.
    pose proof (num_sites_range d radius Hd) as Hk.
    rewrite (agwg_step_E fwD wf gradD (Some (node_mask d)) (d + e)) by (auto; lia). rewrite (agwg_step_E fw wf grad (Some (node_mask d)) d) by (auto; lia).
    rewrite num_sites_pad by auto.
    apply (gwg_masked_paf d e wf (paf_lr_grad_bin gradD) (paf_lr_grad_bin grad) m ltac:(lia)); auto; [|lia].
    intros z i Hi. unfold paf_lr_grad_bin. rewrite Hlr, nth_firstn_lt by auto. reflexivity.
  Qed.
End AMasked.

(** ** The random walk's radius is divided by the padded size *)
Lemma rw_pad_refuted : exists (d e C : nat) (radius : R) (fwD fw : list nat -> R) x f,
  (0 < d)%nat /\ (0 < e)%nat /\ 1 <= radius <= INR d /\ pads d fwD fw /\ In x (states (d + e) C) /\
  E (rw_step acc_guard fwD radius (d + e) C x) (fun y => f (firstn d y)) <> E (rw_step acc_guard fw radius d C (firstn d x)) f.
Proof.
  exists 1%nat, 1%nat, 2%nat, 1, (fun _ => 0), (fun _ => 0), [0; 0]%nat, (fun u => INR (nth 0 u 0%nat)).
  split; [lia|]. split; [lia|]. split; [cbn; lra|]. split; [intros x; reflexivity|].
  assert (Hx : In [0; 0]%nat (states (1 + 1) 2)) by (apply in_states; split; [reflexivity|repeat constructor; lia]).
  split; [exact Hx|].
  rewrite (rw_lump acc_guard (fun _ => 0) (fun _ => 0) 1 1 1 2 [0; 0]%nat (fun u => INR (nth 0 u 0%nat))) by (auto; try lia; intros ?; reflexivity).
  assert (K : forall r, E (rw_step acc_guard (fun _ => 0) r 1 2 [0%nat]) (fun u => INR (nth 0 u 0%nat)) = r * accept_prob acc_guard 0).
  { intros r. unfold rw_step, rw_draws. cbn [repeat]. rewrite E_bind, E_indep_cons. unfold rw_site. rewrite E_bind, E_bernoulli, !E_dmap.
    unfold uniform, E, weighted. cbn. unfold Rminus, Rdiv. rewrite Ropp_0, !Rplus_0_l. unfold mh_law. cbn. rewrite Rinv_1. ring. }
  cbn [firstn]. rewrite !K. assert (0 < accept_prob acc_guard 0).
  { unfold accept_prob. rewrite exp_0. assert (acc_guard < 1).
    { unfold acc_guard. rewrite <- Rinv_1. apply Rinv_lt_contravar; [rewrite Rmult_1_l; apply pow_lt; lra|]. apply Rlt_pow_R1; [lra|lia]. }
    apply Rlt_le_trans with (Rmin 1 (1 - acc_guard)); [apply Rmin_glb_lt; lra|apply Rmax_r]. }
  cbn. intros Heq. assert (accept_prob acc_guard 0 = 0) by lra. lra.
Qed.

(** ** The local step size is divided among the padding *)
Lemma dmala_p_lt lt lt' w : exp lt < exp lt' -> dmala_p lt w < dmala_p lt' w.
Proof.
  intros H. rewrite !dmala_p_eq. pose proof (exp_pos w) as Hw. pose proof (exp_pos lt) as Hl. set (a := exp lt * exp w). set (b := exp lt' * exp w).
  assert (Ha : 0 < a) by (apply Rmult_lt_0_compat; auto). assert (Hab : a < b) by (apply Rmult_lt_compat_r; auto).
  replace (a / (1 + a)) with (1 - / (1 + a)) by (field; lra). replace (b / (1 + b)) with (1 - / (1 + b)) by (field; lra).
  assert (/ (1 + b) < / (1 + a)) by (apply Rinv_lt_contravar; [apply Rmult_lt_0_compat; lra|lra]). lra.
Qed.

Lemma local_step_diluted n wf lrD lr d e xs x i : 0 < n -> (0 < e)%nat -> pads_scores d lrD lr -> Forall (fun x => length x = (d + e)%nat) xs -> In x xs -> (i < d)%nat ->
  nth i (dmala_pfun wf lrD (local_log_tau n (dmala_log_z (map (chain_rates wf lrD) xs))) x) 0
  < nth i (dmala_pfun wf lr (local_log_tau n (dmala_log_z (map (chain_rates wf lr) (map (firstn d) xs)))) (firstn d x)) 0.
Proof.
  intros Hn He Hs HF Hx Hi. assert (Hne : xs <> []) by (intros ->; destruct Hx).
  pose proof (proj1 (Forall_forall _ _) HF x Hx) as Hlx. cbv beta in Hlx.
  destruct (local_tau_pad n wf lrD lr d e xs Hn ltac:(lia) Hne Hs HF) as [HZ H1].
  assert (Hs' : pads_scores d (fun u i => if Nat.ltb i d then lr (firstn d u) i else 0) lr) by (intros u j; reflexivity).
  assert (HF' : Forall (fun x => length x = (d + 0)%nat) (map (firstn d) xs)).
  { apply Forall_forall. intros u Hu. apply in_map_iff in Hu as (y & <- & Hy). rewrite firstn_length.
    rewrite (proj1 (Forall_forall _ _) HF y Hy). lia. }
  assert (Hr : map (chain_rates wf lr) (map (firstn d) xs) = map (chain_rates wf (fun u i => if Nat.ltb i d then lr (firstn d u) i else 0)) (map (firstn d) xs)).
  { apply map_ext_in. intros u Hu. pose proof (proj1 (Forall_forall _ _) HF' u Hu) as Hlu. cbv beta in Hlu. unfold chain_rates. apply map_ext_in.
    intros j Hj. apply in_seq in Hj. destruct (Nat.ltb_spec j d); [|lia]. rewrite firstn_all2 by lia. reflexivity. }
  rewrite Hr. destruct (local_tau_pad n wf _ lr d 0 (map (firstn d) xs) Hn ltac:(lia) ltac:(destruct xs; [congruence|discriminate]) Hs' HF') as [_ H2].
  unfold dmala_pfun. rewrite !(nth_map_lt _ _ _ 0%nat) by (rewrite seq_length, ?firstn_length; lia). rewrite !seq_nth by (rewrite ?firstn_length; lia). cbn [Nat.add].
  rewrite Hs. destruct (Nat.ltb_spec i d); [|lia]. apply dmala_p_lt. rewrite H1, H2. cbn [INR]. rewrite Rmult_0_l, Rplus_0_r, rsum_map, map_length.
  rewrite (rsum_ext xs (fun a => rsum (seq 0 d) (fun i0 => exp (wf (lr (firstn d (firstn d a)) i0)))) (fun a => rsum (seq 0 d) (fun i0 => exp (wf (lr (firstn d a) i0))))).
  2:{ intros a _. rewrite firstn_firstn, Nat.min_id. reflexivity. }
  set (Z := rsum xs (fun a => rsum (seq 0 d) (fun i0 => exp (wf (lr (firstn d a) i0)))) / INR (length xs)) in *.
  assert (0 < INR e * exp (wf 0)) by (apply Rmult_lt_0_compat; [apply lt_0_INR; auto|apply exp_pos]).
  unfold Rdiv. apply Rmult_lt_compat_l; auto. apply Rinv_lt_contravar; [apply Rmult_lt_0_compat; lra|lra].
Qed.

Lemma flat_bern g dg ps p x f : ps x = Some p -> (forall fl, ps (flip_bits fl x) = Some p \/ length fl <> length p) ->
  E (bern_step g dg (fun _ => 0) ps x) f = E (indep (map bernoulli p)) (fun fl => E (mh_law g 0 x (flip_bits fl x)) f).
Proof.
  intros Hp Hq. unfold bern_step. rewrite Hp, E_bind. apply E_ext_in. intros fl w Hin. destruct (Hq fl) as [H|H].
  - rewrite H. f_equal. f_equal. ring.
  - exfalso. apply H. apply in_indep_len in Hin. rewrite map_length in Hin. exact Hin.
Qed.

(** One chain in co_opt mode: the step size is the local estimate at the current state, and the one at the proposal on the way back. *)
Definition co_tau (wf : R -> R) (lr : list nat -> nat -> R) (x : list nat) : R := local_log_tau 3 (dmala_log_z [chain_rates wf lr x]).

Lemma local_step_refuted : exists (d e : nat) (wf : R -> R) (fwD fw : list nat -> R) (lrD lr : list nat -> nat -> R) x f,
  (0 < d)%nat /\ (0 < e)%nat /\ pads d fwD fw /\ pads_scores d lrD lr /\ In x (states (d + e) 2) /\
  E (dmala_bin_step acc_guard log_guard fwD (co_tau wf lrD) wf lrD x) (fun y => f (firstn d y))
  <> E (dmala_bin_step acc_guard log_guard fw (co_tau wf lr) wf lr (firstn d x)) f.
Proof.
  exists 1%nat, 1%nat, (fun r => r), (fun _ => 0), (fun _ => 0), (fun _ _ => 0), (fun _ _ => 0), [0; 0]%nat, (fun u => INR (nth 0 u 0%nat)).
  split; [lia|]. split; [lia|]. split; [intros x; reflexivity|]. split; [intros x i; destruct (Nat.ltb i 1); reflexivity|].
  assert (Hx : In [0; 0]%nat (states (1 + 1) 2)) by (apply in_states; split; [reflexivity|repeat constructor; lia]).
  split; [exact Hx|].
  assert (T : forall x, (length x = 1 \/ length x = 2)%nat -> exp (co_tau (fun r => r) (fun _ _ => 0) x) = 3 / INR (length x)).
  { intros x Hlen. unfold co_tau, local_log_tau, dmala_log_z, chain_rates, sumexp. cbn [map rsum length]. rewrite rsum_map, exp_0, rsum_const, seq_length.
    replace ((INR (length x) * 1 + 0) / INR 1) with (INR (length x)) by (cbn; field).
    assert (0 < INR (length x)) by (apply lt_0_INR; lia). unfold Rminus. rewrite exp_plus, exp_Ropp, !exp_ln by lra. reflexivity. }
  assert (P : forall x, (length x = 1 \/ length x = 2)%nat -> dmala_ps (co_tau (fun r => r) (fun _ _ => 0) x) (fun r => r) (fun _ _ => 0) x
     = Some (repeat (if Nat.eqb (length x) 1 then 3 / 4 else 3 / 5) (length x))).
  { intros x Hlen. unfold dmala_ps. f_equal. rewrite dmala_p_eq, T, exp_0 by auto.
    destruct Hlen as [-> | ->]; cbn [seq map repeat Nat.eqb INR]; repeat (f_equal; try field). }
  unfold dmala_bin_step. cbn [firstn].
  rewrite (flat_bern _ _ _ (repeat (3 / 5) 2) [0; 0]%nat).
  2:{ rewrite P by (cbn; auto). reflexivity. }
  2:{ intros [|b [|c [|? ?]]]; try (right; cbn; lia). left. rewrite P by (cbn; auto). reflexivity. }
  rewrite (flat_bern _ _ _ (repeat (3 / 4) 1) [0]%nat).
  2:{ rewrite P by (cbn; auto). reflexivity. }
  2:{ intros [|b [|? ?]]; try (right; cbn; lia). left. rewrite P by (cbn; auto). reflexivity. }
  cbn [repeat map]. rewrite !E_indep_cons, !E_bernoulli, !E_indep_cons, !E_bernoulli. cbn [indep]. rewrite !E_ret, !E_mh_law. cbn.
  assert (0 < accept_prob acc_guard 0).
  { unfold accept_prob. rewrite exp_0. assert (acc_guard < 1).
    { unfold acc_guard. rewrite <- Rinv_1. apply Rinv_lt_contravar; [rewrite Rmult_1_l; apply pow_lt; lra|]. apply Rlt_pow_R1; [lra|lia]. }
    apply Rlt_le_trans with (Rmin 1 (1 - acc_guard)); [apply Rmin_glb_lt; lra|apply Rmax_r]. }
  intros Heq. lra.
Qed.

(** ** Whole runs *)
Lemma bern_proper fw ps d g dg : (forall x, In x (states d 2) -> exists p, ps x = Some p /\ length p = d /\ Forall (fun p => 0 < p < 1) p) ->
  proper (states d 2) (bern_step g dg fw ps).
Proof. intros H x Hx. split; [apply (bern_is_prob fw ps d); auto|]. intros y w. apply (bern_stays fw ps d); auto. Qed.

Lemma rw_proper_closed fw d C radius g : (2 <= C)%nat -> (0 < d)%nat -> 0 <= radius <= INR d -> proper (states d C) (rw_step g fw radius d C).
Proof.
  intros HC Hd Hr x Hx. split.
  - exact (is_prob_mh_kernel (fun _ => rw_draws radius d C) (rw_apply C) (fun x dr => fw (rw_apply C x dr) - fw x) g x (rw_draws_is_prob d C radius HC Hr Hd)).
  - intros y w. apply rw_support; auto.
Qed.

Lemma dmala_runs d e guard dg (fwD fw : list nat -> R) (lt : nat -> R) wf lrD lr : pads d fwD fw -> pads_scores d lrD lr ->
  forall n t x f, In x (states (d + e) 2) ->
  E (run_seq (fun t => dmala_bin_step guard dg fwD (fun _ => lt t) wf lrD) n t x) (fun y => f (firstn d y))
  = E (run_seq (fun t => dmala_bin_step guard dg fw (fun _ => lt t) wf lr) n t (firstn d x)) f.
Proof.
  intros Hp Hs. apply lump_run.
  - intros t. apply bern_proper. intros y. apply dmala_ps_ok.
  - intros t x f Hx. exact (dmala_lump guard dg fwD fw (lt t) wf lrD lr d e x f Hp Hs Hx).
Qed.

Lemma dlmc_runs d e guard dg (fwD fw : list nat -> R) solver (lt : nat -> R) wf lrD lr : known_solver solver -> pads d fwD fw -> pads_scores d lrD lr ->
  forall n t x f, In x (states (d + e) 2) ->
  E (run_seq (fun t => dlmc_bin_step guard dg fwD solver (fun _ => lt t) wf lrD) n t x) (fun y => f (firstn d y))
  = E (run_seq (fun t => dlmc_bin_step guard dg fw solver (fun _ => lt t) wf lr) n t (firstn d x)) f.
Proof.
  intros Hso Hp Hs. apply lump_run.
  - intros t. apply bern_proper. intros y. apply (dlmc_ps_ok solver (lt t) wf lrD (d + e) y Hso).
  - intros t x f Hx. exact (dlmc_lump guard dg fwD fw solver (lt t) wf lrD lr d e x f Hso Hp Hs Hx).
Qed.

Lemma rw_runs guard d e C (fwD fw : list nat -> R) (radius : nat -> R) : pads d fwD fw -> (0 < d)%nat -> (2 <= C)%nat ->
  (forall t, 0 <= radius t <= INR (d + e)) -> forall n t x f, In x (states (d + e) C) ->
  E (run_seq (fun t => rw_step guard fwD (radius t) (d + e) C) n t x) (fun y => f (firstn d y))
  = E (run_seq (fun t => rw_step guard fw (radius t * INR d / INR (d + e)) d C) n t (firstn d x)) f.
Proof.
  intros Hp Hd HC Hr. apply lump_run.
  - intros t. apply rw_proper_closed; auto; lia.
  - intros t x f Hx. exact (rw_lump guard fwD fw (radius t) d e C x f Hp Hd HC Hx).
Qed.
