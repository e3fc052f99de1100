(** Sampler objects for which the saved values are biased: Hamming balls with blocks of at least two. *)
From Coq Require Import String Reals List Arith ZArith Lra Lia.
From Verif.Base Require Import RSum Cube Dist.
From Verif.Spec Require Import Chain SamplerRun EvalSpec AisRunSpec.
From Verif.Model Require Import MathUtil Gibbs HammingBall BernEval FullRun Experiment GraphRun AisRun.
From Verif.Proof Require Import MHKernel AdaptiveRunProof ChainProof LangevinProof LangevinAdapt BernEvalProof CoOptProof FullRunProof FullRunInvar GuardRun PaddingProof ErgodicProof
  GibbsProof HammingBallProof HammingBallGeneral ExperimentProof GraphProof GraphRunProof AisProduct AisChains AisBias AisRunProof AisExperiment AisAny.
Import ListNotations.
Local Open Scope R_scope.

Lemma E_indep_pairs {A B} (k : A -> dist B) (phi : A -> R) (psi : B -> R) : forall xs, (forall x, In x xs -> mass (k x) = 1) ->
  E (indep (map k xs)) (fun ys => rsum (combine xs ys) (fun p => phi (fst p) * psi (snd p))) = rsum xs (fun x => phi x * E (k x) psi).
Proof.
  induction xs as [|x xs IH]; intros H; cbn [map].
  - cbn [indep]. rewrite E_ret. reflexivity.
  - rewrite E_indep_cons. cbn [combine rsum fst snd].
    assert (Hm : mass (indep (map k xs)) = 1).
    { clear IH. induction xs as [|y xs IH]; [unfold mass; cbn [map indep]; rewrite E_ret; reflexivity|]. cbn [map]. unfold mass in *. rewrite E_indep_cons.
      rewrite (E_ext _ _ (fun _ => 1)); [apply H; right; left; reflexivity|]. intros. apply IH. intros z [->|Hz]; apply H; [left; reflexivity|right; right; exact Hz]. }
    rewrite (E_ext _ _ (fun y => phi x * psi y + rsum xs (fun x => phi x * E (k x) psi))).
    + rewrite E_plus, E_scal, E_const, (H x (or_introl eq_refl)). ring.
    + intros y. rewrite E_plus, E_const, Hm, IH by (intros; apply H; right; assumption). ring.
Qed.

(** The second value on one device, any usable sampler object. *)
Lemma second_value g dg lg net m grad d L B k M : image_mean d m -> bounded_by d net M -> (2 <= L)%nat -> (0 < d)%nat -> (0 < B)%nat ->
  usable (ais_target lg net (Some m) grad d L 0) k ->
  E (ais_experiment g dg lg net (Some m) grad d k None B L) (fun zs => exp (nth 1 zs 0)) =
  E (init_batch B (init_samples m)) (fun xs => E (sampler_step g dg (ais_target lg net (Some m) grad d L 1) k (xs, init_state k)) (fun o =>
    rsum (combine xs (fst o)) (fun p => exp (net (fst p) / INR L) * exp (net (snd p) / INR L)) / INR B)).
Proof.
  intros Hm Hb HL Hd HB Hu. set (T := ais_target lg net (Some m) grad d L) in *.
  assert (Hu' : forall t, usable (T t) k) by (intros t; revert Hu; unfold usable, T; destruct k; auto).
  assert (HL0 : (0 < L)%nat) by lia. assert (HLr : INR L <> 0) by (apply not_0_INR; lia).
  pose proof (any_c net d L M Hb HL0 Hd) as Hc0. set (c := M / INR L) in *.
  assert (Hst : forall t x, In x (states d 2) -> Rabs (t_fw (T (S t)) x - t_fw (T t) x) <= c) by (intros t x Hx; exact (f_step lg net m grad d L M Hb HL0 t x Hx)).
  assert (Hinc : forall t x, t_fw (T (S t)) x - t_fw (T t) x = net x / INR L).
  { intros t x. unfold T. rewrite !(f_eq lg net m grad d L), S_INR. field. exact HLr. }
  unfold ais_experiment. fold T. rewrite E_bind. cbn [ais_start]. apply E_ext_in. intros xs w Hx.
  destruct (dealt lg net (Some m) grad d L B k None Hm HL0 Hd HB Hu I xs w Hx) as (ds & Ed & A1 & A2 & A3).
  assert (Hlen : length xs = B) by (apply (in_indep_repeat _ _ _ _ Hx)).
  cbn [deal] in Ed. injection Ed as <-. cbn [deal]. destruct L as [|[|L']]; [lia|lia|].
  assert (HBr : 0 < INR B) by (apply lt_0_INR; lia).
  cbn [ais_values]. rewrite E_bind. cbn [map]. rewrite E_indep_1. unfold dev_step at 1. rewrite E_dmap. cbn [fst]. apply E_ext_in. intros [ys s'] v Hin.
  destruct (A1 c Hc0 _ (or_introl eq_refl)) as (S1 & S2 & S3 & S4). cbn [fst snd] in S1, S2, S3, S4.
  pose proof (step_good g dg (T 1%nat) k 0 (init_state k) xs) as G. destruct (G Hd (le_n 2) (Hu' 1%nat) S1 S2) as [_ G2]. destruct (G2 _ _ Hin) as (G3 & G4 & G5). cbn [fst snd] in G3, G4, G5. clear G G2.
  rewrite E_dmap. cbn [nth].
  assert (Hleg : forall o, In o [((ys, s'), dev_weights (T 0%nat) (T 1%nat) ((xs, init_state k), repeat 0 B))] -> legal_dev k d c 1 o).
  { intros o [<-|[]].
    pose proof (legal_step g dg T k d c (fun _ => eq_refl) (fun _ => eq_refl) Hd Hu' Hst 0 ((xs, init_state k), repeat 0 B) (A1 c Hc0 _ (or_introl eq_refl))) as [_ LS].
    assert (Hin2 : In ((ys, s'), dev_weights (T 0%nat) (T 1%nat) ((xs, init_state k), repeat 0 B), v) (dev_step g dg (T 0%nat) (T 1%nat) k ((xs, init_state k), repeat 0 B))).
    { unfold dev_step. cbn [fst]. unfold dmap. apply in_map_iff. exists ((ys, s'), v). split; [reflexivity|exact Hin]. }
    exact (proj1 (LS _ _ Hin2)). }
  assert (Hsome : some_chain [((ys, s'), dev_weights (T 0%nat) (T 1%nat) ((xs, init_state k), repeat 0 B))]).
  { eexists. split; [left; reflexivity|]. cbn [snd]. unfold dev_weights. cbn [fst snd]. intros E0. apply (f_equal (@length R)) in E0. rewrite map_length, combine_length, repeat_length, Hlen in E0. cbn in E0. lia. }
  change (bind _ _) with (ais_values g dg T k (S L') 1 [((ys, s'), dev_weights (T 0%nat) (T 1%nat) ((xs, init_state k), repeat 0 B))]).
  rewrite (any_first g dg T k d c (fun _ => eq_refl) (fun _ => eq_refl) Hd Hu' Hst L' 1 _ exp Hleg Hsome).
  unfold all_chains. cbn [map concat fst snd]. rewrite app_nil_r. set (ws := dev_weights _ _ _).
  assert (Hws : ws = map (fun x => net x / INR (S (S L'))) xs).
  { unfold ws, dev_weights. cbn [fst snd]. clear - Hlen Hinc. revert B Hlen. induction xs as [|x xs IH]; intros B Hlen; [reflexivity|]. destruct B as [|B]; [discriminate|]. cbn [repeat combine map fst snd].
    rewrite (IH B) by (cbn in Hlen; lia). f_equal. specialize (Hinc 0%nat x). lra. }
  assert (Hcl : length (combine ys ws) = B) by (rewrite combine_length, Hws, map_length; lia).
  rewrite logz_mean by (intros E0; apply (f_equal (@length R)) in E0; rewrite map_length, Hcl in E0; cbn in E0; lia).
  rewrite map_length, Hcl. f_equal. rewrite rsum_map, Hws. assert (Hyl : length ys = length xs) by lia. clear - Hyl Hinc. revert ys Hyl. induction xs as [|x xs IH]; intros [|y ys] Hyl; try discriminate; [reflexivity|].
  cbn [map combine rsum fst snd]. rewrite IH by (cbn in Hyl; lia). f_equal. rewrite <- exp_plus. f_equal. unfold new_w. cbn [fst snd]. specialize (Hinc 1%nat y). lra.
Qed.

(** ** Hamming balls *)
Definition half_mean (d : nat) : list R := repeat (/ 2) d.
(** The weight of an image: two if the first pixel is black. *)
Definition first_black (x : list nat) : R := if Nat.eqb (nth 0 x 0%nat) 0 then 2 else 1.
Definition black_net (x : list nat) : R := 2 * ln (first_black x).

Lemma first_black_pos x : 0 < first_black x.
Proof. unfold first_black. destruct (Nat.eqb _ _); lra. Qed.
Lemma black_net_half x : exp (black_net x / INR 2) = first_black x.
Proof. unfold black_net. replace (2 * ln (first_black x) / INR 2) with (ln (first_black x)) by (cbn [INR]; field). apply exp_ln, first_black_pos. Qed.
Lemma black_bounded d : bounded_by d black_net (2 * ln 2).
Proof.
  intros x _. unfold black_net, first_black. assert (0 < ln 2) by (rewrite <- ln_1; apply ln_increasing; lra). destruct (Nat.eqb _ _).
  - rewrite Rabs_right; lra.
  - rewrite ln_1, Rmult_0_r, Rabs_R0. lra.
Qed.
Lemma half_image d : image_mean d (half_mean d).
Proof. split; [apply repeat_length|]. apply Forall_forall. intros m Hm. apply repeat_spec in Hm. lra. Qed.
Lemma half_pixels d : forall x, length x = d -> pixels (half_mean d) x = (/ 2) ^ d.
Proof.
  unfold pixels, half_mean. induction d as [|d IH]; intros x Hx; destruct x as [|b x]; try discriminate; [reflexivity|].
  cbn [repeat combine rprod fst snd pow]. rewrite IH by (cbn in Hx; lia). f_equal. destruct (Nat.eqb b 1); lra.
Qed.
Lemma half_base lg d : forall x, In x (states d 2) -> base_logprob lg (half_mean d) x = INR d * ln (/ 2 + lg).
Proof.
  intros x Hx. apply in_states in Hx. destruct Hx as [Hl Hv]. revert x Hl Hv. unfold base_logprob, half_mean. induction d as [|d IH]; intros x Hl Hv; destruct x as [|b x]; try discriminate; [cbn; ring|].
  cbn [repeat combine rsum fst snd]. inversion Hv as [|? ? Hb Hv']. subst. rewrite IH by (cbn in Hl; auto). rewrite S_INR. replace (1 + (- / 2 + lg)) with (/ 2 + lg) by lra. ring.
Qed.

Lemma flip_first j x : (0 < length x)%nat -> (nth 0 x 0 < 2)%nat -> first_black (shift_at 2 j 1 x) = if Nat.eqb j 0 then 3 - first_black x else first_black x.
Proof.
  intros Hl Hx. unfold first_black, shift_at. destruct (Nat.eqb_spec j 0) as [->|Hj].
  - rewrite nth_upd_eq by exact Hl. destruct (nth 0 x 0%nat) as [|[|n]]; [| |lia]; cbn; lra.
  - rewrite nth_upd_neq by lia. reflexivity.
Qed.

Lemma rsum_slots2 b (h : list nat -> R) x : rsum (slots b 2) (fun s => h (slot_move 2 0 s x)) = h x + rsum (seq 0 b) (fun j => h (shift_at 2 j 1 x)).
Proof.
  unfold slots. cbn [rsum slot_move]. f_equal. rewrite rsum_map, rsum_list_prod. apply rsum_ext. intros j _. change (seq 1 (2 - 1)) with [1%nat]. cbn [rsum slot_move Nat.add]. ring.
Qed.

Lemma rsum_flips b (h : R -> R) x : (1 <= b)%nat -> (0 < length x)%nat -> (nth 0 x 0 < 2)%nat ->
  rsum (slots b 2) (fun s => h (first_black (slot_move 2 0 s x))) = h (3 - first_black x) + INR b * h (first_black x).
Proof.
  intros Hb Hl Hx. rewrite (rsum_slots2 b (fun y => h (first_black y)) x). destruct b as [|b]; [lia|]. cbn [seq rsum].
  rewrite (flip_first 0 x Hl Hx). cbn [Nat.eqb]. rewrite (rsum_ext (seq 1 b) _ (fun _ => h (first_black x))).
  - rewrite rsum_const, seq_length, S_INR. ring.
  - intros j Hj. apply in_seq in Hj. rewrite (flip_first j x Hl Hx). destruct (Nat.eqb_spec j 0); [lia|reflexivity].
Qed.

Lemma rsum_first n (h : nat -> R) : rsum (states (S n) 2) (fun x => h (nth 0 x 0%nat)) = 2 ^ n * (h 0%nat + h 1%nat).
Proof.
  assert (Hc : INR (length (states n 2)) = 2 ^ n).
  { unfold states. rewrite length_lists_over, seq_length, pow_INR. reflexivity. }
  unfold states. rewrite rsum_lists_over_cons. fold (states n 2). rewrite (rsum_ext _ _ (fun v => 2 ^ n * h v)).
  - cbn [seq rsum]. ring.
  - intros v _. cbn [nth]. rewrite rsum_const, Hc. reflexivity.
Qed.

Section Ball.
  Variables (fw : list nat -> R) (b d : nat) (K : R).
  Hypotheses (Hb : (2 <= b)%nat) (Hd : (b <= d)%nat) (Hfw : forall x, In x (states d 2) -> fw x = K + ln (first_black x)).

  Lemma exp_fw x : In x (states d 2) -> exp (fw x) = exp K * first_black x.
  Proof. intros Hx. rewrite Hfw by exact Hx. rewrite exp_plus, exp_ln by apply first_black_pos. reflexivity. Qed.

  Lemma select_black x : In x (states d 2) ->
    E (hb_select fw 2 b 0 x) first_black = ((3 - first_black x) ^ 2 + INR b * first_black x ^ 2) / (3 - first_black x + INR b * first_black x).
  Proof.
    intros Hx. pose proof (proj1 (in_states _ _ _) Hx) as [Hl HF]. assert (Hx0 : (nth 0 x 0 < 2)%nat) by (apply (in_states_nth d 2 x 0); [exact Hx|lia]).
    assert (Hl0 : (0 < length x)%nat) by lia. assert (Hbr : 2 <= INR b) by (apply (le_INR 2); lia).
    assert (Hfb : first_black x = 2 \/ first_black x = 1) by (unfold first_black; destruct (Nat.eqb _ _); auto).
    rewrite E_hb_select. unfold hb_Z.
    rewrite (rsum_ext _ (fun s => exp (fw (slot_move 2 0 s x))) (fun s => exp K * first_black (slot_move 2 0 s x))) by (intros s Hs; apply exp_fw; apply (slot_move_states d 2 b 0 s x Hx Hs)).
    rewrite rsum_scal, (rsum_flips b (fun r => r) x) by (try assumption; lia).
    rewrite (rsum_ext _ _ (fun s => / (3 - first_black x + INR b * first_black x) * first_black (slot_move 2 0 s x) ^ 2)).
    - rewrite rsum_scal, (rsum_flips b (fun r => r ^ 2) x) by (try assumption; lia). unfold Rdiv. ring.
    - intros s Hs. rewrite exp_fw by (apply (slot_move_states d 2 b 0 s x Hx Hs)). pose proof (exp_pos K). field. split; [destruct Hfb as [->| ->]; nra|lra].
  Qed.

  Lemma select_drift : rsum (states d 2) (fun x => exp (fw x) * E (hb_select fw 2 b 0 x) first_black) - rsum (states d 2) (fun x => exp (fw x) * first_black x)
    = exp K * 2 ^ (d - 1) * (2 * (INR b - 1) / ((2 * INR b + 1) * (INR b + 2))).
  Proof.
    assert (Hbr : 2 <= INR b) by (apply (le_INR 2); lia).
    rewrite <- rsum_minus. rewrite (rsum_ext _ _ (fun x => exp K * (fun v => if Nat.eqb v 0 then - 2 / (2 * INR b + 1) else 2 / (INR b + 2)) (nth 0 x 0%nat))).
    - rewrite rsum_scal. destruct d as [|n]; [lia|]. rewrite (rsum_first n (fun v => if Nat.eqb v 0 then - 2 / (2 * INR b + 1) else 2 / (INR b + 2))). cbn [Nat.eqb]. replace (S n - 1)%nat with n by lia.
      rewrite !Rmult_assoc. f_equal. f_equal. field. lra.
    - intros x Hx. rewrite exp_fw, select_black by exact Hx. unfold first_black. destruct (Nat.eqb _ _); field; lra.
  Qed.

  Lemma exp_lower : INR b * exp 1 < exp (INR b).
  Proof.
    assert (Hbr : 2 <= INR b) by (apply (le_INR 2); lia). replace (INR b) with ((INR b - 1) + 1) at 2 by ring. rewrite exp_plus. apply Rmult_lt_compat_r; [apply exp_pos|].
    pose proof (exp_ineq1 (INR b - 1) ltac:(lra)). lra.
  Qed.

  Lemma ball_drift : rsum (states d 2) (fun x => exp (fw x) * E (hb_step (hamming_logit b 2) fw 2 b 0 x) first_black) < rsum (states d 2) (fun x => exp (fw x) * first_black x).
  Proof.
    rewrite hamming_logit_eq by lia. pose proof (hb_balance 1 (INR (b * (2 - 1))) fw d 2 b 0 first_black ltac:(lia) ltac:(lia)) as H. rewrite select_drift in H.
    replace (b * (2 - 1))%nat with b in * by lia. assert (Hbr : 2 <= INR b) by (apply (le_INR 2); lia).
    assert (Hp : p0 1 (INR b) - (1 - p0 1 (INR b)) / INR b < 0).
    { unfold p0. pose proof (exp_pos 1). pose proof (exp_pos (INR b)). pose proof exp_lower as Hlow.
      replace (exp 1 / (exp 1 + exp (INR b)) - (1 - exp 1 / (exp 1 + exp (INR b))) / INR b) with ((INR b * exp 1 - exp (INR b)) * / (INR b * (exp 1 + exp (INR b)))) by (field; lra).
      assert (0 < / (INR b * (exp 1 + exp (INR b)))) by (apply Rinv_0_lt_compat; nra). nra. }
    assert (Hq : 0 < exp K * 2 ^ (d - 1) * (2 * (INR b - 1) / ((2 * INR b + 1) * (INR b + 2)))).
    { apply Rmult_lt_0_compat; [apply Rmult_lt_0_compat; [apply exp_pos|apply pow_lt; lra]|]. apply Rdiv_lt_0_compat; nra. }
    nra.
  Qed.
End Ball.

(** However many chains: the second of two values of a Hamming ball with a block of at least two is too small on average. *)
Theorem ball_biased g dg lg grad b d B : 0 <= lg -> (2 <= b <= d)%nat -> (0 < B)%nat ->
  E (ais_experiment g dg lg black_net (Some (half_mean d)) grad d (SHamming b) None B 2) (fun zs => exp (nth 1 zs 0)) < partition (half_mean d) black_net 1.
Proof.
  intros Hlg Hb HB. rewrite (second_value g dg lg black_net (half_mean d) grad d 2 B (SHamming b) (2 * ln 2)); auto using half_image, black_bounded; try lia; [|cbn; lia].
  set (T1 := ais_target lg black_net (Some (half_mean d)) grad d 2 1). destruct (start_law (half_mean d) (proj2 (half_image d))) as (P1 & P2 & P3). rewrite (proj1 (half_image d)) in P2, P3.
  set (K := INR d * ln (/ 2 + lg)). assert (Hfw : forall x, In x (states d 2) -> t_fw T1 x = K + ln (first_black x)).
  { intros x Hx. unfold T1. rewrite (f_eq lg black_net (half_mean d) grad d 2), half_base by exact Hx. unfold K, black_net. cbn [INR]. field. }
  assert (HBr : 0 < INR B) by (apply lt_0_INR; lia).
  rewrite (E_ext_in _ _ (fun xs => val (col_mean (map (fun x => first_black x * E (hb_step (hamming_logit b 2) (t_fw T1) 2 b 0 x) first_black) xs)))).
  - unfold init_batch. rewrite mean_unbiased by (try exact (proj2 P1); lia). rewrite P3.
    unfold partition. rewrite (proj1 (half_image d)).
    pose proof (ball_drift (t_fw T1) b d K (proj1 Hb) (proj2 Hb) Hfw) as H.
    assert (Hc : 0 < (/ 2) ^ d * / exp K) by (apply Rmult_lt_0_compat; [apply pow_lt; lra|apply Rinv_0_lt_compat, exp_pos]).
    apply Rmult_lt_compat_l with (r := (/ 2) ^ d * / exp K) in H; [|exact Hc]. rewrite <- !rsum_scal in H. pose proof (exp_pos K) as HK.
    rewrite (rsum_ext _ (fun x => pixels (half_mean d) x * _) (fun x => (/ 2) ^ d * / exp K * (exp (t_fw T1 x) * E (hb_step (hamming_logit b 2) (t_fw T1) 2 b 0 x) first_black))).
    2:{ intros x Hx. rewrite (exp_fw (t_fw T1) d K Hfw x Hx), half_pixels by (apply in_states in Hx; apply Hx). field. lra. }
    rewrite (rsum_ext _ (fun x => exp (1 * black_net x) * _) (fun x => (/ 2) ^ d * / exp K * (exp (t_fw T1 x) * first_black x))); [exact H|].
    intros x Hx. rewrite (exp_fw (t_fw T1) d K Hfw x Hx), half_pixels by (apply in_states in Hx; apply Hx).
    replace (1 * black_net x) with (ln (first_black x) + ln (first_black x)) by (unfold black_net; ring). rewrite exp_plus, exp_ln by apply first_black_pos. field. lra.
  - intros xs w Hx. destruct (in_indep_repeat _ _ _ _ Hx) as [Hlen _]. rewrite col_mean_map by (destruct xs; [cbn in Hlen; lia|discriminate]). cbn [val]. rewrite Hlen.
    change (sampler_step g dg T1 (SHamming b) (xs, init_state (SHamming b))) with
      (dmap (fun ns => (ns, TG (hb_update (t_dim T1) (t_C T1) b g_init))) (hb_batch_step (hamming_logit b 2) (t_fw T1) 2 b 0 xs)).
    rewrite E_dmap. cbn [fst]. unfold hb_batch_step. rewrite E_bind.
    rewrite (E_ext _ _ (fun rad => rsum xs (fun x => first_black x * E (hb_chain (t_fw T1) 2 b 0 rad x) first_black) * / INR B)).
    + rewrite (E_ext _ _ (fun rad => / INR B * rsum xs (fun x => first_black x * E (hb_chain (t_fw T1) 2 b 0 rad x) first_black))) by (intros; ring).
      rewrite E_scal. unfold Rdiv. rewrite Rmult_comm. f_equal. rewrite E_rsum. apply rsum_ext. intros x _. rewrite E_scal. unfold hb_step. rewrite E_bind. reflexivity.
    + intros rad. rewrite <- (E_indep_pairs (hb_chain (t_fw T1) 2 b 0 rad) first_black first_black xs) by (intros; apply is_prob_hb_chain; lia).
      rewrite Rmult_comm, <- E_scal. apply E_ext. intros ys. rewrite (rsum_ext _ _ (fun p => first_black (fst p) * first_black (snd p))) by (intros p _; rewrite !black_net_half; reflexivity). unfold Rdiv. ring.
Qed.
