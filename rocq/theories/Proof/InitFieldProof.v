(** Proofs about the initial parameters of the lattice models. *)
From Coq Require Import Reals List Lra Lia Arith ZArith Bool.
From Verif.Base Require Import RSum Cube Dist.
From Verif.Spec Require Import Chain Ergodic Grid InitField.
From Verif.Model Require Import Lattice LatticeRun RBM.
From Verif.Proof Require Import LatticeProof RBMProof SameTargetProof LearningProof.
Import ListNotations.
Local Open Scope R_scope.

Lemma PI_bounds : 3 < PI <= 7 / 2.
Proof. split; [pose proof PI2_3_2; lra | unfold PI; destruct pi2_int; lra]. Qed.

Lemma disc_iff h w i j : in_disc h w i j <-> (INR i / INR h - / 2) ^ 2 + (INR j / INR w - / 2) ^ 2 < / 2 / PI.
Proof.
  unfold in_disc, from_middle. replace (1 / 2) with (/ 2) by lra. set (q := (INR i / INR h - / 2) ^ 2 + (INR j / INR w - / 2) ^ 2).
  assert (Hq : 0 <= q) by (unfold q; pose proof (pow2_ge_0 (INR i / INR h - / 2)); pose proof (pow2_ge_0 (INR j / INR w - / 2)); lra).
  pose proof PI_bounds as HP. assert (Hr : 0 < / 2 / PI) by (apply Rdiv_lt_0_compat; lra). split.
  - intros (r & H0 & H1 & H2). replace (/ 2 / PI) with (r ^ 2) by (rewrite <- H1; field; lra). rewrite <- (pow2_sqrt q Hq). pose proof (sqrt_pos q). nra.
  - intros H. exists (sqrt (/ 2 / PI)). split; [apply sqrt_lt_R0; exact Hr | split]; [rewrite pow2_sqrt by lra; field; lra | apply sqrt_lt_1; lra].
Qed.

Lemma disc_dec h w i j : {in_disc h w i j} + {~ in_disc h w i j}.
Proof. destruct (Rlt_dec ((INR i / INR h - / 2) ^ 2 + (INR j / INR w - / 2) ^ 2) (/ 2 / PI)) as [H | H]; [left; apply disc_iff; exact H | right; intros K; apply disc_iff in K; lra]. Qed.

Theorem field_values h w sigma mu u i j :
  (in_disc h w i j -> ising_b h w sigma mu u i j = (2 * u i j - 1) * sigma + mu) /\ (~ in_disc h w i j -> ising_b h w sigma mu u i j = (2 * u i j - 1) * sigma - mu).
Proof. unfold ising_b. split; intros H; destruct Rlt_dec as [K | K]; try ring; exfalso; [apply K, disc_iff, H | apply H, disc_iff, K]. Qed.
Theorem potts_field_values h w sigma mu u i j c :
  (in_disc h w i j -> potts_b h w sigma mu u i j c = (2 * u i j c - 1) * sigma + mu) /\ (~ in_disc h w i j -> potts_b h w sigma mu u i j c = (2 * u i j c - 1) * sigma - mu).
Proof. unfold potts_b. split; intros H; destruct Rlt_dec as [K | K]; try ring; exfalso; [apply K, disc_iff, H | apply H, disc_iff, K]. Qed.

Lemma centre_in h w i j : (0 < h)%nat -> (0 < w)%nat -> (2 * i = h)%nat -> (2 * j = w)%nat -> in_disc h w i j.
Proof.
  intros Hh Hw <- <-. apply disc_iff. rewrite !mult_INR. cbn [INR]. assert (INR i <> 0 /\ INR j <> 0) as [Hi Hj] by (split; apply not_0_INR; lia).
  replace (INR i / ((1 + 1) * INR i)) with (/ 2) by (field; exact Hi). replace (INR j / ((1 + 1) * INR j)) with (/ 2) by (field; exact Hj).
  pose proof PI_bounds. assert (0 < / 2 / PI) by (apply Rdiv_lt_0_compat; lra). lra.
Qed.
Lemma edge_out h w i j : i = 0%nat \/ j = 0%nat -> ~ in_disc h w i j.
Proof.
  intros H K. apply disc_iff in K. pose proof PI_bounds. assert (/ 2 / PI < / 4).
  { apply (Rmult_lt_reg_r PI); [lra |]. unfold Rdiv. rewrite Rmult_assoc, Rinv_l by lra. lra. }
  pose proof (pow2_ge_0 (INR i / INR h - / 2)). pose proof (pow2_ge_0 (INR j / INR w - / 2)).
  destruct H; subst; cbn [INR] in *; unfold Rdiv in *; rewrite Rmult_0_l in *; lra.
Qed.
Lemma mirror h w i j : (0 < h)%nat -> (i <= h)%nat -> in_disc h w (h - i) j <-> in_disc h w i j.
Proof.
  intros Hh Hi. rewrite !disc_iff. rewrite minus_INR by exact Hi. assert (INR h <> 0) by (apply not_0_INR; lia).
  replace ((INR h - INR i) / INR h - / 2) with (- (INR i / INR h - / 2)) by (field; assumption). replace ((- (INR i / INR h - / 2)) ^ 2) with ((INR i / INR h - / 2) ^ 2) by ring. reflexivity.
Qed.
Lemma not_central : ~ in_disc 4 4 0 0 /\ in_disc 4 4 3 3.
Proof.
  split; [apply edge_out; left; reflexivity |]. apply disc_iff. cbn [INR]. pose proof PI_bounds.
  apply (Rmult_lt_reg_r PI); [lra |]. unfold Rdiv. rewrite (Rmult_assoc (/ 2)), Rinv_l by lra. lra.
Qed.

(** *** Energies *)
Lemma filter_sum {A} (f : A -> bool) (l : list A) : INR (length (filter f l)) = rsum l (fun a => if f a then 1 else 0).
Proof. induction l as [| a l IH]; [reflexivity |]. cbn [filter rsum]. destruct (f a); cbn [length]; rewrite ?S_INR, IH; ring. Qed.
Lemma rsum_opp' {A} (l : list A) f : rsum l (fun a => - f a) = - rsum l f.
Proof. induction l as [| a l IH]; cbn; [ring | rewrite IH; ring]. Qed.

Theorem ising_init_energy h w lambdaa b x : binary x ->
  ising_forward as_float h w (ising_wh lambdaa) (ising_wh lambdaa) b (of_bits x)
  = lambdaa * (INR (equal_pairs h w x) - INR (unequal_pairs h w x)) - rsum (cells h w) (fun c => b (fst c) (snd c) * (2 * INR (x (fst c) (snd c)) - 1)).
Proof.
  intros Hx. rewrite ising_float_spec. cbv zeta. unfold grid_energy, equal_pairs, unequal_pairs, pairs. rewrite !filter_sum, !rsum_app.
  assert (HS : forall l, rsum l (fun e : (nat * nat) * (nat * nat) => ising_wh lambdaa (fst (fst e)) (snd (fst e)) * ((2 * of_bits x (fst (fst e)) (snd (fst e)) - 1) * (2 * of_bits x (fst (snd e)) (snd (snd e)) - 1)))
    = - lambdaa * (rsum l (fun e => if Nat.eqb (x (fst (fst e)) (snd (fst e))) (x (fst (snd e)) (snd (snd e))) then 1 else 0)
                   - rsum l (fun e => if negb (Nat.eqb (x (fst (fst e)) (snd (fst e))) (x (fst (snd e)) (snd (snd e)))) then 1 else 0))).
  { intros l. rewrite <- rsum_minus, <- rsum_scal. apply rsum_ext. intros [[a a'] [c c']] _. cbn [fst snd]. unfold ising_wh, of_bits. pose proof (Hx a a') as H1. pose proof (Hx c c') as H2.
    destruct (x a a') as [| [| ?]], (x c c') as [| [| ?]]; try lia; cbn [Nat.eqb negb INR]; ring. }
  rewrite !HS. unfold of_bits. ring.
Qed.

Theorem potts_init_energy h w C lambdaa b x : (forall i j, (i < h)%nat -> (j < w)%nat -> (x i j < C)%nat) ->
  potts_forward h w C (potts_w lambdaa) (potts_w lambdaa) b x
  = lambdaa * INR (equal_pairs h w x) - rsum (cells h w) (fun c => b (fst c) (snd c) (x (fst c) (snd c))).
Proof.
  intros Hx. rewrite potts_spec by exact Hx. cbv zeta. unfold grid_energy, equal_pairs, pairs. rewrite !filter_sum, !rsum_app.
  assert (HS : forall l, rsum l (fun e : (nat * nat) * (nat * nat) => if Nat.eqb (x (fst (fst e)) (snd (fst e))) (x (fst (snd e)) (snd (snd e))) then potts_w lambdaa (fst (fst e)) (snd (fst e)) (x (fst (fst e)) (snd (fst e))) else 0)
    = - lambdaa * rsum l (fun e => if Nat.eqb (x (fst (fst e)) (snd (fst e))) (x (fst (snd e)) (snd (snd e))) then 1 else 0)).
  { intros l. rewrite <- rsum_scal. apply rsum_ext. intros e _. unfold potts_w. destruct (Nat.eqb _ _); ring. }
  rewrite !HS. ring.
Qed.

(** *** The law of the field alone *)
Lemma cells_flat h w (F : nat -> nat -> R) : (0 < w)%nat -> rsum (cells h w) (fun c => F (fst c) (snd c)) = rsum (seq 0 (h * w)) (fun k => F (k / w)%nat (k mod w)).
Proof.
  intros Hw. rewrite sum2_cells. unfold sum2. cbn [fst snd]. induction h as [| h IH]; [reflexivity |].
  rewrite seq_S, rsum_app, IH. cbn [rsum]. replace (S h * w)%nat with (h * w + w)%nat by lia. rewrite seq_app, rsum_app. f_equal. rewrite Rplus_0_r.
  cbn [Nat.add]. replace (seq (h * w) w) with (map (fun j => (h * w + j)%nat) (seq 0 w)).
  - rewrite rsum_map. apply rsum_ext. intros j Hj. apply in_seq in Hj. f_equal.
    + rewrite Nat.div_add_l by lia. rewrite Nat.div_small by lia. lia.
    + rewrite Nat.add_comm, Nat.mod_add, Nat.mod_small by lia. reflexivity.
  - assert (G : forall n a s, map (fun j => (a + j)%nat) (seq s n) = seq (a + s) n).
    { induction n as [| n IHn]; intros a s; [reflexivity |]. cbn [seq map]. rewrite IHn. replace (a + S s)%nat with (S (a + s)) by lia. reflexivity. }
    rewrite G. f_equal. lia.
Qed.

Theorem field_law h w b f : (0 < w)%nat ->
  mean (states (h * w) 2) (fun x => exp (- rsum (cells h w) (fun p => b (fst p) (snd p) * (2 * INR (unflat w x (fst p) (snd p)) - 1)))) f
  = E (indep (map (fun k => dmap (fun t : bool => if t then 1%nat else 0%nat) (bernoulli (/ (1 + exp (2 * b (k / w)%nat (k mod w)))))) (seq 0 (h * w)))) f.
Proof.
  intros Hw. set (zs := map (fun k => - (2 * b (k / w)%nat (k mod w))) (seq 0 (h * w))).
  assert (HE : E (indep (map (fun k => dmap (fun t : bool => if t then 1%nat else 0%nat) (bernoulli (/ (1 + exp (2 * b (k / w)%nat (k mod w)))))) (seq 0 (h * w)))) f = E (bern_vec (map sigmoid zs)) f).
  { unfold bern_vec, zs. rewrite !map_map. f_equal. f_equal. apply map_ext. intros k. f_equal. f_equal. unfold sigmoid. rewrite exp_Ropp. pose proof (exp_pos (2 * b (k / w)%nat (k mod w))). field. lra. }
  rewrite HE, bern_vec_law. assert (Hl : length zs = (h * w)%nat) by (unfold zs; rewrite map_length, seq_length; reflexivity). rewrite Hl.
  set (K := rsum (seq 0 (h * w)) (fun k => b (k / w)%nat (k mod w))).
  assert (Hpi : forall x, In x (states (h * w) 2) -> exp (- rsum (cells h w) (fun p => b (fst p) (snd p) * (2 * INR (unflat w x (fst p) (snd p)) - 1)))
     = exp K * exp (rsum (combine x zs) (fun p => INR (fst p) * snd p))).
  { intros x Hx. apply in_states in Hx. destruct Hx as [Hlx _]. rewrite <- exp_plus. f_equal. unfold zs. rewrite combine_map_seq by exact Hlx.
    rewrite (cells_flat h w (fun i j => b i j * (2 * INR (unflat w x i j) - 1)) Hw). unfold K. rewrite <- rsum_plus, <- rsum_opp'. apply rsum_ext. intros k Hk. unfold at_, unflat.
    assert (Hk' : ((k / w) * w + k mod w)%nat = k) by (rewrite Nat.mul_comm; symmetry; apply Nat.div_mod; lia). rewrite Hk'. ring. }
  assert (HZ : rsum (states (h * w) 2) (fun x => exp (rsum (combine x zs) (fun p => INR (fst p) * snd p))) = rprod zs (fun z => 1 + exp z)) by (rewrite <- Hl; apply sum_exp_hidden).
  assert (HP : 0 < rprod zs (fun z => 1 + exp z)) by (apply rprod_pos; intros; apply one_plus_exp).
  unfold mean. rewrite (rsum_ext (states (h * w) 2) (fun x => exp (- _)) _ Hpi). rewrite rsum_scal, HZ.
  rewrite (rsum_ext (states (h * w) 2) _ (fun x => (exp K * rprod zs (fun z => 1 + exp z)) * (exp (rsum (combine x zs) (fun p => INR (fst p) * snd p)) / rprod zs (fun z => 1 + exp z) * f x))).
  - rewrite rsum_scal. pose proof (exp_pos K). field. split; lra.
  - intros x Hx. rewrite (Hpi x Hx). field. lra.
Qed.

Lemma field_marginal h w b k : (0 < w)%nat -> (k < h * w)%nat ->
  mean (states (h * w) 2) (fun x => exp (- rsum (cells h w) (fun p => b (fst p) (snd p) * (2 * INR (unflat w x (fst p) (snd p)) - 1)))) (fun x => INR (nth k x 0%nat))
  = / (1 + exp (2 * b (k / w)%nat (k mod w))).
Proof.
  intros Hw Hk. rewrite field_law by exact Hw. rewrite (E_indep_nth 0%nat _ k INR).
  - erewrite nth_indep by (rewrite map_length, seq_length; exact Hk).
    rewrite (map_nth (fun k => dmap (fun t : bool => if t then 1%nat else 0%nat) (bernoulli (/ (1 + exp (2 * b (k / w)%nat (k mod w)))))) (seq 0 (h * w)) 0%nat k), seq_nth by exact Hk.
    cbn [Nat.add]. rewrite E_dmap, E_bernoulli. cbn [INR]. ring.
  - intros d Hd. apply in_map_iff in Hd. destruct Hd as (j & <- & _). apply is_prob_dmap, is_prob_bernoulli. pose proof (exp_pos (2 * b (j / w)%nat (j mod w))).
    split; [left; apply Rinv_0_lt_compat; lra |]. rewrite <- Rinv_1. apply Rinv_le_contravar; lra.
  - rewrite map_length, seq_length. exact Hk.
Qed.

(** *** Potts: mu adds the same number to every configuration *)
Lemma potts_mu_shift h w C lambdaa sigma mu u x : (forall i j, (i < h)%nat -> (j < w)%nat -> (x i j < C)%nat) ->
  potts_forward h w C (potts_w lambdaa) (potts_w lambdaa) (potts_b h w sigma mu u) x
  = potts_forward h w C (potts_w lambdaa) (potts_w lambdaa) (potts_b h w sigma 0 u) x - mu * rsum (cells h w) (fun c => if disc_dec h w (fst c) (snd c) then 1 else -1).
Proof.
  intros Hx. rewrite !potts_init_energy by exact Hx. rewrite <- rsum_scal.
  assert (H : rsum (cells h w) (fun c => potts_b h w sigma mu u (fst c) (snd c) (x (fst c) (snd c)))
    = rsum (cells h w) (fun c => potts_b h w sigma 0 u (fst c) (snd c) (x (fst c) (snd c))) + rsum (cells h w) (fun c => mu * (if disc_dec h w (fst c) (snd c) then 1 else -1))).
  { rewrite <- rsum_plus. apply rsum_ext. intros [i j] _. cbn [fst snd]. destruct (disc_dec h w i j) as [Hd | Hd].
    - rewrite !(proj1 (potts_field_values _ _ _ _ _ _ _ _) Hd). ring.
    - rewrite !(proj2 (potts_field_values _ _ _ _ _ _ _ _) Hd). ring. }
  rewrite H. ring.
Qed.

Lemma unflat_legal h w C x : In x (states (h * w) C) -> forall i j, (i < h)%nat -> (j < w)%nat -> (unflat w x i j < C)%nat.
Proof.
  intros Hx i j Hi Hj. apply in_states in Hx. destruct Hx as [Hl Hf]. unfold unflat.
  assert (Hk : (i * w + j < length x)%nat) by (rewrite Hl; nia). rewrite Forall_forall in Hf. apply Hf, nth_In, Hk.
Qed.

Lemma mean_proportional {A} (S : list A) (p q f : A -> R) c : c <> 0 -> rsum S q <> 0 -> (forall x, In x S -> p x = c * q x) -> mean S p f = mean S q f.
Proof.
  intros Hc H0 H. unfold mean. rewrite (rsum_ext S p (fun x => c * q x) H), rsum_scal.
  rewrite (rsum_ext S _ (fun x => c * (q x * f x))) by (intros x Hx; rewrite (H x Hx); ring). rewrite rsum_scal. field. split; assumption.
Qed.

Theorem potts_mu_invisible h w C lambdaa sigma mu mu' u f : (0 < C)%nat ->
  mean (states (h * w) C) (fun x => exp (potts_ll_forward h w C (potts_w lambdaa) (potts_w lambdaa) (potts_b h w sigma mu u) x)) f
  = mean (states (h * w) C) (fun x => exp (potts_ll_forward h w C (potts_w lambdaa) (potts_w lambdaa) (potts_b h w sigma mu' u) x)) f.
Proof.
  intros HC. set (D := rsum (cells h w) (fun c => if disc_dec h w (fst c) (snd c) then 1 else -1)).
  apply (mean_proportional _ _ _ _ (exp ((mu' - mu) * D))); [pose proof (exp_pos ((mu' - mu) * D)); lra | apply Rgt_not_eq, states_weight_pos, HC |].
  intros x Hx. rewrite <- exp_plus. f_equal. unfold potts_ll_forward. rewrite (potts_mu_shift h w C lambdaa sigma mu u _ (unflat_legal h w C x Hx)), (potts_mu_shift h w C lambdaa sigma mu' u _ (unflat_legal h w C x Hx)). fold D. ring.
Qed.
