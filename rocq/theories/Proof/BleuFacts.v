From Coq Require Import List Bool Reals Arith Lia Lra Permutation.
From Verif.Base Require Import RSum.
From Verif.Spec Require Import BleuSpec.
From Verif.Model Require Import Bleu.
From Verif.Model Require Tools.
From Verif.Proof Require Import BleuProof.
Import ListNotations.
Local Open Scope R_scope.

Section Words.
Context {word : Type} (word_dec : forall a b : word, {a = b} + {a <> b}).
Notation sent := (list word).
Notation times := (times word word_dec). Notation times_to := (times_to word word_dec). Notation at_pos := (at_pos word). Notation starts := (starts word).
Notation same := (same word word_dec). Notation credited := (credited word word_dec). Notation matched := (matched word word_dec).
Notation closest := (closest word). Notation penalty := (penalty word). Notation hits := (hits word word_dec). Notation tries := (tries word). Notation precision := (precision word word_dec).
Notation smc := (smc word_dec).

Lemma sum_le (f g : list sent * sent -> nat) c : (forall p, In p c -> f p <= g p)%nat -> (list_sum (map f c) <= list_sum (map g c))%nat.
Proof. induction c as [|p c IH]; intros H; [cbn; lia|]. cbn [map list_sum fold_right]. specialize (IH (fun q Hq => H q (or_intror Hq))). specialize (H p (or_introl eq_refl)). unfold list_sum in IH. lia. Qed.
Lemma sum_eq (f g : list sent * sent -> nat) c : (forall p, In p c -> f p <= g p)%nat -> list_sum (map f c) = list_sum (map g c) -> forall p, In p c -> f p = g p.
Proof.
  induction c as [|q c IH]; intros H E p Hp; [destruct Hp|]. cbn [map list_sum fold_right] in E. pose proof (sum_le f g c (fun r Hr => H r (or_intror Hr))) as L. unfold list_sum in L.
  pose proof (H q (or_introl eq_refl)). assert (E2 : fold_right Nat.add 0%nat (map f c) = fold_right Nat.add 0%nat (map g c)) by lia. destruct Hp as [<-|Hp]; [lia|]. apply IH; auto. intros r Hr. apply H. right. exact Hr.
Qed.
Lemma hits_le n c : (hits n c <= tries n c)%nat.
Proof. apply sum_le. intros p _. pose proof (matched_le word_dec n (fst p) (snd p)). lia. Qed.
Lemma float_min_bounds : 0 < float_min < 1.
Proof.
  unfold float_min. assert (P : 1 < 2 ^ 1022) by (apply Rlt_pow_R1; [lra|lia]). split; [apply Rinv_0_lt_compat; lra|]. rewrite <- Rinv_1. apply Rinv_lt_contravar; lra.
Qed.
Lemma precision_bounds n c : c <> [] -> 0 <= precision n c <= 1.
Proof.
  intros Hc. pose proof (tries_pos n c Hc) as T. pose proof (hits_le n c) as L. unfold BleuSpec.precision. apply le_INR in L. apply lt_0_INR in T. pose proof (pos_INR (hits n c)). split.
  - apply Rmult_le_pos; [assumption|]. apply Rlt_le, Rinv_0_lt_compat, T.
  - apply (Rmult_le_reg_r (INR (tries n c))); [exact T|]. unfold Rdiv. rewrite Rmult_assoc, Rinv_l by lra. lra.
Qed.
Lemma precision_pos n c : c <> [] -> hits n c <> 0%nat -> 0 < precision n c.
Proof.
  intros Hc Hh. pose proof (tries_pos n c Hc) as T. apply lt_0_INR in T. apply Rdiv_lt_0_compat; [apply lt_0_INR; lia|exact T].
Qed.
Lemma smc_bounds n c : c <> [] -> 0 < smc c n <= 1.
Proof.
  intros Hc. unfold BleuProof.smc. destruct (Nat.eqb_spec (hits n c) 0) as [E|E]; [pose proof float_min_bounds; lra|].
  pose proof (precision_bounds n c Hc). pose proof (precision_pos n c Hc E). lra.
Qed.
Lemma smc_one n c : c <> [] -> (smc c n = 1 <-> hits n c = tries n c).
Proof.
  intros Hc. pose proof (tries_pos n c Hc) as T. unfold BleuProof.smc. destruct (Nat.eqb_spec (hits n c) 0) as [E|E].
  - split; intros H; [pose proof float_min_bounds; lra|lia].
  - unfold BleuSpec.precision. assert (P : 0 < INR (tries n c)) by (apply lt_0_INR; lia). split; intros H.
    + apply INR_eq. apply (f_equal (fun v => v * INR (tries n c))) in H. unfold Rdiv in H. rewrite Rmult_assoc, Rinv_l in H by lra. lra.
    + rewrite H. apply Rinv_r. lra.
Qed.
Lemma ln_nonpos x : 0 < x <= 1 -> ln x <= 0.
Proof. intros H. rewrite <- ln_1. destruct (Req_dec x 1) as [->|N]; [lra|]. apply Rlt_le, ln_increasing; lra. Qed.
Lemma exp_le_1 x : x <= 0 -> 0 < exp x <= 1.
Proof. intros H. split; [apply exp_pos|]. rewrite <- exp_0. destruct (Req_dec x 0) as [->|N]; [lra|]. apply Rlt_le, exp_increasing. lra. Qed.
Lemma bpc_bounds c : 0 <= bpc (word := word) c <= 1.
Proof.
  unfold bpc, brevity. destruct (Nat.ltb_spec (list_sum (rlens c)) (lenc c)); [lra|]. destruct (Nat.eqb_spec (lenc c) 0); [lra|]. split; [apply Rlt_le, exp_pos|].
  assert (P : 0 < INR (lenc c)) by (apply lt_0_INR; lia). assert (L : INR (lenc c) <= INR (list_sum (rlens c))) by (apply le_INR; lia).
  assert (Q : 1 <= INR (list_sum (rlens c)) / INR (lenc c)) by (apply (Rmult_le_reg_r (INR (lenc c))); [exact P|]; unfold Rdiv; rewrite Rmult_assoc, Rinv_l by lra; lra).
  apply exp_le_1. lra.
Qed.

(** ** The score with weights 1/N for N = 2, 3 (two of them) and 4 *)
Definition lns (c : corpus (word := word)) (n : nat) : R := ln (smc c n).
Definition S4 (c : corpus (word := word)) : R := if (hits 1 c =? 0)%nat then 0 else bpc c * exp (1 / 4 * (lns c 1 + lns c 2 + lns c 3 + lns c 4)).
Definition S2 (c : corpus (word := word)) (w : R) : R := if (hits 1 c =? 0)%nat then 0 else bpc c * exp (w * (lns c 1 + lns c 2)).
Lemma bleu_three c : fine c -> bleu_scores word word_dec c bleu_weights = Some [S2 c (1 / 2); S2 c (1 / 3); S4 c].
Proof.
  intros Hf. rewrite bleu_scores_fine; [|exact Hf|discriminate|intros w [<-|[<-|[<-|[]]]]; discriminate]. unfold S2, S4. destruct (hits 1 c =? 0)%nat; [reflexivity|].
  unfold bleu_weights. cbn [map fold_right length Nat.max seq combine rsum fst snd]. unfold lns. apply f_equal. apply (f_equal2 cons); [|apply (f_equal2 cons); [|apply (f_equal2 cons); [|reflexivity]]]; apply (f_equal (fun v => bpc c * exp v)); ring.
Qed.
Lemma bleu_one c : fine c -> bleu_scores word word_dec c [[1 / 4; 1 / 4; 1 / 4; 1 / 4]] = Some [S4 c].
Proof.
  intros Hf. rewrite bleu_scores_fine; [|exact Hf|discriminate|intros w [<-|[]]; discriminate]. unfold S4. destruct (hits 1 c =? 0)%nat; [reflexivity|].
  cbn [map fold_right length Nat.max seq combine rsum fst snd]. unfold lns. apply f_equal. apply (f_equal2 cons); [|reflexivity]. apply (f_equal (fun v => bpc c * exp v)); ring.
Qed.
Lemma lns_nonpos c n : c <> [] -> lns c n <= 0.
Proof. intros H. apply ln_nonpos, smc_bounds, H. Qed.
Lemma S4_bounds c : c <> [] -> 0 <= S4 c <= 1.
Proof.
  intros H. unfold S4. destruct (hits 1 c =? 0)%nat; [lra|]. pose proof (bpc_bounds c). pose proof (lns_nonpos c 1 H). pose proof (lns_nonpos c 2 H). pose proof (lns_nonpos c 3 H). pose proof (lns_nonpos c 4 H).
  pose proof (exp_le_1 (1 / 4 * (lns c 1 + lns c 2 + lns c 3 + lns c 4)) ltac:(lra)). nra.
Qed.
Lemma S2_bounds c w : c <> [] -> 0 <= w -> 0 <= S2 c w <= 1.
Proof.
  intros H Hw. unfold S2. destruct (hits 1 c =? 0)%nat; [lra|]. pose proof (bpc_bounds c). pose proof (lns_nonpos c 1 H). pose proof (lns_nonpos c 2 H).
  pose proof (exp_le_1 (w * (lns c 1 + lns c 2)) ltac:(nra)). nra.
Qed.
Lemma exp_pow x n : exp x ^ n = exp (INR n * x).
Proof. induction n as [|n IH]; [cbn; rewrite Rmult_0_l, exp_0; reflexivity|]. rewrite S_INR. cbn [pow]. rewrite IH, <- exp_plus. f_equal. ring. Qed.
Lemma S4_pow c : c <> [] -> hits 1 c <> 0%nat -> S4 c ^ 4 = bpc c ^ 4 * (smc c 1 * smc c 2 * smc c 3 * smc c 4).
Proof.
  intros H Hn. unfold S4. rewrite (proj2 (Nat.eqb_neq _ _) Hn), Rpow_mult_distr, exp_pow. f_equal. replace (INR 4 * (1 / 4 * (lns c 1 + lns c 2 + lns c 3 + lns c 4))) with (lns c 1 + lns c 2 + lns c 3 + lns c 4) by (cbn [INR]; field).
  rewrite !exp_plus. unfold lns. rewrite !exp_ln by apply smc_bounds, H. reflexivity.
Qed.
Lemma S2_pow c k : (0 < k)%nat -> c <> [] -> hits 1 c <> 0%nat -> S2 c (1 / INR k) ^ k = bpc c ^ k * (smc c 1 * smc c 2).
Proof.
  intros Hk H Hn. unfold S2. rewrite (proj2 (Nat.eqb_neq _ _) Hn), Rpow_mult_distr, exp_pow. f_equal. replace (INR k * (1 / INR k * (lns c 1 + lns c 2))) with (lns c 1 + lns c 2) by (field; apply not_0_INR; lia).
  rewrite !exp_plus. unfold lns. rewrite !exp_ln by apply smc_bounds, H. reflexivity.
Qed.
Lemma S4_value c : c <> [] -> (forall n, (1 <= n <= 4)%nat -> hits n c <> 0%nat) -> S4 c ^ 4 = bpc c ^ 4 * (precision 1 c * precision 2 c * precision 3 c * precision 4 c).
Proof.
  intros Hc H. rewrite S4_pow by (auto; apply H; lia). unfold BleuProof.smc. rewrite !(proj2 (Nat.eqb_neq _ _)) by (apply H; lia). reflexivity.
Qed.
Lemma S4_tiny c : c <> [] -> (exists n, (1 <= n <= 4)%nat /\ hits n c = 0%nat) -> S4 c ^ 4 <= / 2 ^ 1022.
Proof.
  intros Hc (n & Hn & E). destruct (Nat.eq_dec (hits 1 c) 0) as [E1|E1].
  - unfold S4. rewrite E1. cbn [Nat.eqb]. rewrite pow_ne_zero by lia. apply Rlt_le, Rinv_0_lt_compat, pow_lt. lra.
  - rewrite S4_pow by assumption. pose proof (smc_bounds 1 c Hc). pose proof (smc_bounds 2 c Hc). pose proof (smc_bounds 3 c Hc). pose proof (smc_bounds 4 c Hc).
    assert (F : smc c n = / 2 ^ 1022) by (unfold BleuProof.smc; rewrite E; reflexivity). pose proof (bpc_bounds c) as B.
    assert (B4 : 0 <= bpc c ^ 4 <= 1) by (split; [apply pow_le; lra|]; rewrite <- (pow1 4); apply pow_incr; lra).
    pose proof (smc_bounds n c Hc) as SN. rewrite <- F in *.
    assert (P : 0 <= smc c 1 * smc c 2 * smc c 3 * smc c 4 <= smc c n).
    { assert (A : 0 < smc c 1 * smc c 2 <= 1) by nra. assert (D : 0 < smc c 3 * smc c 4 <= 1) by nra. rewrite Rmult_assoc.
      assert (n = 1 \/ n = 2 \/ n = 3 \/ n = 4)%nat as [-> | [-> | [-> | ->]]] by lia; split; nra. }
    nra.
Qed.
Lemma S4_zero c : hits 1 c = 0%nat -> S4 c = 0.
Proof. intros E. unfold S4. rewrite E. reflexivity. Qed.
Lemma S4_one c : c <> [] -> (S4 c = 1 <-> bpc c = 1 /\ forall n, (1 <= n <= 4)%nat -> hits n c = tries n c).
Proof.
  intros Hc. split.
  - intros H. assert (E1 : hits 1 c <> 0%nat) by (intros E; rewrite (S4_zero c E) in H; lra). unfold S4 in H. rewrite (proj2 (Nat.eqb_neq _ _) E1) in H.
    pose proof (bpc_bounds c). pose proof (lns_nonpos c 1 Hc). pose proof (lns_nonpos c 2 Hc). pose proof (lns_nonpos c 3 Hc). pose proof (lns_nonpos c 4 Hc).
    set (x := 1 / 4 * (lns c 1 + lns c 2 + lns c 3 + lns c 4)) in *. assert (Hx : x <= 0) by (unfold x; lra). pose proof (exp_le_1 x Hx).
    assert (B : bpc c = 1) by nra. split; [exact B|]. rewrite B in H. assert (X0 : x = 0) by (apply exp_inv; rewrite exp_0; lra).
    intros n Hn. apply smc_one; [exact Hc|]. assert (L : lns c n = 0) by (unfold x in X0; assert (n = 1 \/ n = 2 \/ n = 3 \/ n = 4)%nat as [-> | [-> | [-> | ->]]] by lia; lra).
    unfold lns in L. apply ln_inv; [apply smc_bounds, Hc|lra|]. rewrite ln_1. exact L.
  - intros [B H]. assert (Z : forall n, (1 <= n <= 4)%nat -> lns c n = 0) by (intros n Hn; unfold lns; rewrite (proj2 (smc_one n c Hc) (H n Hn)); apply ln_1).
    unfold S4. assert (E1 : hits 1 c <> 0%nat) by (rewrite (H 1%nat) by lia; pose proof (tries_pos 1 c Hc); lia). rewrite (proj2 (Nat.eqb_neq _ _) E1), B, !Z by lia.
    replace (1 / 4 * (0 + 0 + 0 + 0)) with 0 by ring. rewrite exp_0. ring.
Qed.

(** ** Full credit *)
Definition covered (n : nat) (refs : list sent) (h : sent) : Prop := forall g, length g = n -> (0 < times g h)%nat -> exists r, In r refs /\ (times g h <= times g r)%nat.
Lemma filter_le {A} (p q : A -> bool) l : (forall a, In a l -> p a = true -> q a = true) -> (length (filter p l) <= length (filter q l))%nat.
Proof.
  induction l as [|a l IH]; intros H; [cbn; lia|]. cbn [filter]. specialize (IH (fun b Hb => H b (or_intror Hb))). pose proof (H a (or_introl eq_refl)) as Ha.
  destruct (p a); [rewrite Ha by reflexivity; cbn; lia|]. destruct (q a); cbn; lia.
Qed.
Lemma times_to_le g h i : (times_to g h i <= times g h)%nat.
Proof. apply filter_le. intros a _ H. apply andb_prop in H. apply H. Qed.
Lemma max_elt (l : list nat) : l <> [] -> exists m, In m l /\ forall j, In j l -> (j <= m)%nat.
Proof.
  induction l as [|a l IH]; intros H; [contradiction|]. destruct l as [|b l]; [exists a; split; [left; reflexivity|intros j [->|[]]; lia]|].
  destruct (IH ltac:(discriminate)) as (m & Hm & Hj). destruct (Nat.le_gt_cases a m).
  - exists m. split; [right; exact Hm|]. intros j [->|Hi]; [assumption|auto].
  - exists a. split; [left; reflexivity|]. intros j [->|Hi]; [lia|]. specialize (Hj j Hi). lia.
Qed.
Lemma credited_all n refs h : (1 <= n)%nat -> ((forall i, In i (starts n h) -> credited n refs h i = true) <-> covered n refs h).
Proof.
  intros Hn. split.
  - intros H g Hg Ht. unfold BleuSpec.times in Ht. rewrite Hg in Ht.
    destruct (max_elt (filter (fun i => same (at_pos n h i) g) (starts n h))) as (m & Hm & Hj); [intros E; rewrite E in Ht; cbn in Ht; lia|].
    apply filter_In in Hm. destruct Hm as [Hm Es]. apply same_iff in Es. specialize (H m Hm). unfold BleuSpec.credited in H. apply existsb_exists in H. destruct H as (r & Hr & Le). apply Nat.leb_le in Le.
    rewrite Es in Le. exists r. split; [exact Hr|]. eapply Nat.le_trans; [|exact Le]. unfold BleuSpec.times, BleuSpec.times_to. rewrite Hg. apply filter_le. intros a Ha E. rewrite E. cbn [andb]. apply Nat.leb_le, Hj, filter_In. auto.
  - intros H i Hi. unfold BleuSpec.credited. apply existsb_exists. pose proof (at_pos_length n h i Hn Hi) as L. destruct (H (at_pos n h i) L) as (r & Hr & Le).
    + unfold BleuSpec.times. rewrite L. assert (I : In i (filter (fun j => same (at_pos n h j) (at_pos n h i)) (starts n h))) by (apply filter_In; split; [exact Hi|apply same_iff; reflexivity]).
      destruct (filter _ _); [destruct I|cbn; lia].
    + exists r. split; [exact Hr|]. apply Nat.leb_le. eapply Nat.le_trans; [apply times_to_le|exact Le].
Qed.
Lemma starts_length n (h : sent) : (1 <= n)%nat -> length (starts n h) = (length h + 1 - n)%nat.
Proof. intros Hn. rewrite starts_seq by exact Hn. apply seq_length. Qed.
Lemma full_hits n c : (1 <= n)%nat -> (hits n c = tries n c <-> forall p, In p c -> (n <= length (snd p))%nat /\ covered n (fst p) (snd p)).
Proof.
  intros Hn. split.
  - intros E p Hp. pose proof (sum_eq (fun p => matched n (fst p) (snd p)) (fun p => Nat.max 1 (length (starts n (snd p)))) c) as Q. specialize (Q (fun q _ => Nat.le_trans _ _ _ (matched_le word_dec n (fst q) (snd q)) (Nat.le_max_r _ _)) E p Hp). cbn beta in Q.
    pose proof (matched_le word_dec n (fst p) (snd p)) as L. rewrite starts_length in Q, L by exact Hn. split; [lia|]. apply credited_all; [exact Hn|]. apply filter_full. rewrite starts_length by exact Hn.
    unfold BleuSpec.matched in Q, L. lia.
  - intros H. unfold BleuSpec.hits, BleuSpec.tries. f_equal. apply map_ext_in. intros p Hp. destruct (H p Hp) as [L C]. unfold BleuSpec.matched. rewrite filter_all by (apply credited_all; assumption).
    rewrite starts_length by exact Hn. lia.
Qed.
Lemma S4_one_iff c : fine c -> (S4 c = 1 <-> penalty c 1 /\ forall p, In p c -> (4 <= length (snd p))%nat /\ forall n, (1 <= n <= 4)%nat -> covered n (fst p) (snd p)).
Proof.
  intros [Hc Hr]. rewrite (S4_one c Hc), (penalty_iff c 1 Hr). split.
  - intros [B H]. split; [auto|]. intros p Hp. split; [apply (full_hits 4 c ltac:(lia)); [apply H; lia|exact Hp]|]. intros n Hn. apply (full_hits n c ltac:(lia)); [apply H; lia|exact Hp].
  - intros [B H]. split; [auto|]. intros n Hn. apply full_hits; [lia|]. intros p Hp. destruct (H p Hp) as [L C]. split; [lia|]. apply C, Hn.
Qed.

(** ** Order *)
Definition alike (p q : list sent * sent) : Prop := (forall r, In r (fst p) <-> In r (fst q)) /\ snd p = snd q.
Definition like (c c' : corpus (word := word)) : Prop := exists d, Permutation c d /\ Forall2 alike d c'.
Lemma matched_alike n p q : alike p q -> matched n (fst p) (snd p) = matched n (fst q) (snd q).
Proof.
  intros [H E]. rewrite E. unfold BleuSpec.matched. f_equal. apply filter_ext. intros i. unfold BleuSpec.credited. apply eq_true_iff_eq. rewrite !existsb_exists. split; intros (r & Hr & L); exists r; (split; [apply H; exact Hr|exact L]).
Qed.
Lemma closest_alike p q rl : alike p q -> closest (fst p) (length (snd p)) rl -> closest (fst q) (length (snd q)) rl.
Proof.
  intros [H E] [A B]. rewrite E in *. split.
  - apply in_map_iff in A. destruct A as (r & L & Hr). apply in_map_iff. exists r. split; [exact L|apply H, Hr].
  - intros r Hr. apply B, H, Hr.
Qed.
Lemma perm_sum (l l' : list nat) : Permutation l l' -> list_sum l = list_sum l'.
Proof. unfold list_sum. induction 1; cbn [fold_right]; lia. Qed.
Lemma alike_sum (f : list sent * sent -> nat) c c' : (forall p q, alike p q -> f p = f q) -> Forall2 alike c c' -> list_sum (map f c) = list_sum (map f c').
Proof. intros H. unfold list_sum. induction 1 as [|p q c c' A _ IH]; [reflexivity|]. cbn [map fold_right]. rewrite (H p q A), IH. reflexivity. Qed.
Lemma like_sum (f : list sent * sent -> nat) c c' : (forall p q, alike p q -> f p = f q) -> like c c' -> list_sum (map f c) = list_sum (map f c').
Proof. intros H (d & P & F). rewrite (perm_sum _ _ (Permutation_map f P)). apply alike_sum; assumption. Qed.
Lemma ref_alike p q : alike p q -> closest_ref word (fst p) (length (snd p)) = closest_ref word (fst q) (length (snd q)).
Proof.
  intros A. destruct (closest_ref word (fst p) (length (snd p))) as [rl|] eqn:E.
  - symmetry. apply closest_ref_iff. eapply closest_alike; [exact A|]. apply closest_ref_iff, E.
  - destruct (closest_ref word (fst q) (length (snd q))) as [rl|] eqn:E2; [|reflexivity]. assert (A' : alike q p) by (destruct A as [H1 H2]; split; [intros r; symmetry; apply H1|congruence]).
    apply closest_ref_iff in E2. apply (closest_alike q p rl A') in E2. apply closest_ref_iff in E2. congruence.
Qed.
Lemma like_facts c c' : like c c' -> (forall n, hits n c = hits n c') /\ (forall n, tries n c = tries n c') /\ bpc c = bpc c'.
Proof.
  intros L. split; [intros n; apply like_sum; [apply matched_alike|exact L]|]. split; [intros n; apply like_sum; [intros p q [_ E]; rewrite E; reflexivity|exact L]|].
  unfold bpc. f_equal.
  - apply (like_sum (fun p => match closest_ref word (fst p) (length (snd p)) with Some r => r | None => 0%nat end)); [intros p q A; rewrite (ref_alike p q A); reflexivity|exact L].
  - apply (like_sum (fun p => length (snd p))); [intros p q [_ E]; rewrite E; reflexivity|exact L].
Qed.
Lemma like_scores c c' : like c c' -> S4 c = S4 c' /\ forall w, S2 c w = S2 c' w.
Proof.
  intros L. destruct (like_facts c c' L) as (A & B & D). unfold S4, S2, lns, BleuProof.smc, BleuSpec.precision. rewrite D, !A, !B. split; [reflexivity|]. intros w. reflexivity.
Qed.
Lemma like_fine c c' : like c c' -> fine c -> fine c'.
Proof.
  intros (d & P & F) [H1 H2]. assert (Hd : d <> [] /\ forall p, In p d -> fst p <> []).
  { split; [intros ->; apply Permutation_sym, Permutation_nil in P; contradiction|]. intros p Hp. apply H2. eapply Permutation_in; [apply Permutation_sym, P|exact Hp]. }
  destruct Hd as [D1 D2]. split; [intros ->; inversion F; subst; contradiction|]. clear -F D2. induction F as [|p q d c' A F IH]; [intros ? []|]. intros r [<-|Hr].
  - intros E. apply (D2 p (or_introl eq_refl)). destruct A as [A _]. destruct (fst p) as [|a l]; [reflexivity|]. exfalso. specialize (A a). rewrite E in A. destruct A as [A _]. destruct (A (or_introl eq_refl)).
  - apply IH; [|exact Hr]. intros x Hx. apply D2. right. exact Hx.
Qed.
End Words.
