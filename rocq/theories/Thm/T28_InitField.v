(** C85: the initial parameters of the lattice models. *)
From Coq Require Import Reals List Lra Lia Arith ZArith Bool.
From Verif.Base Require Import RSum Cube Dist.
From Verif.Spec Require Import Chain Ergodic Grid InitField.
From Verif.Model Require Import Lattice LatticeRun Gibbs.
From Verif.Proof Require Import LatticeProof SameTargetProof InitFieldProof.
From Verif.Thm Require Import T20_SameTarget.
Import ListNotations.
Local Open Scope R_scope.

(** ** C85 *)
(** Every site's field is within [init_sigma] of [mu] inside the central disc of area 1/2, of [- mu] outside. *)
Theorem C85_field : forall h w init_sigma mu u i j, 0 <= init_sigma -> 0 <= u i j <= 1 ->
  (in_disc h w i j -> Rabs (ising_b h w init_sigma mu u i j - mu) <= init_sigma) /\
  (~ in_disc h w i j -> Rabs (ising_b h w init_sigma mu u i j + mu) <= init_sigma) /\
  (u i j = 1 / 2 -> ising_b h w init_sigma mu u i j = if disc_dec h w i j then mu else - mu).
Proof.
  intros h w sigma mu u i j Hs Hu. destruct (field_values h w sigma mu u i j) as [H1 H2]. split; [| split].
  - intros Hd. rewrite (H1 Hd). apply Rabs_le. nra.
  - intros Hd. rewrite (H2 Hd). apply Rabs_le. nra.
  - intros E0. destruct (disc_dec h w i j) as [Hd | Hd]; [rewrite (H1 Hd) | rewrite (H2 Hd)]; rewrite E0; lra.
Qed.
Print Assumptions C85_field.

(** The middle site of an even lattice is inside the disc; the first row and the first column are outside. *)
Theorem C85_middle_and_border : forall h w, (0 < h)%nat -> (0 < w)%nat ->
  (forall i j, (2 * i = h)%nat -> (2 * j = w)%nat -> in_disc h w i j) /\ (forall i j, i = 0%nat \/ j = 0%nat -> ~ in_disc h w i j) /\
  (forall i j, (i <= h)%nat -> in_disc h w (h - i) j <-> in_disc h w i j).
Proof. intros h w Hh Hw. split; [| split]; intros i j; [apply centre_in; assumption | apply edge_out | apply mirror; assumption]. Qed.
Print Assumptions C85_middle_and_border.

(** The disc is not centred on the lattice: turning the lattice round changes the field. *)
Theorem C85_centred_refuted : exists h w i j, (i < h)%nat /\ (j < w)%nat /\ ~ in_disc h w i j /\ in_disc h w (h - 1 - i) (w - 1 - j).
Proof. exists 4%nat, 4%nat, 0%nat, 0%nat. repeat split; try lia; apply not_central. Qed.
Print Assumptions C85_centred_refuted.

(** Log-density at the initial coupling: [lambdaa] for each pair of equal neighbours, minus [lambdaa] for each unequal one. *)
Theorem C85_ising_energy : forall h w lambdaa b x, binary x ->
  ising_forward as_float h w (ising_wh lambdaa) (ising_wh lambdaa) b (of_bits x)
  = lambdaa * (INR (equal_pairs h w x) - INR (unequal_pairs h w x)) - rsum (cells h w) (fun c => b (fst c) (snd c) * (2 * INR (x (fst c) (snd c)) - 1)).
Proof. intros. apply ising_init_energy; assumption. Qed.
Print Assumptions C85_ising_energy.

Theorem C85_potts_energy : forall h w C lambdaa b x, (forall i j, (i < h)%nat -> (j < w)%nat -> (x i j < C)%nat) ->
  potts_forward h w C (potts_w lambdaa) (potts_w lambdaa) b x
  = lambdaa * INR (equal_pairs h w x) - rsum (cells h w) (fun c => b (fst c) (snd c) (x (fst c) (snd c))).
Proof. intros. apply potts_init_energy; assumption. Qed.
Print Assumptions C85_potts_energy.

(** The lattices are not cyclic: with no field at all, moving the rows round changes the energy. *)
Theorem C85_cyclic_refuted : exists h w x, binary x /\
  ising_forward as_float h w (ising_wh 1) (ising_wh 1) (fun _ _ => 0) (of_bits (shift_rows h x)) <> ising_forward as_float h w (ising_wh 1) (ising_wh 1) (fun _ _ => 0) (of_bits x) /\
  potts_forward h w 2 (potts_w 1) (potts_w 1) (fun _ _ _ => 0) (shift_rows h x) <> potts_forward h w 2 (potts_w 1) (potts_w 1) (fun _ _ _ => 0) x.
Proof.
  set (x := fun i (_ : nat) => if Nat.eqb i 1 then 0%nat else 1%nat). exists 3%nat, 1%nat, x.
  assert (Hb : binary x) by (intros i j; unfold x; destruct (Nat.eqb i 1); lia).
  assert (Hs : binary (shift_rows 3 x)) by (intros i j; exact (Hb ((i + (3 - 1)) mod 3)%nat j)).
  split; [exact Hb |]. rewrite !C85_ising_energy, !C85_potts_energy by (assumption || (intros i j _ _; exact (Hb i j)) || (intros i j _ _; exact (Hs i j))).
  replace (equal_pairs 3 1 (shift_rows 3 x)) with 1%nat by reflexivity. replace (equal_pairs 3 1 x) with 0%nat by reflexivity.
  replace (unequal_pairs 3 1 (shift_rows 3 x)) with 1%nat by reflexivity. replace (unequal_pairs 3 1 x) with 2%nat by reflexivity.
  rewrite !(rsum_const0 (cells 3 1)) by (intros; ring). cbn [INR]. split; lra.
Qed.
Print Assumptions C85_cyclic_refuted.

(** The law the Ising samplers that call [forward] work with when [lambdaa] is below 1: independent sites, site k being 1 with
    probability 1 / (1 + exp (2 b_k)). *)
Theorem C85_ising_field_law : forall h w lambdaa b f, (0 < w)%nat -> Rabs lambdaa < 1 ->
  mean (states (h * w) 2) (fun x => exp (ising_ll_forward h w (ising_wh lambdaa) (ising_wh lambdaa) b x)) f
  = E (indep (map (fun k => dmap (fun t : bool => if t then 1%nat else 0%nat) (bernoulli (/ (1 + exp (2 * b (k / w)%nat (k mod w)))))) (seq 0 (h * w)))) f.
Proof.
  intros h w lambdaa b f Hw Hl. rewrite <- field_law by exact Hw.
  assert (HW : forall i j : nat, Rabs (ising_wh lambdaa i j) < 1) by (intros; unfold ising_wh; rewrite Rmult_1_r, Rabs_Ropp; exact Hl).
  assert (H : forall x, In x (states (h * w) 2) -> exp (ising_ll_forward h w (ising_wh lambdaa) (ising_wh lambdaa) b x) = exp (- rsum (cells h w) (fun p => b (fst p) (snd p) * (2 * INR (unflat w x (fst p) (snd p)) - 1)))) by (intros x Hx; f_equal; exact (ll_int_field h w _ _ b x _ Hx HW HW)).
  apply (mean_proportional _ _ _ _ 1); [lra | apply Rgt_not_eq, states_weight_pos; lia |]. intros x Hx. rewrite (H x Hx). ring.
Qed.
Print Assumptions C85_ising_field_law.

(** So a Gibbs run at those parameters shows, at every site, the initial field and nothing else. *)
Theorem C85_gibbs_sites : forall h w lambdaa b k x0, (k < h * w)%nat -> Rabs lambdaa < 1 -> In x0 (states (h * w) 2) ->
  Un_cv (fun n => E (run_seq (fun t => gibbs_step (ising_ll_forward h w (ising_wh lambdaa) (ising_wh lambdaa) b) 2 (g_index (Nat.iter t (gibbs_update (h * w) 2) g_init))) n 0 x0)
           (fun x => INR (nth k x 0%nat))) (/ (1 + exp (2 * b (k / w)%nat (k mod w)))).
Proof.
  intros h w lambdaa b k x0 Hk Hl Hx. assert (Hw : (0 < w)%nat) by nia. rewrite <- (field_marginal h w b k Hw Hk).
  assert (HW : forall i j : nat, Rabs (ising_wh lambdaa i j) < 1) by (intros; unfold ising_wh; rewrite Rmult_1_r, Rabs_Ropp; exact Hl).
  destruct (C74_ising_forward_samplers h w (ising_wh lambdaa) (ising_wh lambdaa) b ltac:(lia) HW HW) as [Hc _].
  apply (converges_limit _ _ _ x0 _ Hc Hx). intros y Hy. apply in_states in Hy. destruct Hy as [Hly Hf].
  assert (Hv : (nth k y 0 < 2)%nat) by (rewrite Forall_forall in Hf; apply Hf, nth_In; lia).
  destruct (nth k y 0%nat) as [| [| ?]]; try lia; cbn [INR]; rewrite ?Rabs_R0, ?Rabs_R1; lra.
Qed.
Print Assumptions C85_gibbs_sites.

(** The field has the sign of the disc when [mu] exceeds [init_sigma]: the middle prefers 0, the border 1. *)
Theorem C85_sign : forall h w init_sigma mu u i j, 0 <= init_sigma < mu -> 0 <= u i j <= 1 ->
  (in_disc h w i j -> / (1 + exp (2 * ising_b h w init_sigma mu u i j)) < 1 / 2) /\
  (~ in_disc h w i j -> 1 / 2 < / (1 + exp (2 * ising_b h w init_sigma mu u i j))).
Proof.
  intros h w sigma mu u i j Hs Hu. destruct (field_values h w sigma mu u i j) as [H1 H2].
  assert (He : forall z, 0 < z -> / (1 + exp (2 * z)) < 1 / 2).
  { intros z Hz. pose proof (exp_increasing 0 (2 * z) ltac:(lra)) as H. rewrite exp_0 in H. replace (1 / 2) with (/ 2) by lra. apply Rinv_lt_contravar; lra. }
  assert (He' : forall z, z < 0 -> 1 / 2 < / (1 + exp (2 * z))).
  { intros z Hz. pose proof (exp_increasing (2 * z) 0 ltac:(lra)) as H. rewrite exp_0 in H. pose proof (exp_pos (2 * z)). replace (1 / 2) with (/ 2) by lra. apply Rinv_lt_contravar; lra. }
  split; intros Hd; [apply He; rewrite (H1 Hd) | apply He'; rewrite (H2 Hd)]; nra.
Qed.
Print Assumptions C85_sign.

(** With the configured mu = 0.5 and init_sigma = 1.5 the noise can turn the field round. *)
Theorem C85_sign_refuted : exists u : nat -> nat -> R, (forall i j, 0 <= u i j < 1) /\ in_disc 50 50 25 25 /\ 1 / 2 < / (1 + exp (2 * ising_b 50 50 (3 / 2) (1 / 2) u 25%nat 25%nat)).
Proof.
  exists (fun _ _ => 0). split; [intros; lra |]. assert (Hd : in_disc 50 50 25 25) by (apply centre_in; lia). split; [exact Hd |].
  rewrite (proj1 (field_values 50 50 (3 / 2) (1 / 2) (fun _ _ => 0) 25 25) Hd). replace (2 * ((2 * 0 - 1) * (3 / 2) + 1 / 2)) with (- 2) by lra.
  pose proof (exp_increasing (- 2) 0 ltac:(lra)) as H. rewrite exp_0 in H. pose proof (exp_pos (- 2)). replace (1 / 2) with (/ 2) by lra. apply Rinv_lt_contravar; lra.
Qed.
Print Assumptions C85_sign_refuted.

(** Potts: [mu] is added to all categories of a site alike, so no average depends on it. *)
Theorem C85_potts_mu_invisible : forall h w C lambdaa init_sigma mu mu' u f, (0 < C)%nat ->
  mean (states (h * w) C) (fun x => exp (potts_ll_forward h w C (potts_w lambdaa) (potts_w lambdaa) (potts_b h w init_sigma mu u) x)) f
  = mean (states (h * w) C) (fun x => exp (potts_ll_forward h w C (potts_w lambdaa) (potts_w lambdaa) (potts_b h w init_sigma mu' u) x)) f.
Proof. intros. apply potts_mu_invisible; assumption. Qed.
Print Assumptions C85_potts_mu_invisible.

(** Hence [mu] is not an external field there: at no noise every category of every site is equally likely, whatever [mu]. *)
Theorem C85_potts_field_refuted : exists h w C mu, 0 < mu /\ forall x y, In x (states (h * w) C) -> In y (states (h * w) C) ->
  potts_ll_forward h w C (potts_w 0) (potts_w 0) (potts_b h w 0 mu (fun _ _ _ => 0)) x = potts_ll_forward h w C (potts_w 0) (potts_w 0) (potts_b h w 0 mu (fun _ _ _ => 0)) y.
Proof.
  exists 30%nat, 30%nat, 4%nat, (1 / 2). split; [lra |]. intros x y Hx Hy. unfold potts_ll_forward.
  rewrite (potts_init_energy 30 30 4 0 _ (unflat 30 x) (unflat_legal 30 30 4 x Hx)), (potts_init_energy 30 30 4 0 _ (unflat 30 y) (unflat_legal 30 30 4 y Hy)).
  rewrite !Rmult_0_l. reflexivity.
Qed.
Print Assumptions C85_potts_field_refuted.

(** *** Non-vacuity *)
Example C85_field_example : in_disc 50 50 25 25 /\ ~ in_disc 50 50 0 7 /\ ising_b 50 50 (3 / 2) (1 / 2) (fun _ _ => 1 / 2) 25%nat 25%nat = 1 / 2.
Proof.
  assert (Hd : in_disc 50 50 25 25) by (apply centre_in; lia). split; [exact Hd | split; [apply edge_out; left; reflexivity |]].
  rewrite (proj1 (field_values 50 50 (3 / 2) (1 / 2) (fun _ _ => 1 / 2) 25 25) Hd). lra.
Qed.
(** A 2 x 2 lattice with values 1 1 / 0 1: two equal pairs, two unequal ones. *)
Definition c85_x : nat -> nat -> nat := fun i j => if andb (Nat.eqb i 1) (Nat.eqb j 0) then 0%nat else 1%nat.
Example C85_energy_example : binary c85_x /\ equal_pairs 2 2 c85_x = 2%nat /\ unequal_pairs 2 2 c85_x = 2%nat.
Proof. split; [intros i j; unfold c85_x; destruct (andb _ _); lia | split; reflexivity]. Qed.
(** The configured coupling 0.5 is below 1; the states are there. *)
Example C85_law_example : Rabs (1 / 2) < 1 /\ In [0; 1; 1; 0]%nat (states (2 * 2) 2) /\ 0 <= 1 / 4 < 1 / 2.
Proof. split; [rewrite Rabs_right; lra | split; [| lra]]. apply in_states. split; [reflexivity |]. repeat constructor. Qed.
