(** Property theorems C19, C20 and the lattice part of C21 (ising.py, potts.py). *)
From Coq Require Import Reals List Lra Lia Arith ZArith.
From Verif.Base Require Import RSum.
From Verif.Spec Require Import Grid.
From Verif.Model Require Import Lattice.
From Verif.Proof Require Import LatticeProof AffineProof LatticeGrad.
Import ListNotations.
Local Open Scope R_scope.

(** ** C19 *)
(** Float inputs: every lattice size (also 1 x n and empty), every parameter array, every real configuration. *)
Theorem C19_ising_energy_float : forall h w (wh wv b x : nat -> nat -> R),
  ising_forward as_float h w wh wv b x =
  let s := fun c : nat * nat => 2 * x (fst c) (snd c) - 1 in
  grid_energy h w (fun c => b (fst c) (snd c) * s c)
    (fun a c => wv (fst a) (snd a) * (s a * s c)) (fun a c => wh (fst a) (snd a) * (s a * s c)).
Proof. exact ising_float_spec. Qed.
Print Assumptions C19_ising_energy_float.

(** Integer inputs with couplings of absolute value below 1 (the default configuration has 1/2): the energy is the field
    term alone, the coupling is lost on every lattice and every configuration. *)
Theorem C19_ising_energy_int_no_coupling : forall h w (wh wv b : nat -> nat -> R) x,
  binary x -> (forall i j, Rabs (wh i j) < 1) -> (forall i j, Rabs (wv i j) < 1) ->
  ising_forward as_int h w wh wv b (of_bits x) =
  grid_energy h w (fun c => b (fst c) (snd c) * (2 * INR (x (fst c) (snd c)) - 1)) (fun _ _ => 0) (fun _ _ => 0).
Proof. exact ising_int_spec. Qed.
Print Assumptions C19_ising_energy_int_no_coupling.

(** Integral couplings: the two encodings agree. *)
Theorem C19_ising_int_integral_partial : forall h w (zh zv : nat -> nat -> Z) b x, binary x ->
  ising_forward as_int h w (fun i j => IZR (zh i j)) (fun i j => IZR (zv i j)) b (of_bits x)
  = ising_forward as_float h w (fun i j => IZR (zh i j)) (fun i j => IZR (zv i j)) b (of_bits x).
Proof. exact ising_int_integral. Qed.
Print Assumptions C19_ising_int_integral_partial.

(** Two aligned spins, coupling parameter 1/2 (the default): the float encoding gives 1/2, the integer encoding 0. *)
Definition c19_x : nat -> nat -> nat := fun _ _ => 1%nat.
Theorem C19_encodings_differ_refuted : exists h w lambdaa b x, binary x /\
  ising_forward as_float h w (ising_wh lambdaa) (ising_wh lambdaa) b (of_bits x) = / 2 /\
  ising_forward as_int h w (ising_wh lambdaa) (ising_wh lambdaa) b (of_bits x) = 0.
Proof.
  exists 1%nat, 2%nat, (/ 2), (fun _ _ => 0), c19_x. split; [unfold binary, c19_x; lia|]. split.
  - rewrite C19_ising_energy_float. unfold grid_energy, cells, v_edges, h_edges, ising_wh, of_bits, c19_x. cbn. field.
  - rewrite C19_ising_energy_int_no_coupling.
    + unfold grid_energy. rewrite (rsum_const0 (v_edges 1 2)), (rsum_const0 (h_edges 1 2)) by reflexivity. unfold cells, c19_x. cbn. ring.
    + unfold binary, c19_x; lia.
    + intros. unfold ising_wh. rewrite Rabs_left; lra.
    + intros. unfold ising_wh. rewrite Rabs_left; lra.
Qed.
Print Assumptions C19_encodings_differ_refuted.

(** The hypotheses hold for the default parameters. *)
Example C19_default : Rabs (ising_wh (/ 2) 0%nat 0%nat) < 1 /\ binary c19_x.
Proof. unfold ising_wh, binary, c19_x. split; [rewrite Rabs_left; lra|lia]. Qed.

(** ** C20 *)
Theorem C20_potts_energy : forall h w C (wh wv b : nat -> nat -> nat -> R) x,
  (forall i j, (i < h)%nat -> (j < w)%nat -> (x i j < C)%nat) ->
  potts_forward h w C wh wv b x =
  let v := fun a : nat * nat => x (fst a) (snd a) in
  grid_energy h w (fun a => b (fst a) (snd a) (v a))
    (fun a a' => if Nat.eqb (v a) (v a') then wv (fst a) (snd a) (v a) else 0)
    (fun a a' => if Nat.eqb (v a) (v a') then wh (fst a) (snd a) (v a) else 0).
Proof. exact potts_spec. Qed.
Print Assumptions C20_potts_energy.

(** Float one-hot input gives the same value as the integer input. *)
Theorem C20_potts_onehot_agrees : forall h w C wh wv b (x : nat -> nat -> nat) (z : nat -> nat -> nat -> R),
  (forall i j c, z i j c = if Nat.eqb (x i j) c then 1 else 0) ->
  potts_forward_onehot as_float h w C wh wv b z = potts_forward h w C wh wv b x.
Proof. intros h w C wh wv b x z H. exact (potts_ext as_float h w C wh wv b z (one_hot2 x) H). Qed.
Print Assumptions C20_potts_onehot_agrees.

Definition c20_x : nat -> nat -> nat := fun i j => if Nat.eqb (i + j) 1 then 2%nat else 0%nat.
(** A 2 x 2 lattice with three categories: sites 0 2 / 2 0, no agreeing edge. *)
Example C20_case : (forall i j, (i < 2)%nat -> (j < 2)%nat -> (c20_x i j < 3)%nat) /\
  potts_forward 2 2 3 (fun _ _ _ => 7) (fun _ _ _ => 7) (fun _ _ c => INR c) c20_x = -4.
Proof.
  assert (H : forall i j, (i < 2)%nat -> (j < 2)%nat -> (c20_x i j < 3)%nat).
  { intros i j _ _. unfold c20_x. destruct (Nat.eqb (i + j) 1); lia. }
  split; [exact H|]. rewrite C20_potts_energy by exact H. unfold grid_energy, cells, v_edges, h_edges, c20_x. cbn. ring.
Qed.

(** ** C21, Ising: [(1 - 2 x) * dE/dx] of the float energy is the exact change under the flip. *)
Theorem C21_ising_gradient_exact : forall h w wh wv b x i j g, binary x ->
  derivable_pt_lim (fun t => ising_forward as_float h w wh wv b (put2 (of_bits x) i j t)) (of_bits x i j) g ->
  (1 - 2 * of_bits x i j) * g
  = ising_forward as_float h w wh wv b (of_bits (flip2 x i j)) - ising_forward as_float h w wh wv b (of_bits x).
Proof. exact ising_grad_exact. Qed.
Print Assumptions C21_ising_gradient_exact.

(** The derivative exists. *)
Theorem C21_ising_gradient_exists : forall h w wh wv b x i j t0,
  exists g, derivable_pt_lim (fun t => ising_forward as_float h w wh wv b (put2 x i j t)) t0 g.
Proof. intros. exact (affine_has_derivative _ t0 (ising_affine h w wh wv b x i j)). Qed.
Print Assumptions C21_ising_gradient_exists.

(** Potts: the difference of two entries of the gradient at a site is the exact change of category. *)
Theorem C21_potts_gradient_exact : forall h w C wh wv b x i j v g g',
  derivable_pt_lim (fun t => potts_forward_onehot as_float h w C wh wv b (put3 (one_hot2 x) i j v t)) (one_hot2 x i j v) g ->
  derivable_pt_lim (fun t => potts_forward_onehot as_float h w C wh wv b (put3 (one_hot2 x) i j (x i j) t)) (one_hot2 x i j (x i j)) g' ->
  g - g' = potts_forward h w C wh wv b (set2 x i j v) - potts_forward h w C wh wv b x.
Proof. exact potts_grad_exact. Qed.
Print Assumptions C21_potts_gradient_exact.

Theorem C21_potts_gradient_exists : forall h w C wh wv b x i j c t0,
  exists g, derivable_pt_lim (fun t => potts_forward_onehot as_float h w C wh wv b (put3 x i j c t)) t0 g.
Proof. intros. exact (affine_has_derivative _ t0 (potts_affine h w C wh wv b x i j c)). Qed.
Print Assumptions C21_potts_gradient_exists.

(** Two aligned spins, coupling 1/2: flipping one changes the energy by -1. *)
Example C21_ising_case : exists g,
  derivable_pt_lim (fun t => ising_forward as_float 1 2 (ising_wh (/ 2)) (ising_wh (/ 2)) (fun _ _ => 0) (put2 (of_bits c19_x) 0%nat 0%nat t)) (of_bits c19_x 0%nat 0%nat) g
  /\ (1 - 2 * of_bits c19_x 0%nat 0%nat) * g = -1.
Proof.
  destruct (C21_ising_gradient_exists 1 2 (ising_wh (/ 2)) (ising_wh (/ 2)) (fun _ _ => 0) (of_bits c19_x) 0%nat 0%nat (of_bits c19_x 0%nat 0%nat)) as [g Hg].
  exists g. split; [exact Hg|]. rewrite (C21_ising_gradient_exact 1 2 (ising_wh (/ 2)) (ising_wh (/ 2)) (fun _ _ => 0) c19_x 0%nat 0%nat g); [|unfold binary, c19_x; lia|exact Hg].
  rewrite !C19_ising_energy_float. unfold grid_energy, cells, v_edges, h_edges, ising_wh, of_bits, flip2, c19_x. cbn. field.
Qed.
