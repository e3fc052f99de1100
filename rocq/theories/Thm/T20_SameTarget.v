(** Property theorems C74: do all samplers run on one model converge to one distribution? *)
From Coq Require Import String Reals List Lra Lia Arith ZArith.
From Verif.Base Require Import RSum Cube Dist.
From Verif.Spec Require Import Chain Ergodic Grid.
From Verif.Model Require Import MathUtil Gibbs RandomWalk GWG Langevin Lattice LatticeRun.
From Verif.Proof Require Import SameTargetProof ErgodicSamplers.
From Verif.Thm Require Import T19_Ergodic.
Import ListNotations.
Local Open Scope R_scope.

(** Ising, couplings of modulus below one (the default configuration has 1/2): the samplers that evaluate the
    integer sample converge to independent sites; the couplings have no influence. *)
Theorem C74_ising_forward_samplers : forall h w (wh wv b : nat -> nat -> R), (0 < h * w)%nat ->
  (forall i j, Rabs (wh i j) < 1) -> (forall i j, Rabs (wv i j) < 1) ->
  let fw := ising_ll_forward h w wh wv b in
  let independent := fun x => exp (- rsum (cells h w) (fun p => b (fst p) (snd p) * (2 * INR (nth (fst p * w + snd p) x 0%nat) - 1))) in
  converges (states (h * w) 2) independent (fun t => gibbs_step fw 2 (g_index (Nat.iter t (gibbs_update (h * w) 2) g_init))) /\
  (forall bs, (0 < bs)%nat -> converges (states (h * w) 2) independent (fun t => block_step fw 2 bs (g_index (Nat.iter t (block_update (h * w) 2 bs) g_init)))) /\
  (forall radius, 0 < radius < INR (h * w) -> converges (states (h * w) 2) independent (fun _ => rw_step 0 fw radius (h * w) 2)).
Proof.
  intros h w wh wv b Hd H1 H2 fw ind.
  assert (E0 : forall x, In x (states (h * w) 2) -> exp (fw x) = ind x).
  { intros x Hx. unfold fw. rewrite (ll_int_field h w wh wv b x (h * w) Hx H1 H2). reflexivity. }
  split; [|split].
  - apply (converges_target _ _ _ _ E0), C73_gibbs; lia.
  - intros bs Hb. apply (converges_target _ _ _ _ E0), C73_block_gibbs; lia.
  - intros r Hr. apply (converges_target _ _ _ _ E0), C73_random_walk; [lia|exact Hr|exact Hd].
Qed.
Print Assumptions C74_ising_forward_samplers.

(** Ising, any couplings: the gradient samplers converge to the lattice distribution with its couplings. *)
Theorem C74_ising_gradient_samplers : forall h w (wh wv b : nat -> nat -> R),
  let fw := ising_ll_value_and_grad h w wh wv b in
  let lattice := fun x => let s := fun c : nat * nat => 2 * INR (nth (fst c * w + snd c) x 0%nat) - 1 in
    exp (grid_energy h w (fun c => b (fst c) (snd c) * s c)
      (fun a c => wv (fst a) (snd a) * (s a * s c)) (fun a c => wh (fst a) (snd a) * (s a * s c))) in
  (forall log_tau wf lr, converges (states (h * w) 2) lattice (fun _ => dmala_bin_step 0 0 fw log_tau wf lr)) /\
  (forall solver log_tau wf lr, solver = "interpolate"%string \/ solver = "euler_forward"%string ->
     converges (states (h * w) 2) lattice (fun _ => dlmc_bin_step 0 0 fw solver log_tau wf lr)) /\
  (forall wf grad mask num_flips, (2 <= h * w)%nat -> (2 <= num_flips)%nat ->
     converges (states (h * w) 2) lattice (fun _ => gwg_step 0 fw wf grad mask num_flips)).
Proof.
  intros h w wh wv b fw lat.
  assert (E0 : forall x, In x (states (h * w) 2) -> exp (fw x) = lat x).
  { intros x _. unfold fw, lat. rewrite ll_float_split. f_equal. unfold grid_energy, coupling, spin, unflat. ring. }
  split; [|split].
  - intros. apply (converges_target _ _ _ _ E0), C73_dmala_binary.
  - intros. apply (converges_target _ _ _ _ E0), C73_dlmc_binary. assumption.
  - intros. apply (converges_target _ _ _ _ E0), C73_gwg_many_flips; assumption.
Qed.
Print Assumptions C74_ising_gradient_samplers.

(** On every lattice with at least one edge, for every field and every non-zero coupling parameter of modulus below
    one, Gibbs and DMALA disagree for ever: some state has different long-run frequencies under the two. *)
Theorem C74_ising_samplers_disagree : forall h w lambdaa b log_tau wf lr, (2 <= h * w)%nat -> 0 < Rabs lambdaa < 1 ->
  let W := ising_wh lambdaa in
  exists z, In z (states (h * w) 2) /\ exists l1 l2, l1 <> l2 /\ forall x, In x (states (h * w) 2) ->
    Un_cv (fun n => E (run_seq (fun t => gibbs_step (ising_ll_forward h w W W b) 2 (g_index (Nat.iter t (gibbs_update (h * w) 2) g_init))) n 0 x)
             (fun y => if list_eq_dec Nat.eq_dec y z then 1 else 0)) l1 /\
    Un_cv (fun n => E (run_seq (fun _ => dmala_bin_step 0 0 (ising_ll_value_and_grad h w W W b) log_tau wf lr) n 0 x)
             (fun y => if list_eq_dec Nat.eq_dec y z then 1 else 0)) l2.
Proof.
  intros h w lambdaa b log_tau wf lr Hd Hl W.
  assert (HW : forall i j, Rabs (W i j) < 1) by (intros; unfold W, ising_wh; rewrite Rmult_1_r, Rabs_Ropp; lra).
  assert (HW0 : forall i j, W i j <> 0) by (intros i j E0; unfold W, ising_wh in E0; replace lambdaa with 0 in Hl by lra; rewrite Rabs_R0 in Hl; lra).
  eapply different_limits; [lia|apply C73_gibbs; lia|apply C73_dmala_binary|].
  apply ising_not_proportional; [exact HW|exact HW|].
  destruct (Nat.le_gt_cases 2 w) as [Hw|Hw].
  - exists ((0, 0), (0, 1))%nat. left. split; [|apply HW0]. apply filter_In. split; [|reflexivity].
    apply in_prod; apply in_prod; apply in_seq; nia.
  - exists ((0, 0), (1, 0))%nat. right. split; [|apply HW0]. apply filter_In. split; [|reflexivity].
    apply in_prod; apply in_prod; apply in_seq; nia.
Qed.
Print Assumptions C74_ising_samplers_disagree.

(** The default coupling parameter on the default 50 x 50 lattice. *)
Example C74_default_case : (2 <= 50 * 50)%nat /\ 0 < Rabs (/ 2) < 1.
Proof. split; [lia|]. rewrite Rabs_right; lra. Qed.

(** Two sites, coupling parameter 1/2, no field: the probability that the sites agree tends to 1/2 under Gibbs and to
    e^(1/2) / (e^(1/2) + e^(-1/2)) under DMALA. *)
Theorem C74_same_target_refuted : exists h w lambdaa b f l1 l2, l1 <> l2 /\ forall x log_tau wf lr, In x (states (h * w) 2) ->
  let W := ising_wh lambdaa in
  Un_cv (fun n => E (run_seq (fun t => gibbs_step (ising_ll_forward h w W W b) 2 (g_index (Nat.iter t (gibbs_update (h * w) 2) g_init))) n 0 x) f) l1 /\
  Un_cv (fun n => E (run_seq (fun _ => dmala_bin_step 0 0 (ising_ll_value_and_grad h w W W b) log_tau wf lr) n 0 x) f) l2.
Proof.
  exists 1%nat, 2%nat, (/ 2), (fun _ _ => 0), aligned, (/ 2), (exp (/ 2) / (exp (/ 2) + exp (- / 2))). split.
  - pose proof (exp_increasing (- / 2) (/ 2) ltac:(lra)) as H. pose proof (exp_pos (- / 2)). intros E0.
    apply (f_equal (fun r => 2 * r * (exp (/ 2) + exp (- / 2)))) in E0. field_simplify in E0; lra.
  - intros x log_tau wf lr Hx W. assert (Hh : Rabs (/ 2) < 1) by (rewrite Rabs_right; lra).
    destruct (two_site_means (/ 2) Hh) as [E1 E2].
    split; [refine (eq_ind _ (fun l => Un_cv _ l) _ _ E1)|refine (eq_ind _ (fun l => Un_cv _ l) _ _ E2)];
      (apply converges_limit; [|exact Hx|intros; apply aligned_bound]); [apply C73_gibbs; simpl; lia|apply C73_dmala_binary].
Qed.
Print Assumptions C74_same_target_refuted.

(** Ising with integral couplings: one common limit. *)
Theorem C74_ising_integral_partial : forall h w (zh zv : nat -> nat -> Z) b log_tau wf lr, (0 < h * w)%nat ->
  let wh := fun i j => IZR (zh i j) in let wv := fun i j => IZR (zv i j) in
  forall f, (forall y, In y (states (h * w) 2) -> Rabs (f y) <= 1) -> exists l, forall x, In x (states (h * w) 2) ->
  Un_cv (fun n => E (run_seq (fun t => gibbs_step (ising_ll_forward h w wh wv b) 2 (g_index (Nat.iter t (gibbs_update (h * w) 2) g_init))) n 0 x) f) l /\
  Un_cv (fun n => E (run_seq (fun _ => dmala_bin_step 0 0 (ising_ll_value_and_grad h w wh wv b) log_tau wf lr) n 0 x) f) l.
Proof.
  intros h w zh zv b log_tau wf lr Hd wh wv. eapply same_limits; [|apply C73_gibbs; lia|apply C73_dmala_binary].
  intros x Hx. cbv beta. f_equal. exact (ising_same_integral h w zh zv b x _ Hx).
Qed.
Print Assumptions C74_ising_integral_partial.

(** Potts: every lattice, coupling, field and number of categories: one common limit for Gibbs, DMALA and DLMC. *)
Theorem C74_potts_same_target : forall h w C (wh wv b : nat -> nat -> nat -> R) solver log_tau wf lr, (0 < h * w)%nat -> (0 < C)%nat ->
  solver = "interpolate"%string \/ solver = "euler_forward"%string ->
  forall f, (forall y, In y (states (h * w) C) -> Rabs (f y) <= 1) -> exists l, forall x, In x (states (h * w) C) ->
  Un_cv (fun n => E (run_seq (fun t => gibbs_step (potts_ll_forward h w C wh wv b) C (g_index (Nat.iter t (gibbs_update (h * w) C) g_init))) n 0 x) f) l /\
  Un_cv (fun n => E (run_seq (fun _ => dmala_cat_step 0 (potts_ll_value_and_grad h w C wh wv b) log_tau wf lr C) n 0 x) f) l /\
  Un_cv (fun n => E (run_seq (fun _ => dlmc_cat_step 0 (potts_ll_value_and_grad h w C wh wv b) solver log_tau wf lr C) n 0 x) f) l.
Proof.
  intros h w C wh wv b solver log_tau wf lr Hd HC Hs f Hf.
  exists (mean (states (h * w) C) (fun x => exp (potts_ll_forward h w C wh wv b x)) f). intros x Hx.
  split; [|split]; apply converges_limit; try assumption;
    [apply C73_gibbs; lia|apply C73_dmala_categorical; exact HC|apply C73_dlmc_categorical; assumption].
Qed.
Print Assumptions C74_potts_same_target.

Example C74_bounded_case : forall y, In y (states (2 * 2) 3) -> Rabs (if Nat.eqb (nth 0 y 0%nat) 2 then 1 else 0) <= 1.
Proof. intros y _. destruct (_ =? _)%nat; rewrite ?Rabs_R1, ?Rabs_R0; lra. Qed.
