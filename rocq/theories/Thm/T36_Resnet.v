(** C94: the residual network of the image models. *)
From Coq Require Import Reals String List Arith Lia Lra.
From Verif.Base Require Import RSum Cube XFloat.
From Verif.Model Require Import Convert Experiment Resnet.
From Verif.Spec Require Import ConvertSpec ResnetSpec.
From Verif.Proof Require Import ConvertProof ResnetProof ResnetTorch ResnetImage.
Import ListNotations.
Local Open Scope R_scope.

(** With parameters of the shapes of the network, every image of at least one pixel has an energy: the two branches of each block
    fit together for every height and width, odd or even. *)
Theorem C94_defined ps C H W x : net_shapes ps C -> (1 <= H)%nat -> (1 <= W)%nat -> length x = (H * W)%nat -> exists e, resnet ps C H W x = Some e.
Proof. exact (net_defined ps C H W x). Qed.
Print Assumptions C94_defined.
Example C94_defined_case : net_shapes demo_params 1 /\ exists e, resnet demo_params 1 5 3 (map INR (seq 0 15)) = Some e.
Proof. split; [exact demo_shapes |]. apply C94_defined; [exact demo_shapes | lia | lia | reflexivity]. Qed.
Example C94_wrong_size_case : resnet demo_params 1 5 3 (map INR (seq 0 16)) = None.
Proof. reflexivity. Qed.
Example C94_conv_case : exists y, conv 1 3 2 1 (num_arr [3; 3; 1; 1]%nat) (num_arr [1]%nat) (image 2 2 [1; 2; 3; 4]) = Some y /\ rows y = 1%nat /\ val y 0 0 0 = 18600.
Proof.
  eexists. split; [reflexivity |]. split; [reflexivity |]. cbn [val seq rsum chans image at_padded rows cols Nat.mul Nat.add Nat.leb Nat.ltb andb Nat.sub nth num_arr at_ fold_left].
  rewrite !INR_IZR_INZ. cbn [Z.of_nat Pos.of_succ_nat Pos.succ]. lra.
Qed.

(** A checkpoint of the torch network that converts without error gives a network with the same energy for every image: the
    names, the transpositions, the sizes and the order of the layers agree. *)
Theorem C94_converted th ps ps' m C H W x : NoDup (map fst ps) -> NoDup (map fst th) -> Forall torch_name (map fst th) -> In ["mean"%string] (map fst th) ->
  convert th ps = Some (ps', m) -> net_shapes ps C -> (1 <= H)%nat -> (1 <= W)%nat -> length x = (H * W)%nat ->
  exists e, resnet ps' C H W x = Some e /\ torch_energy th C H W x = Some e.
Proof. intros H1 H2 H3 H4 H5. exact (converted_network th ps ps' m H1 H2 H3 H4 H5 C H W x). Qed.
Print Assumptions C94_converted.
Example C94_converted_case : exists ps' m e, convert demo_checkpoint demo_params = Some (ps', m) /\
  resnet ps' 1 4 4 (map INR (seq 0 16)) = Some e /\ torch_energy demo_checkpoint 1 4 4 (map INR (seq 0 16)) = Some e.
Proof.
  destruct demo_converts as (ps' & m & E). exists ps', m.
  destruct (C94_converted demo_checkpoint demo_params ps' m 1 4 4 (map INR (seq 0 16)) demo_params_nodup demo_checkpoint_nodup demo_names
    (or_introl eq_refl) E demo_shapes ltac:(lia) ltac:(lia) eq_refl) as (e & E1 & E2). exists e. auto.
Qed.

(** The energy of an image with pixels in [0, 1] is bounded by a number computed from the absolute values of the parameters. *)
Theorem C94_bounded ps C H W x e : Forall (fun v => 0 <= v <= 1) x -> resnet ps C H W x = Some e -> Rabs e <= energy_bound ps.
Proof. exact (net_bounded ps C H W x e). Qed.
Print Assumptions C94_bounded.
Example C94_bounded_case : exists e, resnet demo_params 1 2 2 [1; 0; 1; 1] = Some e /\ Rabs e <= energy_bound demo_params.
Proof.
  destruct (C94_defined demo_params 1 2 2 [1; 0; 1; 1] demo_shapes ltac:(lia) ltac:(lia) eq_refl) as (e & E). exists e. split; [exact E |].
  apply (C94_bounded demo_params 1 2 2 [1; 0; 1; 1] e); [repeat (apply Forall_cons; [lra |]); apply Forall_nil | exact E].
Qed.

(** The energy has a derivative in every pixel at every real image: the gradients that the informed samplers ask for exist. *)
Theorem C94_gradient ps C H W x i e : resnet ps C H W x = Some e ->
  exists f, (forall t, resnet ps C H W (upd i t x) = Some (f t)) /\ forall t, exists g, derivable_pt_lim f t g.
Proof. exact (net_gradient ps C H W x i e). Qed.
Print Assumptions C94_gradient.
Example C94_gradient_case : exists f, (forall t, resnet demo_params 1 2 2 [1; t; 1; 1] = Some (f t)) /\ forall t, exists g, derivable_pt_lim f t g.
Proof.
  destruct (C94_defined demo_params 1 2 2 [1; 0; 1; 1] demo_shapes ltac:(lia) ltac:(lia) eq_refl) as (e & E). exact (C94_gradient demo_params 1 2 2 [1; 0; 1; 1] 1 e E).
Qed.

(** The model is a positive law on the images of zeros and ones: every one of them has a finite energy, with or without a data
    mean and a temperature. *)
Theorem C94_density ps C H W mean beta : net_shapes ps C -> (1 <= H)%nat -> (1 <= W)%nat ->
  exists f : list nat -> R, forall x, length x = (H * W)%nat -> image_forward ps C H W mean beta x = Some (f x).
Proof.
  intros HS HH HW. exists (fun x => match image_forward ps C H W mean beta x with Some e => e | None => 0 end). intros x HL. unfold image_forward.
  destruct (net_defined ps C H W (map INR x) HS HH HW) as (e & ->); [rewrite map_length; exact HL | reflexivity].
Qed.
Print Assumptions C94_density.

(** The odds of a pixel given the others: without data mean they lie between exp(-2K) and exp(2K), K the bound of the energy; with
    a data mean they are the odds of that mean (guard 1e-20) up to such a factor.  So no pixel is ever frozen. *)
Theorem C94_odds_plain ps C H W x i a b : Forall (fun v => (v <= 1)%nat) x ->
  image_forward ps C H W None None (upd i 1%nat x) = Some a -> image_forward ps C H W None None (upd i 0%nat x) = Some b ->
  exp (- (2 * energy_bound ps)) <= exp a / exp b <= exp (2 * energy_bound ps).
Proof. exact (pixel_odds_plain ps C H W x i a b). Qed.
Print Assumptions C94_odds_plain.
Theorem C94_odds ps C H W mean x i a b : Forall (fun v => (v <= 1)%nat) x -> length x = length mean -> (i < length mean)%nat -> 0 <= nth i mean 0 <= 1 ->
  image_forward ps C H W (Some mean) None (upd i 1%nat x) = Some a -> image_forward ps C H W (Some mean) None (upd i 0%nat x) = Some b ->
  (nth i mean 0 + / 10 ^ 20) / (1 - nth i mean 0 + / 10 ^ 20) * exp (- (2 * energy_bound ps)) <= exp a / exp b <=
  (nth i mean 0 + / 10 ^ 20) / (1 - nth i mean 0 + / 10 ^ 20) * exp (2 * energy_bound ps).
Proof. exact (pixel_odds ps C H W mean x i a b). Qed.
Print Assumptions C94_odds.
Example C94_odds_case : exists a b, image_forward demo_params 1 1 2 (Some [0; / 2]) None (upd 0 1%nat [0; 1]%nat) = Some a /\
  image_forward demo_params 1 1 2 (Some [0; / 2]) None (upd 0 0%nat [0; 1]%nat) = Some b /\
  exp a / exp b <= (0 + / 10 ^ 20) / (1 - 0 + / 10 ^ 20) * exp (2 * energy_bound demo_params).
Proof.
  destruct (C94_density demo_params 1 1 2 (Some [0; / 2]) None demo_shapes (le_n 1) (le_S _ _ (le_n 1))) as (f & Hf).
  pose proof (Hf (upd 0 1%nat [0; 1]%nat) eq_refl) as E1. pose proof (Hf (upd 0 0%nat [0; 1]%nat) eq_refl) as E0. do 2 eexists. split; [exact E1 |]. split; [exact E0 |].
  refine (proj2 (C94_odds demo_params 1 1 2 [0; / 2] [0; 1]%nat 0 _ _ _ eq_refl _ _ E1 E0)).
  - apply Forall_cons; [lia |]. apply Forall_cons; [lia | apply Forall_nil].
  - cbn [length]. lia.
  - cbn [nth]. lra.
Qed.

(** In floating point this fails for a data mean of exactly 1 (a pixel set in every training image; training of the binary image
    models does not clip the mean): 1e-20 is lost in the sum, log1p(-1) = -inf, and every image with the pixel set has energy NaN. *)
Theorem C94_mean_one_refuted : forall rnd, rnd (1 + / 10 ^ 20) = 1 -> rnd (- (1) + / 10 ^ 20) = - (1) -> forall n, (1 <= n)%nat ->
  exists m, m = pixel_mean (repeat 1 n) /\ base_pixel rnd m 1 = NaN /\ base_pixel rnd m 0 = NInf.
Proof. intros rnd R1 R2 n Hn. exists 1. split; [symmetry; apply mean_of_ones, Hn | exact (base_one_nan rnd R1 R2)]. Qed.
Print Assumptions C94_mean_one_refuted.
Theorem C94_base_finite rnd m x : 0 < rnd (m + / 10 ^ 20) -> - (1) < rnd (- m + / 10 ^ 20) -> is_fin (base_pixel rnd m x).
Proof. exact (base_pixel_finite rnd m x). Qed.
Print Assumptions C94_base_finite.
Example C94_base_case : is_fin (base_pixel (fun r => r) 0 1) /\ is_fin (base_pixel (fun r => r) (99 / 100) 0).
Proof. pose proof tiny_pos as HT. unfold tiny in HT. split; apply C94_base_finite; lra. Qed.
Example C94_rounding_case : exists rnd, rnd (1 + / 10 ^ 20) = 1 /\ rnd (- (1) + / 10 ^ 20) = - (1).
Proof.
  pose proof tiny_pos as HT. unfold tiny in HT. exists (fun r => if Rlt_dec r 0 then - (1) else 1). split.
  - destruct (Rlt_dec (1 + / 10 ^ 20) 0); [lra | reflexivity].
  - assert (/ 10 ^ 20 < 1).
    { apply (Rmult_lt_reg_r (10 ^ 20)); [apply pow_lt; lra |]. rewrite Rinv_l, Rmult_1_l by (apply pow_nonzero; lra). apply Rlt_pow_R1; [lra | lia]. }
    destruct (Rlt_dec (- (1) + / 10 ^ 20) 0); [reflexivity | lra].
Qed.
