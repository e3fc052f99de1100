(** Property theorems C10 and C14 (path_auxiliary.py; adaptive radii of all samplers). *)
From Coq Require Import Reals List Lra Lia Arith.
From Verif.Base Require Import RSum Cube Dist MH.
From Verif.Spec Require Import Chain.
From Verif.Model Require Import MathUtil RandomWalk GWG PathAux.
From Verif.Proof Require Import MathUtilProof RandomWalkProof GWGProof CatGWGProof PathAuxProof PathAuxCatProof PathAuxRefute.
Import ListNotations.
Local Open Scope R_scope.

(** ** C10 *)
(** Binary, constant number [k] of sites; any energy, log-ratio array, balancing function, mask. *)
Theorem C10_binary_reversible : forall (fw : list nat -> R) (wf : R -> R) (lr : list nat -> nat -> R)
    (mask : option (nat -> R)) d k, (1 <= k <= d)%nat ->
  reversible (states d 2) (fun x => exp (fw x)) (pafs_step 0 fw wf lr mask k).
Proof. exact pafs_reversible. Qed.
Print Assumptions C10_binary_reversible.

(** The step of the code (guard 1e-24). *)
Theorem C10_binary_invariant_upto : forall (fw : list nat -> R) (wf : R -> R) (lr : list nat -> nat -> R)
    (mask : option (nat -> R)) d k, (1 <= k <= d)%nat ->
  invariant_upto (2 * / 10 ^ 24) (states d 2) (fun x => exp (fw x)) (pafs_step acc_guard fw wf lr mask k).
Proof. intros. exact (pafs_invariant_upto fw wf lr mask d k H acc_guard (Rlt_le _ _ acc_guard_pos)). Qed.
Print Assumptions C10_binary_invariant_upto.

(** No draw of the path makes the log-acceptance undefined: all mass is accounted for. *)
Theorem C10_binary_is_prob : forall (fw : list nat -> R) (wf : R -> R) (lr : list nat -> nat -> R)
    (mask : option (nat -> R)) d k, (1 <= k <= d)%nat -> forall g x, In x (states d 2) ->
  is_prob (pafs_step g fw wf lr mask k x).
Proof. exact pafs_is_prob. Qed.
Print Assumptions C10_binary_is_prob.

(** Binary adaptive at any radius. *)
Theorem C10_adaptive_binary_reversible : forall (fw : list nat -> R) (wf : R -> R) (lr : list nat -> nat -> R)
    (mask : option (nat -> R)) d radius, (1 <= d)%nat ->
  reversible (states d 2) (fun x => exp (fw x)) (apafs_step 0 fw wf lr mask radius).
Proof. exact apafs_reversible. Qed.
Print Assumptions C10_adaptive_binary_reversible.

Theorem C10_adaptive_binary_invariant_upto : forall (fw : list nat -> R) (wf : R -> R) (lr : list nat -> nat -> R)
    (mask : option (nat -> R)) d radius, (1 <= d)%nat ->
  invariant_upto (2 * / 10 ^ 24) (states d 2) (fun x => exp (fw x)) (apafs_step acc_guard fw wf lr mask radius).
Proof. intros. exact (apafs_invariant_upto fw wf lr mask d radius acc_guard H (Rlt_le _ _ acc_guard_pos)). Qed.
Print Assumptions C10_adaptive_binary_invariant_upto.

Theorem C10_adaptive_binary_is_prob : forall (fw : list nat -> R) (wf : R -> R) (lr : list nat -> nat -> R)
    (mask : option (nat -> R)) d radius g x, (1 <= d)%nat -> In x (states d 2) ->
  is_prob (apafs_step g fw wf lr mask radius x).
Proof. exact apafs_is_prob. Qed.
Print Assumptions C10_adaptive_binary_is_prob.

(** Categorical adaptive at any radius. *)
Theorem C10_adaptive_categorical_reversible : forall (fw : list nat -> R) (wf : R -> R) (lr : list nat -> nat -> R)
    (mask : option (nat -> R)) d C radius, (1 <= d)%nat -> (0 < C)%nat ->
  reversible (states d C) (fun x => exp (fw x)) (apafsc_step 0 fw wf lr mask C radius).
Proof. exact apafsc_reversible. Qed.
Print Assumptions C10_adaptive_categorical_reversible.

Theorem C10_adaptive_categorical_invariant_upto : forall (fw : list nat -> R) (wf : R -> R) (lr : list nat -> nat -> R)
    (mask : option (nat -> R)) d C radius, (1 <= d)%nat -> (0 < C)%nat ->
  invariant_upto (2 * / 10 ^ 24) (states d C) (fun x => exp (fw x)) (apafsc_step acc_guard fw wf lr mask C radius).
Proof. intros. exact (apafsc_invariant_upto fw wf lr mask d C radius acc_guard H H0 (Rlt_le _ _ acc_guard_pos)). Qed.
Print Assumptions C10_adaptive_categorical_invariant_upto.

Theorem C10_adaptive_categorical_is_prob : forall (fw : list nat -> R) (wf : R -> R) (lr : list nat -> nat -> R)
    (mask : option (nat -> R)) d C radius g x, (1 <= d)%nat -> (0 < C)%nat -> In x (states d C) ->
  is_prob (apafsc_step g fw wf lr mask C radius x).
Proof. exact apafsc_is_prob. Qed.
Print Assumptions C10_adaptive_categorical_is_prob.
Example C10_ex : (1 <= 2 <= 3)%nat /\ In [0; 2; 1]%nat (states 3 3) /\ set_all [2; 0]%nat [0; 2]%nat [0; 2; 1]%nat = [2; 2; 0]%nat.
Proof. split; [lia|]. split; [apply in_states; split; [reflexivity|repeat constructor]|reflexivity]. Qed.

(** Categorical with a CONSTANT number of sites (adaptive = False): the claim is false.  The log-probability of
    the drawn values is missing from the forward direction; with the exact gradient of a linear energy on one
    site with three categories, the square-root balancing function and one flip, the target is not invariant. *)
Theorem C10_constant_categorical_refuted : exists (fw : list nat -> R) wf grad d C k,
  (1 <= k <= d)%nat /\
  (forall x i c, In x (states d C) -> (i < d)%nat -> (c < C)%nat ->
     paf_lr_grad_cat grad C x (i * C + c)%nat = fw (upd i c x) - fw x) /\
  forall guard, 0 <= guard <= / 1000 ->
  ~ invariant (states d C) (fun x => exp (fw x)) (pafsc_step guard fw wf (paf_lr_grad_cat grad C) None C k).
Proof.
  exists w_fw, w_wf, w_grad, 1%nat, 3%nat, 1%nat. split; [lia|]. split; [|exact pafsc_not_invariant].
  intros x i c Hx Hi Hc. assert (i = 0%nat) by lia. subst i. apply in_states in Hx. destruct Hx as [Hl HF].
  destruct x as [|a [|b x]]; try discriminate. unfold paf_lr_grad_cat, w_grad. cbn [Nat.mul Nat.add].
  rewrite Nat.div_small by auto. reflexivity.
Qed.
Print Assumptions C10_constant_categorical_refuted.

(** ** C14 *)
Theorem C14_random_walk_radius : forall dim target hist s, (1 <= dim)%nat -> 1 <= rw_radius s <= INR dim ->
  1 <= rw_radius (fold_left (fun s l => rw_adapt_state dim target l s) hist s) <= INR dim.
Proof. exact rw_adapt_radius_range. Qed.
Print Assumptions C14_random_walk_radius.

Theorem C14_gwg_radius : forall dim target hist s, (1 <= dim)%nat -> 1 <= gwg_radius s <= INR dim ->
  1 <= gwg_radius (fold_left (fun s l => agwg_update dim target l s) hist s) <= INR dim.
Proof. exact agwg_radius_range. Qed.
Print Assumptions C14_gwg_radius.

(** The path-auxiliary radius starts at [num_flips], which need not be legal; after the first update it is. *)
Theorem C14_path_aux_radius : forall dim target calls hist s, (1 <= dim)%nat -> (hist <> [] \/ 1 <= paf_radius s <= INR dim) ->
  1 <= paf_radius (fold_left (fun s l => paf_update true dim target calls l s) hist s) <= INR dim.
Proof. exact paf_radius_range. Qed.
Print Assumptions C14_path_aux_radius.

(** The integer number of flips/sites is in [1, dim] for EVERY radius, and is the radius up to rounding for a legal one. *)
Theorem C14_num_sites : forall dim radius, (1 <= dim)%nat ->
  (1 <= num_sites dim radius <= dim)%nat /\
  (1 <= radius <= INR dim -> Rabs (INR (num_sites dim radius) - radius) <= / 2).
Proof. intros dim radius H. split; [exact (num_sites_range dim radius H)|exact (num_sites_close dim radius H)]. Qed.
Print Assumptions C14_num_sites.

Example C14_ex : (1 <= 5)%nat /\ 1 <= paf_radius (paf_init 3) <= INR 5.
Proof. split; [lia|]. simpl. lra. Qed.
