(** Proofs about the random-walk model. *)
From Coq Require Import Reals List Lra Lia Arith.
From Verif.Base Require Import RSum Cube Dist MH.
From Verif.Spec Require Import Chain.
From Verif.Model Require Import MathUtil RandomWalk.
From Verif.Proof Require Import MHKernel.
Import ListNotations.
Local Open Scope R_scope.

(** Weights of one site draw over the fixed outcome list. *)
Definition rw_vals (C : nat) : list (bool * nat) := list_prod [true; false] (seq 1 (C - 1)).
Definition rw_w (p : R) (C : nat) (a : bool * nat) : R :=
  (if fst a then p else 1 - p) * / INR (C - 1).


Lemma rw_site_eq p C : rw_site p C = weighted (rw_vals C) (rw_w p C).
Proof.
  unfold rw_site, rw_vals, weighted, bind, bernoulli. simpl.
  rewrite !app_nil_r, map_app. unfold dmap, uniform, weighted. rewrite !map_map, seq_length. reflexivity.
Qed.

Lemma rw_draws_eq radius dim C :
  rw_draws radius dim C = indep (map (weighted (rw_vals C)) (repeat (rw_w (radius / INR dim) C) dim)).
Proof.
  unfold rw_draws. f_equal. rewrite rw_site_eq. generalize (rw_w (radius / INR dim) C) as w. intros w.
  induction dim as [|n IH]; simpl; auto. rewrite IH; auto.
Qed.

Lemma E_rw_draws radius dim C f :
  E (rw_draws radius dim C) f
  = rsum (lists_over (rw_vals C) dim)
         (fun l => prod_at (repeat (rw_w (radius / INR dim) C) dim) l * f l).
Proof. rewrite rw_draws_eq, E_indep_weighted, repeat_length. reflexivity. Qed.

(** The inverse draw: shift by C - v where flipped, same draw where not. *)
Definition rw_inv1 (C : nat) (a : bool * nat) : bool * nat :=
  if fst a then (true, (C - snd a)%nat) else a.

Lemma in_rw_vals C a : In a (rw_vals C) <-> (1 <= snd a < C)%nat.
Proof.
  destruct a as [b v]. unfold rw_vals. rewrite in_prod_iff, in_seq. simpl.
  split; [intros [_ H]; lia|]. intros H. split; [destruct b; auto|lia].
Qed.

Lemma NoDup_rw_vals C : NoDup (rw_vals C).
Proof.
  apply NoDup_list_prod; [|apply seq_NoDup].
  constructor; [simpl; intros [H|[]]; discriminate|]. constructor; [simpl; tauto|constructor].
Qed.

Lemma rw_apply_length C x dr : length dr = length x -> length (rw_apply C x dr) = length x.
Proof. intros H. unfold rw_apply. rewrite map_length, combine_length. lia. Qed.

Lemma rw_apply_in d C x dr : (0 < C)%nat -> In x (states d C) -> length dr = d -> In (rw_apply C x dr) (states d C).
Proof.
  intros HC Hx Hl. apply in_states in Hx. apply in_states. rewrite rw_apply_length by lia.
  split; [tauto|]. unfold rw_apply. apply Forall_map, Forall_forall. intros p _.
  apply Nat.mod_upper_bound; lia.
Qed.

Lemma rw_roundtrip C x dr :
  Forall (fun v => (v < C)%nat) x -> Forall (fun a => In a (rw_vals C)) dr -> length dr = length x ->
  rw_apply C (rw_apply C x dr) (map (rw_inv1 C) dr) = x.
Proof.
  intros Hx; revert dr; induction Hx as [|v x Hv Hx IH]; intros [|[b s] dr] Hd Hl; simpl in *; try discriminate; auto.
  inversion Hd as [|? ? Ha Hd']; subst. apply in_rw_vals in Ha. simpl in Ha.
  unfold rw_apply in *. cbn [combine map fst snd]. rewrite IH by (auto; lia). f_equal.
  destruct b; cbn [rw_inv1 fst snd].
  - rewrite !Nat.mul_1_l, Nat.add_mod_idemp_r by lia.
    replace (C - s + (s + v))%nat with (v + 1 * C)%nat by lia.
    rewrite Nat.mod_add by lia. apply Nat.mod_small; auto.
  - rewrite !Nat.mul_0_l, !Nat.add_0_l. rewrite (Nat.mod_small v) by auto. apply Nat.mod_small; auto.
Qed.

Lemma rw_inv1_inv C a : In a (rw_vals C) -> rw_inv1 C (rw_inv1 C a) = a.
Proof.
  destruct a as [b s]. intros H. apply in_rw_vals in H. simpl in H. destruct b; simpl; auto.
  unfold rw_inv1; simpl. f_equal; lia.
Qed.

Lemma rw_inv1_in C a : In a (rw_vals C) -> In (rw_inv1 C a) (rw_vals C).
Proof.
  intros H. apply in_rw_vals in H. apply in_rw_vals. destruct a as [b s]; destruct b; simpl in *; lia.
Qed.

Lemma prod_at_map {A} (w : A -> R) h n l :
  (forall a, w (h a) = w a) -> prod_at (repeat w n) (map h l) = prod_at (repeat w n) l.
Proof.
  intros H. revert l; induction n as [|n IH]; intros [|a l]; simpl; auto. rewrite H, IH; auto.
Qed.

Lemma prod_at_nonneg {A} (vals : list A) ws l :
  Forall (fun w => forall a, In a vals -> 0 <= w a) ws -> Forall (fun a => In a vals) l -> 0 <= prod_at ws l.
Proof.
  intros Hw; revert l; induction Hw as [|w ws Hw Hws IH]; intros l Hl; simpl; [lra|].
  destruct Hl as [|a l Ha Hl]; [lra|]. apply Rmult_le_pos; auto.
Qed.

Section RW.
  Variables (fw : list nat -> R) (d C : nat) (radius : R).
  Hypothesis HC : (2 <= C)%nat.
  Hypothesis Hr : 0 <= radius <= INR d.
  Hypothesis Hd : (0 < d)%nat.

  Lemma rw_p_range : 0 <= radius / INR d <= 1.
  Proof.
    assert (0 < INR d) by (apply lt_0_INR; lia). split.
    - apply Rmult_le_pos; [lra|]. left; apply Rinv_0_lt_compat; auto.
    - apply (Rmult_le_reg_r (INR d)); auto. unfold Rdiv. rewrite Rmult_assoc, Rinv_l by lra. lra.
  Qed.

  Lemma rw_w_nonneg a : 0 <= rw_w (radius / INR d) C a.
  Proof.
    pose proof rw_p_range. unfold rw_w. apply Rmult_le_pos; [destruct (fst a); lra|].
    left. apply Rinv_0_lt_compat. apply lt_0_INR. lia.
  Qed.

  Lemma rw_draws_is_prob : is_prob (rw_draws radius d C).
  Proof.
    apply is_prob_indep. intros s Hs. apply repeat_spec in Hs. subst.
    apply is_prob_bind; [apply is_prob_bernoulli, rw_p_range|].
    intros b w _. apply is_prob_dmap, is_prob_uniform.
    destruct C as [|[|n]]; simpl; [lia|lia|discriminate].
  Qed.

  Let Aux := lists_over (rw_vals C) d.
  Let q (_ : list nat) (l : list (bool * nat)) := prod_at (repeat (rw_w (radius / INR d) C) d) l.
  Let la x dr := fw (rw_apply C x dr) - fw x.

  Lemma rw_aux_facts x a : In x (states d C) -> In a Aux ->
    length x = d /\ Forall (fun v => (v < C)%nat) x /\ length a = d /\ Forall (fun v => In v (rw_vals C)) a.
  Proof. intros Hx Ha. apply in_states in Hx. apply in_lists_over in Ha. tauto. Qed.

  Lemma rw_hyps :
    (forall x a, In x (states d C) -> In a Aux -> In (rw_apply C x a) (states d C)) /\
    (forall x a, In x (states d C) -> In a Aux -> In (map (rw_inv1 C) a) Aux) /\
    (forall x a, In x (states d C) -> In a Aux -> rw_apply C (rw_apply C x a) (map (rw_inv1 C) a) = x) /\
    (forall x a, In x (states d C) -> In a Aux -> map (rw_inv1 C) (map (rw_inv1 C) a) = a).
  Proof.
    repeat split; intros x a Hx Ha; destruct (rw_aux_facts x a Hx Ha) as (H1 & H2 & H3 & H4).
    - apply rw_apply_in; auto; lia.
    - apply in_lists_over. rewrite map_length. split; auto. apply Forall_map.
      eapply Forall_impl; [|exact H4]. intros; apply rw_inv1_in; auto.
    - apply rw_roundtrip; auto; lia.
    - rewrite map_map. rewrite <- (map_id a) at 2. apply map_ext_in. intros b Hb.
      apply rw_inv1_inv. rewrite Forall_forall in H4. auto.
  Qed.

  Lemma rw_step_kernel g x : rw_step g fw radius d C x = mh_kernel (fun _ => rw_draws radius d C) (rw_apply C) la g x.
  Proof. reflexivity. Qed.

  Lemma rw_all (Q : Prop) :
    ((forall x f, In x (states d C) -> E (rw_draws radius d C) f = rsum Aux (fun a => q x a * f a)) ->
     (forall x a, In x (states d C) -> In a Aux -> 0 <= q x a) ->
     (forall x a, In x (states d C) -> In a Aux ->
        exp (fw x) * q x a * exp (la x a) = exp (fw (rw_apply C x a)) * q (rw_apply C x a) (map (rw_inv1 C) a)) ->
     (forall x a, In x (states d C) -> In a Aux -> la (rw_apply C x a) (map (rw_inv1 C) a) = - la x a) -> Q) -> Q.
  Proof.
    intros H. destruct rw_hyps as (H1 & H2 & H3 & H4). apply H.
    - intros x f _. unfold Aux, q. apply E_rw_draws.
    - intros x a Hx Ha. apply (prod_at_nonneg (rw_vals C)).
      + apply Forall_forall. intros w Hw. apply repeat_spec in Hw. subst. intros; apply rw_w_nonneg.
      + apply (rw_aux_facts x a); auto.
    - intros x a Hx Ha. unfold q. rewrite (prod_at_map (rw_w (radius / INR d) C) (rw_inv1 C)).
      + unfold la. transitivity (exp (fw x + (fw (rw_apply C x a) - fw x)) * prod_at (repeat (rw_w (radius / INR d) C) d) a);
          [rewrite exp_plus; ring|]. do 2 f_equal. ring.
      + intros [b v]. destruct b; reflexivity.
    - intros x a Hx Ha. unfold la. rewrite H3 by auto. ring.
  Qed.

  Theorem rw_reversible : reversible (states d C) (fun x => exp (fw x)) (rw_step 0 fw radius d C).
  Proof.
    apply rw_all. intros K1 K2 K3 K4. destruct rw_hyps as (H1 & H2 & H3 & H4).
    apply (kernel_reversible (states d C) Aux (rw_apply C) (fun _ a => map (rw_inv1 C) a)) with (q := q) (la := la)
      (prop := fun _ => rw_draws radius d C); auto.
    - apply NoDup_states.
    - apply NoDup_lists_over, NoDup_rw_vals.
    - intros; left; apply exp_pos.
  Qed.

  Theorem rw_invariant : invariant (states d C) (fun x => exp (fw x)) (rw_step 0 fw radius d C).
  Proof.
    apply reversible_invariant; [|apply rw_reversible].
    intros x Hx. rewrite rw_step_kernel.
    exact (proj2 (is_prob_mh_kernel (fun _ => rw_draws radius d C) (rw_apply C) la 0 x rw_draws_is_prob)).
  Qed.

  Theorem rw_invariant_upto g : 0 <= g ->
    invariant_upto (2 * g) (states d C) (fun x => exp (fw x)) (rw_step g fw radius d C).
  Proof.
    intros Hg. apply (invariant_perturb _ _ _ (rw_step 0 fw radius d C)).
    - intros; left; apply exp_pos.
    - apply rw_invariant.
    - intros x f Hx Hf. rewrite !rw_step_kernel. apply mh_kernel_guard; auto. apply rw_draws_is_prob.
  Qed.

  (** Symmetric proposal: for every pair of states the proposal weights agree. *)
  Theorem rw_symmetric x y : In x (states d C) -> In y (states d C) ->
    E (rw_draws radius d C) (fun dr => if list_eq_dec Nat.eq_dec (rw_apply C x dr) y then 1 else 0)
    = E (rw_draws radius d C) (fun dr => if list_eq_dec Nat.eq_dec (rw_apply C y dr) x then 1 else 0).
  Proof.
    intros Hx Hy. rewrite !E_rw_draws. destruct rw_hyps as (H1 & H2 & H3 & H4). fold Aux.
    rewrite (rsum_involution Aux (map (rw_inv1 C)) (fun l => prod_at (repeat (rw_w (radius / INR d) C) d) l *
       (if list_eq_dec Nat.eq_dec (rw_apply C x l) y then 1 else 0))).
    - apply rsum_ext. intros a Ha. rewrite prod_at_map by (intros [b v]; destruct b; reflexivity). f_equal.
      destruct (list_eq_dec Nat.eq_dec (rw_apply C x (map (rw_inv1 C) a)) y) as [He|He],
               (list_eq_dec Nat.eq_dec (rw_apply C y a) x) as [He'|He']; auto; exfalso.
      + apply He'. rewrite <- He.
        pose proof (H3 x (map (rw_inv1 C) a) Hx (H2 x a Hx Ha)) as HH. rewrite (H4 x a Hx Ha) in HH. exact HH.
      + apply He. rewrite <- He'. apply H3; auto.
    - apply NoDup_lists_over, NoDup_rw_vals.
    - intros a Ha. apply (H2 x); auto.
    - intros a Ha. apply (H4 x); auto.
  Qed.

  (** The outcome is a legal state. *)
  Theorem rw_support g x y w : In x (states d C) -> In (y, w) (rw_step g fw radius d C x) -> In y (states d C).
  Proof.
    intros Hx Hy. unfold rw_step, bind in Hy. apply in_flat_map in Hy. destruct Hy as ([dr p] & Hdr & Hy).
    apply in_map_iff in Hy. destruct Hy as ([y' p'] & Heq & Hy'). inversion Heq; subst. simpl in *.
    apply in_mh_law in Hy'. destruct Hy' as [->| ->]; auto. apply rw_apply_in; auto; [lia|].
    clear -Hdr. unfold rw_draws in Hdr. revert dr p Hdr. generalize (rw_site (radius / INR d) C) as s. intros s.
    induction d as [|n IH]; intros dr p Hdr; simpl in Hdr.
    - destruct Hdr as [H|[]]. inversion H; auto.
    - unfold bind in Hdr. apply in_flat_map in Hdr. destruct Hdr as ([a pa] & Ha & Hdr).
      apply in_map_iff in Hdr. destruct Hdr as ([l pl] & Heq & Hl). inversion Heq; subst.
      apply in_map_iff in Hl. destruct Hl as ([l' pl'] & Heq' & Hl'). inversion Heq'; subst. simpl.
      f_equal. apply (IH _ _ Hl').
  Qed.
End RW.

(** ** State *)
Lemma clip_range lo hi r : lo <= hi -> lo <= clip lo hi r <= hi.
Proof.
  intros H. unfold clip. split; [|apply Rmin_r].
  apply Rmin_glb; auto. apply Rmax_r.
Qed.

Lemma mean_acc_range l : l <> [] -> 0 < mean_acc l <= 1.
Proof.
  intros H. assert (Hn : 0 < INR (length l)) by (apply lt_0_INR; destruct l; simpl; [congruence|lia]).
  unfold mean_acc. split.
  - apply Rdiv_lt_0_compat; auto. apply rsum_pos; auto. intros; apply exp_pos.
  - apply (Rmult_le_reg_r (INR (length l))); auto. unfold Rdiv. rewrite Rmult_assoc, Rinv_l, Rmult_1_r, Rmult_1_l by lra.
    rewrite <- (Rmult_1_r (INR (length l))), <- rsum_const. apply rsum_le. intros a _.
    rewrite <- exp_0. destruct (Rle_lt_or_eq_dec _ _ (Rmin_r a 0)) as [Hlt|Heq]; [left; apply exp_increasing; auto|rewrite Heq; lra].
Qed.

Theorem rw_adapt_radius_range dim target hist s :
  (1 <= dim)%nat -> 1 <= rw_radius s <= INR dim ->
  1 <= rw_radius (fold_left (fun s l => rw_adapt_state dim target l s) hist s) <= INR dim.
Proof.
  intros Hd. revert s; induction hist as [|l hist IH]; intros s Hs; simpl; auto.
  apply IH. simpl. apply clip_range. apply (le_INR 1); auto.
Qed.

From Verif.Proof Require Import MathUtilProof ChainProof.

Lemma rw_run (fw : list nat -> R) d C (radius : nat -> R) n :
  (2 <= C)%nat -> (forall t, 0 <= radius t <= INR d) -> (0 < d)%nat ->
  invariant_upto (INR n * (2 * / 10 ^ 24)) (states d C) (fun x => exp (fw x))
    (run_seq (fun t => rw_step acc_guard fw (radius t) d C) n 0).
Proof.
  intros HC Hr Hd. pose proof acc_guard_pos as Hg. apply run_seq_upto.
  - intros t x Hx. split.
    + rewrite rw_step_kernel. exact (is_prob_mh_kernel (fun _ => rw_draws (radius t) d C) (rw_apply C) _ acc_guard x
        (rw_draws_is_prob d C (radius t) HC (Hr t) Hd)).
    + intros y w. apply rw_support; auto.
  - unfold acc_guard in Hg. lra.
  - intros t. apply (rw_invariant_upto fw d C (radius t) HC (Hr t) Hd acc_guard). lra.
Qed.
