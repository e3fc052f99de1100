(** Hamming-ball sampler: exactly when the step keeps the target. *)
From Coq Require Import Reals List Lra Lia Arith.
From Verif.Base Require Import RSum Cube Dist MH.
From Verif.Spec Require Import Chain.
From Verif.Model Require Import MathUtil Gibbs HammingBall.
From Verif.Proof Require Import MathUtilProof GibbsProof HammingBallProof.
Import ListNotations.
Local Open Scope R_scope.

Lemma E_compute_mix l0 l1 fw C b start x f : (1 <= b)%nat -> (2 <= C)%nat ->
  (1 - p0 l0 l1) * E (compute_u C b start x) (fun u => E (hb_select fw C b start u) f) =
  E (hb_step [l0; l1] fw C b start x) f - p0 l0 l1 * E (hb_select fw C b start x) f.
Proof. intros Hb HC. rewrite E_hb_step by assumption. ring. Qed.

Lemma p0_range l0 l1 : 0 < p0 l0 l1 < 1.
Proof.
  unfold p0. pose proof (exp_pos l0). pose proof (exp_pos l1). split; [apply Rdiv_lt_0_compat; lra |].
  apply Rmult_lt_reg_r with (exp l0 + exp l1); [lra |]. unfold Rdiv. rewrite Rmult_assoc, Rinv_l; lra.
Qed.

(** The step of any radius law is a mixture of the uniform-ball step and the bare selection. *)
Lemma hb_balance l0 l1 fw d C b start f : (1 <= b)%nat -> (2 <= C)%nat ->
  rsum (states d C) (fun x => exp (fw x) * E (hb_step [l0; l1] fw C b start x) f) - rsum (states d C) (fun x => exp (fw x) * f x) =
  (p0 l0 l1 - (1 - p0 l0 l1) / INR (b * (C - 1))) *
  (rsum (states d C) (fun x => exp (fw x) * E (hb_select fw C b start x) f) - rsum (states d C) (fun x => exp (fw x) * f x)).
Proof.
  intros Hb HC. set (N := INR (b * (C - 1))). assert (HN : 0 < N) by (apply lt_0_INR; nia).
  set (p := p0 l0 l1). set (A := rsum (states d C) (fun x => exp (fw x) * E (hb_select fw C b start x) f)). set (B := rsum (states d C) (fun x => exp (fw x) * f x)).
  set (U := rsum (states d C) (fun x => exp (fw x) * E (compute_u C b start x) (fun u => E (hb_select fw C b start u) f))).
  assert (S1 : rsum (states d C) (fun x => exp (fw x) * E (hb_step [l0; l1] fw C b start x) f) = p * A + (1 - p) * U).
  { unfold A, U. rewrite <- !rsum_scal, <- rsum_plus. apply rsum_ext. intros x _. rewrite E_hb_step by assumption. unfold p. ring. }
  assert (Hl : exp (ln N) = N * exp 0) by (rewrite exp_ln, exp_0 by exact HN; ring).
  pose proof (hb_uniform_invariant 0 (ln N) fw d C b start Hb HC Hl f) as HI. cbv beta in HI. fold B in HI.
  assert (S2 : B = / (1 + N) * A + (1 - / (1 + N)) * U).
  { rewrite <- HI. unfold A, U. rewrite <- !rsum_scal, <- rsum_plus. apply rsum_ext. intros x _. rewrite E_hb_step by assumption.
    assert (Hp : p0 0 (ln N) = / (1 + N)) by (unfold p0; rewrite Hl, exp_0; field; lra). rewrite Hp. ring. }
  rewrite S1. assert (HU : N * U = (1 + N) * B - A). { rewrite S2. field. lra. }
  assert (U = ((1 + N) * B - A) / N) by (rewrite <- HU; field; lra). rewrite H. field. lra.
Qed.

Theorem hb_invariant_iff l0 l1 fw d C b start : (1 <= b)%nat -> (2 <= C)%nat ->
  invariant (states d C) (fun x => exp (fw x)) (hb_step [l0; l1] fw C b start) <->
  exp l1 = INR (b * (C - 1)) * exp l0 \/ invariant (states d C) (fun x => exp (fw x)) (hb_select fw C b start).
Proof.
  intros Hb HC. set (N := INR (b * (C - 1))). assert (HN : 0 < N) by (apply lt_0_INR; nia).
  pose proof (exp_pos l0) as P0. pose proof (exp_pos l1) as P1.
  assert (Hc : p0 l0 l1 - (1 - p0 l0 l1) / N = (N * exp l0 - exp l1) / (N * (exp l0 + exp l1))) by (unfold p0; field; lra).
  split.
  - intros H. destruct (Req_dec (exp l1) (N * exp l0)) as [E0 | NE]; [left; exact E0 | right].
    intros f. pose proof (hb_balance l0 l1 fw d C b start f Hb HC) as HB. fold N in HB. rewrite (H f), Rminus_diag_eq in HB by reflexivity.
    symmetry in HB. apply Rmult_integral in HB. destruct HB as [HB | HB]; [| lra].
    exfalso. rewrite Hc in HB. apply NE. apply Rmult_eq_compat_r with (r := N * (exp l0 + exp l1)) in HB. unfold Rdiv in HB.
    rewrite Rmult_assoc, Rinv_l in HB by nra. lra.
  - intros [H | H]; [apply hb_uniform_invariant; assumption |].
    intros f. pose proof (hb_balance l0 l1 fw d C b start f Hb HC) as HB. rewrite (H f) in HB.
    rewrite (Rminus_diag_eq (rsum (states d C) (fun x => exp (fw x) * f x)) (rsum (states d C) (fun x => exp (fw x) * f x)) eq_refl) in HB. lra.
Qed.

(** The bare selection keeps the target when, around every state, the probabilities of staying put add up to one. *)
Lemma hb_select_flow fw d C b start f : (1 <= b)%nat -> (2 <= C)%nat ->
  rsum (states d C) (fun x => exp (fw x) * E (hb_select fw C b start x) f) =
  rsum (states d C) (fun y => exp (fw y) * f y * rsum (slots b C) (fun s => exp (fw (slot_move C start s y)) / hb_Z fw C b start (slot_move C start s y))).
Proof.
  intros Hb HC.
  rewrite (rsum_ext (states d C) _ (fun x => rsum (slots b C) (fun s => exp (fw x) * (exp (fw (slot_move C start s x)) / hb_Z fw C b start x * f (slot_move C start s x)))))
    by (intros x _; rewrite E_hb_select, <- rsum_scal; reflexivity).
  rewrite (rsum_ext (states d C) (fun y => exp (fw y) * f y * _) (fun y => rsum (slots b C) (fun s => exp (fw y) * f y * (exp (fw (slot_move C start s y)) / hb_Z fw C b start (slot_move C start s y)))))
    by (intros y _; rewrite <- rsum_scal; reflexivity).
  rewrite rsum_swap. rewrite (rsum_swap (states d C) (slots b C) (fun y s => exp (fw y) * f y * _)).
  rewrite (rsum_involution (slots b C) (slot_inv C)) by (apply NoDup_slots || apply slot_inv_in || apply slot_inv_inv).
  apply rsum_ext. intros s Hs. pose proof (slot_inv_in b C s Hs) as Hi.
  rewrite (rsum_bij (states d C) (states d C) (slot_move C start s) (slot_move C start (slot_inv C s))).
  - apply rsum_ext. intros y Hy. rewrite (slot_move_inv d C b) by assumption. unfold Rdiv. ring.
  - apply NoDup_states.
  - apply NoDup_states.
  - intros y Hy. apply (slot_move_states d C b); assumption.
  - intros y Hy. apply (slot_move_states d C b); assumption.
  - intros y Hy. apply (slot_move_inv d C b); assumption.
  - intros y Hy. pose proof (slot_move_inv d C b start (slot_inv C s) y Hy Hi) as H. rewrite (slot_inv_inv b) in H by assumption. exact H.
Qed.

Definition at_state (y x : list nat) : R := if list_eq_dec Nat.eq_dec x y then 1 else 0.

Lemma rsum_at_state d C y (g : list nat -> R) : In y (states d C) -> rsum (states d C) (fun x => g x * at_state y x) = g y.
Proof.
  intros Hy. rewrite (rsum_single (states d C) _ y).
  - unfold at_state. destruct (list_eq_dec Nat.eq_dec y y) as [_ | n]; [ring | congruence].
  - apply NoDup_states.
  - exact Hy.
  - intros x _ Hne. unfold at_state. destruct (list_eq_dec Nat.eq_dec x y) as [e | _]; [congruence | ring].
Qed.

Lemma hb_select_invariant_iff fw d C b start : (1 <= b)%nat -> (2 <= C)%nat ->
  invariant (states d C) (fun x => exp (fw x)) (hb_select fw C b start) <->
  forall y, In y (states d C) -> rsum (slots b C) (fun s => exp (fw (slot_move C start s y)) / hb_Z fw C b start (slot_move C start s y)) = 1.
Proof.
  intros Hb HC. split.
  - intros H y Hy. specialize (H (at_state y)). cbv beta in H. rewrite hb_select_flow in H by assumption.
    rewrite rsum_at_state in H by assumption.
    rewrite (rsum_ext _ _ (fun x => exp (fw x) * rsum (slots b C) (fun s => exp (fw (slot_move C start s x)) / hb_Z fw C b start (slot_move C start s x)) * at_state y x)) in H by (intros; ring).
    rewrite rsum_at_state in H by assumption. pose proof (exp_pos (fw y)).
    apply Rmult_eq_reg_l with (exp (fw y)); lra.
  - intros H f. rewrite hb_select_flow by assumption. apply rsum_ext. intros y Hy. rewrite H by exact Hy. ring.
Qed.

(** ** A target not kept, whatever the block: one state twice as likely as all others *)
Definition peak (d : nat) (x : list nat) : R := ln 2 * at_state (repeat 0%nat d) x.

Lemma exp_peak d x : exp (peak d x) = 1 + at_state (repeat 0%nat d) x.
Proof.
  unfold peak, at_state. destruct list_eq_dec; [rewrite Rmult_1_r, exp_ln by lra; ring | rewrite Rmult_0_r, exp_0; ring].
Qed.

Definition returns (d C b start : nat) (u : list nat) : R := rsum (slots b C) (fun s => at_state (repeat 0%nat d) (slot_move C start s u)).

Lemma peak_Z d C b start u : (1 <= b)%nat -> (2 <= C)%nat -> hb_Z (peak d) C b start u = INR (b * (C - 1)) + 1 + returns d C b start u.
Proof.
  intros Hb HC. unfold hb_Z, returns. rewrite (rsum_ext _ _ (fun s => 1 + at_state (repeat 0%nat d) (slot_move C start s u))) by (intros; apply exp_peak).
  rewrite rsum_plus, rsum_const. unfold slots at 1. cbn [length]. rewrite map_length, prod_length, !seq_length, S_INR. ring.
Qed.

Lemma at_state_0 y x : x <> y -> at_state y x = 0.
Proof. intros H. unfold at_state. destruct list_eq_dec; congruence. Qed.
Lemma at_state_1 y : at_state y y = 1.
Proof. unfold at_state. destruct list_eq_dec; congruence. Qed.

Lemma slot_to_zero d C start j v u : (start + j < d)%nat -> length u = d -> shift_at C (start + j) v u = repeat 0%nat d ->
  ((nth (start + j) u 0 + v) mod C = 0)%nat /\ forall k, k <> (start + j)%nat -> nth k u 0%nat = 0%nat.
Proof.
  intros Hj Hl H. unfold shift_at in H. split.
  - apply (f_equal (fun l => nth (start + j) l 0%nat)) in H. rewrite nth_upd_eq in H by lia. rewrite nth_repeat in H. exact H.
  - intros k Hk. apply (f_equal (fun l => nth k l 0%nat)) in H. rewrite nth_upd_neq in H by auto. rewrite nth_repeat in H. exact H.
Qed.

(** On the line through the peak in the first coordinate of the block exactly one candidate is the peak. *)
Lemma returns_line d C b start a : (1 <= b)%nat -> (2 <= C)%nat -> (start + b <= d)%nat -> (a < C)%nat ->
  returns d C b start (upd start a (repeat 0%nat d)) = 1.
Proof.
  intros Hb HC Hd Ha. set (u := upd start a (repeat 0%nat d)). unfold returns.
  assert (Hlen : length u = d) by (unfold u; rewrite upd_length, repeat_length; reflexivity).
  assert (Hnth : nth start u 0%nat = a) by (unfold u; apply nth_upd_eq; rewrite repeat_length; lia).
  set (s0 := if Nat.eqb a 0 then None else Some (0, C - a)%nat).
  assert (Hs0 : slot_move C start s0 u = repeat 0%nat d).
  { unfold s0. destruct (Nat.eqb_spec a 0) as [-> | Hne].
    - cbn [slot_move]. unfold u. rewrite <- (nth_repeat 0%nat d start) at 1. apply upd_nth_same.
    - cbn [slot_move]. unfold shift_at. rewrite Nat.add_0_r, Hnth. replace (a + (C - a))%nat with C by lia. rewrite Nat.mod_same by lia.
      unfold u. rewrite upd_upd. rewrite <- (nth_repeat 0%nat d start) at 1. apply upd_nth_same. }
  rewrite (rsum_single _ _ s0).
  - rewrite Hs0. apply at_state_1.
  - apply NoDup_slots.
  - unfold s0. apply in_slots. destruct (Nat.eqb_spec a 0); [trivial | lia].
  - intros s Hs Hne. apply at_state_0. intros He. apply Hne. apply in_slots in Hs. destruct s as [[j v] |].
    + cbn [slot_move] in He. apply slot_to_zero in He; [| lia | exact Hlen]. destruct He as [He Hk].
      destruct (Nat.eq_dec j 0) as [-> | Hj].
      * rewrite Nat.add_0_r, Hnth in He. destruct (Nat.eq_dec a 0) as [-> | Hna].
        { exfalso. rewrite Nat.add_0_l, Nat.mod_small in He; lia. }
        assert (a + v = C)%nat.
        { destruct (Nat.lt_ge_cases (a + v) C) as [Hlt | Hge]; [rewrite Nat.mod_small in He; lia |].
          replace (a + v)%nat with ((a + v - C) + 1 * C)%nat in He by lia. rewrite Nat.mod_add, Nat.mod_small in He by lia. lia. }
        unfold s0. destruct (Nat.eqb_spec a 0); [lia |]. do 2 f_equal. lia.
      * exfalso. unfold u in He. rewrite nth_upd_neq, nth_repeat, Nat.add_0_l, Nat.mod_small in He by lia. lia.
    + cbn [slot_move] in He. unfold s0. destruct (Nat.eqb_spec a 0) as [| Hna]; [reflexivity | exfalso].
      rewrite He, nth_repeat in Hnth. congruence.
Qed.

(** Two coordinates away from the peak there is none. *)
Lemma returns_off d C b start j v : (1 <= j < b)%nat -> (2 <= C)%nat -> (1 <= v < C)%nat -> (start + b <= d)%nat ->
  returns d C b start (shift_at C (start + j) v (upd start 1%nat (repeat 0%nat d))) = 0.
Proof.
  intros Hj HC Hv Hd. set (u := shift_at _ _ _ _). unfold returns. apply rsum_const0.
  assert (Hlen : length u = d) by (unfold u, shift_at; rewrite !upd_length, repeat_length; reflexivity).
  assert (H0 : nth start u 0%nat = 1%nat).
  { unfold u, shift_at. rewrite nth_upd_neq by lia. apply nth_upd_eq. rewrite repeat_length. lia. }
  assert (H1 : nth (start + j) u 0%nat = v).
  { unfold u, shift_at. rewrite nth_upd_eq by (rewrite upd_length, repeat_length; lia). rewrite nth_upd_neq, nth_repeat by lia. apply Nat.mod_small. lia. }
  intros s Hs. apply at_state_0. intros He. apply in_slots in Hs. destruct s as [[i w] |].
  - cbn [slot_move] in He. apply slot_to_zero in He; [| lia | exact Hlen]. destruct He as [_ Hk].
    destruct (Nat.eq_dec i 0) as [-> | Hi].
    + specialize (Hk (start + j)%nat ltac:(lia)). lia.
    + specialize (Hk start ltac:(lia)). lia.
  - cbn [slot_move] in He. rewrite He, nth_repeat in H0. discriminate.
Qed.

Theorem peak_select_not_invariant d C b start : (2 <= b)%nat -> (2 <= C)%nat -> (start + b <= d)%nat ->
  ~ invariant (states d C) (fun x => exp (peak d x)) (hb_select (peak d) C b start).
Proof.
  intros Hb HC Hd H. set (y := upd start 1%nat (repeat 0%nat d)).
  assert (Hy : In y (states d C)).
  { apply upd_in_states; [| lia]. apply in_states. rewrite repeat_length. split; [reflexivity |]. apply Forall_forall. intros z Hz. apply repeat_spec in Hz. lia. }
  pose proof (proj1 (hb_select_invariant_iff (peak d) d C b start ltac:(lia) HC) H y Hy) as HW. clear H.
  set (N := INR (b * (C - 1))) in *. set (c := INR (C - 1)). assert (HN : N = INR b * c) by (unfold N, c; apply mult_INR).
  assert (Hc : 1 <= c) by (apply (le_INR 1); lia). assert (Hb2 : 2 <= INR b) by (apply (le_INR 2); lia).
  assert (Hlen : length (repeat 0%nat d) = d) by apply repeat_length.
  unfold slots in HW. cbn [rsum slot_move] in HW. rewrite rsum_map, rsum_list_prod in HW.
  destruct b as [| b']; [lia |]. cbn [seq rsum] in HW. cbn [slot_move] in HW.
  (* staying *)
  rewrite (exp_peak d y), peak_Z in HW by lia. unfold y at 2 in HW. rewrite returns_line in HW by lia.
  rewrite (at_state_0 _ y) in HW.
  2: { intros He. apply (f_equal (fun l => nth start l 0%nat)) in He. unfold y in He. rewrite nth_upd_eq, nth_repeat in He by lia. discriminate. }
  (* first coordinate *)
  rewrite (rsum_ext (seq 1 (C - 1)) (fun b0 => exp (peak d (shift_at C (start + 0) b0 y)) / _)
    (fun v => (1 + at_state (repeat 0%nat d) (shift_at C (start + 0) v y)) * / (N + 2))) in HW.
  2: { intros v Hv. rewrite exp_peak, peak_Z by lia. rewrite Nat.add_0_r.
       assert (Hm : shift_at C start v y = upd start ((nth start y 0 + v) mod C)%nat (repeat 0%nat d)) by (unfold shift_at; generalize ((nth start y 0 + v) mod C)%nat; intros m; unfold y; apply upd_upd).
       rewrite Hm.
       rewrite returns_line by (try lia; apply Nat.mod_upper_bound; lia). unfold Rdiv. f_equal. f_equal. fold N. ring. }
  rewrite rsum_scal_r, rsum_plus, rsum_const, seq_length in HW. fold c in HW.
  rewrite (rsum_single _ (fun v => at_state (repeat 0%nat d) (shift_at C (start + 0) v y)) (C - 1)%nat) in HW.
  2: apply seq_NoDup.
  2: { apply in_seq. lia. }
  2: { intros v Hv Hne. apply at_state_0. intros He. apply in_seq in Hv.
       apply slot_to_zero in He; [| lia | unfold y; rewrite upd_length; exact Hlen]. destruct He as [He _]. rewrite Nat.add_0_r in He. unfold y in He.
       rewrite nth_upd_eq in He by lia. rewrite Nat.mod_small in He; lia. }
  replace (shift_at C (start + 0) (C - 1) y) with (repeat 0%nat d) in HW.
  2: { unfold shift_at, y. rewrite Nat.add_0_r, nth_upd_eq by lia. replace (1 + (C - 1))%nat with C by lia. rewrite Nat.mod_same, upd_upd by lia.
       symmetry. rewrite <- (nth_repeat 0%nat d start) at 1. apply upd_nth_same. }
  rewrite at_state_1 in HW.
  (* the others *)
  rewrite (rsum_ext (seq 1 b') _ (fun _ => c * / (N + 1))) in HW.
  2: { intros j Hj. apply in_seq in Hj. rewrite (rsum_ext _ _ (fun _ => / (N + 1))); [rewrite rsum_const, seq_length; reflexivity |].
       intros v Hv. apply in_seq in Hv. rewrite exp_peak, peak_Z by lia. pose proof (returns_off d C (S b') start j v ltac:(lia) HC ltac:(lia) Hd) as HO. fold y in HO. rewrite HO.
       rewrite at_state_0; [unfold Rdiv; fold N; rewrite !Rplus_0_r; ring |].
       intros He. apply (f_equal (fun l => nth start l 0%nat)) in He. unfold shift_at in He. rewrite nth_upd_neq in He by lia.
       unfold y in He. rewrite nth_upd_eq, nth_repeat in He by lia. discriminate. }
  rewrite rsum_const, seq_length in HW. fold N in HW. rewrite S_INR in HN, Hb2.
  set (q := INR b') in *. assert (HN0 : 0 < N) by nra.
  assert (HW2 : (1 + (c * 1 + 1)) * (N + 1) + q * c * (N + 2) = (N + 1) * (N + 2)).
  { transitivity ((N + 1) * (N + 2) * ((1 + 0) / (N + 1 + 1) + ((c * 1 + 1) * / (N + 2) + q * (c * / (N + 1))))); [| rewrite HW; ring].
    field. split; lra. }
  nra.
Qed.

Theorem hb_every_block_refuted d C b start : (2 <= b)%nat -> (2 <= C)%nat -> (start + b <= d)%nat ->
  ~ invariant (states d C) (fun x => exp (peak d x)) (hb_step (hamming_logit b C) (peak d) C b start).
Proof.
  intros Hb HC Hd H. rewrite hamming_logit_eq in H by lia. apply hb_invariant_iff in H; [| lia | lia]. destruct H as [H | H].
  - assert (HN : 0 < INR (b * (C - 1))) by (apply lt_0_INR; nia).
    assert (INR (b * (C - 1)) = 1 + ln (INR (b * (C - 1)))) as HL.
    { apply (f_equal ln) in H. rewrite ln_exp, ln_mult, ln_exp in H by (auto using exp_pos). lra. }
    apply log_count_iff in HL; nia.
  - exact (peak_select_not_invariant d C b start Hb HC Hd H).
Qed.

(** ** The condition in terms of the candidates *)
Lemma hb_select_candidates_iff fw d C b start : (1 <= b)%nat -> (2 <= C)%nat ->
  invariant (states d C) (fun x => exp (fw x)) (hb_select fw C b start) <->
  forall y, In y (states d C) ->
    rsum (hb_candidates C b start y) (fun u => exp (fw u) / rsum (hb_candidates C b start u) (fun z => exp (fw z))) = 1.
Proof.
  intros Hb HC. rewrite (hb_select_invariant_iff fw d C b start Hb HC).
  assert (HZ : forall u, rsum (hb_candidates C b start u) (fun z => exp (fw z)) = hb_Z fw C b start u).
  { intros u. rewrite hb_candidates_slots, rsum_map. reflexivity. }
  split; intros H y Hy; rewrite <- (H y Hy), hb_candidates_slots, rsum_map; apply rsum_ext; intros s _; rewrite HZ; reflexivity.
Qed.

Theorem hb_invariant_exact l0 l1 fw d C b start : (1 <= b)%nat -> (2 <= C)%nat ->
  invariant (states d C) (fun x => exp (fw x)) (hb_step [l0; l1] fw C b start) <->
  l1 = l0 + ln (INR (b * (C - 1))) \/
  forall y, In y (states d C) ->
    rsum (hb_candidates C b start y) (fun u => exp (fw u) / rsum (hb_candidates C b start u) (fun z => exp (fw z))) = 1.
Proof.
  intros Hb HC. rewrite hb_invariant_iff by assumption. rewrite (hb_select_candidates_iff fw d C b start Hb HC).
  assert (HN : 0 < INR (b * (C - 1))) by (apply lt_0_INR; nia).
  split; intros [H | H]; auto; left.
  - apply exp_inv. rewrite exp_plus, exp_ln by exact HN. lra.
  - rewrite H, exp_plus, exp_ln by exact HN. ring.
Qed.
