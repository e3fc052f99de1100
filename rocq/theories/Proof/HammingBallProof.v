(** Hamming-ball sampler: proofs. *)
From Coq Require Import Reals List Lra Lia Arith.
From Verif.Base Require Import RSum Cube Dist MH.
From Verif.Spec Require Import Chain.
From Verif.Model Require Import MathUtil Gibbs HammingBall.
From Verif.Proof Require Import MathUtilProof GibbsProof.
Import ListNotations.
Local Open Scope R_scope.

(** Moves: [None] stays, [Some (j, v)] shifts entry [start + j] by [v]. *)
Definition slots (b C : nat) : list (option (nat * nat)) := None :: map Some (list_prod (seq 0 b) (seq 1 (C - 1))).
Definition slot_move (C start : nat) (s : option (nat * nat)) (x : list nat) : list nat :=
  match s with None => x | Some (j, v) => shift_at C (start + j) v x end.
Definition slot_inv (C : nat) (s : option (nat * nat)) : option (nat * nat) :=
  match s with None => None | Some (j, v) => Some (j, C - v)%nat end.

Lemma hb_candidates_slots C b start u : hb_candidates C b start u = map (fun s => slot_move C start s u) (slots b C).
Proof.
  unfold hb_candidates, slots. cbn [map slot_move]. f_equal. rewrite map_map.
  induction (seq 0 b) as [|j l IH]; [reflexivity|]. cbn [flat_map list_prod]. rewrite IH, map_app, map_map. reflexivity.
Qed.

Lemma NoDup_slots b C : NoDup (slots b C).
Proof.
  unfold slots. constructor.
  - intros H. apply in_map_iff in H. destruct H as (? & H & _). discriminate.
  - apply NoDup_map_inj; [intros; congruence|]. apply NoDup_list_prod; apply seq_NoDup.
Qed.

Lemma in_slots b C s : In s (slots b C) <-> match s with None => True | Some (j, v) => (j < b)%nat /\ (1 <= v < C)%nat end.
Proof.
  unfold slots. destruct s as [[j v]|]; simpl; [|tauto]. rewrite in_map_iff. split.
  - intros [H|([j' v'] & H & Hin)]; [discriminate|]. inversion H; subst. apply in_prod_iff in Hin.
    rewrite !in_seq in Hin. lia.
  - intros H. right. exists (j, v). split; auto. apply in_prod_iff. rewrite !in_seq. lia.
Qed.

Lemma slot_inv_in b C s : In s (slots b C) -> In (slot_inv C s) (slots b C).
Proof. rewrite !in_slots. destruct s as [[j v]|]; simpl; auto. lia. Qed.

Lemma slot_inv_inv b C s : In s (slots b C) -> slot_inv C (slot_inv C s) = s.
Proof. rewrite in_slots. destruct s as [[j v]|]; simpl; auto. intros. do 2 f_equal. lia. Qed.

Lemma shift_mod_inv C a v : (a < C)%nat -> (1 <= v < C)%nat -> (((a + v) mod C + (C - v)) mod C = a)%nat.
Proof.
  intros Ha Hv. rewrite Nat.add_mod_idemp_l by lia. replace (a + v + (C - v))%nat with (a + 1 * C)%nat by lia.
  rewrite Nat.mod_add by lia. apply Nat.mod_small; auto.
Qed.

Lemma slot_move_states d C b start s x : In x (states d C) -> In s (slots b C) -> In (slot_move C start s x) (states d C).
Proof.
  intros Hx Hs. destruct s as [[j v]|]; simpl; auto. apply in_slots in Hs. apply in_states in Hx. apply in_states.
  unfold shift_at. rewrite upd_length. split; [tauto|]. apply Forall_upd; [|tauto]. apply Nat.mod_upper_bound. lia.
Qed.

Lemma slot_move_inv d C b start s x : In x (states d C) -> In s (slots b C) ->
  slot_move C start (slot_inv C s) (slot_move C start s x) = x.
Proof.
  intros Hx Hs. destruct s as [[j v]|]; simpl; auto. apply in_slots in Hs. unfold shift_at.
  destruct (Nat.lt_ge_cases (start + j) d) as [Hlt|Hge].
  - pose proof (proj1 (in_states _ _ _) Hx) as [Hl HF].
    rewrite nth_upd_eq by lia. rewrite shift_mod_inv; [|apply (in_states_nth d C x (start + j)); auto|tauto].
    rewrite upd_upd. apply upd_nth_same.
  - pose proof (proj1 (in_states _ _ _) Hx) as [Hl HF].
    rewrite (upd_oob (start + j)) by (rewrite upd_length; lia). apply upd_oob. lia.
Qed.

(** Selection among the candidates. *)
Definition hb_Z (fw : list nat -> R) C b start u : R := rsum (slots b C) (fun s => exp (fw (slot_move C start s u))).

Lemma E_hb_select fw C b start u f :
  E (hb_select fw C b start u) f
  = rsum (slots b C) (fun s => exp (fw (slot_move C start s u)) / hb_Z fw C b start u * f (slot_move C start s u)).
Proof.
  unfold hb_select. rewrite E_dmap, E_categorical. rewrite hb_candidates_slots, !map_length.
  rewrite (rsum_nth (slots b C) None). apply rsum_ext. intros i Hi. apply in_seq in Hi.
  rewrite map_map. rewrite (nth_map_lt _ _ i None 0) by lia.
  rewrite (nth_map_lt (fun s => slot_move C start s u) _ i None []) by lia.
  unfold sumexp. rewrite rsum_map. reflexivity.
Qed.

Lemma hb_Z_pos fw C b start u : 0 < hb_Z fw C b start u.
Proof. apply rsum_pos; [discriminate|]. intros; apply exp_pos. Qed.

Lemma is_prob_hb_select fw C b start u : is_prob (hb_select fw C b start u).
Proof. apply is_prob_dmap, is_prob_categorical. discriminate. Qed.

Lemma E_compute_u C b start x f : (1 <= b)%nat -> (2 <= C)%nat ->
  E (compute_u C b start x) f = rsum (seq 0 b) (fun j => rsum (seq 1 (C - 1)) (fun v => / INR (b * (C - 1)) * f (shift_at C (start + j) v x))).
Proof.
  intros Hb HC. unfold compute_u. rewrite E_bind. unfold uniform at 1. rewrite E_weighted, rsum_map, map_length, seq_length.
  apply rsum_ext. intros j _. rewrite E_bind. unfold uniform. rewrite E_weighted, seq_length, <- rsum_scal.
  apply rsum_ext. intros v _. rewrite E_ret, mult_INR.
  rewrite Rinv_mult. ring.
Qed.

Lemma is_prob_compute_u C b start x : (1 <= b)%nat -> (2 <= C)%nat -> is_prob (compute_u C b start x).
Proof.
  intros Hb HC. apply is_prob_bind; [apply is_prob_uniform; destruct b; [lia|discriminate]|].
  intros idx w _. apply is_prob_bind; [apply is_prob_uniform; destruct C as [|[|C]]; [lia|lia|discriminate]|].
  intros; apply is_prob_ret.
Qed.

Lemma is_prob_hb_chain fw C b start rad x : (1 <= b)%nat -> (2 <= C)%nat -> is_prob (hb_chain fw C b start rad x).
Proof.
  intros Hb HC. apply is_prob_bind.
  - destruct (Nat.eqb rad 0); [apply is_prob_ret|apply is_prob_compute_u; auto].
  - intros; apply is_prob_hb_select.
Qed.

Lemma is_prob_hb_step logits fw C b start x : (1 <= b)%nat -> (2 <= C)%nat -> logits <> [] -> is_prob (hb_step logits fw C b start x).
Proof. intros Hb HC Hl. apply is_prob_bind; [apply is_prob_categorical; auto|]. intros; apply is_prob_hb_chain; auto. Qed.

(** Two logits: probability of radius 0. *)
Definition p0 (l0 l1 : R) : R := exp l0 / (exp l0 + exp l1).

Lemma E_hb_step l0 l1 fw C b start x f : (1 <= b)%nat -> (2 <= C)%nat ->
  E (hb_step [l0; l1] fw C b start x) f
  = p0 l0 l1 * E (hb_select fw C b start x) f
    + (1 - p0 l0 l1) * E (compute_u C b start x) (fun u => E (hb_select fw C b start u) f).
Proof.
  intros Hb HC. unfold hb_step. rewrite E_bind, E_categorical. cbn [length seq rsum nth].
  unfold hb_chain. rewrite !E_bind. cbn [Nat.eqb]. rewrite E_ret.
  pose proof (exp_pos l0). pose proof (exp_pos l1).
  unfold sumexp. cbn [rsum]. unfold p0.
  replace (exp l0 + (exp l1 + 0)) with (exp l0 + exp l1) by ring.
  assert (Hp : exp l1 / (exp l0 + exp l1) = 1 - exp l0 / (exp l0 + exp l1)) by (field; lra).
  rewrite Hp. ring.
Qed.

(** With the two radii weighted by the number of points at that radius the step is reversible. *)
Theorem hb_uniform_reversible l0 l1 fw d C b start : (1 <= b)%nat -> (2 <= C)%nat ->
  exp l1 = INR (b * (C - 1)) * exp l0 ->
  reversible (states d C) (fun x => exp (fw x)) (hb_step [l0; l1] fw C b start).
Proof.
  intros Hb HC Hl.
  set (N := INR (b * (C - 1))).
  assert (HN : 0 < N) by (apply lt_0_INR; nia).
  assert (Hp : p0 l0 l1 = / (1 + N)).
  { unfold p0. rewrite Hl. fold N. pose proof (exp_pos l0). field. split; nra. }
  set (Aux := list_prod (slots b C) (slots b C)).
  set (T := fun (x : list nat) (a : option (nat * nat) * option (nat * nat)) => slot_move C start (snd a) (slot_move C start (fst a) x)).
  set (I := fun (x : list nat) (a : option (nat * nat) * option (nat * nat)) => (slot_inv C (snd a), slot_inv C (fst a))).
  apply (aux_reversible (states d C) Aux T I) with
    (w := fun x a => / (1 + N) * (exp (fw (T x a)) / hb_Z fw C b start (slot_move C start (fst a) x))) (r := fun _ => 0).
  - apply NoDup_states.
  - apply NoDup_list_prod; apply NoDup_slots.
  - intros x [s s'] Hx Ha. apply in_prod_iff in Ha. apply (slot_move_states d C b); [|tauto]. apply (slot_move_states d C b); tauto.
  - intros x [s s'] Hx Ha. apply in_prod_iff in Ha. apply in_prod_iff. split; apply slot_inv_in; tauto.
  - intros x [s s'] Hx Ha. apply in_prod_iff in Ha. unfold T, I. cbn [fst snd].
    rewrite (slot_move_inv d C b); [|apply (slot_move_states d C b); tauto|tauto]. apply (slot_move_inv d C b); tauto.
  - intros x [s s'] Hx Ha. apply in_prod_iff in Ha. unfold I. cbn [fst snd]. rewrite !(slot_inv_inv b) by tauto. reflexivity.
  - intros x f Hx. rewrite E_hb_step by auto. rewrite Hp, E_compute_u by auto. fold N.
    unfold Aux. rewrite rsum_list_prod. unfold slots at 1. cbn [rsum]. rewrite rsum_map, rsum_list_prod.
    rewrite Rmult_0_l, Rplus_0_r. f_equal.
    + rewrite E_hb_select, <- rsum_scal. apply rsum_ext. intros s Hs. unfold T. cbn [fst snd slot_move]. ring.
    + rewrite <- rsum_scal. apply rsum_ext. intros j _. rewrite <- rsum_scal. apply rsum_ext. intros v _.
      rewrite E_hb_select, <- !rsum_scal. apply rsum_ext. intros s Hs. unfold T. cbn [fst snd slot_move].
      field. repeat split; try lra. apply Rgt_not_eq, hb_Z_pos.
  - intros x [s s'] Hx Ha. apply in_prod_iff in Ha. unfold T, I. cbn [fst snd].
    assert (Hm : In (slot_move C start s x) (states d C)) by (apply (slot_move_states d C b); tauto).
    rewrite (slot_move_inv d C b start s' (slot_move C start s x)) by tauto.
    rewrite (slot_move_inv d C b start s x) by tauto. unfold Rdiv. ring.
Qed.

Theorem hb_uniform_invariant l0 l1 fw d C b start : (1 <= b)%nat -> (2 <= C)%nat ->
  exp l1 = INR (b * (C - 1)) * exp l0 ->
  invariant (states d C) (fun x => exp (fw x)) (hb_step [l0; l1] fw C b start).
Proof.
  intros Hb HC Hl. apply reversible_invariant; [|apply hb_uniform_reversible; auto].
  intros x _. apply is_prob_hb_step; auto. discriminate.
Qed.

(** Block size 1: the step is a Gibbs update of one coordinate, whatever the radius law. *)
Lemma hb_select_one fw d C start u f : (start < d)%nat -> (2 <= C)%nat -> In u (states d C) ->
  E (hb_select fw C 1 start u) f = rsum (seq 0 C) (fun v => exp (fw (upd start v u)) / rsum (seq 0 C) (fun v => exp (fw (upd start v u))) * f (upd start v u)).
Proof.
  intros Hs HC Hu. rewrite E_hb_select.
  assert (Hall : forall F : list nat -> R, rsum (slots 1 C) (fun s => F (slot_move C start s u)) = rsum (seq 0 C) (fun v => F (upd start v u))).
  { intros F. unfold slots. cbn [seq list_prod rsum slot_move]. rewrite app_nil_r, rsum_map, rsum_map. cbn [slot_move]. rewrite Nat.add_0_r.
    rewrite <- (rsum_mod_shift C (nth start u 0%nat)) by (apply (in_states_nth d C u start); auto).
    destruct C as [|C]; [lia|]. replace (S C - 1)%nat with C by lia. cbn [seq rsum]. f_equal.
    f_equal. rewrite Nat.add_0_r, Nat.mod_small by (apply (in_states_nth d _ u start); auto). rewrite upd_nth_same. reflexivity. }
  unfold hb_Z. rewrite (Hall (fun y => exp (fw y))). apply (Hall (fun y => exp (fw y) / _ * f y)).
Qed.

Theorem hb_block1_gibbs logits fw d C start x f : (start < d)%nat -> (2 <= C)%nat -> In x (states d C) -> logits <> [] ->
  E (hb_step logits fw C 1 start x) f = E (gibbs_step fw C start x) f.
Proof.
  intros Hs HC Hx Hl.
  assert (Hg : forall u, (u = x \/ exists v, (v < C)%nat /\ u = upd start v x) -> E (hb_select fw C 1 start u) f = E (gibbs_step fw C start x) f).
  { intros u Hu. rewrite (E_gibbs_step fw d C start Hs) by auto.
    assert (Hi : In u (states d C)).
    { destruct Hu as [->|(v & Hv & ->)]; auto. apply upd_in_states; auto. }
    rewrite (hb_select_one fw d) by auto.
    destruct Hu as [->|(v & Hv & ->)]; [reflexivity|].
    assert (He : forall w, upd start w (upd start v x) = upd start w x) by (intros; apply upd_upd).
    rewrite (rsum_ext (seq 0 C) (fun v0 => exp (fw (upd start v0 (upd start v x)))) (fun v0 => exp (fw (upd start v0 x)))) by (intros; rewrite He; auto).
    apply rsum_ext. intros w _. rewrite He. reflexivity. }
  unfold hb_step. rewrite E_bind. transitivity (E (categorical logits) (fun _ => E (gibbs_step fw C start x) f)).
  - apply E_ext. intros rad. unfold hb_chain. rewrite E_bind. destruct (Nat.eqb rad 0).
    + rewrite E_ret. apply Hg; auto.
    + rewrite E_compute_u by (auto; lia). cbn [seq rsum]. rewrite Rplus_0_r, Nat.add_0_r.
      rewrite (rsum_ext _ _ (fun _ => / INR (1 * (C - 1)) * E (gibbs_step fw C start x) f)).
      * rewrite rsum_const, seq_length, Nat.mul_1_l. assert (0 < INR (C - 1)) by (apply lt_0_INR; lia). field. lra.
      * intros v Hv. apply in_seq in Hv. f_equal. apply Hg. right. exists ((nth start x 0 + v) mod C)%nat.
        split; [apply Nat.mod_upper_bound; lia|reflexivity].
  - rewrite E_const, (proj2 (is_prob_categorical logits Hl)). ring.
Qed.

(** The logits of the code. *)
Lemma comb_1 b : (1 <= b)%nat -> comb b 1 = b.
Proof.
  intros H. unfold comb. destruct b as [|b]; [lia|]. replace (S b - 1)%nat with b by lia.
  change (fact 1) with 1%nat. rewrite Nat.mul_1_l. cbn [fact]. 
  replace (fact b + b * fact b)%nat with (S b * fact b)%nat by lia. apply Nat.div_mul. apply fact_neq_0.
Qed.

Lemma hamming_logit_eq b C : (1 <= b)%nat -> (2 <= C)%nat -> hamming_logit b C = [1; INR (b * (C - 1))].
Proof.
  intros Hb HC. unfold hamming_logit. rewrite comb_1 by auto. destruct (Nat.eqb_spec C 2) as [->|]; auto.
  do 2 f_equal. f_equal. lia.
Qed.

(** Refutation: two binary sites in one block, energies 0, 0, 0 and ln 4. *)
Definition hb_fw (x : list nat) : R := if list_eq_dec Nat.eq_dec x [1; 1]%nat then ln 4 else 0.
Definition ind00 (x : list nat) : R := if list_eq_dec Nat.eq_dec x [0; 0]%nat then 1 else 0.

Lemma hb_sel_val : 
  E (hb_select hb_fw 2 2 0 [0; 0]%nat) ind00 = / 3 /\ E (hb_select hb_fw 2 2 0 [0; 1]%nat) ind00 = / 6 /\
  E (hb_select hb_fw 2 2 0 [1; 0]%nat) ind00 = / 6 /\ E (hb_select hb_fw 2 2 0 [1; 1]%nat) ind00 = 0.
Proof.
  assert (H00 : hb_fw [0; 0]%nat = 0) by reflexivity. assert (H01 : hb_fw [0; 1]%nat = 0) by reflexivity.
  assert (H10 : hb_fw [1; 0]%nat = 0) by reflexivity. assert (H11 : hb_fw [1; 1]%nat = ln 4) by reflexivity.
  assert (I00 : ind00 [0; 0]%nat = 1) by reflexivity. assert (I01 : ind00 [0; 1]%nat = 0) by reflexivity.
  assert (I10 : ind00 [1; 0]%nat = 0) by reflexivity. assert (I11 : ind00 [1; 1]%nat = 0) by reflexivity.
  repeat split; rewrite E_hb_select; unfold hb_Z, slots; cbn [list_prod seq Nat.sub map app rsum slot_move];
  cbn [shift_at upd nth Nat.add]; unfold shift_at; cbn [upd nth Nat.add];
  change (1 mod 2)%nat with 1%nat; change (2 mod 2)%nat with 0%nat;
  rewrite ?H00, ?H01, ?H10, ?H11, ?exp_0, ?exp_ln by lra;
  rewrite ?I00, ?I01, ?I10, ?I11; field.
Qed.

Theorem hb_refuted : ~ invariant (states 2 2) (fun x => exp (hb_fw x)) (hb_step (hamming_logit 2 2) hb_fw 2 2 0).
Proof.
  intros H. specialize (H ind00). rewrite hamming_logit_eq in H by lia. change (INR (2 * (2 - 1))) with (INR 2) in H.
  change (states 2 2) with [[0; 0]; [0; 1]; [1; 0]; [1; 1]]%nat in H. cbn [rsum] in H.
  rewrite !E_hb_step, !E_compute_u in H by lia.
  change (INR (2 * (2 - 1))) with 2 in H. cbn [seq rsum Nat.sub Nat.add] in H. unfold shift_at in H. cbn [upd nth Nat.add] in H.
  change (1 mod 2)%nat with 1%nat in H; change (2 mod 2)%nat with 0%nat in H.
  destruct hb_sel_val as (E00 & E01 & E10 & E11). rewrite E00, E01, E10, E11 in H.
  assert (H00 : hb_fw [0; 0]%nat = 0) by reflexivity. assert (H01 : hb_fw [0; 1]%nat = 0) by reflexivity.
  assert (H10 : hb_fw [1; 0]%nat = 0) by reflexivity. assert (H11 : hb_fw [1; 1]%nat = ln 4) by reflexivity.
  rewrite H00, H01, H10, H11, exp_0, exp_ln in H by lra.
  change (ind00 [0; 0]%nat) with 1 in H. change (ind00 [0; 1]%nat) with 0 in H. change (ind00 [1; 0]%nat) with 0 in H. change (ind00 [1; 1]%nat) with 0 in H.
  assert (Hp : p0 1 (INR 2) < / 3).
  { unfold p0. simpl INR. replace (exp (1 + 1)) with (exp 1 * exp 1) by (rewrite <- exp_plus; auto).
    pose proof (exp_ineq1 1 ltac:(lra)). pose proof (exp_pos 1).
    replace (exp 1 / (exp 1 + exp 1 * exp 1)) with (/ (1 + exp 1)) by (field; split; nra).
    apply Rinv_lt_contravar; nra. }
  set (p := p0 1 (INR 2)) in *. lra.
Qed.

(** Marginals of a product law. *)
Lemma E_indep_nth {A} (a0 : A) (ds : list (dist A)) : (forall D, In D ds -> is_prob D) ->
  forall i f, (i < length ds)%nat -> E (indep ds) (fun l => f (nth i l a0)) = E (nth i ds (ret a0)) f.
Proof.
  induction ds as [|D ds IH]; intros Hp i f Hi; [simpl in Hi; lia|]. cbn [indep]. rewrite E_bind.
  destruct i as [|i]; cbn [nth].
  - apply E_ext. intros a. rewrite E_dmap. cbn [nth]. rewrite E_const.
    assert (Hm : mass (indep ds) = 1) by (apply is_prob_indep; intros; apply Hp; right; auto). rewrite Hm. ring.
  - rewrite (E_ext D _ (fun _ => E (nth i ds (ret a0)) f)).
    + rewrite E_const. rewrite (proj2 (Hp D (or_introl eq_refl))). ring.
    + intros a. rewrite E_dmap. cbn [nth]. apply IH; [intros; apply Hp; right; auto|simpl in Hi; lia].
Qed.

(** Each chain of a batch moves by [hb_step]... *)
Theorem hb_batch_marginal logits fw C b start xs i f : (1 <= b)%nat -> (2 <= C)%nat -> (i < length xs)%nat ->
  E (hb_batch_step logits fw C b start xs) (fun ys => f (nth i ys [])) = E (hb_step logits fw C b start (nth i xs [])) f.
Proof.
  intros Hb HC Hi. unfold hb_batch_step, hb_step. rewrite !E_bind. apply E_ext. intros rad.
  rewrite E_indep_nth.
  - rewrite (nth_map_lt (hb_chain fw C b start rad) xs i [] (ret [])) by auto. reflexivity.
  - intros D HD. apply in_map_iff in HD. destruct HD as (x & <- & _). apply is_prob_hb_chain; auto.
  - rewrite map_length; auto.
Qed.

(** ... but the chains share the radius. *)
Definition ind11 (x : list nat) : R := if list_eq_dec Nat.eq_dec x [1; 1]%nat then 1 else 0.

Lemma hb_sel11 : 
  E (hb_select (fun _ => 0) 2 2 0 [0; 0]%nat) ind11 = 0 /\ E (hb_select (fun _ => 0) 2 2 0 [0; 1]%nat) ind11 = / 3 /\
  E (hb_select (fun _ => 0) 2 2 0 [1; 0]%nat) ind11 = / 3.
Proof.
  assert (I00 : ind11 [0; 0]%nat = 0) by reflexivity. assert (I01 : ind11 [0; 1]%nat = 0) by reflexivity.
  assert (I10 : ind11 [1; 0]%nat = 0) by reflexivity. assert (I11 : ind11 [1; 1]%nat = 1) by reflexivity.
  repeat split; rewrite E_hb_select; unfold hb_Z, slots; cbn [list_prod seq Nat.sub map app rsum slot_move];
  cbn [shift_at upd nth Nat.add]; unfold shift_at; cbn [upd nth Nat.add];
  change (1 mod 2)%nat with 1%nat; change (2 mod 2)%nat with 0%nat;
  rewrite exp_0, ?I00, ?I01, ?I10, ?I11; field.
Qed.

Lemma hb_chain11 : E (hb_chain (fun _ => 0) 2 2 0 0 [0; 0]%nat) ind11 = 0 /\ E (hb_chain (fun _ => 0) 2 2 0 1 [0; 0]%nat) ind11 = / 3.
Proof.
  destruct hb_sel11 as (E0 & E1 & E2). unfold hb_chain. rewrite !E_bind. cbn [Nat.eqb]. rewrite E_ret, E_compute_u by lia.
  change (INR (2 * (2 - 1))) with 2. cbn [seq rsum Nat.sub Nat.add]. unfold shift_at. cbn [upd nth Nat.add].
  change (1 mod 2)%nat with 1%nat. rewrite E0, E1, E2. split; field.
Qed.

Theorem hb_batch_dependent l0 l1 :
  let xs := [[0; 0]; [0; 0]]%nat in
  E (hb_batch_step [l0; l1] (fun _ => 0) 2 2 0 xs) (fun ys => ind11 (nth 0 ys []) * ind11 (nth 1 ys []))
  <> E (hb_batch_step [l0; l1] (fun _ => 0) 2 2 0 xs) (fun ys => ind11 (nth 0 ys []))
     * E (hb_batch_step [l0; l1] (fun _ => 0) 2 2 0 xs) (fun ys => ind11 (nth 1 ys [])).
Proof.
  cbv zeta.
  rewrite (hb_batch_marginal _ _ _ _ _ _ 0 ind11), (hb_batch_marginal _ _ _ _ _ _ 1 ind11) by (simpl; lia).
  cbn [nth]. unfold hb_batch_step, hb_step. rewrite !E_bind, !E_categorical. cbn [length seq rsum nth].
  destruct hb_chain11 as [E0 E1]. rewrite E0, E1.
  assert (Hj : forall rad e, E (hb_chain (fun _ => 0) 2 2 0 rad [0; 0]%nat) ind11 = e ->
            E (indep (map (hb_chain (fun _ => 0) 2 2 0 rad) [[0; 0]%nat; [0; 0]%nat])) (fun ys => ind11 (nth 0 ys []) * ind11 (nth 1 ys [])) = e * e).
  { intros rad e He. cbn [map indep]. rewrite E_bind.
    rewrite (E_ext _ _ (fun a => e * ind11 a)); [rewrite E_scal, He; ring|]. intros a. rewrite E_dmap, E_bind. cbn [nth].
    rewrite <- He. rewrite (Rmult_comm _ (ind11 a)), <- E_scal. apply E_ext. intros a'. rewrite E_dmap, E_ret. reflexivity. }
  rewrite (Hj 0%nat 0 E0), (Hj 1%nat (/ 3) E1). unfold sumexp. cbn [rsum].
  pose proof (exp_pos l0). pose proof (exp_pos l1).
  set (q := exp l1 / (exp l0 + (exp l1 + 0))). set (p := exp l0 / (exp l0 + (exp l1 + 0))).
  assert (Hp : 0 < p) by (unfold p; apply Rdiv_lt_0_compat; lra). assert (Hq : 0 < q) by (unfold q; apply Rdiv_lt_0_compat; lra).
  assert (Hpq : p + q = 1) by (unfold p, q; field; lra). nra.
Qed.

Lemma hb_iter_state d C b n : (0 < d)%nat ->
  Nat.iter n (hb_update d C b) g_init = {| g_steps := n; g_index := ((n * b) mod d)%nat; g_ll := (n * ((C - 1) * b + 1))%nat |}.
Proof.
  intros Hd. induction n as [|n IH].
  - cbn [Nat.iter]. unfold g_init. rewrite Nat.mul_0_l, Nat.mod_0_l by lia. reflexivity.
  - change (Nat.iter (S n) (hb_update d C b) g_init) with (hb_update d C b (Nat.iter n (hb_update d C b) g_init)).
    rewrite IH. unfold hb_update. cbn [g_steps g_index g_ll]. f_equal; [|lia].
    rewrite Nat.add_mod_idemp_l by lia. f_equal. lia.
Qed.

Lemma log_count_iff n : (1 <= n)%nat -> INR n = 1 + ln (INR n) <-> n = 1%nat.
Proof.
  intros Hn. assert (H0 : 0 < INR n) by (apply lt_0_INR; lia). split.
  - intros H. destruct (Nat.eq_dec n 1) as [|Hne]; auto. exfalso.
    assert (H2 : 1 < INR n) by (apply (lt_INR 1); lia).
    pose proof (exp_ineq1 (INR n - 1) ltac:(lra)) as He. replace (INR n - 1) with (ln (INR n)) in He at 2 by lra.
    rewrite exp_ln in He by auto. lra.
  - intros ->. simpl. rewrite ln_1. ring.
Qed.
