(** Proofs about the Gibbs and block-Gibbs models. *)
From Coq Require Import Reals List Lra Lia Arith.
From Verif.Base Require Import RSum Cube Dist MH.
From Verif.Spec Require Import Chain.
From Verif.Model Require Import MathUtil Gibbs.
Import ListNotations.
Local Open Scope R_scope.

(** ** Heat-bath kernels *)
Section HeatBath.
  Context {A B : Type}.
  Variables (S : list A) (Aux : list B) (T : A -> B -> A) (I : A -> B -> B).
  Hypothesis HS : NoDup S.
  Hypothesis HAux : NoDup Aux.
  Hypothesis HT : forall x a, In x S -> In a Aux -> In (T x a) S.
  Hypothesis HI : forall x a, In x S -> In a Aux -> In (I x a) Aux.
  Hypothesis HTT : forall x a, In x S -> In a Aux -> T (T x a) (I x a) = x.
  Hypothesis HII : forall x a, In x S -> In a Aux -> I (T x a) (I x a) = a.
  Variables (fw : A -> R) (step : A -> dist A).
  Let Z x := rsum Aux (fun a => exp (fw (T x a))).
  Hypothesis HZ : forall x a, In x S -> In a Aux -> Z (T x a) = Z x.
  Hypothesis Hstep : forall x f, In x S ->
    E (step x) f = rsum Aux (fun a => exp (fw (T x a)) / Z x * f (T x a)).

  Lemma heat_bath_reversible : reversible S (fun x => exp (fw x)) step.
  Proof.
    apply (aux_reversible S Aux T I HS HAux HT HI HTT HII _
             (fun x a => exp (fw (T x a)) / Z x) (fun _ => 0)).
    - intros x f Hx. rewrite Hstep by auto. lra.
    - intros x a Hx Ha. rewrite HTT, HZ by auto. unfold Rdiv. ring.
  Qed.
End HeatBath.

(** ** Gibbs *)
Lemma nth_map_lt {A B} (f : A -> B) l i da db :
  (i < length l)%nat -> nth i (map f l) db = f (nth i l da).
Proof.
  intros H. rewrite (nth_indep _ db (f da)) by (rewrite map_length; auto). apply map_nth.
Qed.

Lemma in_states_nth d C x i : In x (states d C) -> (i < d)%nat -> (nth i x 0 < C)%nat.
Proof.
  rewrite in_states. intros [Hl HF] Hi. rewrite (Forall_nth_iff _ 0%nat) in HF. apply HF; lia.
Qed.

Lemma map_mod_id C x : Forall (fun v => (v < C)%nat) x -> map (fun v => (v mod C)%nat) x = x.
Proof. induction 1 as [|a l Ha Hl IH]; simpl; auto. rewrite IH, Nat.mod_small; auto. Qed.

Lemma add_mod_upd d C idx i x :
  In x (states d C) -> (idx < d)%nat ->
  add_mod C idx i x = upd idx ((nth idx x 0 + i) mod C)%nat x.
Proof.
  intros Hx Hi. apply in_states in Hx. destruct Hx as [Hl HF]. unfold add_mod.
  apply (list_eq_nth 0%nat).
  - rewrite map_length, !upd_length; auto.
  - intros j Hj. rewrite map_length, upd_length in Hj.
    rewrite (nth_map_lt _ _ _ 0%nat) by (rewrite upd_length; auto).
    destruct (Nat.eq_dec idx j) as [->|Hne].
    + rewrite !nth_upd_eq by lia. reflexivity.
    + rewrite !nth_upd_neq by auto. apply Nat.mod_small.
      rewrite (Forall_nth_iff _ 0%nat) in HF. apply HF; auto.
Qed.

Lemma rsum_mod_shift (C a : nat) (F : nat -> R) :
  (a < C)%nat -> rsum (seq 0 C) (fun i => F ((a + i) mod C)%nat) = rsum (seq 0 C) F.
Proof.
  intros Ha. symmetry.
  apply (rsum_bij (seq 0 C) (seq 0 C) (fun i => ((a + i) mod C)%nat) (fun v => ((v + (C - a)) mod C)%nat) F).
  - apply seq_NoDup.
  - apply seq_NoDup.
  - intros i _. rewrite in_seq. split; [lia|]. simpl. apply Nat.mod_upper_bound; lia.
  - intros i _. rewrite in_seq. split; [lia|]. simpl. apply Nat.mod_upper_bound; lia.
  - intros i Hi. rewrite in_seq in Hi. rewrite Nat.add_mod_idemp_l by lia.
    replace (a + i + (C - a))%nat with (i + 1 * C)%nat by lia.
    rewrite Nat.mod_add by lia. apply Nat.mod_small; lia.
  - intros i Hi. rewrite in_seq in Hi. rewrite Nat.add_mod_idemp_r by lia.
    replace (a + (i + (C - a)))%nat with (i + 1 * C)%nat by lia.
    rewrite Nat.mod_add by lia. apply Nat.mod_small; lia.
Qed.

Section GibbsP.
  Variables (fw : list nat -> R) (d C idx : nat).
  Hypothesis Hidx : (idx < d)%nat.

  Lemma states_C_pos x : In x (states d C) -> (0 < C)%nat.
  Proof. intros Hx. pose proof (in_states_nth d C x idx Hx Hidx). lia. Qed.

  Lemma gibbs_scores_eq x : In x (states d C) ->
    gibbs_scores fw C idx x = map (fun i => fw (upd idx ((nth idx x 0 + i) mod C)%nat x)) (seq 0 C).
  Proof.
    intros Hx. pose proof (states_C_pos x Hx) as HC. unfold gibbs_scores.
    destruct C as [|C'] eqn:EC; [lia|]. rewrite <- EC in *.
    replace (seq 0 C) with (0%nat :: seq 1 (C - 1)) by (rewrite EC; simpl; rewrite Nat.sub_0_r; reflexivity).
    cbn [map]. f_equal.
    - rewrite Nat.add_0_r, Nat.mod_small by (apply (in_states_nth d); auto).
      rewrite upd_nth_same. reflexivity.
    - apply map_ext_in. intros i Hi. rewrite (add_mod_upd d) by auto. reflexivity.
  Qed.

  Let Zg x := rsum (seq 0 C) (fun v => exp (fw (upd idx v x))).

  Lemma E_gibbs_step x f : In x (states d C) ->
    E (gibbs_step fw C idx x) f
    = rsum (seq 0 C) (fun v => exp (fw (upd idx v x)) / Zg x * f (upd idx v x)).
  Proof.
    intros Hx. pose proof (in_states_nth d C x idx Hx Hidx) as Hv.
    unfold gibbs_step. rewrite E_dmap, E_categorical, gibbs_scores_eq by auto.
    rewrite map_length, seq_length.
    rewrite <- (rsum_mod_shift C (nth idx x 0%nat) (fun v => exp (fw (upd idx v x)) / Zg x * f (upd idx v x))) by auto.
    apply rsum_ext. intros i Hi. apply in_seq in Hi.
    rewrite (nth_map_lt _ _ _ 0%nat) by (rewrite seq_length; lia).
    rewrite seq_nth by lia. simpl. rewrite (add_mod_upd d) by auto.
    do 3 f_equal.
    unfold sumexp, Zg. rewrite rsum_map.
    rewrite <- (rsum_mod_shift C (nth idx x 0%nat) (fun v => exp (fw (upd idx v x)))) by auto.
    reflexivity.
  Qed.

  Lemma upd_in_states x v : In x (states d C) -> (v < C)%nat -> In (upd idx v x) (states d C).
  Proof.
    rewrite !in_states. intros [Hl HF] Hv. rewrite upd_length. split; auto. apply Forall_upd; auto.
  Qed.

  Theorem gibbs_reversible : reversible (states d C) (fun x => exp (fw x)) (gibbs_step fw C idx).
  Proof.
    apply (heat_bath_reversible (states d C) (seq 0 C) (fun x v => upd idx v x) (fun x _ => nth idx x 0%nat)).
    - apply NoDup_states.
    - apply seq_NoDup.
    - intros x v Hx Hv. apply in_seq in Hv. apply upd_in_states; auto; lia.
    - intros x v Hx Hv. apply in_seq. pose proof (in_states_nth d C x idx Hx Hidx). lia.
    - intros x v Hx Hv. rewrite upd_upd, upd_nth_same. reflexivity.
    - intros x v Hx Hv. apply in_states in Hx. rewrite nth_upd_eq by lia. reflexivity.
    - intros x v Hx Hv. apply rsum_ext. intros w _. rewrite upd_upd. reflexivity.
    - intros x f Hx. apply E_gibbs_step; auto.
  Qed.

  Lemma gibbs_is_prob x : is_prob (gibbs_step fw C idx x).
  Proof. apply is_prob_dmap, is_prob_categorical. discriminate. Qed.

  Theorem gibbs_invariant : invariant (states d C) (fun x => exp (fw x)) (gibbs_step fw C idx).
  Proof. apply reversible_invariant; [|apply gibbs_reversible]. intros x _. apply gibbs_is_prob. Qed.

  (** Every possible outcome differs from the input at most at the current coordinate and stays in range. *)
  Theorem gibbs_support x y w : In x (states d C) -> In (y, w) (gibbs_step fw C idx x) ->
    In y (states d C) /\ (forall j, j <> idx -> nth j y 0%nat = nth j x 0%nat).
  Proof.
    intros Hx Hy. pose proof (states_C_pos x Hx).
    unfold gibbs_step, dmap in Hy. apply in_map_iff in Hy. destruct Hy as ([v p] & Hp & _).
    inversion Hp; subst. simpl. rewrite (add_mod_upd d) by auto. split.
    - apply upd_in_states; auto. apply Nat.mod_upper_bound; lia.
    - intros j Hj. apply nth_upd_neq; auto.
  Qed.
End GibbsP.

(** The probability of each value of the resampled coordinate is its conditional probability under the
    target. *)
Theorem gibbs_conditional (fw : list nat -> R) d C idx x v :
  (idx < d)%nat -> In x (states d C) -> (v < C)%nat ->
  E (gibbs_step fw C idx x) (fun y => if list_eq_dec Nat.eq_dec y (upd idx v x) then 1 else 0)
  = exp (fw (upd idx v x)) / rsum (seq 0 C) (fun u => exp (fw (upd idx u x))).
Proof.
  intros Hidx Hx Hv. rewrite (E_gibbs_step fw d) by auto.
  rewrite (rsum_single (seq 0 C) _ v).
  - destruct (list_eq_dec _ _ _); [lra|congruence].
  - apply seq_NoDup.
  - apply in_seq; lia.
  - intros u Hu Hne. destruct (list_eq_dec _ _ _) as [Heq|]; [|lra].
    exfalso. apply Hne. apply (f_equal (fun l => nth idx l 0%nat)) in Heq.
    apply in_states in Hx. rewrite !nth_upd_eq in Heq by lia. exact Heq.
Qed.

(** ** Block Gibbs *)
Lemma scatter_block_length start vals x : length (scatter_block start vals x) = length x.
Proof. revert start x; induction vals as [|v vals IH]; intros; simpl; auto. rewrite IH, upd_length; auto. Qed.

Lemma nth_scatter_block start vals x k : (k < length x)%nat ->
  nth k (scatter_block start vals x) 0%nat
  = if (Nat.leb start k && Nat.ltb k (start + length vals))%bool then nth (k - start) vals 0%nat else nth k x 0%nat.
Proof.
  revert start x; induction vals as [|v vals IH]; intros start x Hk; simpl.
  - destruct (Nat.leb_spec start k), (Nat.ltb_spec k (start + 0)); simpl; auto; lia.
  - rewrite IH by (rewrite upd_length; auto).
    destruct (Nat.leb_spec (S start) k), (Nat.ltb_spec k (S start + length vals)),
      (Nat.leb_spec start k), (Nat.ltb_spec k (start + S (length vals))); simpl; try lia.
    + replace (k - start)%nat with (S (k - S start)) by lia. reflexivity.
    + rewrite nth_upd_neq by lia. reflexivity.
    + replace (k - start)%nat with 0%nat by lia. replace start with k by lia. apply nth_upd_eq; auto.
    + rewrite nth_upd_neq by lia. reflexivity.
Qed.

(** The values currently in the block; positions outside the sample keep [vals]. *)
Definition gather_block (d start : nat) (x vals : list nat) : list nat :=
  map (fun j => if Nat.ltb (start + j) d then nth (start + j) x 0%nat else nth j vals 0%nat) (seq 0 (length vals)).

Section BlockP.
  Variables (fw : list nat -> R) (d C b start : nat).
  Hypothesis HC : (0 < C)%nat.

  Lemma in_cat_iter v : In v (categories_iter C b) <-> length v = b /\ Forall (fun u => (u < C)%nat) v.
  Proof. apply in_states. Qed.

  Lemma scatter_in_states x v : In x (states d C) -> In v (categories_iter C b) ->
    In (scatter_block start v x) (states d C).
  Proof.
    intros Hx Hv. apply in_states in Hx. apply in_cat_iter in Hv. destruct Hx as [Hl HF], Hv as [Hlv HFv].
    apply in_states. rewrite scatter_block_length. split; auto.
    rewrite (Forall_nth_iff _ 0%nat) in *. rewrite scatter_block_length. intros i Hi.
    rewrite nth_scatter_block by auto.
    destruct (Nat.leb_spec start i), (Nat.ltb_spec i (start + length v)); simpl; auto. apply HFv; lia.
  Qed.

  Lemma gather_in x v : In x (states d C) -> In v (categories_iter C b) ->
    In (gather_block d start x v) (categories_iter C b).
  Proof.
    intros Hx Hv. apply in_states in Hx. apply in_cat_iter in Hv. destruct Hx as [Hl HF], Hv as [Hlv HFv].
    apply in_cat_iter. unfold gather_block. rewrite map_length, seq_length. split; auto.
    apply Forall_map. apply Forall_forall. intros j Hj. apply in_seq in Hj.
    rewrite (Forall_nth_iff _ 0%nat) in *.
    destruct (Nat.ltb_spec (start + j) d); [apply HF; lia|apply HFv; lia].
  Qed.

  Lemma nth_gather x v j : (j < length v)%nat ->
    nth j (gather_block d start x v) 0%nat
    = if Nat.ltb (start + j) d then nth (start + j) x 0%nat else nth j v 0%nat.
  Proof.
    intros Hj. unfold gather_block. rewrite (nth_map_lt _ _ _ 0%nat) by (rewrite seq_length; auto).
    rewrite seq_nth by auto. reflexivity.
  Qed.

  Lemma scatter_gather x v : length x = d -> scatter_block start (gather_block d start x v) (scatter_block start v x) = x.
  Proof.
    intros Hl. assert (Hlg : length (gather_block d start x v) = length v)
      by (unfold gather_block; rewrite map_length, seq_length; auto).
    apply (list_eq_nth 0%nat); [rewrite !scatter_block_length; auto|].
    rewrite !scatter_block_length. intros k Hk.
    rewrite nth_scatter_block by (rewrite scatter_block_length; auto). rewrite Hlg.
    rewrite nth_scatter_block by auto.
    destruct (Nat.leb_spec start k), (Nat.ltb_spec k (start + length v)); simpl; auto.
    rewrite nth_gather by lia. replace (start + (k - start))%nat with k by lia.
    destruct (Nat.ltb_spec k d); [reflexivity|lia].
  Qed.

  Lemma gather_scatter x v : length x = d ->
    gather_block d start (scatter_block start v x) (gather_block d start x v) = v.
  Proof.
    intros Hl. assert (Hlg : length (gather_block d start x v) = length v)
      by (unfold gather_block; rewrite map_length, seq_length; auto).
    apply (list_eq_nth 0%nat); [unfold gather_block at 1; rewrite map_length, seq_length; auto|].
    unfold gather_block at 1. rewrite map_length, seq_length. rewrite Hlg. intros j Hj.
    rewrite nth_gather by (rewrite Hlg; auto).
    destruct (Nat.ltb_spec (start + j) d).
    - rewrite nth_scatter_block by lia.
      destruct (Nat.leb_spec start (start + j)), (Nat.ltb_spec (start + j) (start + length v)); simpl; try lia.
      f_equal; lia.
    - rewrite nth_gather by auto. destruct (Nat.ltb_spec (start + j) d); [lia|reflexivity].
  Qed.

  Lemma scatter_scatter x v w : length v = length w ->
    scatter_block start w (scatter_block start v x) = scatter_block start w x.
  Proof.
    intros Hl. apply (list_eq_nth 0%nat); [rewrite !scatter_block_length; auto|].
    rewrite !scatter_block_length. intros k Hk.
    rewrite !nth_scatter_block by (rewrite ?scatter_block_length; auto). rewrite Hl.
    destruct (Nat.leb_spec start k), (Nat.ltb_spec k (start + length w)); simpl; auto.
  Qed.

  Let Zb x := rsum (categories_iter C b) (fun v => exp (fw (scatter_block start v x))).

  Lemma E_block_step x f :
    E (block_step fw C b start x) f
    = rsum (categories_iter C b) (fun v => exp (fw (scatter_block start v x)) / Zb x * f (scatter_block start v x)).
  Proof.
    unfold block_step. rewrite E_dmap, E_categorical.
    rewrite (rsum_nth (categories_iter C b) []). unfold block_scores at 1. rewrite map_length.
    apply rsum_ext. intros i Hi. apply in_seq in Hi. unfold block_scores.
    rewrite (nth_map_lt _ _ _ []) by lia. unfold sumexp. rewrite rsum_map. reflexivity.
  Qed.

  Theorem block_reversible : reversible (states d C) (fun x => exp (fw x)) (block_step fw C b start).
  Proof.
    apply (heat_bath_reversible (states d C) (categories_iter C b)
             (fun x v => scatter_block start v x) (fun x v => gather_block d start x v)).
    - apply NoDup_states.
    - apply NoDup_states.
    - intros x v Hx Hv. apply scatter_in_states; auto.
    - intros x v Hx Hv. apply gather_in; auto.
    - intros x v Hx Hv. apply in_states in Hx. apply scatter_gather; tauto.
    - intros x v Hx Hv. apply in_states in Hx. apply gather_scatter; tauto.
    - intros x v Hx Hv. apply rsum_ext. intros w Hw. apply in_cat_iter in Hv, Hw.
      rewrite scatter_scatter; auto; lia.
    - intros x f _. apply E_block_step.
  Qed.

  Lemma cat_iter_nonempty : categories_iter C b <> [].
  Proof.
    intros H. assert (In (repeat 0%nat b) (categories_iter C b)).
    { apply in_cat_iter. rewrite repeat_length. split; auto. apply Forall_forall.
      intros x Hx. apply repeat_spec in Hx. lia. }
    rewrite H in *. contradiction.
  Qed.

  Lemma block_is_prob x : is_prob (block_step fw C b start x).
  Proof.
    apply is_prob_dmap, is_prob_categorical. unfold block_scores. intros H.
    apply map_eq_nil in H. apply cat_iter_nonempty; auto.
  Qed.

  Theorem block_invariant : invariant (states d C) (fun x => exp (fw x)) (block_step fw C b start).
  Proof. apply reversible_invariant; [|apply block_reversible]. intros x _. apply block_is_prob. Qed.

  Theorem block_support x y w : In x (states d C) -> In (y, w) (block_step fw C b start x) ->
    In y (states d C) /\ (forall j, ~ (start <= j < start + b)%nat -> nth j y 0%nat = nth j x 0%nat).
  Proof.
    intros Hx Hy. unfold block_step, dmap in Hy. apply in_map_iff in Hy.
    destruct Hy as ([i p] & Hp & Hin). inversion Hp; subst. clear Hp.
    unfold categorical, weighted in Hin. apply in_map_iff in Hin. destruct Hin as (i' & Hi' & Hin).
    inversion Hi'; subst. simpl. apply in_seq in Hin. unfold block_scores in Hin. rewrite map_length in Hin.
    assert (Hv : In (nth i (categories_iter C b) []) (categories_iter C b)) by (apply nth_In; lia).
    split; [apply scatter_in_states; auto|]. intros j Hj. apply in_cat_iter in Hv.
    destruct (Nat.lt_ge_cases j (length x)) as [Hlt|Hge].
    - rewrite nth_scatter_block by auto.
      destruct (Nat.leb_spec start j), (Nat.ltb_spec j (start + length (nth i (categories_iter C b) []))); simpl; auto.
      lia.
    - rewrite !nth_overflow; auto. rewrite scatter_block_length; auto.
  Qed.
End BlockP.
