(** Property theorems C01, C02, C16, C17, C18 (math_util.py, locallybalanced.py weight functions). *)
From Coq Require Import String Reals List Lra Lia Arith.
From Verif.Base Require Import RSum Cube Dist XFloat.
From Verif.Spec Require Import Selection.
From Verif.Model Require Import MathUtil LocallyBalanced.
From Verif.Proof Require Import MHKernel MathUtilProof NoReplProof.
Import ListNotations.
Local Open Scope R_scope.

(** C01: each chain gets its own current or proposed sample as a whole, and the flag says which. *)
Theorem C01_whole_chain : forall A (noise : list R) (lp : list xf) (cur new : list A) i u l c n,
  nth_error noise i = Some u -> nth_error lp i = Some l -> nth_error cur i = Some c -> nth_error new i = Some n ->
  exists s b, nth_error (mh_step noise lp cur new) i = Some (s, b) /\ s = (if b then n else c).
Proof.
  intros A noise lp cur new i u l c n H1 H2 H3 H4.
  exact (ex_intro _ _ (ex_intro _ _ (conj (mh_step_nth noise lp cur new i u l c n H1 H2 H3 H4) eq_refl))).
Qed.
Example C01_whole_chain_ex :
  let noise := [1/2; 1/2] in let lp := [Fin 0; NaN] in let cur := [[0;0]; [1;1]]%nat in let new := [[1;0]; [0;1]]%nat in
  nth_error noise 1 = Some (1/2) /\ nth_error lp 1 = Some NaN /\ nth_error cur 1 = Some [1;1]%nat /\ nth_error new 1 = Some [0;1]%nat.
Proof. simpl. auto. Qed.
Print Assumptions C01_whole_chain.

Theorem C01_accept_iff : forall A (u la : R) (c n : A), 0 <= u < 1 ->
  (snd (mh_step1 u (Fin la) c n) = true <-> u < exp la - / 10 ^ 24).
Proof. intros A u la c n Hu. exact (bernoulli_logp_fin u la (proj1 Hu)). Qed.
Example C01_accept_iff_ex : 0 <= 1/2 < 1 /\ snd (mh_step1 (1/2) (Fin 0) 0%nat 1%nat) = true.
Proof.
  split; [lra|]. apply (C01_accept_iff nat (1/2) 0 0%nat 1%nat); [lra|]. rewrite exp_0.
  pose proof acc_guard_lt1. unfold acc_guard in *.
  assert (/ 10 ^ 24 < 1/2); [|lra]. apply (Rmult_lt_reg_r (10 ^ 24)); [apply pow_lt; lra|]. rewrite Rinv_l by (apply pow_nonzero; lra). simpl. lra.
Qed.
Print Assumptions C01_accept_iff.

(** The set of accepting noise values in [0,1) is an interval [0,p), with p within 1e-24 of min(1, exp la). *)
Theorem C01_accept_probability : forall A (la : R) (c n : A), exists p, 0 <= p <= 1 /\
  (forall u, 0 <= u < 1 -> (snd (mh_step1 u (Fin la) c n) = true <-> u < p)) /\
  Rabs (p - Rmin 1 (exp la)) <= / 10 ^ 24.
Proof.
  intros A la c n. exists (accept_prob acc_guard la).
  rewrite <- accept_prob_0.
  exact (conj (accept_prob_range _ _) (conj (fun u Hu => bernoulli_logp_measure u la Hu)
           (accept_prob_lip acc_guard la (Rlt_le _ _ acc_guard_pos)))).
Qed.
Print Assumptions C01_accept_probability.

Theorem C01_special_values : forall A (u : R) (c n : A), 0 <= u ->
  mh_step1 u NaN c n = (c, false) /\ mh_step1 u NInf c n = (c, false) /\ mh_step1 u PInf c n = (n, true).
Proof.
  intros A u c n Hu. unfold mh_step1.
  rewrite (bernoulli_logp_nan u), (bernoulli_logp_ninf u Hu), (bernoulli_logp_pinf u Hu).
  exact (conj eq_refl (conj eq_refl eq_refl)).
Qed.
Example C01_special_values_ex : 0 <= 1/4. Proof. lra. Qed.
Print Assumptions C01_special_values.

(** C02 *)
Theorem C02_balancing_identity : forall ty t g, 0 < t -> apply_weight_function ty t = Some g ->
  0 < g /\ exists g', apply_weight_function ty (/ t) = Some g' /\ g = t * g'.
Proof. exact weight_balanced. Qed.
Example C02_balancing_identity_ex : 0 < 3 /\ apply_weight_function "RATIO" 3 = Some (3 / (3 + 1)).
Proof. split; [lra|reflexivity]. Qed.
Print Assumptions C02_balancing_identity.

Theorem C02_logscale : forall ty s,
  match apply_weight_function ty (exp s), apply_weight_function_logscale ty s with
  | Some g, Some l => l = ln g
  | None, None => ~ In ty ["SQRT"; "RATIO"; "MAX"; "MIN"]%string
  | _, _ => False
  end.
Proof. exact weight_logscale. Qed.
Print Assumptions C02_logscale.

Theorem C02_supported : forall ty t, In ty ["SQRT"; "RATIO"; "MAX"; "MIN"]%string <-> apply_weight_function ty t <> None.
Proof.
  intros ty t. destruct (weight_cases ty t) as [[-> H]|[[-> H]|[[-> H]|[[-> H]|[Hn H]]]]]; rewrite H; simpl.
  1-4: split; [discriminate|tauto]. split; [intros Hi; contradiction|congruence].
Qed.
Print Assumptions C02_supported.

(** C16: log-probabilities returned for an ordered selection of distinct sites add up to the
    log-probability of drawing exactly that sequence. *)
Theorem C16_path_probability : forall (l : nat -> R) avail path,
  NoDup avail -> NoDup path -> incl path avail -> path <> [] ->
  rsum avail (fun i => exp (l i)) = 1 ->
  exists vs, renormalize (map l path) = Some (map Fin vs) /\ length vs = length path /\
    exp (rsum vs (fun v => v)) = seq_prob (fun i => exp (l i)) 1 path.
Proof. exact renormalize_seq_prob. Qed.
Example C16_path_probability_ex :
  let l := fun i : nat => - ln 3 in let avail := [0; 1; 2]%nat in let path := [2; 0]%nat in
  NoDup avail /\ NoDup path /\ incl path avail /\ path <> [] /\ rsum avail (fun i => exp (l i)) = 1 /\
  seq_prob (fun i => exp (l i)) 1 path = / 6.
Proof.
  cbv zeta. repeat split.
  - repeat constructor; simpl; intuition discriminate.
  - repeat constructor; simpl; intuition discriminate.
  - intros a [<-|[<-|[]]]; simpl; auto.
  - discriminate.
  - simpl. rewrite exp_Ropp, exp_ln by lra. field.
  - simpl. rewrite exp_Ropp, exp_ln by lra. field.
Qed.
Print Assumptions C16_path_probability.

Theorem C16_probabilities_sum_to_one : forall (w : nat -> R) k avail L,
  (forall i, In i avail -> 0 < w i) -> NoDup avail -> (k <= length avail)%nat ->
  enumerates_selections L k avail -> rsum L (seq_prob w (rsum avail w)) = 1.
Proof. exact selections_sum1. Qed.
Example C16_sum_ex : enumerates_selections [[0;1];[1;0]]%nat 2 [0;1]%nat.
Proof. exact (kperms_enumerates 2 [0;1]%nat ltac:(repeat constructor; simpl; intuition discriminate)). Qed.
Print Assumptions C16_probabilities_sum_to_one.

(** The law used for Gumbel top-k selections is the sequential law. *)
Theorem C16_selection_law : forall (w : nat -> R) k avail L f,
  NoDup avail -> enumerates_selections L k avail ->
  E (norepl_law w k avail) f = rsum L (fun p => seq_prob w (rsum avail w) p * f p).
Proof. exact norepl_law_spec. Qed.
Print Assumptions C16_selection_law.

(** C16, the numerically delicate helper: log(1 - exp(-|x|)) including the boundary values. *)
Theorem C16_log1mexp : forall x, x <> 0 -> log1mexp (Fin x) = Fin (ln (1 - exp (- Rabs x))).
Proof. exact log1mexp_fin. Qed.
Theorem C16_log1mexp_boundary : log1mexp (Fin 0) = NInf /\ log1mexp NInf = Fin 0 /\ log1mexp PInf = Fin 0.
Proof. exact (conj log1mexp_0 log1mexp_inf). Qed.
Print Assumptions C16_log1mexp.

(** C17 *)
Theorem C17_counts : forall logp num bs draw fuel,
  (0 < bs)%nat -> (forall it, length (draw it) = bs) ->
  (forall it, Forall (fun i => (i < length logp)%nat) (draw it)) -> (num <= fuel)%nat ->
  let used := firstn num (flat_map draw (seq 0 num)) in
  length used = num /\
  exists counts, multinomial_counts fuel (length logp) num bs draw = Some counts /\
    length counts = length logp /\ list_sum counts = num /\
    (forall j, (j < length logp)%nat -> nth j counts 0%nat = count_occ Nat.eq_dec used j) /\
    rsum (counts_ll logp counts) (fun v => v) = rsum (snd (multinomial_const_repl logp used)) (fun v => v).
Proof. exact multinomial_counts_full. Qed.
Example C17_counts_ex :
  multinomial_counts 5 3 5 2 (fun it => [it mod 3; 2])%nat = Some [1; 1; 3]%nat.
Proof. reflexivity. Qed.
Print Assumptions C17_counts.

(** C18 *)
Theorem C18_selects_k : forall p k, (1 <= k <= length p)%nat ->
  exists m, select_mask p k = Some m /\ length m = length p /\
    (k <= length (filter (fun b => b) m))%nat /\
    (NoDup p -> length (filter (fun b => b) m) = k) /\
    (forall i j, nth i m false = true -> (j < length p)%nat -> nth j m false = false -> nth j p 0 < nth i p 0).
Proof. exact select_mask_spec. Qed.
Example C18_selects_k_ex : (1 <= 2 <= length [3; 1; 2])%nat /\ NoDup [3; 1; 2].
Proof.
  split; [simpl; lia|]. repeat constructor; simpl; intros H; repeat (destruct H as [H|H]; [lra|]); auto.
Qed.
Print Assumptions C18_selects_k.
