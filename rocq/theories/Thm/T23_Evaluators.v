(** C78 - C80: the Bernoulli evaluator, conversion of checkpoints, saved chains. *)
From Coq Require Import String Reals List Arith Lra Lia Permutation.
From Verif.Base Require Import RSum Dist.
From Verif.Spec Require Import EvalSpec ConvertSpec.
From Verif.Model Require Import Factorised BernEval Convert Experiment SavedChains.
From Verif.Proof Require Import BernEvalProof ConvertProof SavedChainsProof.
Import ListNotations.
Local Open Scope R_scope.

(** ** C78 Estimation errors *)

(** The estimators are unbiased for independent samples of any law. *)
Theorem C78_mean_unbiased {A} (d : dist A) (h : A -> R) n : mass d = 1 -> (1 <= n)%nat ->
  E (indep (repeat d n)) (fun l => val (col_mean (map h l))) = E d h.
Proof. exact (mean_unbiased d h n). Qed.
Theorem C78_variance_unbiased {A} (d : dist A) (h : A -> R) n : mass d = 1 -> (2 <= n)%nat ->
  E (indep (repeat d n)) (fun l => val (col_var (map h l))) = Variance d h.
Proof. exact (var_unbiased d h n). Qed.

(** For n independent batches, each chain of which has the right means, the expected average mean error is the
    average of p(1-p)/n, whatever the dependence between chains and coordinates. *)
Theorem C78_expected_mean_error theta B n (D : dist (list (list R))) : (2 <= n)%nat -> mass D = 1 ->
  (forall t u, In (t, u) D -> length t = B) ->
  (forall t u b i, In (t, u) D -> (b < B)%nat -> (i < length theta)%nat -> nth i (nth b t []) 0 = 0 \/ nth i (nth b t []) 0 = 1) ->
  (forall b i, (b < B)%nat -> (i < length theta)%nat -> E D (fun t => nth i (nth b t []) 0) = nth i (bern_expected theta) 0) ->
  (0 < B)%nat -> (0 < length theta)%nat ->
  (forall s w, In (s, w) (indep (repeat D n)) -> compute_error theta s <> None) /\
  E (indep (repeat D n)) (fun s => avg_mean_error (compute_error theta s)) =
    rsum (seq 0 (length theta)) (fun i => nth i (bern_var theta) 0) / INR (length theta) / INR n.
Proof.
  intros Hn HD HB H01 Hm HB0 Ht. split.
  - intros s w Hs. destruct (support_entries theta B n D Hn HB s w Hs) as [HL _]. rewrite compute_error_eq by lia. discriminate.
  - exact (expected_mean_error theta B n D Hn HD HB H01 Hm HB0 Ht).
Qed.

(** Reported errors are non-negative, averages do not exceed maxima, and they vanish exactly when the sample means
    (variances) are those of the model. *)
Theorem C78_errors theta s am mm av mv : compute_error theta s = Some (am, mm, av, mv) -> (2 <= length s)%nat ->
  0 <= am <= mm /\ 0 <= av <= mv /\
  (am = 0 <-> forall b i, (b < length (hd [] s))%nat -> (i < length theta)%nat -> col_mean (column s b i) = Some (nth i (bern_expected theta) 0)) /\
  (av = 0 <-> forall b i, (b < length (hd [] s))%nat -> (i < length theta)%nat -> col_var (column s b i) = Some (nth i (bern_var theta) 0)).
Proof. exact (errors_spec theta s am mm av mv). Qed.

(** A result is produced exactly when there are two samples and two chains at least: with one chain (or one sample)
    the unbiased variance is 0/0. *)
Theorem C78_defined theta s : (0 < length theta)%nat -> s <> [] ->
  (forall t, In t s -> (length t = length (hd [] s))%nat) -> (0 < length (hd [] s))%nat ->
  evaluate theta s <> None <-> ((2 <= length s)%nat /\ (2 <= length (hd [] s))%nat).
Proof. exact (evaluate_defined theta s). Qed.
Theorem C78_single_chain_refuted : exists theta s, length s = 3%nat /\ evaluate theta s = None.
Proof.
  exists [0], [[[0]]; [[1]]; [[1]]]. split; [reflexivity |].
  destruct (evaluate [0] [[[0]]; [[1]]; [[1]]]) eqn:E0; [| reflexivity]. exfalso.
  assert (H : evaluate [0] [[[0]]; [[1]]; [[1]]] <> None) by (rewrite E0; discriminate).
  apply C78_defined in H; [simpl in H; lia | simpl; lia | discriminate | | simpl; lia].
  intros t [<- | [<- | [<- | []]]]; reflexivity.
Qed.

(** The mixing plot uses the windows k*stride .. k*stride+size-1 that fit in the chain, each once and in order. *)
Theorem C78_windows {A} (chain : list A) size stride : (0 < stride)%nat -> (0 < size)%nat ->
  plot_windows chain size stride =
    if (length chain <? size)%nat then [] else
    map (fun k => firstn size (skipn (k * stride) chain)) (seq 0 (S ((length chain - size) / stride))).
Proof. exact (plot_windows_spec chain size stride). Qed.

(** A fair coin per chain, two chains moving together, three time steps: the hypotheses hold and the expected error is 1/12. *)
Example C78_case : let D : dist (list (list R)) := [([[0]; [0]], / 2); ([[1]; [1]], / 2)] in
  E (indep (repeat D 3)) (fun s => avg_mean_error (compute_error [0] s)) = / 12.
Proof.
  intros D.
  assert (P : nth 0 (bern_expected [0]) 0 = / 2) by (cbn [bern_expected map nth]; rewrite exp_0; lra).
  assert (HB : forall t u, In (t, u) D -> length t = 2%nat) by (intros t u [[= <- _] | [[= <- _] | []]]; reflexivity).
  destruct (C78_expected_mean_error [0] 2 3 D) as [_ ->]; try lia.
  - unfold mass, E, D. cbn [rsum fst snd]. lra.
  - exact HB.
  - intros t u b i [[= <- _] | [[= <- _] | []]] Hb Hi; simpl in Hi; (assert (i = 0%nat) by lia); subst i;
      (destruct b as [| [| b]]; [| | lia]); cbn [nth]; lra.
  - intros b i Hb Hi. simpl in Hi. assert (i = 0%nat) by lia; subst i. rewrite P.
    destruct b as [| [| b]]; [| | lia]; unfold E, D; cbn [rsum fst snd nth]; lra.
  - simpl; lia.
  - cbn [length seq rsum]. unfold bern_var. cbn [bern_expected map nth]. rewrite exp_0. cbn [INR]. lra.
Qed.
Example C78_windows_case : plot_windows [1; 2; 3; 4; 5; 6; 7]%nat 3 2 = [[1; 2; 3]; [3; 4; 5]; [5; 6; 7]]%nat.
Proof. reflexivity. Qed.

(** ** C79 Converted checkpoints *)

(** When the conversion of a checkpoint of the torch network succeeds, every parameter of the result comes from the
    checkpoint: none of the random initial values is left, and the data mean is the stored one. *)
Theorem C79_all_replaced th ps ps' m : NoDup (map fst ps) -> NoDup (map fst th) -> Forall torch_name (map fst th) -> In ["mean"%string] (map fst th) ->
  convert th ps = Some (ps', m) ->
  map fst ps' = map fst ps /\
  (forall k v, In (k, v) ps' -> exists tk tv, In (tk, tv) th /\ param_key tk = Some k /\ converted k tv = Some v) /\
  (exists mv, In (["mean"%string], mv) th /\ m = Some mv).
Proof. intros H1 H2 H3. apply convert_all; auto. apply torch_names_one_to_one, H3. Qed.

(** For other names the checks do not give this: a parameter can keep its random initial value. *)
Theorem C79_any_names_refuted : exists th ps ps' m k v, NoDup (map fst ps) /\ NoDup (map fst th) /\ convert th ps = Some (ps', m) /\
  In (k, v) ps /\ In (k, v) ps' /\ (forall tk tv, In (tk, tv) th -> param_key tk <> Some k).
Proof. exact any_names. Qed.

(** The converted layers compute what the torch layers compute (images by channel first in torch, last in flax). *)
Theorem C79_conv_same I KH KW H W stride pad (weight : arr) bias img o y x :
  flax_conv I KH KW H W stride pad (fun h w i o => at_ (transpose4 weight) [h; w; i; o]) bias (fun r c i => img i r c) y x o =
  torch_conv I KH KW H W stride pad (fun o i h w => at_ weight [o; i; h; w]) bias img o y x.
Proof. exact (conv_same I KH KW H W stride pad weight bias img o y x). Qed.
Theorem C79_dense_same I (weight : arr) bias v o :
  flax_dense I (fun i o => at_ (transpose2 weight) [i; o]) bias v o = torch_linear I (fun o i => at_ weight [o; i]) bias v o.
Proof. exact (dense_same I weight bias v o). Qed.

(** Which transposition a stored kernel has had. *)
Theorem C79_kernels k v v' : converted k v = Some v' ->
  (last k ""%string = "kernel"%string -> (length (shape v) = 4%nat /\ v' = transpose4 v) \/ (length (shape v) = 2%nat /\ v' = transpose2 v)) /\
  (last k ""%string <> "kernel"%string -> v' = v).
Proof. exact (converted_spec k v v'). Qed.

Example C79_case : exists ps' m, convert small_checkpoint small_params = Some (ps', m) /\
  Forall torch_name (map fst small_checkpoint) /\ NoDup (map fst small_checkpoint) /\ NoDup (map fst small_params) /\
  (exists a, Convert.lookup ["BasicBlock_0"; "Conv_1"; "kernel"]%string ps' = Some a /\ shape a = [3; 3; 1; 2]%nat /\ at_ a [2; 1; 0; 1]%nat = 1021).
Proof. exact small_case. Qed.

(** ** C80 Saved chains *)

(** With enough chains, the saved arrays are, for each multiple of save_every_steps up to the chain length in order,
    the current states of the selected chains; the selected chains are distinct. *)
Theorem C80_saved {X} (x0 : X) top perm B L k r trace : Permutation perm (seq 0 B) -> (num_saved_samples top <= B)%nat -> 0 <= r <= 1 -> (0 < k)%nat ->
  exists sel, length sel = num_saved_samples top /\ NoDup sel /\ (forall i, In i sel -> (i < B)%nat) /\
  forall ss ge, saved_samples x0 top perm B L k r ss ge trace =
    Some (if (ss || ge)%bool then map (fun j => map (fun i => nth i (trace (S j * k)%nat) x0) sel) (seq 0 (L / k)) else []).
Proof. exact (saved_spec x0 top perm B L k r trace). Qed.

(** With fewer than four chains every run fails, also one that saves nothing; the number cannot be set with the key
    num_saved_samples. *)
Theorem C80_small_batch_refuted {X} (x0 : X) perm B L k r trace v : (B < 4)%nat -> Permutation perm (seq 0 B) ->
  saved_samples x0 [("num_saved_samples"%string, v)] perm B L k r false false trace = None.
Proof.
  intros HB _. unfold saved_samples, select_chains, num_saved_samples. cbn [top_get String.eqb Ascii.eqb Bool.eqb].
  destruct (Nat.leb_spec 4 B); [lia | reflexivity].
Qed.

Example C80_case : saved_samples 0%nat [] [3; 1; 4; 0; 2]%nat 5 7 3 (/ 2) true false (fun s => map (fun c => 10 * s + c)%nat (seq 0 5)) =
  Some [[33; 31; 34; 30]; [63; 61; 64; 60]]%nat.
Proof.
  destruct (C80_saved 0%nat [] [3; 1; 4; 0; 2]%nat 5 7 3 (/ 2) (fun s => map (fun c => 10 * s + c)%nat (seq 0 5))) as (sel & _ & _ & _ & _); try lra; try (cbn; lia).
  - apply NoDup_Permutation; [repeat constructor; simpl; lia | apply seq_NoDup |]. intros x; rewrite in_seq; simpl; lia.
  - unfold saved_samples. cbn [select_chains num_saved_samples top_get Nat.leb firstn orb].
    rewrite saved_steps_eq by (try lra; lia). reflexivity.
Qed.

Print Assumptions C78_mean_unbiased.
Print Assumptions C78_variance_unbiased.
Print Assumptions C78_expected_mean_error.
Print Assumptions C78_errors.
Print Assumptions C78_defined.
Print Assumptions C78_single_chain_refuted.
Print Assumptions C78_windows.
Print Assumptions C79_all_replaced.
Print Assumptions C79_any_names_refuted.
Print Assumptions C79_conv_same.
Print Assumptions C79_dense_same.
Print Assumptions C79_kernels.
Print Assumptions C80_saved.
Print Assumptions C80_small_batch_refuted.
