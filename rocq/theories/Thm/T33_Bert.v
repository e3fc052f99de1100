(** C91: the infilling network. *)
From Coq Require Import Reals List Arith Lia Lra.
From Verif.Base Require Import RSum.
From Verif.Model Require Import Infill Bert.
From Verif.Spec Require Import BertSpec InfillSpec.
From Verif.Proof Require Import BertProof.
Import ListNotations.
Local Open Scope R_scope.

(** With one-hot rows the network computes what the plain network computes for the sentence in which the tokens stand at the infill positions. *)
Theorem C91_infill : forall B L ids types mask pos xs ids' p v, filled ids pos xs ids' -> (forall x, In x xs -> (x < vocab B)%nat) ->
  logits B L ids types mask pos (map (one_hot (vocab B)) xs) p v = logits B L ids' types mask [] [] p v.
Proof. exact infill_equals_lookup. Qed.
Example C91_infill_case : filled (fun p => p) [3; 1]%nat [7; 9]%nat (fun p => if Nat.eqb p 3 then 7 else if Nat.eqb p 1 then 9 else p)%nat.
Proof.
  split; [reflexivity|]. split.
  - intros [|[|i]] Hi; [reflexivity|reflexivity|cbn in Hi; lia].
  - intros p Hp. destruct (Nat.eqb_spec p 3); [subst; exfalso; apply Hp; left; reflexivity|]. destruct (Nat.eqb_spec p 1); [subst; exfalso; apply Hp; right; left; reflexivity|reflexivity].
Qed.
Print Assumptions C91_infill.

(** What stood at the infill positions of the given sentence has no influence, for rows of any kind. *)
Theorem C91_forgets : forall B L ids ids2 types mask pos rows p v, length rows = length pos -> (forall q, ~ In q pos -> ids q = ids2 q) ->
  logits B L ids types mask pos rows p v = logits B L ids2 types mask pos rows p v.
Proof. exact infill_forgets. Qed.
Example C91_forgets_case : forall q, ~ In q [2]%nat -> (fun p => p) q = (fun p => if Nat.eqb p 2 then 103 else p)%nat q.
Proof. intros q Hq. cbn. destruct (Nat.eqb_spec q 2); [subst; exfalso; apply Hq; left; reflexivity|reflexivity]. Qed.
Print Assumptions C91_forgets.

(** Every head of every layer averages over the positions with positive weights that add up to one. *)
Theorem C91_attention : forall B L l mask h a q, (0 < L)%nat -> (forall k, 0 < weight B L l mask h a q k) /\ rsum (seq 0 L) (weight B L l mask h a q) = 1.
Proof. exact weights_law. Qed.
(** Without masked positions the mask has no effect. *)
Theorem C91_full_mask : forall B L ids types mask pos rows p v, (forall k, (k < L)%nat -> (0 < mask k)%nat) ->
  logits B L ids types mask pos rows p v = logits B L ids types (fun _ => 1%nat) pos rows p v.
Proof. exact full_mask. Qed.
(** A masked position gets at most the weight exp(score difference - 10^10). *)
Theorem C91_masked : forall B L l mask h a q k k', (k < L)%nat -> (k' < L)%nat -> mask k = 0%nat -> (0 < mask k')%nat ->
  weight B L l mask h a q k <= exp (score B l (fun _ => 1%nat) h a q k - score B l (fun _ => 1%nat) h a q k' - 10 ^ 10).
Proof. exact masked_weight. Qed.
Definition ex_layer : layer := {| qW := fun _ _ => 0; qb := fun _ => 0; kW := fun _ _ => 0; kb := fun _ => 0; vW := fun _ _ => 0; vb := fun _ => 0; oW := fun _ _ => 0; ob := fun _ => 0;
  o_scale := fun _ => 1; o_bias := fun _ => 0; iW := fun _ _ => 0; ib := fun _ => 0; fW := fun _ _ => 0; fb := fun _ => 0; f_scale := fun _ => 1; f_bias := fun _ => 0 |}.
Example C91_attention_case : weight small_bert 2 ex_layer (fun _ => 1%nat) (fun _ _ => 0) 0 0 1 = 1 / 2.
Proof.
  assert (Z : forall k, score small_bert ex_layer (fun _ => 1%nat) (fun _ _ => 0) 0 0 k = 0).
  { intros k. unfold score, dense, attention_bias. cbn [Nat.ltb Nat.leb ex_layer qW qb kW kb]. rewrite rsum_const0; [ring|]. intros j _. rewrite !rsum_const0 by (intros; ring). unfold Rdiv. ring. }
  unfold weight. cbn [seq rsum]. rewrite !Z, exp_0. lra.
Qed.
Print Assumptions C91_attention.
Print Assumptions C91_full_mask.
Print Assumptions C91_masked.

(** Head [a] uses its own slice of the hidden features only: weights of other heads have no influence on its output. *)
Theorem C91_heads : forall B L l l' mask h q a, let d := (hidden B / heads B)%nat in
  (forall i j, (a * d <= j < S a * d)%nat ->
    qW l i j = qW l' i j /\ qb l j = qb l' j /\ kW l i j = kW l' i j /\ kb l j = kb l' j /\ vW l i j = vW l' i j /\ vb l j = vb l' j) ->
  forall j, (a * d <= j < S a * d)%nat -> self_attention B L l mask h q j = self_attention B L l' mask h q j.
Proof. intros B L l l' mask h q a d. exact (head_columns B L l l' mask h q a). Qed.
(** Scores are scaled by the square root of the size of a head: query and key with every feature u and w in the head give
    u w sqrt(d). *)
Theorem C91_scale : forall B l mask h a q k u w, let d := (hidden B / heads B)%nat in (0 < d)%nat -> (0 < mask k)%nat ->
  (forall j, (a * d <= j < S a * d)%nat -> dense (hidden B) (qW l) (qb l) (h q) j = u /\ dense (hidden B) (kW l) (kb l) (h k) j = w) ->
  score B l mask h a q k = u * w * sqrt (INR d).
Proof. intros B l mask h a q k u w d. exact (score_scale B l mask h a q k u w). Qed.
Definition head_layer (b : R) : layer := {| qW := fun _ _ => 0; qb := fun j => if Nat.eqb j 0 then 3 else b; kW := fun _ _ => 0; kb := fun j => if Nat.eqb j 0 then 2 else b; vW := fun _ _ => 0;
  vb := fun j => if Nat.eqb j 0 then 1 else b; oW := fun _ _ => 0; ob := fun _ => 0;
  o_scale := fun _ => 1; o_bias := fun _ => 0; iW := fun _ _ => 0; ib := fun _ => 0; fW := fun _ _ => 0; fb := fun _ => 0; f_scale := fun _ => 1; f_bias := fun _ => 0 |}.
Definition two_heads : bert := {| vocab := 2; hidden := 2; heads := 2; inter := 1; eps := 1; act := fun x => x; tie := true; word := fun _ _ => 0; posn := fun _ _ => 0; ttype := fun _ _ => 0;
  e_scale := fun _ => 1; e_bias := fun _ => 0; layers := [head_layer 5]; tW := fun _ _ => 0; tb := fun _ => 0; t_scale := fun _ => 1; t_bias := fun _ => 0; decoder := fun _ _ => 0; d_bias := fun _ => 0 |}.
Example C91_heads_case : let l := head_layer 5 in let l' := head_layer 7 in
  (hidden two_heads / heads two_heads)%nat = 1%nat /\ (forall i j, (0 <= j < 1)%nat ->
    qW l i j = qW l' i j /\ qb l j = qb l' j /\ kW l i j = kW l' i j /\ kb l j = kb l' j /\ vW l i j = vW l' i j /\ vb l j = vb l' j) /\ qb l 1%nat <> qb l' 1%nat /\
  dense 2 (qW l) (qb l) (fun _ => 0) 0 = 3 /\ dense 2 (kW l) (kb l) (fun _ => 0) 0 = 2.
Proof.
  cbv zeta. split; [reflexivity|]. split; [intros i j Hj; assert (j = 0%nat) by lia; subst; repeat split|]. split; [cbn; lra|]. unfold dense. cbn. lra.
Qed.
Print Assumptions C91_heads.
Print Assumptions C91_scale.

(** Normalised features: mean 0, mean square below one, each at most the square root of their number. *)
Theorem C91_normalised : forall n e x, (0 < n)%nat -> 0 < e ->
  mean_of n (normalise n e x) = 0 /\ mean_of n (fun j => normalise n e x j * normalise n e x j) = var_of n x / (var_of n x + e)
  /\ forall j, (j < n)%nat -> Rabs (normalise n e x j) <= sqrt (INR n).
Proof. exact normalised. Qed.
Example C91_normalised_case : normalise 2 1 (fun j => if Nat.eqb j 0 then 3 else -3) 0 = 3 / sqrt (3 * 3 + 1).
Proof. apply (norm2 (fun j => if Nat.eqb j 0 then 3 else -3) 3); cbn; lra. Qed.
Print Assumptions C91_normalised.

(** No sentence, infill or one-hot row can make a logit leave bounds that depend on the prediction head alone. *)
Theorem C91_logits_bounded : forall B L ids types mask pos rows p v, (0 < hidden B)%nat -> 0 < eps B ->
  Rabs (logits B L ids types mask pos rows p v) <= logit_bound B v.
Proof. exact logits_bounded. Qed.
(** So every token has a probability bounded away from zero, and the score of an infill of n words is between -n K and 0. *)
Theorem C91_probability : forall B L ids types mask pos rows i v, (0 < hidden B)%nat -> 0 < eps B -> (v < vocab B)%nat ->
  exp (- (2 * max_bound B)) / INR (vocab B) <= softmax_prob (infill_net B L ids types mask pos rows i) v.
Proof. exact token_prob_bound. Qed.
Theorem C91_score : forall B L ids types mask pos xs, (0 < hidden B)%nat -> 0 < eps B -> (forall x, In x xs -> (x < vocab B)%nat) -> (0 < vocab B)%nat ->
  - (INR (length xs) * (2 * max_bound B + ln (INR (vocab B)))) <= forward_tokens (vocab B) (infill_net B L ids types mask pos) xs.
Proof. exact score_bounds. Qed.
Example C91_bounds_case : logit_bound small_bert 0 = sqrt 2 /\ logit_bound small_bert 5 = 0 /\ bert_ok small_bert = true.
Proof.
  unfold logit_bound, feature_bound, kernel. cbn [seq rsum hidden t_scale t_bias decoder d_bias tie small_bert Nat.eqb]. rewrite Rabs_R0, Rabs_R1.
  replace (INR 2) with 2 by (cbn; lra). repeat split; try ring.
Qed.
Print Assumptions C91_logits_bounded.
Print Assumptions C91_probability.
Print Assumptions C91_score.

(** The all-zero row shown at the scored position (C65) stands for a token with embedding zero: no difference if the mask token has that
    embedding; with another embedding the score of the model differs from the masked-language-model score. *)
Theorem C91_zero_row : forall B L ids types mask pos rows i p v m, length pos = length rows -> (m < vocab B)%nat -> (forall j, word B m j = 0) ->
  logits B L ids types mask pos (show_at (repeat 0 (vocab B)) rows i) p v = logits B L ids types mask pos (show_at (one_hot (vocab B) m) rows i) p v.
Proof. exact zero_row. Qed.
Example C91_zero_row_case : forall j, word small_bert 5 j = 0.
Proof. reflexivity. Qed.
Theorem C91_mask_token_refuted : exists B L ids types mask pos x, bert_ok B = true /\ 0 < eps B /\ (x < vocab B)%nat /\ (mask_token < vocab B)%nat
  /\ forward_tokens (vocab B) (infill_net B L ids types mask pos) [x] <> ln (softmax_prob (infill_net B L ids types mask pos [one_hot (vocab B) mask_token] 0) x).
Proof.
  exists small_bert, 1%nat, (fun _ => 0%nat), (fun _ => 0%nat), (fun _ => 1%nat), [0%nat], 0%nat. split; [reflexivity|]. split; [cbn; lra|]. cbn [vocab small_bert]. fold small_bert.
  split; [lia|]. split; [unfold mask_token; lia|]. apply Rlt_not_eq, small_mask_differs.
Qed.
Print Assumptions C91_zero_row.
Print Assumptions C91_mask_token_refuted.
