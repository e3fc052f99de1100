(** C101: the sentences a text-infilling run prints and hands to the evaluation. *)
From Coq Require Import String Reals List Arith ZArith Lra Lia Ascii.
From Verif.Base Require Import RSum Cube Dist.
From Verif.Spec Require Import Chain SamplerRun InfillSpec InfillRunSpec.
From Verif.Model Require Import MathUtil Langevin Launch RunConfigs Start FullRun Infill InfillRun.
From Verif.Proof Require Import FullRunInvar InfillRunProof InfillRunLaw InfillGibbs InfillLimit InfillShipped.
Import ListNotations.
Local Open Scope R_scope.

(** ** Any sampler object *)
(** A run ends for every entry, and what it prints are m completions of the entry by tokens of the vocabulary; with top-k (at most a hundred
    resamples) the kept ones are the q likeliest under the network, in ascending order.  From the eleventh on a sentence has a blank in front. *)
Theorem C101_sentences g dg rinit lm d k L m keep e : (0 < d)%nat -> (2 <= lm_C lm)%nat -> well_shaped lm -> length (x_pos e) = d -> usable (fill_target lm d e) k -> placed e ->
  is_prob (fill_entry g dg rinit lm d k L m keep e) /\
  forall o w, In (o, w) (fill_entry g dg rinit lm d k L m keep e) ->
  exists fills, length fills = m /\ Forall (fun x => length x = d /\ Forall (fun v => (v < lm_C lm)%nat) x) fills /\
    (exists ids, Forall2 (completes e) fills ids /\
       match keep with
       | None => o = (map (lm_decode lm) ids, [])
       | Some q => (1 <= q)%nat -> (m <= 100)%nat -> fst o = blank_after_ten (map (lm_decode lm) ids) /\ best_of q (combine (fst o) (map (fun x => ln (fill_weight lm e x)) fills)) (snd o)
       end).
Proof.
  intros Hd HC Hw Hlen Hu Hp. split; [apply (entry_good g dg rinit lm d k L e Hd HC Hw Hlen Hu)|].
  intros o w Ho. exact (entry_prints g dg rinit lm d k L m keep e o w Hd HC Hw Hlen Hu Hp Ho).
Qed.
Example C101_sentences_case : let lm := {| lm_C := 3; lm_cls := 101; lm_sep := 102; lm_logits := fun _ _ rows i => [0; INR i; nth 1 (nth 0 rows []) 0]; lm_grad := fun _ _ _ => 0; lm_decode := map ascii_of_nat |} in
  let e := {| x_tokens := [7; 103; 9; 103]; x_pos := [4; 2] |}%nat in
  well_shaped lm /\ placed e /\ usable (fill_target lm 2 e) (SDlmc "SQRT" {| lc_adaptive := true; lc_co_opt := false; lc_target := 574 / 1000; lc_schedule := 10; lc_reset := (-1)%Z |} 1 "interpolate") /\ completes e [1; 2]%nat [7; 2; 9; 1]%nat.
Proof.
  cbv zeta. split; [intros ids pos rows i; reflexivity|]. split; [|split].
  - split; [repeat constructor; cbn; intuition lia|]. constructor; [cbn; lia|constructor; [cbn; lia|constructor]].
  - split; [left; reflexivity|left; reflexivity].
  - split; [reflexivity|]. split.
    + intros i Hi. cbn in Hi. destruct i as [|[|]]; [reflexivity|reflexivity|lia].
    + intros j Hj Hn. cbn in Hj, Hn. destruct j as [|[|[|[|]]]]; try lia; try reflexivity; exfalso; apply Hn; auto.
Qed.

(** Every resample has the same law: that of a run with one resample. *)
Theorem C101_each g dg rinit lm d k L e m i f : (0 < d)%nat -> (2 <= lm_C lm)%nat -> well_shaped lm -> length (x_pos e) = d -> usable (fill_target lm d e) k -> (i < m)%nat ->
  E (fill_entry g dg rinit lm d k L m None e) (fun o => f (nth i (fst o) [])) = E (fill_entry g dg rinit lm d k L 1 None e) (fun o => f (nth 0 (fst o) [])).
Proof. intros Hd HC Hw Hlen Hu Hi. exact (each_sentence g dg rinit lm d k L e Hd HC Hw Hlen Hu m i f Hi). Qed.
Example C101_each_case : well_shaped (agree_lm 20) /\ usable (fill_target (agree_lm 20) 2 agree_text) (SWalk (Some (1 / 4))) /\ (24 < 25)%nat.
Proof. split; [apply agree_shaped|]. split; [exact I|lia]. Qed.

(** An entry whose number of positions differs from config.model.shape ends the run: nothing is printed. *)
Theorem C101_shape g dg rinit lm d k L m keep e o : length (x_pos e) <> d -> ~ In o (fill_entry g dg rinit lm d k L m keep e).
Proof. intros H. unfold fill_entry. apply Nat.eqb_neq in H. rewrite H. intros []. Qed.
Example C101_shape_case : length (x_pos agree_text) <> 4%nat.
Proof. discriminate. Qed.

(** ** Are the resamples independent? *)
(** Gibbs: jointly within an explicit distance of m independent draws from the law of the network, which vanishes with the chain length. *)
Theorem C101_gibbs g dg rinit lm d e L m M F : (0 < d)%nat -> (2 <= lm_C lm)%nat -> well_shaped lm -> logits_within lm M -> length (x_pos e) = d -> (forall l, Rabs (F l) <= 1) ->
  Rabs (E (fill_entry g dg rinit lm d SGibbs L m None e) (fun o => F (fst o))
        - E (indep (repeat (target_law d (lm_C lm) (fill_weight lm e)) m)) (fun fills => F (map (sentence_of lm e) fills)))
  <= INR m * (2 * (1 - exp (- (INR d * (2 * M + ln (INR (lm_C lm))))) ^ d) ^ (L / d)).
Proof. apply gibbs_joint. Qed.
Example C101_gibbs_case : exists lm, (2 <= lm_C lm)%nat /\ well_shaped lm /\ logits_within lm 1 /\ fill_weight lm agree_text [0; 0]%nat <> fill_weight lm agree_text [1; 0]%nat.
Proof.
  exists {| lm_C := 2; lm_cls := 0; lm_sep := 0; lm_logits := fun _ _ _ _ => [1; 0]; lm_grad := fun _ _ _ => 0; lm_decode := map ascii_of_nat |}.
  split; [cbn; lia|]. split; [intros ids pos rows i; reflexivity|]. split.
  - intros ids pos rows i [|[|v]]; cbn; [rewrite Rabs_R1; lra|rewrite Rabs_R0; lra|destruct v; rewrite Rabs_R0; lra].
  - unfold fill_weight, net_of, softmax_prob. cbn -[exp Rplus Rmult Rdiv]. rewrite exp_0. pose proof (exp_ineq1 1 ltac:(lra)) as He. set (a := exp 1) in *. intros H.
    apply (f_equal (fun v => v * ((a + (1 + 0)) * (a + (1 + 0))))) in H. field_simplify in H; [|lra|lra]. nra.
Qed.
(** Block Gibbs, and non-adaptive DMALA on more than two tokens (acceptance guard read as zero): the same without a rate. *)
Theorem C101_block g dg rinit lm d e b : (0 < d)%nat -> (2 <= lm_C lm)%nat -> (0 < b)%nat -> well_shaped lm -> length (x_pos e) = d -> near_independent g dg rinit lm d e (SBlock b).
Proof. apply block_limit. Qed.
Theorem C101_dmala dg rinit lm d e ty c ss : (0 < d)%nat -> (3 <= lm_C lm)%nat -> well_shaped lm -> length (x_pos e) = d -> balancing ty -> lc_adaptive c = false ->
  near_independent 0 dg rinit lm d e (SDmala ty c ss).
Proof. apply dmala_limit. Qed.
Example C101_dmala_case : exists m eps, (2 <= m)%nat /\ 0 < eps /\ balancing "RATIO" /\ forall sents, Rabs (same sents) <= 1.
Proof. exists 25%nat, (1 / 100). split; [lia|]. split; [lra|]. split; [right; left; reflexivity|]. intros sents. apply Rabs_le. pose proof (same_range sents). lra. Qed.

(** "The resamples are as independent as separate runs" is false at every chain length: all start from one initial sample.  There is a
    network and an entry for which two resamples of a run are nearly always the same sentence and those of two runs nearly as often not. *)
Theorem C101_independent_refuted g dg rinit L : (1 <= L)%nat -> exists lm e, well_shaped lm /\ (2 <= lm_C lm)%nat /\ length (x_pos e) = 2%nat /\ placed e /\
  9/10 <= E (fill_entry g dg rinit lm 2 SGibbs L 2 None e) (fun o => same (fst o)) /\
  E (indep (repeat (fill_entry g dg rinit lm 2 SGibbs L 1 None e) 2)) (fun os => same (map (fun o => nth 0 (fst o) []) os)) <= 6/10.
Proof. apply shared_start. Qed.

(** ** What the evaluation gets *)
(** "The evaluated sentences are the decoded ones" is false with top-k and more than ten resamples: the others start with a blank. *)
Theorem C101_blank_refuted g dg rinit lm d k L m q e o w i : (0 < d)%nat -> (2 <= lm_C lm)%nat -> well_shaped lm -> length (x_pos e) = d -> usable (fill_target lm d e) k -> placed e ->
  (1 <= q)%nat -> (m <= 100)%nat -> In (o, w) (fill_entry g dg rinit lm d k L m (Some q) e) -> (10 <= i < m)%nat -> exists s, nth_error (fst o) i = Some (" "%char :: s).
Proof.
  intros Hd HC Hw Hlen Hu Hp Hq Hm Ho Hi. destruct (entry_prints g dg rinit lm d k L m (Some q) e o w Hd HC Hw Hlen Hu Hp Ho) as (fills & Hf & _ & ids & H2 & K).
  destruct (K Hq Hm) as [-> _]. apply blank_tail. rewrite map_length. assert (length fills = length ids) by (clear - H2; induction H2; cbn; congruence). lia.
Qed.
Example C101_blank_case : (10 <= 24 < 25)%nat /\ (25 <= 100)%nat /\ blank_after_ten (repeat ["a"%char] 12) = repeat ["a"%char] 10 ++ repeat [" "%char; "a"%char] 2.
Proof. split; [lia|]. split; [lia|reflexivity]. Qed.
(** The lists handed to the evaluation: the sentences of the entries in their order, all with the first key. *)
Theorem C101_entries fill n data : get_results fill n data = (concat (map (fun e => fst (fill 0%nat e)) data), concat (map (fun e => snd (fill 0%nat e)) data)).
Proof. apply results_map. Qed.
(** "Entries are sampled with keys of their own" is false: an entry that occurs twice gets the same sentences twice, whatever its draws. *)
Theorem C101_keys_refuted : exists (fill : nat -> text -> list (list ascii) * list (list ascii)) (e : text), fill 0%nat e <> fill 1%nat e /\ forall n, get_results fill n [e; e] = (fst (fill 0%nat e) ++ fst (fill 0%nat e), snd (fill 0%nat e) ++ snd (fill 0%nat e)).
Proof.
  exists (fun s _ => ([[ascii_of_nat (65 + s)]], [])), agree_text. split; [discriminate|]. intros n. reflexivity.
Qed.

(** ** The shipped sweeps *)
(** All 28 jobs: fifty steps, 25 resamples of four positions, the best five kept, objects that can be used, a start drawn from the network.
    So 15 of the 25 sentences of every entry are evaluated with a blank in front (C101_blank_refuted). *)
Theorem C101_shipped repr root j n : lm_sweep j n -> exists jobs, launch repr j [] root = Some jobs /\ List.length jobs = n /\ forall a, In a jobs ->
  exists c r, configure repr shipped_modules (shipped_files "/workdir/") a = Some c /\
    look "chain_length" (l_exp c) = Some (LInt 50) /\ look "use_topk" (l_exp c) = Some (LBool true) /\ look "num_same_resample" (l_exp c) = Some (LInt 25) /\
    look "topk_num" (l_exp c) = Some (LInt 5) /\ look "batch_size" (l_exp c) = Some (LInt 1) /\ look "run_parallel" (l_exp c) = Some (LBool false) /\
    look "shape" (l_model c) = Some (LTuple [4%Z]) /\ look "num_categories" (l_model c) = Some (LInt 30522) /\ look "random_init_sample" (l_model c) = Some (LBool false) /\
    start (fun _ => None) 1 c = Some r /\ r_experiment r = "Text_Infilling_Experiment"%string /\ forall lm e, usable (fill_target lm 4 e) (r_sampler r).
Proof. apply lm_started. Qed.
Example C101_shipped_case : lm_sweep lm_base_bert_sampler_sweep 19 /\ lm_sweep lm_large_bert_sampler_sweep 9.
Proof. split; [left|right]; split; reflexivity. Qed.

Print Assumptions C101_sentences.
Print Assumptions C101_each.
Print Assumptions C101_shape.
Print Assumptions C101_gibbs.
Print Assumptions C101_block.
Print Assumptions C101_dmala.
Print Assumptions C101_independent_refuted.
Print Assumptions C101_blank_refuted.
Print Assumptions C101_entries.
Print Assumptions C101_keys_refuted.
Print Assumptions C101_shipped.
