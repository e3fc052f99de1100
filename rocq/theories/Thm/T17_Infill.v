(** Property theorems C52 and C65 to C69: text infilling. *)
From Coq Require Import String Reals List Arith Lia Lra Permutation Ascii Sorted.
From Verif.Base Require Import RSum.
From Verif.Spec Require Import InfillSpec.
From Verif.Model Require Import Utils Infill.
From Verif.Proof Require Import InfillProof.
Import ListNotations.
Local Open Scope nat_scope.

(** ** C52 *)
(** The drawn words, never the first or the last one, are masked; all others are unchanged. *)
Theorem C52_words : forall word token (MASK : word) (is_mask : token -> bool) tokenize ws drawn, (forall p, In p drawn -> 1 <= p /\ p + 1 < List.length ws) ->
  let e := make_entry word token MASK is_mask tokenize ws drawn in
  gt_sentence word e = ws /\ List.length (sentence word e) = List.length ws
  /\ forall i, i < List.length ws -> nth_error (sentence word e) i = if in_dec Nat.eq_dec i drawn then Some MASK else nth_error ws i.
Proof.
  intros word token MASK is_mask tokenize ws drawn Hd e. split; [reflexivity|]. split; [apply mask_words_length|]. intros i Hi. cbn.
  destruct (in_dec Nat.eq_dec i drawn); [apply mask_words_in; auto|apply mask_words_out; auto].
Qed.
(** The recorded positions are exactly those of the mask tokens in the model's input [CLS] tokens [SEP], each once. *)
Theorem C52_positions : forall word token (MASK : word) (is_mask : token -> bool) tokenize ws drawn cls sep, is_mask cls = false -> is_mask sep = false ->
  let e := make_entry word token MASK is_mask tokenize ws drawn in
  NoDup (infill_pos word e)
  /\ forall p, In p (infill_pos word e) <-> exists t, nth_error (input_ids cls sep (tokenize (sentence word e))) p = Some t /\ is_mask t = true.
Proof.
  intros word token MASK is_mask tokenize ws drawn cls sep Hc Hs e. split; [apply mask_positions_NoDup|]. intros p. unfold e, make_entry. cbn [infill_pos sentence].
  rewrite mask_positions_in. set (ts := tokenize _). unfold input_ids. split.
  - intros (t & Hp & E & Hm). exists t. split; [|exact Hm]. destruct p as [|p]; [lia|]. cbn in *. rewrite Nat.sub_0_r in E. rewrite nth_error_app1; [exact E|apply nth_error_Some; congruence].
  - intros (t & E & Hm). exists t. destruct p as [|p]; cbn in E; [congruence|]. split; [lia|]. split; [|exact Hm]. cbn. rewrite Nat.sub_0_r.
    destruct (Nat.lt_ge_cases p (List.length ts)) as [Hl|Hl]; [rewrite nth_error_app1 in E; auto|].
    rewrite nth_error_app2 in E by exact Hl. destruct (p - List.length ts) as [|q]; cbn in E; [congruence|destruct q; discriminate].
Qed.
(** There is one recorded position per drawn word, given that the tokenizer works word by word and only '[MASK]' gives the mask token. *)
Theorem C52_count : forall word token (MASK : word) (is_mask : token -> bool) tokenize (tok : word -> list token) mt,
  (forall ws, tokenize ws = flat_map tok ws) -> tok MASK = [mt] -> is_mask mt = true ->
  forall ws drawn, (forall w t, In w ws -> In t (tok w) -> is_mask t = false) -> NoDup drawn -> (forall p, In p drawn -> 1 <= p /\ p + 1 < List.length ws) ->
  List.length (infill_pos word (make_entry word token MASK is_mask tokenize ws drawn)) = List.length drawn.
Proof.
  intros word token MASK is_mask tokenize tok mt H1 H2 H3 ws drawn Hw Hn Hd. cbn. rewrite mask_positions_length.
  eapply filter_mask_tokens; eauto. intros p Hp. specialize (Hd p Hp). lia.
Qed.
(** Decoding replaces the mask tokens from left to right by the sampled ones and changes nothing else. *)
Theorem C52_decode : forall word token (MASK : word) (is_mask : token -> bool) tokenize ws drawn cls sep x,
  let e := make_entry word token MASK is_mask tokenize ws drawn in
  decode_ids (input_ids cls sep (tokenize (sentence word e))) (infill_pos word e) x = fill_masks is_mask (tokenize (sentence word e)) x.
Proof. intros. apply decode_fill. Qed.
(** Sampling the original (one-token) words gives the original sentence back. *)
Theorem C52_roundtrip : forall word token (MASK : word) (is_mask : token -> bool) tokenize (tok : word -> list token) mt,
  (forall ws, tokenize ws = flat_map tok ws) -> tok MASK = [mt] -> is_mask mt = true ->
  forall ws drawn cls sep, (forall w t, In w ws -> In t (tok w) -> is_mask t = false) -> (forall p, In p drawn -> exists w t, nth_error ws p = Some w /\ tok w = [t]) ->
  let e := make_entry word token MASK is_mask tokenize ws drawn in
  let originals := flat_map (fun p => match nth_error ws p with Some w => tok w | None => [] end) (filter (fun p => if in_dec Nat.eq_dec p drawn then true else false) (seq 0 (List.length ws))) in
  decode_ids (input_ids cls sep (tokenize (sentence word e))) (infill_pos word e) originals = tokenize ws.
Proof. intros word token MASK is_mask tokenize tok mt H1 H2 H3 ws drawn cls sep Hw Hd e originals. unfold e. rewrite C52_decode. eapply fill_original; eauto. Qed.
(** A sentence that already holds the word '[MASK]' gets more positions than were drawn. *)
Theorem C52_literal_mask_refuted : exists (ws : list nat) drawn, NoDup drawn /\ (forall p, In p drawn -> 1 <= p /\ p + 1 < List.length ws)
  /\ List.length (infill_pos nat (make_entry nat nat 0 (Nat.eqb 0) (fun ws => ws) ws drawn)) <> List.length drawn.
Proof. exists [5; 0; 6; 7], [2]. split; [repeat constructor; intros []|]. split; [intros p [<-|[]]; cbn; lia|cbn; lia]. Qed.
(** Words are numbers, 0 is the mask, word w > 0 has the tokens w (and 100 when w > 5). *)
Example C52_ex : let tok := fun w => if Nat.ltb 5 w then [w; 100] else [w] in let e := make_entry nat nat 0 (Nat.eqb 0) (flat_map tok) [1; 2; 7; 3; 4] [3; 1] in
  sentence nat e = [1; 0; 7; 0; 4] /\ infill_pos nat e = [2; 5] /\ decode_ids (input_ids 101 102 (flat_map tok (sentence nat e))) (infill_pos nat e) [2; 3] = [1; 2; 7; 100; 3; 4].
Proof. repeat split; reflexivity. Qed.

(** ** C65 *)
Local Open Scope R_scope.
(** The energy as computed: each token's log probability given the others, its own position shown to the network as the all-zero row. *)
Theorem C65_energy : forall C net xs, (0 < C)%nat -> (forall x, In x xs -> (x < C)%nat) -> (forall rows i, List.length (net rows i) = C) ->
  forward_tokens C net xs = rsum (seq 0 (List.length xs)) (fun i => ln (softmax_prob (net (show_at (repeat 0 C) (map (one_hot C) xs) i) i) (nth i xs 0%nat))).
Proof. exact forward_value. Qed.
(** Those are proper conditional probabilities: positive, adding up to 1 over the vocabulary, and not depending on the token itself. *)
Theorem C65_conditional : forall C net xs i, (0 < C)%nat -> (forall rows i, List.length (net rows i) = C) ->
  let q := fun ys => softmax_prob (net (show_at (repeat 0 C) (map (one_hot C) ys) i) i) in
  rsum (seq 0 C) (q xs) = 1 /\ (forall v, 0 < q xs v) /\ forall v, q (set_at i v xs) = q xs.
Proof.
  intros C net xs i HC Hnet q. assert (Hne : net (show_at (repeat 0 C) (map (one_hot C) xs) i) i <> []).
  { intros E. apply (f_equal (@List.length R)) in E. rewrite Hnet in E. cbn in E. lia. }
  destruct (softmax_sum _ Hne) as (H1 & H2). rewrite Hnet in H1. split; [exact H1|]. split; [exact H2|]. intros v. unfold q. rewrite show_at_set. reflexivity.
Qed.
Theorem C65_nonpositive : forall C net xs, (0 < C)%nat -> (forall x, In x xs -> (x < C)%nat) -> (forall rows i, List.length (net rows i) = C) -> forward_tokens C net xs <= 0.
Proof.
  intros C net xs HC Hx Hnet. rewrite C65_energy by assumption. rewrite <- (rsum_const0 (seq 0 (List.length xs)) (fun _ => 0)) by auto. apply rsum_le. intros i Hi. apply in_seq in Hi.
  set (l := net _ i). assert (L : List.length l = C) by apply Hnet. rewrite <- ln_1. destruct (Req_dec (softmax_prob l (nth i xs 0%nat)) 1) as [->|Hne]; [lra|].
  left. apply ln_increasing; [apply softmax_sum; intros E; rewrite E in L; cbn in L; lia|].
  assert (softmax_prob l (nth i xs 0%nat) <= 1) by (apply softmax_le1; rewrite L; apply Hx, nth_In; lia). lra.
Qed.
(** The scored position is not shown as the [MASK] token: the write into row 1 of a one-row array is dropped. *)
Theorem C65_mask_refuted : exists C net xs, (mask_token < C)%nat /\ (forall x, In x xs -> (x < C)%nat) /\ (forall rows i, List.length (net rows i) = C)
  /\ forward_tokens C net xs
     <> rsum (seq 0 (List.length xs)) (fun i => ln (softmax_prob (net (show_at (one_hot C mask_token) (map (one_hot C) xs) i) i) (nth i xs 0%nat))).
Proof.
  exists 104%nat, peek, [0%nat]. split; [unfold mask_token; lia|]. split; [intros x [<-|[]]; lia|]. split; [intros; cbn [peek List.length]; rewrite repeat_length; reflexivity|].
  cbn [List.length seq]. intros H. apply mask_differs. rewrite H. cbn [rsum]. rewrite Rplus_0_r. reflexivity.
Qed.
Example C65_ex : forward_tokens 2 (fun rows i => [ln 3; ln 1]) [0; 1]%nat = ln (3 / 4) + ln (1 / 4).
Proof.
  rewrite C65_energy; [|lia|intros x [<-|[<-|[]]]; lia|reflexivity]. cbn [List.length seq rsum nth]. unfold softmax_prob. cbn [nth rsum]. rewrite !exp_ln by lra.
  rewrite Rplus_0_r. f_equal; [f_equal; lra|]. rewrite Rplus_0_r. f_equal. lra.
Qed.

(** ** C66 *)
Local Open Scope nat_scope.
(** The data set consists of the first num_of_sentences suitable sentences of the first corpus, then of sentences of the second up to twice that number;
    the reference files hold all other lines. *)
Theorem C66_selection : forall line word token (MASK : word) (is_mask : token -> bool) clean_a clean_b tokenize nm n mn mx (tbc wiki : list (line * list nat)) data refs_a refs_b,
  create_infill_dataset MASK is_mask clean_a clean_b tokenize nm n mn mx tbc wiki = Some (data, refs_a, refs_b) ->
  let ok := fun (clean : line -> list word) (ld : line * list nat) => andb (Nat.leb (List.length (clean (fst ld))) mx) (Nat.leb mn (List.length (clean (fst ld)))) in
  let a := firstn n (filter (ok clean_a) tbc) in
  let b := firstn (2 * n - List.length a) (filter (ok clean_b) wiki) in
  data = map (fun ld => make_entry word token MASK is_mask tokenize (clean_a (fst ld)) (snd ld)) a ++ map (fun ld => make_entry word token MASK is_mask tokenize (clean_b (fst ld)) (snd ld)) b
  /\ Permutation (map fst tbc) (map fst a ++ refs_a) /\ Permutation (map fst wiki) (map fst b ++ refs_b).
Proof.
  intros line word token MASK is_mask ca cb tokenize nm n mn mx tbc wiki data ra rb H ok a b. unfold create_infill_dataset in H.
  destruct (collect_entries line word token MASK is_mask ca tokenize n mn mx nm tbc [] []) as [[d1 r1]|] eqn:E1; [|discriminate].
  destruct (collect_entries line word token MASK is_mask cb tokenize (2 * n) mn mx nm wiki d1 []) as [[d2 r2]|] eqn:E2; [|discriminate]. injection H as <- <- <-.
  apply collect_spec in E1. apply collect_spec in E2. cbn zeta in E1, E2. destruct E1 as (-> & _ & rest1 & -> & P1). destruct E2 as (-> & _ & rest2 & -> & P2).
  cbn [List.length List.app] in *. rewrite Nat.sub_0_r in *. rewrite map_length in *. split; [reflexivity|]. split; assumption.
Qed.
(** Without repeated lines no sentence to be infilled stays in its reference file. *)
Theorem C66_removed : forall line word token (MASK : word) (is_mask : token -> bool) clean_a clean_b tokenize nm n mn mx (tbc wiki : list (line * list nat)) data refs_a refs_b,
  create_infill_dataset MASK is_mask clean_a clean_b tokenize nm n mn mx tbc wiki = Some (data, refs_a, refs_b) -> NoDup (map fst tbc) -> NoDup (map fst wiki) ->
  forall e, In e data -> (exists l d, In (l, d) tbc /\ ~ In l refs_a /\ e = make_entry word token MASK is_mask tokenize (clean_a l) d)
    \/ (exists l d, In (l, d) wiki /\ ~ In l refs_b /\ e = make_entry word token MASK is_mask tokenize (clean_b l) d).
Proof.
  intros line word token MASK is_mask ca cb tokenize nm n mn mx tbc wiki data ra rb H Na Nb e He. apply C66_selection in H. cbn zeta in H. destruct H as (-> & Pa & Pb).
  assert (G : forall (todo : list (line * list nat)) k f refs, NoDup (map fst todo) -> Permutation (map fst todo) (map fst (firstn k (filter f todo)) ++ refs) ->
     forall ld, In ld (firstn k (filter f todo)) -> In ld todo /\ ~ In (fst ld) refs).
  { intros todo k f refs Hn P ld Hin. split.
    - assert (X : In ld (filter f todo)) by (rewrite <- (firstn_skipn k (filter f todo)); apply in_or_app; auto). apply filter_In in X. tauto.
    - intros Hr. apply (Permutation_NoDup P) in Hn. apply (in_map fst) in Hin. apply in_split in Hin. destruct Hin as (l1 & l2 & E). rewrite E, <- app_assoc in Hn. cbn [List.app] in Hn.
      apply NoDup_remove_2 in Hn. apply Hn. apply in_or_app. right. apply in_or_app. right. exact Hr. }
  apply in_app_or in He. destruct He as [He|He]; apply in_map_iff in He; destruct He as ([l d] & <- & Hin); [left|right]; exists l, d.
  - destruct (G _ _ _ _ Na Pa _ Hin). auto.
  - destruct (G _ _ _ _ Nb Pb _ Hin). auto.
Qed.
(** A sentence that occurs twice in a corpus is infilled and still in the reference file. *)
Theorem C66_repeated_line_refuted : exists (tbc wiki : list (list nat * list nat)) data ra rb,
  create_infill_dataset 0 (Nat.eqb 0) (fun l => l) (fun l => l) (fun ws => ws) 1 1 3 9 tbc wiki = Some (data, ra, rb) /\ exists e, In e data /\ In (gt_sentence nat e) ra.
Proof.
  exists [([1; 2; 3], [1]); ([1; 2; 3], [1])], [([4; 5; 6], [1])]. do 3 eexists. split; [reflexivity|]. eexists. split; [left; reflexivity|]. left. reflexivity.
Qed.
(** When the first corpus has too few suitable sentences the second one makes up for them, so the two shares differ. *)
Theorem C66_equal_shares_refuted : exists (tbc wiki : list (list nat * list nat)) data ra rb,
  create_infill_dataset 0 (Nat.eqb 0) (fun l => l) (fun l => l) (fun ws => ws) 1 2 3 9 tbc wiki = Some (data, ra, rb)
  /\ List.length tbc - List.length ra = 1 /\ List.length wiki - List.length rb = 3.
Proof.
  exists [([1; 2; 3], [1]); ([1; 2], [1])], [([4; 5; 6], [1]); ([4; 5; 7], [1]); ([4; 5; 8], [1])]. do 3 eexists. split; [reflexivity|]. split; reflexivity.
Qed.
(** It fails exactly when a chosen sentence is too short for the number of masks. *)
Theorem C66_fails_iff : forall line word token (MASK : word) (is_mask : token -> bool) clean tokenize limit mn mx nm (todo : list (line * list nat)) data refs,
  collect_entries line word token MASK is_mask clean tokenize limit mn mx nm todo data refs = None <->
  exists ld, In ld (firstn (limit - List.length data) (filter (fun ld => andb (Nat.leb (List.length (clean (fst ld))) mx) (Nat.leb mn (List.length (clean (fst ld))))) todo))
    /\ List.length (clean (fst ld)) - 2 < nm.
Proof. intros. apply collect_fails. Qed.
Example C66_ex : create_infill_dataset 0 (Nat.eqb 0) (fun l => l) (fun l => l) (fun ws => ws) 1 1 3 4 [([1; 2], [1]); ([1; 2; 3], [1]); ([7; 8; 9], [1])] [([4; 5; 6; 7], [2])]
  = Some ([Entry nat [1; 2; 3] [1; 0; 3] [2]; Entry nat [4; 5; 6; 7] [4; 5; 0; 7] [3]], [[1; 2]; [7; 8; 9]], []).
Proof. reflexivity. Qed.

(** ** C67 *)
(** Up to ten resamples: the sentences come back unchanged, and the top k are k sentences of largest log likelihood in increasing order. *)
Theorem C67_topk : forall k sents lls, 1 <= k -> List.length sents <= 10 -> List.length lls = List.length sents ->
  fst (topk k sents lls) = sents
  /\ exists rest top, Permutation (combine sents lls) (rest ++ top) /\ map fst top = snd (topk k sents lls) /\ List.length top = Nat.min k (List.length sents)
    /\ (forall a b, In a rest -> In b top -> (snd a <= snd b)%R) /\ StronglySorted (fun a b => (snd a <= snd b)%R) top.
Proof. exact topk_facts. Qed.
(** From the eleventh resample on the tag is not removed completely; from the 101st a digit is left in the sentence. *)
Theorem C67_many_refuted : exists sents lls, List.length lls = List.length sents /\ List.length sents = 11 /\ fst (topk 1 sents lls) <> sents.
Proof. exists (repeat ["a"%char] 11), (repeat 0%R 11). split; [reflexivity|]. split; [reflexivity|]. unfold topk. cbn [fst]. intros H. vm_compute in H. discriminate. Qed.
Theorem C67_digit_left_refuted : exists s, skipn 2 (str_nat 100 ++ " "%char :: s) = "0"%char :: " "%char :: s.
Proof. exists ["a"%char]. reflexivity. Qed.
(** topk_num = 0 returns all sentences. *)
Theorem C67_zero_refuted : exists sents lls, List.length lls = List.length sents /\ 0 < List.length (snd (topk 0 sents lls)).
Proof. exists [["a"%char]], [0%R]. split; [reflexivity|]. vm_compute. lia. Qed.
Example C67_ex : topk 1 [["a"%char]; ["b"%char]] [3; 2]%R = ([["a"%char]; ["b"%char]], [["a"%char]]).
Proof.
  unfold topk. assert (E : sort_by (dict_of (combine (tagged [["a"%char]; ["b"%char]]) [3; 2]%R)) = [(list_ascii_of_string "1 b", 2%R); (list_ascii_of_string "0 a", 3%R)]).
  { change (dict_of (combine (tagged [["a"%char]; ["b"%char]]) [3; 2]%R)) with [(list_ascii_of_string "0 a", 3%R); (list_ascii_of_string "1 b", 2%R)].
    cbn [sort_by fold_right insert snd]. destruct (Rle_dec 3 2); [lra|reflexivity]. }
  rewrite E. reflexivity.
Qed.

(** ** C68 *)
(** Within a sentence no key is used twice over all resamples and steps. *)
Theorem C68_within_sentence : forall L s m t m' t', 1 <= t <= L -> 1 <= t' <= L -> chain_key L s m t = chain_key L s m' t' -> m = m' /\ t = t'.
Proof. exact chain_key_inj. Qed.
(** Every sentence uses the keys of the first one. *)
Theorem C68_across_sentences_refuted : exists L s s' m t, s <> s' /\ 1 <= t <= L /\ chain_key L s m t = chain_key L s' m t.
Proof. exists 5, 0, 1, 0, 1. repeat split; lia || reflexivity. Qed.
Example C68_ex : chain_key 2 3 1 1 = FoldIn (FoldIn (FoldIn (Root 0) 1) 2) 1.
Proof. reflexivity. Qed.

(** ** C69 *)
(** The scores of a finished run are never computed: the jitted evaluator gets strings. *)
Theorem C69_saved_refuted : exists sents root, sents <> [] /\ forall B (evaluate : list pyarg -> B), save_lm evaluate sents root = None.
Proof. exists [["a"%char]], ["d"%char]. split; [discriminate|]. reflexivity. Qed.
Theorem C69_never_saved : forall B (evaluate : list pyarg -> B) sents root, save_lm evaluate sents root = None.
Proof. intros. unfold save_lm, jit_call. cbn. rewrite Bool.andb_false_r. reflexivity. Qed.
Example C69_ex : jit_call (fun _ => 1) [PArr 0; PList [PArr 1]] = Some 1 /\ jit_call (fun _ => 1) [PStr ["d"%char]] = None.
Proof. split; reflexivity. Qed.

Print Assumptions C52_positions.
Print Assumptions C52_decode.
Print Assumptions C52_roundtrip.
Print Assumptions C65_energy.
Print Assumptions C65_mask_refuted.
Print Assumptions C66_selection.
Print Assumptions C66_removed.
Print Assumptions C67_topk.
Print Assumptions C68_within_sentence.
Print Assumptions C69_never_saved.
