(** C97: the BLEU scores of infilled sentences. *)
From Coq Require Import String Ascii List Bool Reals Arith Lia Lra Permutation.
From Verif.Base Require Import RSum.
From Verif.Spec Require Import BleuSpec.
From Verif.Model Require Import Bleu.
From Verif.Proof Require Import BleuProof BleuFacts BleuRun.
Import ListNotations.
Local Open Scope R_scope.

(** The saved score is the brevity penalty times the geometric mean of the four clipped precisions; without a common word it is 0, without
    a common n-gram of some size it is negligible. *)
Theorem C97_value word (word_dec : forall a b : word, {a = b} + {a <> b}) generated references : generated <> [] -> references <> [] ->
  let c := against word references generated in
  exists v b, corpus_bleu word word_dec generated references = Some v /\ penalty word c b /\ 0 <= v <= 1 /\
    ((forall n, (1 <= n <= 4)%nat -> (0 < hits word word_dec n c)%nat) ->
       v ^ 4 = b ^ 4 * (precision word word_dec 1 c * precision word word_dec 2 c * precision word word_dec 3 c * precision word word_dec 4 c)) /\
    (hits word word_dec 1 c = 0%nat -> v = 0) /\
    ((exists n, (1 <= n <= 4)%nat /\ hits word word_dec n c = 0%nat) -> v ^ 4 <= / 2 ^ 1022).
Proof.
  intros Hg Hr c. assert (F : fine c) by (apply against_fine; auto). exists (S4 word_dec c), (bpc c). split; [apply corpus_bleu_value; assumption|]. split; [apply penalty_iff; [apply F|reflexivity]|].
  split; [apply S4_bounds, F|]. split; [intros H; apply S4_value; [apply F|intros n Hn; specialize (H n Hn); lia]|]. split; [apply S4_zero|apply S4_tiny, F].
Qed.
Theorem C97_fails word (word_dec : forall a b : word, {a = b} + {a <> b}) generated references : corpus_bleu word word_dec generated references = None <-> generated = [] \/ references = [].
Proof. apply corpus_bleu_none. Qed.
(** It is 1 exactly when every sentence has four words, all its n-grams are found often enough and there is no brevity penalty. *)
Theorem C97_perfect word (word_dec : forall a b : word, {a = b} + {a <> b}) generated references :
  corpus_bleu word word_dec generated references = Some 1 <->
  generated <> [] /\ references <> [] /\ penalty word (against word references generated) 1 /\
  forall h, In h generated -> (4 <= length h)%nat /\
    forall g, (1 <= length g <= 4)%nat -> (0 < times word word_dec g h)%nat -> exists r, In r references /\ (times word word_dec g h <= times word word_dec g r)%nat.
Proof.
  split.
  - intros H. assert (N : ~ (generated = [] \/ references = [])) by (rewrite <- (corpus_bleu_none word_dec), H; discriminate). assert (Hg : generated <> []) by tauto. assert (Hr : references <> []) by tauto.
    rewrite corpus_bleu_value in H by assumption. injection H as H. apply S4_one_iff in H; [|apply against_fine; auto]. destruct H as [P H]. do 3 (split; [assumption|]). intros h Hh.
    destruct (H (references, h)) as [L C]; [apply in_map; exact Hh|]. split; [exact L|]. intros g Hl Ht. exact (C (length g) Hl g eq_refl Ht).
  - intros (Hg & Hr & P & H). rewrite corpus_bleu_value by assumption. f_equal. apply S4_one_iff; [apply against_fine; auto|]. split; [exact P|]. intros p Hp. apply in_map_iff in Hp. destruct Hp as (h & <- & Hh).
    destruct (H h Hh) as [L C]. split; [exact L|]. intros n Hn g Hl Ht. apply C; [lia|exact Ht].
Qed.
(** Copies of reference sentences of at least four words score 1, shorter ones do not. *)
Theorem C97_copies word (word_dec : forall a b : word, {a = b} + {a <> b}) generated references : generated <> [] ->
  (forall h, In h generated -> In h references /\ (4 <= length h)%nat) -> corpus_bleu word word_dec generated references = Some 1.
Proof.
  intros Hg H. assert (Hr : references <> []) by (destruct generated as [|h g]; [contradiction|]; destruct (H h (or_introl eq_refl)) as [I _]; intros ->; destruct I).
  rewrite corpus_bleu_value by assumption. f_equal. apply copies_one; [apply against_fine; auto|]. intros p Hp. apply in_map_iff in Hp. destruct Hp as (h & <- & Hh). apply H, Hh.
Qed.
Theorem C97_copies_refuted : exists generated references : list (list nat), generated <> [] /\ (forall h, In h generated -> In h references) /\
  exists v, corpus_bleu nat Nat.eq_dec generated references = Some v /\ v <= / 2 ^ 255.
Proof.
  exists [[1; 2; 3]%nat], [[1; 2; 3]%nat]. split; [discriminate|]. split; [auto|]. rewrite corpus_bleu_value by discriminate. eexists. split; [reflexivity|].
  assert (T : S4 Nat.eq_dec (against nat [[1; 2; 3]%nat] [[1; 2; 3]%nat]) ^ 4 <= / 2 ^ 1022) by (apply S4_tiny; [discriminate|]; exists 4%nat; split; [lia|reflexivity]).
  pose proof (S4_bounds Nat.eq_dec (against nat [[1; 2; 3]%nat] [[1; 2; 3]%nat]) ltac:(discriminate)) as B. set (v := S4 Nat.eq_dec _) in *. clearbody v.
  apply Rnot_lt_le. intros L. assert (P : 0 < / 2 ^ 255) by (apply Rinv_0_lt_compat, pow_lt; lra).
  assert (Q : (/ 2 ^ 255) ^ 4 < v ^ 4) by (cbn [pow]; rewrite !Rmult_1_r; assert (A : / 2 ^ 255 * / 2 ^ 255 < v * v) by nra; nra).
  rewrite pow_inv, <- pow_mult in Q. change (255 * 4)%nat with 1020%nat in Q. assert (R : / 2 ^ 1022 < / 2 ^ 1020) by (apply Rinv_lt_contravar; [apply Rmult_lt_0_compat; apply pow_lt; lra|apply Rlt_pow; [lra|lia]]). lra.
Qed.
(** The order of the sentences and the order and repetition of the references do not matter. *)
Theorem C97_order word (word_dec : forall a b : word, {a = b} + {a <> b}) generated generated' references references' :
  Permutation generated generated' -> (forall r, In r references <-> In r references') -> corpus_bleu word word_dec generated references = corpus_bleu word word_dec generated' references'.
Proof.
  intros P H. pose proof (like_against _ _ _ _ P H) as L. destruct (corpus_bleu word word_dec generated references) eqn:E.
  - assert (N : ~ (generated = [] \/ references = [])) by (rewrite <- (corpus_bleu_none word_dec), E; discriminate). rewrite corpus_bleu_value in E by tauto. injection E as <-.
    assert (F : fine (against word references' generated')) by (eapply like_fine; [exact L|apply against_fine; tauto]). apply against_fine in F. rewrite corpus_bleu_value by apply F. f_equal. apply (like_scores word_dec _ _ L).
  - symmetry. apply corpus_bleu_none. apply corpus_bleu_none in E. destruct E as [-> | ->].
    + left. apply Permutation_nil, P.
    + right. destruct references' as [|r rs]; [reflexivity|]. destruct (proj2 (H r) (or_introl eq_refl)).
Qed.
(** Further references can lower the score: tbc_wiki_bleu need not be the largest of the three. *)
Theorem C97_more_references_refuted : exists (generated a b : list (list nat)) u v, corpus_bleu nat Nat.eq_dec generated a = Some u /\ corpus_bleu nat Nat.eq_dec generated (a ++ b) = Some v /\ v < u.
Proof.
  exists [[1; 2; 3; 4; 5; 6]%nat], [[1; 2; 3; 4]%nat], [[7; 7; 7; 7; 7; 7; 7]%nat]. rewrite !corpus_bleu_value by discriminate. eexists. eexists. split; [reflexivity|]. split; [reflexivity|].
  unfold S4. set (c := against nat [[1; 2; 3; 4]%nat] _). set (d := against nat ([[1; 2; 3; 4]%nat] ++ _) _).
  assert (E : forall n, (1 <= n <= 4)%nat -> lns Nat.eq_dec d n = lns Nat.eq_dec c n).
  { intros n Hn. unfold lns, smc, precision. assert (n = 1 \/ n = 2 \/ n = 3 \/ n = 4)%nat as [-> | [-> | [-> | ->]]] by lia; reflexivity. }
  replace (hits nat Nat.eq_dec 1 d) with 4%nat by reflexivity. replace (hits nat Nat.eq_dec 1 c) with 4%nat by reflexivity. cbn [Nat.eqb]. rewrite !E by lia.
  assert (B1 : bpc c = 1) by reflexivity. assert (B2 : bpc d = exp (1 - INR 7 / INR 6)) by reflexivity. rewrite B1, B2. apply Rmult_lt_compat_r; [apply exp_pos|]. apply (Rlt_le_trans _ (exp 0)); [apply exp_increasing; cbn [INR]; lra|rewrite exp_0; lra].
Qed.
(** The number printed as BLEU-3 has two weights: no trigram enters it. *)
Theorem C97_third word (word_dec : forall a b : word, {a = b} + {a <> b}) generated references : generated <> [] -> references <> [] ->
  exists b2 b3 b4 b, corpus_bleu3 word word_dec generated references = Some (b2, b3, b4) /\ penalty word (against word references generated) b /\ 0 <= b2 <= 1 /\ 0 <= b3 <= 1 /\
    b3 ^ 3 = b * b2 ^ 2 /\ ((forall n, (1 <= n <= 2)%nat -> (0 < hits word word_dec n (against word references generated))%nat) ->
      b2 ^ 2 = b ^ 2 * (precision word word_dec 1 (against word references generated) * precision word word_dec 2 (against word references generated))).
Proof.
  intros Hg Hr. set (c := against word references generated). assert (F : fine c) by (apply against_fine; auto).
  exists (S2 word_dec c (1 / 2)), (S2 word_dec c (1 / 3)), (S4 word_dec c), (bpc c). split; [apply corpus_bleu3_value; assumption|]. split; [apply penalty_iff; [apply F|reflexivity]|].
  split; [apply S2_bounds; [apply F|lra]|]. split; [apply S2_bounds; [apply F|lra]|]. split.
  - destruct (Nat.eq_dec (hits word word_dec 1 c) 0) as [E|E]; [unfold S2; rewrite E; cbn [Nat.eqb]; ring|].
    pose proof (S2_pow word_dec c 3 ltac:(lia) (proj1 F) E) as P3. pose proof (S2_pow word_dec c 2 ltac:(lia) (proj1 F) E) as P2.
    replace (INR 3) with 3 in P3 by (cbn; lra). replace (INR 2) with 2 in P2 by (cbn; lra). rewrite P3, P2. ring.
  - intros H. pose proof (H 1%nat ltac:(lia)) as H1. pose proof (H 2%nat ltac:(lia)) as H2. pose proof (S2_pow word_dec c 2 ltac:(lia) (proj1 F) ltac:(lia)) as P2. replace (INR 2) with 2 in P2 by (cbn; lra).
    rewrite P2. unfold smc. rewrite !(proj2 (Nat.eqb_neq _ _)) by lia. reflexivity.
Qed.
Theorem C97_third_refuted : exists generated references : list (list nat), hits nat Nat.eq_dec 3 (against nat references generated) = 0%nat /\
  exists b2 b4, corpus_bleu3 nat Nat.eq_dec generated references = Some (b2, 1, b4).
Proof.
  exists [[1; 2; 3]%nat], [[1; 2]; [2; 3]]%nat. split; [reflexivity|]. rewrite corpus_bleu3_value by discriminate. eexists. eexists. f_equal. f_equal. f_equal.
  unfold S2. set (c := against nat _ _). replace (hits nat Nat.eq_dec 1 c) with 3%nat by reflexivity. cbn [Nat.eqb]. replace (bpc c) with 1 by reflexivity.
  assert (Z1 : smc Nat.eq_dec c 1 = 1) by (apply smc_one; [discriminate|reflexivity]). assert (Z2 : smc Nat.eq_dec c 2 = 1) by (apply smc_one; [discriminate|reflexivity]).
  unfold lns. rewrite Z1, Z2, ln_1. replace (1 / 3 * (0 + 0)) with 0 by ring. rewrite exp_0. ring.
Qed.
Example C97_value_case : exists generated references : list (list nat), generated <> [] /\ references <> [] /\
  (forall n, (1 <= n <= 4)%nat -> (0 < hits nat Nat.eq_dec n (against nat references generated))%nat) /\
  hits nat Nat.eq_dec 1 (against nat references generated) = 6%nat /\ tries nat 1 (against nat references generated) = 9%nat /\
  penalty nat (against nat references generated) (exp (1 - 10 / 9)) /\ Permutation generated [[1; 1; 1; 1]; [1; 2; 3; 4; 5]]%nat.
Proof.
  exists [[1; 2; 3; 4; 5]; [1; 1; 1; 1]]%nat, [[1; 2; 3; 4; 6]; [2; 2; 2; 1; 1]]%nat. split; [discriminate|]. split; [discriminate|]. split.
  { intros n Hn. assert (n = 1 \/ n = 2 \/ n = 3 \/ n = 4)%nat as [-> | [-> | [-> | ->]]] by lia; vm_compute; lia. }
  split; [reflexivity|]. split; [reflexivity|]. split; [|apply perm_swap].
  apply penalty_iff; [intros p [<-|[<-|[]]]; discriminate|]. replace (bpc (against nat [[1; 2; 3; 4; 6]; [2; 2; 2; 1; 1]]%nat [[1; 2; 3; 4; 5]; [1; 1; 1; 1]]%nat)) with (exp (1 - INR 10 / INR 9)) by reflexivity. f_equal. cbn [INR]. lra.
Qed.

(** ** Self-BLEU *)
Theorem C97_self word (word_dec : forall a b : word, {a = b} + {a <> b}) sents :
  (self_bleu word word_dec sents = None <-> (length sents < 2)%nat) /\
  (forall v, self_bleu word word_dec sents = Some v -> 0 <= v <= 1) /\
  (forall sents', Permutation sents sents' -> self_bleu word word_dec sents' = self_bleu word word_dec sents) /\
  ((2 <= length sents)%nat -> (forall i s, nth_error sents i = Some s -> (4 <= length s)%nat /\ exists j, i <> j /\ nth_error sents j = Some s) -> self_bleu word word_dec sents = Some 1).
Proof.
  split; [apply self_bleu_none|]. split; [|split; [|apply self_twice]].
  - intros v H. assert (N : ~ (length sents < 2)%nat) by (rewrite <- (self_bleu_none word_dec), H; discriminate). rewrite self_bleu_value in H by lia. injection H as <-. apply S4_bounds.
    assert (F : fine (pairs sents)) by (apply pairs_fine; lia). apply F.
  - intros l P. pose proof (Permutation_length P) as L. destruct (Nat.lt_ge_cases (length sents) 2) as [G|G].
    + rewrite (proj2 (self_bleu_none word_dec sents) G). apply self_bleu_none. lia.
    + rewrite !self_bleu_value by lia. f_equal. rewrite !pairs_picks. apply (like_scores word_dec). apply like_picks, Permutation_sym, P.
Qed.
(** It is the same score, each sentence against the others. *)
Theorem C97_self_value word (word_dec : forall a b : word, {a = b} + {a <> b}) sents : (2 <= length sents)%nat ->
  exists c v b, Forall2 (fun s p => snd p = s) sents c /\
    (forall i p, nth_error c i = Some p -> forall r, In r (fst p) <-> exists j, j <> i /\ nth_error sents j = Some r) /\
    self_bleu word word_dec sents = Some v /\ penalty word c b /\
    ((forall n, (1 <= n <= 4)%nat -> (0 < hits word word_dec n c)%nat) ->
       v ^ 4 = b ^ 4 * (precision word word_dec 1 c * precision word word_dec 2 c * precision word word_dec 3 c * precision word word_dec 4 c)) /\
    (hits word word_dec 1 c = 0%nat -> v = 0) /\ ((exists n, (1 <= n <= 4)%nat /\ hits word word_dec n c = 0%nat) -> v ^ 4 <= / 2 ^ 1022).
Proof.
  intros H. assert (F : fine (pairs sents)) by (apply pairs_fine, H). exists (pairs sents), (S4 word_dec (pairs sents)), (bpc (pairs sents)).
  split; [apply pairs_snd|]. split; [apply pairs_fst|]. split; [apply self_bleu_value, H|]. split; [apply penalty_iff; [apply F|reflexivity]|].
  split; [intros G; apply S4_value; [apply F|intros n Hn; specialize (G n Hn); lia]|]. split; [apply S4_zero|apply S4_tiny, F].
Qed.
Example C97_self_case : exists sents : list (list nat), (2 <= length sents)%nat /\ self_bleu nat Nat.eq_dec sents = Some 1.
Proof.
  exists [[1; 2; 3; 4]; [1; 2; 3; 4]]%nat. split; [cbn; lia|]. apply self_twice; [cbn; lia|]. intros [|[|i]] s E; cbn in E; [| |destruct i; discriminate]; injection E as <-; (split; [cbn; lia|]);
  [exists 1%nat|exists 0%nat]; split; try discriminate; reflexivity.
Qed.

(** ** Reference files and the table of results *)
(** Capitals in the files do not matter; lines are kept one by one; the words are the tokens between white space. *)
Theorem C97_prepare lines :
  prepare_wiki (map lower lines) = prepare_wiki lines /\ prepare_tbc (map lower lines) = prepare_tbc lines /\
  length (prepare_wiki lines) = length lines /\ length (prepare_tbc lines) = length lines /\
  (forall s t, In s (prepare_wiki lines) -> In t s -> t = "[UNK]"%string \/ (no_capital t /\ t <> "@@unknown@@"%string)) /\
  (forall s t, In s (prepare_tbc lines) -> In t s -> no_capital t /\ t <> "``"%string /\ t <> "''"%string).
Proof.
  split; [apply prepare_lower|]. split; [apply prepare_lower|]. split; [apply prepare_rows|]. split; [apply prepare_rows|].
  split; intros s t Hs Ht; rewrite <- lower_no_capital; [apply (wiki_tokens lines s t Hs Ht)|apply (tbc_tokens lines s t Hs Ht)].
Qed.
Theorem C97_words : words "" = [] /\ (forall w, w <> ""%string -> no_white w -> words w = [w]) /\
  (forall a c b, white c -> words (a ++ String c b)%string = words a ++ words b) /\
  forall s w, In w (words s) -> w <> ""%string /\ no_white w.
Proof.
  split; [reflexivity|]. split; [intros w N H; apply words_one; [exact N|apply no_space_white, H]|]. split; [intros a c b H; apply words_split, is_space_white, H|].
  intros s w H. destruct (words_clean s w H) as [A B]. split; [exact A|apply no_space_white, B].
Qed.
Example C97_words_case : words "  a bc " = ["a"; "bc"]%string /\ prepare_tbc ["`` I AM '' Here"]%string = [[""""; "i"; "am"; """"; "here"]]%string /\
  prepare_wiki ["The @@UNKNOWN@@ cat"]%string = [["the"; "[UNK]"; "cat"]]%string.
Proof. repeat split. Qed.
(** A table is saved exactly when both files and the list of sentences are not empty and some sentence is long enough for the n-grams. *)
Theorem C97_report max_n wiki tbc sentences :
  (exists r, lm_evaluate max_n wiki tbc sentences = Some r) <-> wiki <> [] /\ tbc <> [] /\ sentences <> [] /\ (max_n = 0%nat \/ exists s, In s sentences /\ (max_n <= length (words s))%nat).
Proof. apply lm_evaluate_some. Qed.
(** Its scores are those of the files they are named after, of the white-space separated words of the sentences. *)
Theorem C97_entries max_n wiki tbc sentences r : lm_evaluate max_n wiki tbc sentences = Some r ->
  let score refs := corpus_bleu string string_dec (map words sentences) refs in
  score (prepare_tbc tbc) = Some (tbc_bleu r) /\ score (prepare_wiki wiki) = Some (wiki_bleu r) /\
  score (prepare_wiki wiki ++ prepare_tbc tbc) = Some (tbc_wiki_bleu r) /\
  (forall v, self_bleu_entry r = Some v <-> self_bleu string string_dec (map words sentences) = Some v) /\
  0 <= tbc_bleu r <= 1 /\ 0 <= wiki_bleu r <= 1 /\ 0 <= tbc_wiki_bleu r <= 1 /\
  map fst (unique_wiki r) = seq 1 max_n /\ map fst (unique_tbc r) = seq 1 max_n /\ map fst (unique_self r) = seq 1 max_n.
Proof. apply lm_entries. Qed.
(** The sentences are not lower-cased while the files are: a sentence copied from both files can score 0. *)
Theorem C97_case_refuted : exists line r, lm_evaluate 4 [line] [line] [line] = Some r /\ tbc_bleu r = 0 /\ wiki_bleu r = 0 /\ tbc_wiki_bleu r = 0 /\
  exists r', lm_evaluate 4 [line] [line] [lower line] = Some r' /\ tbc_bleu r' = 1 /\ wiki_bleu r' = 1.
Proof. exact case_matters. Qed.

Print Assumptions C97_value.
Print Assumptions C97_fails.
Print Assumptions C97_perfect.
Print Assumptions C97_copies.
Print Assumptions C97_copies_refuted.
Print Assumptions C97_order.
Print Assumptions C97_more_references_refuted.
Print Assumptions C97_third.
Print Assumptions C97_third_refuted.
Print Assumptions C97_self.
Print Assumptions C97_self_value.
Print Assumptions C97_prepare.
Print Assumptions C97_words.
Print Assumptions C97_report.
Print Assumptions C97_entries.
Print Assumptions C97_case_refuted.
