From Coq Require Import String Ascii List Bool Reals Arith Lia Lra Permutation.
From Verif.Base Require Import RSum.
From Verif.Spec Require Import BleuSpec.
From Verif.Model Require Import Bleu.
From Verif.Model Require Tools.
From Verif.Proof Require Import BleuProof BleuFacts.
From Verif.Proof Require ToolsProof.
Import ListNotations.
Local Open Scope R_scope.

Section Words.
Context {word : Type} (word_dec : forall a b : word, {a = b} + {a <> b}).
Notation sent := (list word).
Notation S4 := (S4 word_dec). Notation S2 := (S2 word_dec).
Notation against := (against word).

Lemma against_fine (generated references : list sent) : fine (against references generated) <-> generated <> [] /\ references <> [].
Proof.
  unfold fine, BleuSpec.against. split.
  - intros [A B]. destruct generated as [|h g]; [contradiction|]. split; [discriminate|]. exact (B (references, h) (or_introl eq_refl)).
  - intros [A B]. split; [destruct generated; [contradiction|discriminate]|]. intros p Hp. apply in_map_iff in Hp. destruct Hp as (h & <- & _). exact B.
Qed.
Lemma corpus_bleu3_value generated references : generated <> [] -> references <> [] ->
  corpus_bleu3 word word_dec generated references = Some (S2 (against references generated) (1 / 2), S2 (against references generated) (1 / 3), S4 (against references generated)).
Proof. intros A B. unfold corpus_bleu3. fold (against references generated). rewrite bleu_three by (apply against_fine; auto). reflexivity. Qed.
Lemma corpus_bleu_value generated references : generated <> [] -> references <> [] -> corpus_bleu word word_dec generated references = Some (S4 (against references generated)).
Proof. intros A B. unfold corpus_bleu. rewrite corpus_bleu3_value by assumption. reflexivity. Qed.
Lemma corpus_bleu_none generated references : corpus_bleu word word_dec generated references = None <-> generated = [] \/ references = [].
Proof.
  split.
  - intros H. destruct generated as [|h g]; [auto|]. destruct references as [|r rs]; [auto|]. rewrite corpus_bleu_value in H by discriminate. discriminate.
  - intros H. unfold corpus_bleu, corpus_bleu3. fold (against references generated). rewrite bleu_scores_fails; [reflexivity|discriminate|intros w [<-|[<-|[<-|[]]]]; discriminate|].
    rewrite against_fine. destruct H as [-> | ->]; tauto.
Qed.

(** ** Each sentence against the others *)
Definition pairs (sents : list sent) : list (list sent * sent) := combine (map (others word sents) (seq 0 (length sents))) sents.
Fixpoint picks (l : list sent) : list (list sent * sent) := match l with [] => [] | x :: l' => (l', x) :: map (fun q => (x :: fst q, snd q)) (picks l') end.
Lemma combine_map_l {A B C} (f : A -> B) (l : list A) (l' : list C) : combine (map f l) l' = map (fun q => (f (fst q), snd q)) (combine l l').
Proof. revert l'. induction l as [|a l IH]; intros [|c l']; try reflexivity. cbn. rewrite IH. reflexivity. Qed.
Lemma pairs_picks l : pairs l = picks l.
Proof.
  induction l as [|x l IH]; [reflexivity|]. unfold pairs in *. cbn [length seq map combine picks]. unfold others at 1. cbn [firstn skipn app]. f_equal.
  rewrite <- seq_shift, map_map. rewrite <- IH. rewrite <- combine_map_l, map_map. f_equal.
Qed.
Lemma in_pairs l p : In p (pairs l) <-> exists i, nth_error l i = Some (snd p) /\ fst p = others word l i.
Proof.
  rewrite pairs_picks. revert p. induction l as [|x l IH]; intros p; cbn [picks].
  - split; [intros []|]. intros (i & E & _). destruct i; discriminate.
  - split.
    + intros [<-|H]; [exists 0%nat; split; reflexivity|]. apply in_map_iff in H. destruct H as (q & <- & Hq). apply IH in Hq. destruct Hq as (i & E & F). exists (S i). cbn [nth_error fst snd]. split; [exact E|].
      rewrite F. reflexivity.
    + intros ([|i] & E & F).
      * left. cbn in E. injection E as E. destruct p as [o s]. cbn in *. subst. reflexivity.
      * right. apply in_map_iff. cbn [nth_error] in E. exists (others word l i, snd p). split; [destruct p as [o s]; cbn [fst snd] in *; rewrite F; reflexivity|]. apply IH. exists i. auto.
Qed.
Lemma others_length (l : list sent) i : (i < length l)%nat -> length (others word l i) = (length l - 1)%nat.
Proof. intros H. unfold others. rewrite app_length, firstn_length, skipn_length. lia. Qed.
Lemma pairs_fine l : fine (pairs l) <-> (2 <= length l)%nat.
Proof.
  split.
  - intros [A B]. destruct l as [|x [|y l]]; [contradiction|exfalso|cbn; lia]. apply (B ([], x)); [left; reflexivity|reflexivity].
  - intros H. split; [destruct l; [cbn in H; lia|discriminate]|]. intros p Hp E. apply in_pairs in Hp. destruct Hp as (i & Ei & F). assert (L : (i < length l)%nat) by (apply nth_error_Some; congruence).
    pose proof (others_length l i L) as Q. rewrite <- F, E in Q. cbn in Q. lia.
Qed.
Lemma self_bleu_value l : (2 <= length l)%nat -> self_bleu word word_dec l = Some (S4 (pairs l)).
Proof. intros H. unfold self_bleu. fold (pairs l). rewrite bleu_one by (apply pairs_fine, H). reflexivity. Qed.
Lemma self_bleu_none l : self_bleu word word_dec l = None <-> (length l < 2)%nat.
Proof.
  split.
  - intros H. destruct (Nat.lt_ge_cases (length l) 2) as [|G]; [assumption|]. rewrite self_bleu_value in H by exact G. discriminate.
  - intros H. unfold self_bleu. fold (pairs l). rewrite bleu_scores_fails; [reflexivity|discriminate|intros w [<-|[]]; discriminate|]. rewrite pairs_fine. lia.
Qed.
Lemma alike_refl (c : list (list sent * sent)) : Forall2 alike c c.
Proof. induction c; constructor; [split; [intros r; reflexivity|reflexivity]|assumption]. Qed.
Lemma like_trans (a b c : corpus (word := word)) : like a b -> like b c -> like a c.
Proof.
  intros (d & P & F) (e & Q & G). assert (F' : Forall2 (fun q p => alike p q) b d) by (clear -F; induction F; constructor; assumption).
  destruct (Permutation_Forall2 Q F') as (d' & P' & F''). exists d'. split; [eapply Permutation_trans; eassumption|].
  clear -F'' G. revert c G. induction F'' as [|q p b d [A E] _ IH]; intros c G; [inversion G; constructor|]. inversion G as [|? q' ? c' [A' E'] G']; subst. constructor; [|apply IH; assumption].
  split; [intros r; rewrite A; apply A'|congruence].
Qed.
Lemma like_picks l l' : Permutation l l' -> like (picks l) (picks l').
Proof.
  induction 1 as [|x l l' P (d & Q & F)|x y l|l1 l2 l3 _ IH1 _ IH2].
  - exists []. split; constructor.
  - exists ((l, x) :: map (fun q => (x :: fst q, snd q)) d). cbn [picks]. split; [constructor; apply Permutation_map, Q|]. constructor.
    + split; [|reflexivity]. intros r. cbn [fst]. split; apply Permutation_in; [exact P|apply Permutation_sym, P].
    + clear -F. induction F as [|p q d c [A E] _ IH]; [constructor|]. cbn [map]. constructor; [|exact IH]. split; [|exact E]. intros r. cbn [fst In]. rewrite (A r). reflexivity.
  - cbn [picks map]. eexists. split; [apply perm_swap|]. constructor; [split; reflexivity|]. constructor; [split; reflexivity|].
    rewrite !map_map. cbn [fst snd]. induction (picks l) as [|q c IH]; [constructor|]. cbn [map]. constructor; [|exact IH]. split; [|reflexivity]. intros r. cbn [fst In]. tauto.
  - eapply like_trans; eassumption.
Qed.
Lemma like_against g g' rs rs' : Permutation g g' -> (forall r : sent, In r rs <-> In r rs') -> like (against rs g) (against rs' g').
Proof.
  intros P H. exists (against rs g'). split; [apply Permutation_map, P|]. unfold BleuSpec.against. induction g' as [|h g' IH] in |- *; [constructor|]. cbn [map]. constructor; [split; [exact H|reflexivity]|exact IH].
Qed.
Lemma copies_one (c : corpus (word := word)) : fine c -> (forall p, In p c -> In (snd p) (fst p) /\ (4 <= length (snd p))%nat) -> S4 c = 1.
Proof.
  intros Hf H. apply S4_one_iff; [exact Hf|]. split.
  - exists (map (fun p => length (snd p)) c). split.
    + clear Hf. induction c as [|p c IH]; [constructor|]. cbn [map]. constructor; [|apply IH; intros q Hq; apply H; right; exact Hq]. destruct (H p (or_introl eq_refl)) as [Hi _].
      split; [apply in_map_iff; exists (snd p); auto|]. intros r _. unfold distance. rewrite Nat.max_id, Nat.min_id, Nat.sub_diag. destruct (Nat.eq_dec (length r) (length (snd p))) as [->|N]; [right; lia|left; lia].
    + cbv zeta. left. split; [lia|]. split; [|reflexivity]. destruct c as [|p c]; [destruct Hf as [N _]; contradiction|]. cbn [map list_sum fold_right]. destruct (H p (or_introl eq_refl)). lia.
  - intros p Hp. destruct (H p Hp) as [Hi L]. split; [exact L|]. intros n _ g _ _. exists (snd p). split; [exact Hi|lia].
Qed.
Lemma in_others (l : list sent) i j s : i <> j -> nth_error l j = Some s -> In s (others word l i).
Proof.
  intros N E. unfold others. apply in_or_app. destruct (Nat.lt_ge_cases j i) as [L|L].
  - left. apply nth_error_In with (n := j). rewrite <- E. clear E N. revert l i L. induction j as [|j IH]; intros l i L; destruct i as [|i]; try lia; destruct l as [|a l]; try reflexivity.
    cbn [firstn nth_error]. apply IH. lia.
  - right. apply nth_error_In with (n := (j - S i)%nat). rewrite <- E. clear E. assert (G : (S i <= j)%nat) by lia. clear L N. revert l j G. generalize (S i) as k. induction k as [|k IH]; intros l j G; [rewrite Nat.sub_0_r; reflexivity|].
    destruct j as [|j]; [lia|]. destruct l as [|a l]; [destruct (S j - S k)%nat; reflexivity|]. cbn [skipn nth_error Nat.sub]. apply IH. lia.
Qed.
Lemma self_twice l : (2 <= length l)%nat -> (forall i s, nth_error l i = Some s -> (4 <= length s)%nat /\ exists j, i <> j /\ nth_error l j = Some s) -> self_bleu word word_dec l = Some 1.
Proof.
  intros H2 H. rewrite self_bleu_value by exact H2. f_equal. apply copies_one; [apply pairs_fine, H2|]. intros p Hp. apply in_pairs in Hp. destruct Hp as (i & E & F). destruct (H i _ E) as (L & j & N & Ej).
  split; [rewrite F; eapply in_others; eassumption|exact L].
Qed.
End Words.

(** ** Reading the reference files *)
Lemma lower_char_idem c : lower_char (lower_char c) = lower_char c.
Proof. destruct c as [[] [] [] [] [] [] [] []]; reflexivity. Qed.
Lemma lower_char_space c : is_space (lower_char c) = is_space c.
Proof. destruct c as [[] [] [] [] [] [] [] []]; reflexivity. Qed.
Lemma lower_idem s : lower (lower s) = lower s.
Proof. induction s as [|c s IH]; [reflexivity|]. cbn [lower]. rewrite lower_char_idem, IH. reflexivity. Qed.
Lemma lower_app a b : lower (a ++ b)%string = (lower a ++ lower b)%string.
Proof. induction a as [|c a IH]; [reflexivity|]. cbn [lower append]. rewrite IH. reflexivity. Qed.
Lemma lower_empty s : String.eqb (lower s) "" = String.eqb s "".
Proof. destruct s; reflexivity. Qed.
Lemma words_lower s : words (lower s) = map lower (words s).
Proof.
  unfold words. assert (H : forall s cur, split_ws (lower cur) (lower s) = map lower (split_ws cur s)); [|apply (H s ""%string)].
  clear s. induction s as [|c s IH]; intros cur; cbn [lower split_ws].
  - rewrite lower_empty. destruct (String.eqb cur ""); reflexivity.
  - rewrite lower_char_space, lower_empty. destruct (is_space c).
    + destruct (String.eqb cur ""); [apply (IH ""%string)|]. cbn [map]. f_equal. apply (IH ""%string).
    + rewrite <- IH, lower_app. reflexivity.
Qed.
Fixpoint no_space (s : string) : Prop := match s with EmptyString => True | String c s' => is_space c = false /\ no_space s' end.
Lemma no_space_app a b : no_space (a ++ b)%string <-> no_space a /\ no_space b.
Proof. induction a as [|c a IH]; cbn [append no_space]; [tauto|]. rewrite IH. tauto. Qed.
Lemma words_clean s w : In w (words s) -> w <> ""%string /\ no_space w.
Proof.
  unfold words. assert (H : forall s cur, no_space cur -> In w (split_ws cur s) -> w <> ""%string /\ no_space w); [|intros Hw; apply (H s ""%string I Hw)].
  clear s. induction s as [|c s IH]; intros cur Hc Hw; cbn [split_ws] in Hw.
  - destruct (String.eqb_spec cur "") as [|N]; [destruct Hw|]. destruct Hw as [<-|[]]. auto.
  - destruct (is_space c) eqn:E.
    + destruct (String.eqb_spec cur "") as [|N]; [apply (IH ""%string I Hw)|]. destruct Hw as [<-|Hw]; [auto|apply (IH ""%string I Hw)].
    + apply (IH (cur ++ String c "")%string); [|exact Hw]. apply no_space_app. cbn. auto.
Qed.
Definition joined (ws : list string) : string := fold_right (fun w s => (w ++ " " ++ s)%string) ""%string ws.
Lemma app_assoc_s a b c : ((a ++ b) ++ c)%string = (a ++ (b ++ c))%string.
Proof. induction a as [|x a IH]; [reflexivity|]. cbn [append]. rewrite IH. reflexivity. Qed.
Lemma split_word w : no_space w -> forall cur s, split_ws cur (w ++ s)%string = split_ws (cur ++ w)%string s.
Proof.
  induction w as [|c w IH]; intros H cur s; cbn [append].
  - replace (cur ++ "")%string with cur; [reflexivity|]. clear. induction cur as [|x l E]; [reflexivity|]. cbn [append]. rewrite <- E. reflexivity.
  - destruct H as [H1 H2]. cbn [split_ws]. rewrite H1, (IH H2), app_assoc_s. reflexivity.
Qed.
Lemma words_joined ws : Forall (fun w => w <> ""%string /\ no_space w) ws -> words (joined ws) = ws.
Proof.
  unfold words. induction 1 as [|w ws [N C] _ IH]; [reflexivity|]. cbn [joined fold_right]. rewrite (split_word w C). cbn [append split_ws]. change (is_space " ") with true. cbv iota.
  destruct (String.eqb_spec w ""); [contradiction|]. f_equal. exact IH.
Qed.
Lemma prepare_rows lines reps u : length (prepare_data lines reps u) = length lines.
Proof.
  unfold prepare_data. assert (H : forall d : list (list string), length (fold_left (fun d kv => map (map (fun t => if String.eqb t (fst kv) then snd kv else t)) d) reps d) = length d).
  { induction reps as [|kv reps IH]; intros d; [reflexivity|]. cbn [fold_left]. rewrite IH. apply map_length. }
  rewrite H. destruct u; rewrite ?map_length; reflexivity.
Qed.
Lemma prepare_lower lines reps : prepare_data (map lower lines) reps true = prepare_data lines reps true.
Proof.
  unfold prepare_data. f_equal. rewrite !map_map. apply map_ext. intros s. rewrite words_lower, map_map. apply map_ext. intros w. apply lower_idem.
Qed.
Lemma wiki_tokens lines s t : In s (prepare_wiki lines) -> In t s -> t = "[UNK]"%string \/ (lower t = t /\ t <> "@@unknown@@"%string).
Proof.
  unfold prepare_wiki, prepare_data. cbn [fold_left fst snd]. intros Hs Ht. apply in_map_iff in Hs. destruct Hs as (s1 & <- & H1). apply in_map_iff in Ht. destruct Ht as (t1 & <- & Ht).
  apply in_map_iff in H1. destruct H1 as (s2 & <- & _). apply in_map_iff in Ht. destruct Ht as (t2 & <- & _). destruct (String.eqb_spec (lower t2) "@@unknown@@"); [auto|]. right. split; [apply lower_idem|assumption].
Qed.
Lemma tbc_tokens lines s t : In s (prepare_tbc lines) -> In t s -> lower t = t /\ t <> "``"%string /\ t <> "''"%string.
Proof.
  unfold prepare_tbc, prepare_data. cbn [fold_left fst snd]. intros Hs Ht. apply in_map_iff in Hs. destruct Hs as (s1 & <- & H1). apply in_map_iff in Ht. destruct Ht as (t1 & <- & Ht).
  apply in_map_iff in H1. destruct H1 as (s2 & <- & H2). apply in_map_iff in Ht. destruct Ht as (t2 & <- & Ht). apply in_map_iff in H2. destruct H2 as (s3 & <- & _). apply in_map_iff in Ht. destruct Ht as (t3 & <- & _).
  destruct (String.eqb_spec (lower t3) "``") as [E|N].
  - cbn. split; [reflexivity|]. split; discriminate.
  - destruct (String.eqb_spec (lower t3) "''"); [split; [reflexivity|]; split; discriminate|]. split; [apply lower_idem|]. auto.
Qed.

(** ** The table *)
Lemma map_nil {A B} (f : A -> B) l : map f l <> [] <-> l <> [].
Proof. destruct l; cbn; split; intros H; try contradiction; discriminate. Qed.
Lemma rows_nil lines reps u : prepare_data lines reps u <> [] <-> lines <> [].
Proof. pose proof (prepare_rows lines reps u) as L. destruct (prepare_data lines reps u), lines; cbn in L; try discriminate; split; intros H; try contradiction; discriminate. Qed.
Lemma lm_evaluate_some max_n wiki tbc sentences :
  (exists r, lm_evaluate max_n wiki tbc sentences = Some r) <->
  wiki <> [] /\ tbc <> [] /\ sentences <> [] /\ (max_n = 0%nat \/ exists s, In s sentences /\ (max_n <= length (words s))%nat).
Proof.
  pose proof (ToolsProof.ref_ngrams_fail string string_dec (map words sentences) (prepare_wiki wiki) max_n) as U.
  pose proof (ToolsProof.ref_ngrams_fail string string_dec (map words sentences) (prepare_tbc tbc) max_n) as V.
  pose proof (ToolsProof.self_ngrams_fail string string_dec (map words sentences) max_n) as W.
  pose proof (rows_nil wiki [("@@unknown@@", "[UNK]")]%string true) as Rw. pose proof (rows_nil tbc [("``", quote); ("''", quote)]%string true) as Rt.
  fold (prepare_wiki wiki) in Rw. fold (prepare_tbc tbc) in Rt. pose proof (map_nil words sentences) as Rs. unfold lm_evaluate. split.
  - intros (r & H). destruct (corpus_bleu string string_dec (map words sentences) (prepare_tbc tbc)) eqn:E1; [|discriminate]. destruct (corpus_bleu string string_dec (map words sentences) (prepare_wiki wiki)) eqn:E2; [|discriminate].
    destruct (corpus_bleu string string_dec (map words sentences) (prepare_tbc tbc ++ prepare_wiki wiki)); [|discriminate].
    assert (N1 : ~ (map words sentences = [] \/ prepare_tbc tbc = [])) by (rewrite <- corpus_bleu_none; rewrite E1; discriminate).
    assert (N2 : ~ (map words sentences = [] \/ prepare_wiki wiki = [])) by (rewrite <- corpus_bleu_none; rewrite E2; discriminate).
    split; [tauto|]. split; [tauto|]. split; [tauto|].
    destruct (if (1 <? length (map words sentences))%nat then option_map Some (self_bleu string string_dec (map words sentences)) else Some None); [|discriminate].
    destruct (Tools.ref_unique_ngrams string string_dec (map words sentences) (prepare_wiki wiki) max_n) eqn:E3; [|discriminate].
    destruct (Nat.eq_dec max_n 0) as [|Nz]; [auto|]. right. clear -U Nz.
    assert (D : (exists s, In s sentences /\ (max_n <= length (words s))%nat) \/ forall s, In s sentences -> (length (words s) < max_n)%nat).
    { clear. induction sentences as [|s l IH]; [right; intros s []|]. destruct (Nat.le_gt_cases max_n (length (words s))) as [G|G]; [left; exists s; split; [left; reflexivity|exact G]|].
      destruct IH as [(q & Hq & L)|IH]; [left; exists q; split; [right; exact Hq|exact L]|]. right. intros q [<-|Hq]; auto. }
    destruct D as [D|D]; [exact D|]. exfalso. destruct U as [_ U]. discriminate U. split; [lia|]. intros s Hs. apply in_map_iff in Hs. destruct Hs as (q & <- & Hq). auto.
  - intros (A & B & C & D). apply Rw in A. apply Rt in B. apply Rs in C.
    rewrite !corpus_bleu_value by first [assumption|destruct (prepare_tbc tbc); [contradiction|discriminate]].
    assert (F : forall o : option (list (nat * R)), (o = None <-> (1 <= max_n)%nat /\ forall s, In s (map words sentences) -> (length s < max_n)%nat) -> exists t, o = Some t).
    { intros [t|] O; [eauto|]. destruct O as [O _]. destruct (O eq_refl) as [G1 G2]. exfalso. destruct D as [->|(s & Hs & L)]; [lia|]. specialize (G2 (words s) (in_map words _ _ Hs)). lia. }
    destruct (F _ U) as [u ->], (F _ V) as [v ->], (F _ W) as [w ->].
    destruct (Nat.ltb_spec 1 (length (map words sentences))) as [G|G]; [rewrite self_bleu_value by lia|]; cbn [option_map]; eauto.
Qed.
Lemma pairs_snd {word} (l : list (list word)) : Forall2 (fun s p => snd p = s) l (pairs l).
Proof.
  rewrite pairs_picks. induction l as [|x l IH]; [constructor|]. cbn [picks]. constructor; [reflexivity|]. clear -IH. induction IH as [|s p l c E _ IH]; [constructor|]. cbn [map]. constructor; [exact E|exact IH].
Qed.
Lemma nth_error_combine_l {A B} (l : list A) (l' : list B) i p : nth_error (combine l l') i = Some p -> nth_error l i = Some (fst p).
Proof. revert l l'. induction i as [|i IH]; intros [|a l] [|b l'] H; cbn in *; try discriminate; [injection H as <-; reflexivity|]. eapply IH; eassumption. Qed.
Lemma pairs_fst {word} (l : list (list word)) i p : nth_error (pairs l) i = Some p -> forall r, In r (fst p) <-> exists j, j <> i /\ nth_error l j = Some r.
Proof.
  intros H r. unfold pairs in H. apply nth_error_combine_l in H. rewrite nth_error_map in H. destruct (nth_error (seq 0 (length l)) i) as [k|] eqn:E; [|discriminate]. cbn in H. injection H as H.
  assert (K : k = i). { assert (L : (i < length (seq 0 (length l)))%nat) by (apply nth_error_Some; congruence). rewrite seq_length in L. pose proof (nth_error_nth _ _ 0%nat E) as Q. rewrite seq_nth in Q by exact L. cbn in Q. auto. }
  subst k. rewrite <- H. split.
  - intros Hr. unfold others in Hr. apply in_app_iff in Hr. destruct Hr as [Hr|Hr]; apply In_nth_error in Hr; destruct Hr as (j & Hj).
    + assert (J : (j < i)%nat). { assert (Q : (j < length (firstn i l))%nat) by (apply nth_error_Some; congruence). rewrite firstn_length in Q. lia. }
      exists j. split; [lia|]. rewrite <- Hj. clear -J. revert l i J. induction j as [|j IH]; intros l i J; destruct i as [|i]; try lia; destruct l as [|a l]; try reflexivity. cbn [firstn nth_error]. apply IH. lia.
    + exists (S i + j)%nat. split; [lia|]. rewrite <- Hj. generalize (S i) as k. clear. intros k. revert l. induction k as [|k IH]; intros l; [reflexivity|]. destruct l as [|a l]; [cbn; destruct j; reflexivity|]. cbn [Nat.add nth_error skipn]. apply IH.
  - intros (j & N & Ej). eapply in_others; [|exact Ej]. auto.
Qed.
Lemma lm_entries max_n wiki tbc sentences r : lm_evaluate max_n wiki tbc sentences = Some r ->
  let score refs := corpus_bleu string string_dec (map words sentences) refs in
  score (prepare_tbc tbc) = Some (tbc_bleu r) /\ score (prepare_wiki wiki) = Some (wiki_bleu r) /\
  score (prepare_wiki wiki ++ prepare_tbc tbc) = Some (tbc_wiki_bleu r) /\
  (forall v, self_bleu_entry r = Some v <-> self_bleu string string_dec (map words sentences) = Some v) /\
  0 <= tbc_bleu r <= 1 /\ 0 <= wiki_bleu r <= 1 /\ 0 <= tbc_wiki_bleu r <= 1 /\
  map fst (unique_wiki r) = seq 1 max_n /\ map fst (unique_tbc r) = seq 1 max_n /\ map fst (unique_self r) = seq 1 max_n.
Proof.
  intros H. cbv beta zeta. unfold lm_evaluate in H. set (c := map words sentences) in *.
  assert (Rg : forall refs v, corpus_bleu string string_dec c refs = Some v -> 0 <= v <= 1).
  { intros refs v E. assert (N : ~ (c = [] \/ refs = [])) by (rewrite <- (corpus_bleu_none string_dec), E; discriminate). rewrite corpus_bleu_value in E by tauto. injection E as <-. apply S4_bounds.
    destruct c; [tauto|discriminate]. }
  assert (Sw : corpus_bleu string string_dec c (prepare_wiki wiki ++ prepare_tbc tbc) = corpus_bleu string string_dec c (prepare_tbc tbc ++ prepare_wiki wiki)).
  { destruct (corpus_bleu string string_dec c (prepare_tbc tbc ++ prepare_wiki wiki)) eqn:E.
    - assert (N : ~ (c = [] \/ prepare_tbc tbc ++ prepare_wiki wiki = [])) by (rewrite <- (corpus_bleu_none string_dec), E; discriminate). rewrite corpus_bleu_value in * by (intros Q; try apply app_eq_nil in Q; try destruct Q; apply N; auto; right; subst; match goal with A : _ = [], B : _ = [] |- _ => rewrite A, B end; reflexivity).
      rewrite <- E. f_equal. apply (like_scores string_dec). apply like_against; [apply Permutation_refl|]. intros x. rewrite !in_app_iff. tauto.
    - apply corpus_bleu_none. apply corpus_bleu_none in E. destruct E as [E|E]; [auto|]. right. apply app_eq_nil in E. destruct E as [-> ->]. reflexivity. }
  rewrite Sw. destruct (corpus_bleu string string_dec c (prepare_tbc tbc)) as [a|] eqn:E1; [|discriminate]. destruct (corpus_bleu string string_dec c (prepare_wiki wiki)) as [b|] eqn:E2; [|discriminate].
  destruct (corpus_bleu string string_dec c (prepare_tbc tbc ++ prepare_wiki wiki)) as [d|] eqn:E3; [|discriminate].
  destruct (if (1 <? length c)%nat then option_map Some (self_bleu string string_dec c) else Some None) as [s|] eqn:E4; [|discriminate].
  destruct (Tools.ref_unique_ngrams string string_dec c (prepare_wiki wiki) max_n) as [u|] eqn:E5; [|discriminate]. destruct (Tools.ref_unique_ngrams string string_dec c (prepare_tbc tbc) max_n) as [v|] eqn:E6; [|discriminate].
  destruct (Tools.self_unique_ngrams string string_dec c max_n) as [w|] eqn:E7; [|discriminate]. injection H as <-. cbn [tbc_bleu wiki_bleu tbc_wiki_bleu self_bleu_entry unique_wiki unique_tbc unique_self].
  do 3 (split; [reflexivity|]). split.
  { intros x. destruct (Nat.ltb_spec 1 (length c)) as [L|L].
    - destruct (self_bleu string string_dec c) as [y|]; [|discriminate]. cbn in E4. injection E4 as <-. split; intros Q; exact Q.
    - injection E4 as <-. rewrite (proj2 (self_bleu_none string_dec c)) by lia. split; discriminate. }
  split; [exact (Rg _ _ E1)|]. split; [exact (Rg _ _ E2)|]. split; [exact (Rg _ _ E3)|].
  split; [exact (proj1 (ToolsProof.collect_some _ _ _ E5))|]. split; [exact (proj1 (ToolsProof.collect_some _ _ _ E6))|exact (proj1 (ToolsProof.collect_some _ _ _ E7))].
Qed.
Lemma case_matters : exists line r, lm_evaluate 4 [line] [line] [line] = Some r /\ tbc_bleu r = 0 /\ wiki_bleu r = 0 /\ tbc_wiki_bleu r = 0 /\
  exists r', lm_evaluate 4 [line] [line] [lower line] = Some r' /\ tbc_bleu r' = 1 /\ wiki_bleu r' = 1.
Proof.
  set (line := "Hello There Old Friend"%string). exists line.
  assert (X : forall s, words s <> [] -> (4 <= length (words s))%nat -> exists r, lm_evaluate 4 [line] [line] [s] = Some r).
  { intros s _ L. apply lm_evaluate_some. repeat (split; [discriminate|]). right. exists s. split; [left; reflexivity|exact L]. }
  destruct (X line ltac:(vm_compute; discriminate) ltac:(vm_compute; lia)) as (r & E). destruct (X (lower line) ltac:(vm_compute; discriminate) ltac:(vm_compute; lia)) as (r' & E'). exists r. split; [exact E|].
  destruct (lm_entries _ _ _ _ _ E) as (A & B & D & _). destruct (lm_entries _ _ _ _ _ E') as (A' & B' & _).
  change (map words [line]) with [["Hello"; "There"; "Old"; "Friend"]]%string in *. change (map words [lower line]) with [["hello"; "there"; "old"; "friend"]]%string in *.
  change (prepare_tbc [line]) with [["hello"; "there"; "old"; "friend"]]%string in *. change (prepare_wiki [line]) with [["hello"; "there"; "old"; "friend"]]%string in *.
  rewrite corpus_bleu_value in A, B, D, A', B' by discriminate. injection A as A. injection B as B. injection D as D. injection A' as A'. injection B' as B'.
  assert (Z : forall refs, hits string string_dec 1 (against string refs [["Hello"; "There"; "Old"; "Friend"]]%string) = 0%nat -> S4 string_dec (against string refs [["Hello"; "There"; "Old"; "Friend"]]%string) = 0) by (intros refs H; apply S4_zero, H).
  split; [rewrite <- A; apply Z; reflexivity|]. split; [rewrite <- B; apply Z; reflexivity|]. split; [rewrite <- D; apply Z; reflexivity|]. exists r'. split; [exact E'|].
  assert (O : S4 string_dec (against string [["hello"; "there"; "old"; "friend"]]%string [["hello"; "there"; "old"; "friend"]]%string) = 1).
  { apply copies_one; [apply against_fine; split; discriminate|]. intros p [<-|[]]. split; [left; reflexivity|cbn; lia]. }
  split; [rewrite <- A'; exact O|rewrite <- B'; exact O].
Qed.
Lemma is_space_white c : is_space c = true <-> white c.
Proof.
  unfold is_space, white. rewrite orb_true_iff, !andb_true_iff, !Nat.leb_le. cbn [In]. split; intros H; lia.
Qed.
Lemma no_space_white s : no_space s <-> no_white s.
Proof.
  induction s as [|c s IH]; cbn [no_space]; [split; [intros _ c []|auto]|]. rewrite IH. unfold no_white. cbn [list_ascii_of_string In]. split.
  - intros [A B] x [<-|Hx]; [rewrite <- is_space_white, A; discriminate|auto].
  - intros H. split; [|auto]. destruct (is_space c) eqn:E; [|reflexivity]. apply is_space_white in E. destruct (H c (or_introl eq_refl) E).
Qed.
Lemma split_empty cur : split_ws cur "" = if String.eqb cur "" then [] else [cur].
Proof. reflexivity. Qed.
Lemma words_split cur a c b : is_space c = true -> split_ws cur (a ++ String c b)%string = split_ws cur a ++ words b.
Proof.
  intros H. revert cur. induction a as [|x a IH]; intros cur; cbn [append split_ws].
  - rewrite H. unfold words. destruct (String.eqb cur ""); reflexivity.
  - destruct (is_space x); [|apply IH]. destruct (String.eqb cur ""); [apply IH|]. cbn [List.app]. f_equal. apply IH.
Qed.
Lemma words_one w : w <> ""%string -> no_space w -> words w = [w].
Proof.
  intros N H. unfold words. replace w with (w ++ "")%string at 1 by (clear; induction w as [|x w IH]; [reflexivity|]; cbn; rewrite IH; reflexivity). rewrite split_word by exact H. cbn [append split_ws].
  destruct (String.eqb_spec w ""); [contradiction|reflexivity].
Qed.
Lemma lower_code c : lower_char c = c <-> ~ (65 <= nat_of_ascii c <= 90)%nat.
Proof. destruct c as [[] [] [] [] [] [] [] []]; vm_compute; split; intros H; try reflexivity; try discriminate H; try (intros [A B]; lia); exfalso; apply H; lia. Qed.
Lemma lower_no_capital s : lower s = s <-> no_capital s.
Proof.
  induction s as [|c s IH]; [split; [intros _ c []|reflexivity]|]. unfold no_capital. cbn [lower list_ascii_of_string In]. split.
  - intros H x Hx. injection H as A B. destruct Hx as [<-|Hx]; [apply lower_code, A|apply IH; assumption].
  - intros H. f_equal; [apply lower_code, H; auto|apply IH; intros x Hx; apply H; auto].
Qed.
