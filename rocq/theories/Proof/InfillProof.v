(** Proofs about text infilling (Model/Infill.v). *)
From Coq Require Import String Reals List Arith Bool Lia Lra Permutation Ascii Decimal DecimalNat DecimalString Sorted.
From Verif.Base Require Import RSum.
From Verif.Spec Require Import InfillSpec.
From Verif.Model Require Import Utils Infill.
Import ListNotations.
Local Open Scope nat_scope.

Lemma set_at_length {A} (v : A) l : forall i, List.length (set_at i v l) = List.length l.
Proof. induction l as [|a l IH]; intros [|i]; cbn; auto. Qed.
Lemma set_at_same {A} (v : A) l : forall i, i < List.length l -> nth_error (set_at i v l) i = Some v.
Proof. induction l as [|a l IH]; intros [|i] H; cbn in *; try lia; auto. apply IH. lia. Qed.
Lemma set_at_other {A} (v : A) l : forall i j, i <> j -> nth_error (set_at i v l) j = nth_error l j.
Proof. induction l as [|a l IH]; intros [|i] [|j] H; cbn; auto; try congruence. Qed.
Lemma set_at_show {A} (v : A) l : forall i, i < List.length l -> set_at i v l = show_at v l i.
Proof. unfold show_at. induction l as [|a l IH]; intros [|i] H; cbn in *; try lia; auto. f_equal. apply IH. lia. Qed.

Section DatasetFacts.
Variables line word token : Type.
Variable MASK : word.
Variable is_mask : token -> bool.
Variable clean : line -> list word.
Variable tokenize : list word -> list token.
Notation mask_words := (mask_words word MASK).

Lemma mask_words_length drawn : forall ws, List.length (mask_words ws drawn) = List.length ws.
Proof. induction drawn as [|p dr IH]; intros ws; cbn; auto. unfold Infill.mask_words in IH. rewrite IH. apply set_at_length. Qed.
Lemma mask_words_out drawn : forall ws i, ~ In i drawn -> nth_error (mask_words ws drawn) i = nth_error ws i.
Proof.
  unfold Infill.mask_words. induction drawn as [|p dr IH]; intros ws i H; cbn [fold_left]; auto. rewrite IH by (intros X; apply H; right; auto).
  apply set_at_other. intros ->. apply H. left; auto.
Qed.
Lemma mask_words_keep drawn : forall ws i, nth_error ws i = Some MASK -> nth_error (mask_words ws drawn) i = Some MASK.
Proof.
  unfold Infill.mask_words. induction drawn as [|p dr IH]; intros ws i H; cbn [fold_left]; auto. apply IH.
  destruct (Nat.eq_dec p i) as [->|Hne]; [|rewrite set_at_other; auto]. apply set_at_same. apply nth_error_Some. congruence.
Qed.
Lemma mask_words_in drawn : forall ws i, In i drawn -> i < List.length ws -> nth_error (mask_words ws drawn) i = Some MASK.
Proof.
  induction drawn as [|p dr IH]; intros ws i H Hl; [destruct H|]. destruct H as [-> | H].
  - unfold Infill.mask_words. cbn [fold_left]. apply (mask_words_keep dr). apply set_at_same; auto.
  - unfold Infill.mask_words. cbn [fold_left]. apply (IH (set_at p MASK ws)); auto. rewrite set_at_length; auto.
Qed.

Lemma mask_positions_cons t ts : mask_positions token is_mask (t :: ts) = (if is_mask t then [1] else []) ++ map S (mask_positions token is_mask ts).
Proof.
  unfold mask_positions. cbn [List.length seq filter]. change (nth_error (t :: ts) 0) with (Some t). cbn iota. rewrite <- seq_shift.
  assert (E : filter (fun i => match nth_error (t :: ts) i with Some u => is_mask u | None => false end) (map S (seq 0 (List.length ts)))
     = map S (filter (fun i => match nth_error ts i with Some u => is_mask u | None => false end) (seq 0 (List.length ts)))).
  { generalize (seq 0 (List.length ts)) as l. induction l as [|i l IH]; cbn [map filter]; auto. cbn [nth_error].
    destruct (match nth_error ts i with Some u => is_mask u | None => false end); cbn [map]; rewrite IH; reflexivity. }
  rewrite E. destruct (is_mask t); cbn [map List.app]; rewrite !map_map; [apply (f_equal (cons 1))|]; apply map_ext; intros; lia.
Qed.
Lemma mask_positions_length ts : List.length (mask_positions token is_mask ts) = List.length (filter is_mask ts).
Proof.
  induction ts as [|t ts IH]; [reflexivity|]. rewrite mask_positions_cons, app_length, map_length, IH. cbn. destruct (is_mask t); reflexivity.
Qed.
Lemma mask_positions_in ts p : In p (mask_positions token is_mask ts) <-> exists t, 1 <= p /\ nth_error ts (p - 1) = Some t /\ is_mask t = true.
Proof.
  unfold mask_positions. rewrite in_map_iff. split.
  - intros (i & <- & H). apply filter_In in H. destruct H as (_ & H). destruct (nth_error ts i) as [t|] eqn:E; [|discriminate].
    exists t. replace (i + 1 - 1) with i by lia. repeat split; auto. lia.
  - intros (t & Hp & E & Hm). exists (p - 1). split; [lia|]. apply filter_In. rewrite E. split; auto. apply in_seq.
    assert (p - 1 < List.length ts) by (apply nth_error_Some; congruence). lia.
Qed.
Lemma mask_positions_NoDup ts : NoDup (mask_positions token is_mask ts).
Proof. unfold mask_positions. apply NoDup_map_inj; [intros; lia|]. apply NoDup_filter, seq_NoDup. Qed.

Lemma put_shift (c : token) ids pos : forall x, put_tokens (c :: ids) (map S pos) x = c :: put_tokens ids pos x.
Proof.
  unfold put_tokens. revert ids. induction pos as [|p pos IH]; intros ids [|v x]; cbn [map combine fold_left fst snd]; auto. cbn [set_at]. apply IH.
Qed.
Lemma put_fill ts : forall c tail x, put_tokens (c :: ts ++ tail) (mask_positions token is_mask ts) x = c :: fill_masks is_mask ts x ++ tail.
Proof.
  induction ts as [|t ts IH]; intros c tail x; [destruct x; reflexivity|]. rewrite mask_positions_cons. cbn [fill_masks]. destruct (is_mask t).
  - destruct x as [|v x].
    + unfold put_tokens. cbn [combine fold_left List.app]. f_equal. f_equal.
      assert (E : forall l, fill_masks is_mask l [] = l) by (induction l as [|a l IHl]; cbn; auto; destruct (is_mask a); f_equal; auto). rewrite E. reflexivity.
    + transitivity (put_tokens (c :: v :: ts ++ tail) (map S (mask_positions token is_mask ts)) x); [reflexivity|].
      rewrite put_shift, IH. reflexivity.
  - transitivity (put_tokens (c :: t :: ts ++ tail) (map S (mask_positions token is_mask ts)) x); [reflexivity|]. rewrite put_shift, IH. reflexivity.
Qed.
Lemma decode_fill cls sep ts x : decode_ids (input_ids cls sep ts) (mask_positions token is_mask ts) x = fill_masks is_mask ts x.
Proof. unfold decode_ids, input_ids. rewrite put_fill. cbn [tl]. apply removelast_last. Qed.

(** The tokenizer contract: words are tokenised one by one, the mask word gives the mask token and nothing else does. *)
Section Contract.
Variable tok : word -> list token.
Variable mt : token.
Hypothesis H_concat : forall ws, tokenize ws = flat_map tok ws.
Hypothesis H_mask : tok MASK = [mt].
Hypothesis H_mt : is_mask mt = true.

Lemma filter_mask_tokens ws (drawn : list nat) : (forall w t, In w ws -> In t (tok w) -> is_mask t = false) -> NoDup drawn -> (forall p, In p drawn -> p < List.length ws) ->
  List.length (filter is_mask (tokenize (mask_words ws drawn))) = List.length drawn.
Proof.
  intros Hw Hn Hd. rewrite H_concat.
  assert (G : forall l s, (forall i, i < List.length l -> nth_error l i = (if in_dec Nat.eq_dec (s + i) drawn then Some MASK else nth_error ws (s + i))) ->
     List.length (filter is_mask (flat_map tok l)) = List.length (filter (fun p => if in_dec Nat.eq_dec p drawn then true else false) (seq s (List.length l)))).
  { induction l as [|w l IH]; intros s H; [reflexivity|]. cbn [flat_map List.length seq filter]. rewrite filter_app, app_length. rewrite (IH (S s)).
    - pose proof (H 0 ltac:(cbn; lia)) as H0. cbn [nth_error] in H0. rewrite Nat.add_0_r in H0. destruct (in_dec Nat.eq_dec s drawn).
      + injection H0 as ->. rewrite H_mask. cbn [filter]. rewrite H_mt. reflexivity.
      + replace (filter is_mask (tok w)) with (@nil token); [reflexivity|]. symmetry. assert (Hin : In w ws) by (eapply nth_error_In; eauto).
        specialize (Hw w). clear - Hw Hin. induction (tok w) as [|t ts IHt]; cbn; auto. rewrite (Hw t Hin (or_introl eq_refl)). apply IHt. intros; apply Hw; auto. right; auto.
    - intros i Hi. specialize (H (S i) ltac:(cbn; lia)). cbn [nth_error] in H. rewrite <- plus_n_Sm in H. exact H. }
  rewrite (G _ 0).
  - rewrite mask_words_length. apply Permutation_length. apply NoDup_Permutation; [apply NoDup_filter, seq_NoDup|auto|]. intros p. rewrite filter_In, in_seq.
    destruct (in_dec Nat.eq_dec p drawn) as [Hp|Hp]; split; intros X; try tauto; try (destruct X; discriminate). split; auto. specialize (Hd p Hp). lia.
  - rewrite mask_words_length. intros i Hi. cbn [Nat.add]. destruct (in_dec Nat.eq_dec i drawn); [apply mask_words_in; auto|apply mask_words_out; auto].
Qed.

(** Filling the masks with the original one-token words restores the original tokens. *)
Lemma fill_original ws drawn : (forall w t, In w ws -> In t (tok w) -> is_mask t = false) -> (forall p, In p drawn -> exists w t, nth_error ws p = Some w /\ tok w = [t]) ->
  fill_masks is_mask (tokenize (mask_words ws drawn)) (flat_map (fun p => match nth_error ws p with Some w => tok w | None => [] end) (filter (fun p => if in_dec Nat.eq_dec p drawn then true else false) (seq 0 (List.length ws)))) = tokenize ws.
Proof.
  intros Hw Hd. rewrite !H_concat.
  assert (G : forall m l s, List.length m = List.length l -> (forall i, i < List.length l -> nth_error m i = (if in_dec Nat.eq_dec (s + i) drawn then Some MASK else nth_error l i)) ->
     (forall i, i < List.length l -> nth_error ws (s + i) = nth_error l i) ->
     fill_masks is_mask (flat_map tok m) (flat_map (fun p => match nth_error ws p with Some w => tok w | None => [] end) (filter (fun p => if in_dec Nat.eq_dec p drawn then true else false) (seq s (List.length l)))) = flat_map tok l).
  { assert (F : forall a b x, (forall t, In t a -> is_mask t = false) -> fill_masks is_mask (a ++ b) x = a ++ fill_masks is_mask b x).
    { induction a as [|t a IH]; intros b x H; cbn [List.app fill_masks]; auto. rewrite (H t (or_introl eq_refl)). f_equal. apply IH. intros; apply H; right; auto. }
    induction m as [|w m IH]; intros [|w' l] s Hl H1 H2; try discriminate; [reflexivity|]. cbn [flat_map List.length seq filter].
    pose proof (H1 0 ltac:(cbn; lia)) as E1. pose proof (H2 0 ltac:(cbn; lia)) as E2. cbn [nth_error] in E1, E2. rewrite Nat.add_0_r in E1, E2.
    assert (IH' := IH l (S s) ltac:(cbn in Hl; lia)). specialize (IH' ltac:(intros i Hi; specialize (H1 (S i) ltac:(cbn; lia)); cbn [nth_error] in H1; rewrite <- plus_n_Sm in H1; exact H1)).
    specialize (IH' ltac:(intros i Hi; specialize (H2 (S i) ltac:(cbn; lia)); cbn [nth_error] in H2; rewrite <- plus_n_Sm in H2; exact H2)).
    destruct (in_dec Nat.eq_dec s drawn) as [Hs|Hs].
    - injection E1 as ->. rewrite H_mask. destruct (Hd s Hs) as (w0 & t & Hw0 & Ht). rewrite E2 in Hw0. injection Hw0 as <-.
      cbn [flat_map List.app fill_masks]. rewrite H_mt, E2, Ht. cbn [List.app]. f_equal. exact IH'.
    - injection E1 as ->. rewrite F; [f_equal; exact IH'|]. intros t. apply Hw. eapply nth_error_In; eauto. }
  apply G; [apply mask_words_length| |reflexivity]. intros i Hi. cbn [Nat.add]. destruct (in_dec Nat.eq_dec i drawn); [apply mask_words_in; auto|apply mask_words_out; auto].
Qed.
End Contract.

(** Selection. *)
Definition suitable (min_length max_length : nat) (ld : line * list nat) : bool := Nat.leb (List.length (clean (fst ld))) max_length && Nat.leb min_length (List.length (clean (fst ld))).
Notation collect_entries := (collect_entries line word token MASK is_mask clean tokenize).
Notation build := (fun ld => make_entry word token MASK is_mask tokenize (clean (fst ld)) (snd ld)).
Lemma collect_spec limit mn mx nm todo : forall data refs data' refs', collect_entries limit mn mx nm todo data refs = Some (data', refs') ->
  let chosen := firstn (limit - List.length data) (filter (suitable mn mx) todo) in
  data' = data ++ map build chosen /\ (forall ld, In ld chosen -> nm <= List.length (clean (fst ld)) - 2)
  /\ exists rest, refs' = refs ++ rest /\ Permutation (map fst todo) (map fst chosen ++ rest).
Proof.
  induction todo as [|[l drawn] todo IH]; intros data refs data' refs' H; cbn [Infill.collect_entries] in H.
  - injection H as <- <-. cbn zeta. cbn [filter]. rewrite firstn_nil. split; [symmetry; apply app_nil_r|]. split; [intros ? []|]. exists []. rewrite app_nil_r. split; auto.
  - change (Nat.leb (List.length (clean l)) mx && Nat.leb mn (List.length (clean l))) with (suitable mn mx (l, drawn)) in H. cbn [filter].
    destruct (Nat.ltb_spec (List.length data) limit) as [Hlt|Hge].
    + destruct (suitable mn mx (l, drawn)) eqn:S.
      * destruct (Nat.ltb_spec (List.length (clean l) - 2) nm) as [|Hnm]; [discriminate|]. apply IH in H. cbn zeta in *. rewrite app_length in H. cbn [List.length] in H.
        replace (limit - List.length data) with (Datatypes.S (limit - (List.length data + 1))) by lia. cbn [firstn map]. destruct H as (H1 & H2 & rest & H3 & H4).
        split; [rewrite H1, <- app_assoc; reflexivity|]. split; [intros ld [<-|Hin]; auto|]. exists rest. split; [exact H3|]. cbn [fst List.app]. apply perm_skip. exact H4.
      * apply IH in H. cbn zeta in *. destruct H as (H1 & H2 & rest & H3 & H4). split; auto. split; auto. exists (l :: rest). rewrite H3, <- app_assoc. split; [reflexivity|].
        cbn [map fst]. apply Permutation_cons_app. exact H4.
    + apply IH in H. cbn zeta in *. replace (limit - List.length data) with 0 in * by lia. cbn [firstn map List.app] in *. destruct H as (H1 & H2 & rest & H3 & H4). split; auto. split; auto.
      exists (l :: rest). rewrite H3, <- app_assoc. split; [reflexivity|]. cbn [fst]. apply perm_skip. exact H4.
Qed.
Lemma collect_fails limit mn mx nm todo : forall data refs, (collect_entries limit mn mx nm todo data refs = None <->
  exists ld, In ld (firstn (limit - List.length data) (filter (suitable mn mx) todo)) /\ List.length (clean (fst ld)) - 2 < nm).
Proof.
  induction todo as [|[l drawn] todo IH]; intros data refs; cbn [Infill.collect_entries].
  - cbn [filter]. rewrite firstn_nil. split; [discriminate|intros (? & [] & _)].
  - change (Nat.leb (List.length (clean l)) mx && Nat.leb mn (List.length (clean l))) with (suitable mn mx (l, drawn)). cbn [filter].
    destruct (Nat.ltb_spec (List.length data) limit) as [Hlt|Hge].
    + destruct (suitable mn mx (l, drawn)) eqn:S; [|apply IH].
      replace (limit - List.length data) with (Datatypes.S (limit - (List.length data + 1))) by lia. cbn [firstn].
      destruct (Nat.ltb_spec (List.length (clean l) - 2) nm) as [Hlt2|Hnm].
      * split; auto. intros _. exists (l, drawn). split; [left; auto|auto].
      * rewrite IH, app_length. cbn [List.length]. split; intros (ld & Hin & X); exists ld; split; auto; [right; auto|]. destruct Hin as [<-|Hin]; auto. cbn in X. lia.
    + rewrite IH. replace (limit - List.length data) with 0 by lia. cbn [firstn]. tauto.
Qed.
End DatasetFacts.

(** ** Energy *)
Local Open Scope R_scope.
Lemma dummy_zero C : mask_dummy_array C = [repeat 0 C].
Proof. reflexivity. Qed.
Lemma one_hot_nth C v c : (c < C)%nat -> nth c (one_hot C v) 0 = if Nat.eqb c v then 1 else 0.
Proof.
  intros H. unfold one_hot. rewrite (nth_indep _ 0 ((fun c => if Nat.eqb c v then 1 else 0) 0%nat)) by (rewrite map_length, seq_length; auto).
  rewrite (map_nth (fun c => if Nat.eqb c v then 1 else 0)). rewrite seq_nth by auto. reflexivity.
Qed.
Lemma log_softmax_prob logits v : logits <> [] -> log_softmax logits v = ln (softmax_prob logits v).
Proof.
  intros H. assert (P : 0 < rsum logits exp) by (apply rsum_pos; auto; intros; apply exp_pos). unfold log_softmax, softmax_prob, Rdiv.
  rewrite ln_mult by (try apply exp_pos; apply Rinv_0_lt_compat; auto). rewrite ln_exp, ln_Rinv by auto. ring.
Qed.
Lemma forward_value C net xs : (0 < C)%nat -> (forall x, In x xs -> (x < C)%nat) -> (forall rows i, List.length (net rows i) = C) ->
  forward_tokens C net xs = rsum (seq 0 (List.length xs)) (fun i => ln (softmax_prob (net (show_at (repeat 0 C) (map (one_hot C) xs) i) i) (nth i xs 0%nat))).
Proof.
  intros HC Hx Hnet. unfold forward_tokens, single_forward. rewrite map_length. apply rsum_ext. intros i Hi. apply in_seq in Hi.
  assert (Hxi : (nth i xs 0 < C)%nat) by (apply Hx, nth_In; lia).
  rewrite (rsum_single (seq 0 C) _ (nth i xs 0%nat)); [|apply seq_NoDup|apply in_seq; lia|].
  - rewrite (nth_indep _ [] (one_hot C 0)) by (rewrite map_length; lia). rewrite map_nth, one_hot_nth, Nat.eqb_refl by auto. rewrite Rmult_1_r.
    unfold mask_out. rewrite dummy_zero. cbn [hd]. rewrite set_at_show by (rewrite map_length; lia). apply log_softmax_prob.
    intros E. apply (f_equal (@List.length R)) in E. rewrite Hnet in E. cbn in E. lia.
  - intros v Hv Hne. apply in_seq in Hv. rewrite (nth_indep _ [] (one_hot C 0)) by (rewrite map_length; lia). rewrite map_nth, one_hot_nth by lia.
    destruct (Nat.eqb_spec v (nth i xs 0%nat)); [congruence|ring].
Qed.
Lemma softmax_sum logits : logits <> [] -> rsum (seq 0 (List.length logits)) (softmax_prob logits) = 1 /\ forall v, 0 < softmax_prob logits v.
Proof.
  intros H. assert (P : 0 < rsum logits exp) by (apply rsum_pos; auto; intros; apply exp_pos). unfold softmax_prob. split.
  - unfold Rdiv. rewrite rsum_scal_r. rewrite <- (rsum_nth logits 0 exp). apply Rinv_r. lra.
  - intros v. apply Rmult_lt_0_compat; [apply exp_pos|apply Rinv_0_lt_compat; auto].
Qed.
Lemma softmax_le1 logits v : (v < List.length logits)%nat -> softmax_prob logits v <= 1.
Proof.
  intros Hv. assert (Hne : logits <> []) by (intros ->; cbn in Hv; lia). destruct (softmax_sum logits Hne) as (S & P). rewrite <- S.
  apply (rsum_ge_term (seq 0 (List.length logits)) (softmax_prob logits) v); [apply in_seq; lia|]. intros; left; auto.
Qed.
Lemma show_at_ext {A} (row : A) l l' i : firstn i l = firstn i l' -> skipn (S i) l = skipn (S i) l' -> show_at row l i = show_at row l' i.
Proof. unfold show_at. congruence. Qed.
Lemma show_at_set {A B} (row : B) (f : A -> B) (v : A) l : forall i, show_at row (map f (set_at i v l)) i = show_at row (map f l) i.
Proof.
  unfold show_at. induction l as [|a l IH]; intros [|i]; cbn [set_at map firstn skipn List.app]; auto. f_equal. apply (IH i).
Qed.

(** A network that looks at column 103 of the masked row. *)
Definition peek (rows : list (list R)) (i : nat) : list R := nth 103 (nth i rows []) 0 :: repeat 0 103.
Lemma rsum_repeat0 n (f : R -> R) : rsum (repeat 0 n) f = INR n * f 0.
Proof. induction n as [|n IH]; cbn [repeat rsum]; [cbn; ring|]. rewrite IH, S_INR. ring. Qed.
Lemma mask_differs : forward_tokens 104 peek [0%nat] <> ln (softmax_prob (peek (show_at (one_hot 104 mask_token) (map (one_hot 104) [0%nat]) 0) 0) 0).
Proof.
  rewrite forward_value; [|lia|intros x [<-|[]]; lia|intros; cbn [peek List.length]; rewrite repeat_length; reflexivity].
  cbn [List.length seq rsum nth map]. rewrite Rplus_0_r.
  assert (E1 : peek (show_at (repeat 0 104) [one_hot 104 0] 0) 0 = 0 :: repeat 0 103) by reflexivity.
  assert (E2 : peek (show_at (one_hot 104 mask_token) [one_hot 104 0] 0) 0 = 1 :: repeat 0 103) by reflexivity.
  rewrite E1, E2. intros H. apply ln_inv in H.
  - unfold softmax_prob in H. cbn [nth] in H. change (rsum (0 :: repeat 0 103) exp) with (exp 0 + rsum (repeat 0 103) exp) in H. change (rsum (1 :: repeat 0 103) exp) with (exp 1 + rsum (repeat 0 103) exp) in H.
    rewrite !rsum_repeat0, exp_0 in H. pose proof (exp_ineq1 1 ltac:(lra)) as He. assert (N : INR 103 = 103) by (rewrite INR_IZR_INZ; reflexivity). rewrite N in H.
    apply (f_equal (fun v => v * (1 + 103 * 1) * (exp 1 + 103 * 1))) in H. field_simplify in H; lra.
  - apply (softmax_sum (0 :: repeat 0 103)). discriminate.
  - apply (softmax_sum (1 :: repeat 0 103)). discriminate.
Qed.

(** ** Top-k *)
Local Open Scope nat_scope.
Lemma uint_no_space d : ~ In " "%char (list_ascii_of_string (NilEmpty.string_of_uint d)).
Proof. induction d; cbn; intros H; auto; destruct H as [H|H]; try discriminate; auto. Qed.
Lemma str_nat_inj i j : str_nat i = str_nat j -> i = j.
Proof.
  unfold str_nat. intros H. apply (f_equal string_of_list_ascii) in H. rewrite !string_of_list_ascii_of_string in H.
  apply (f_equal NilEmpty.uint_of_string) in H. rewrite !NilEmpty.usu in H. injection H as H. apply Unsigned.to_uint_inj in H. exact H.
Qed.
Lemma split_space (a b s t : list ascii) : ~ In " "%char a -> ~ In " "%char b -> a ++ " "%char :: s = b ++ " "%char :: t -> a = b /\ s = t.
Proof.
  revert b. induction a as [|c a IH]; intros [|d b] Ha Hb H; cbn in H.
  - injection H as ->. auto.
  - injection H as <- _. exfalso. apply Hb. left; auto.
  - injection H as -> _. exfalso. apply Ha. left; auto.
  - injection H as -> H. destruct (IH b) as (-> & ->); auto; intros X; [apply Ha|apply Hb]; right; auto.
Qed.
Lemma tagged_NoDup sents : NoDup (tagged sents).
Proof.
  unfold tagged. assert (G : forall l s, NoDup (map (fun ie => str_nat (fst ie) ++ " "%char :: snd ie) (combine (seq s (List.length l)) l))
     /\ forall k, In k (map (fun ie : nat * list ascii => str_nat (fst ie) ++ " "%char :: snd ie) (combine (seq s (List.length l)) l)) -> exists i t, s <= i /\ k = str_nat i ++ " "%char :: t).
  { induction l as [|a l IH]; intros s; cbn [List.length seq combine map]; [split; [constructor|intros k []]|]. destruct (IH (S s)) as (H1 & H2). split.
    - constructor; auto. intros Hin. destruct (H2 _ Hin) as (i & t & Hi & E). cbn [fst snd] in E. apply split_space in E; [|apply uint_no_space|apply uint_no_space].
      destruct E as (E & _). apply str_nat_inj in E. lia.
    - intros k [<-|Hk]; [exists s, a; auto|]. destruct (H2 k Hk) as (i & t & Hi & ->). exists i, t. split; [lia|auto]. }
  apply G.
Qed.
Lemma tagged_length sents : List.length (tagged sents) = List.length sents.
Proof. unfold tagged. rewrite map_length, combine_length, seq_length. lia. Qed.
Lemma str_nat_small i : i < 10 -> List.length (str_nat i) = 1.
Proof. intros H. do 10 (destruct i as [|i]; [reflexivity|]). lia. Qed.
Lemma tagged_strip sents : List.length sents <= 10 -> map (skipn 2) (tagged sents) = sents.
Proof.
  intros H. unfold tagged. rewrite map_map. assert (G : forall l s, s + List.length l <= 10 -> map (fun ie : nat * list ascii => skipn 2 (str_nat (fst ie) ++ " "%char :: snd ie)) (combine (seq s (List.length l)) l) = l).
  { induction l as [|a l IH]; intros s Hs; cbn [List.length seq combine map] in *; auto. rewrite IH by lia. f_equal. cbn [fst snd].
    pose proof (str_nat_small s ltac:(lia)) as L. destruct (str_nat s) as [|c [|]]; try discriminate. reflexivity. }
  apply G. lia.
Qed.
Lemma dict_put_new {V} k (v : V) d : ~ In k (map fst d) -> dict_put k v d = d ++ [(k, v)].
Proof.
  induction d as [|[k' v'] d IH]; cbn; intros H; auto. destruct (list_eq_dec ascii_dec k' k) as [->|]; [exfalso; apply H; auto|]. f_equal. apply IH. intros X; apply H; auto.
Qed.
Lemma dict_of_NoDup {V} (items : list (list ascii * V)) : NoDup (map fst items) -> dict_of items = items.
Proof.
  intros Hn. unfold dict_of. assert (G : forall (l d : list (list ascii * V)), NoDup (map fst (d ++ l)) -> fold_left (fun d kv => dict_put (fst kv) (snd kv) d) l d = d ++ l).
  { induction l as [|[k v] l IH]; intros d Hd; cbn [fold_left]; [symmetry; apply app_nil_r|]. cbn [fst snd]. rewrite dict_put_new.
    - rewrite IH; rewrite <- app_assoc; auto.
    - rewrite map_app in Hd. cbn [map fst] in Hd. apply NoDup_remove_2 in Hd. intros X. apply Hd. apply in_or_app; auto. }
  apply (G items []). auto.
Qed.
Lemma insert_perm {A} (e : A * R) l : Permutation (insert e l) (e :: l).
Proof. induction l as [|e' l IH]; cbn; auto. destruct (Rle_dec (snd e) (snd e')); auto. rewrite IH. apply perm_swap. Qed.
Lemma sort_perm {A} (l : list (A * R)) : Permutation (sort_by l) l.
Proof. induction l as [|e l IH]; cbn; auto. rewrite insert_perm. auto. Qed.
Lemma insert_sorted {A} (e : A * R) l : StronglySorted (fun a b => (snd a <= snd b)%R) l -> StronglySorted (fun a b => (snd a <= snd b)%R) (insert e l).
Proof.
  induction 1 as [|e' l Hs IH Hf]; cbn; [repeat constructor|]. destruct (Rle_dec (snd e) (snd e')) as [Hle|Hgt].
  - constructor; [constructor; auto|]. constructor; auto. eapply Forall_impl; [|exact Hf]. cbn. intros; lra.
  - constructor; auto. apply Forall_forall. intros x Hx. apply (Permutation_in _ (insert_perm e l)) in Hx. destruct Hx as [<-|Hx]; [lra|]. rewrite Forall_forall in Hf. auto.
Qed.
Lemma sort_sorted {A} (l : list (A * R)) : StronglySorted (fun a b => (snd a <= snd b)%R) (sort_by l).
Proof. induction l as [|e l IH]; cbn; [constructor|apply insert_sorted; auto]. Qed.
Lemma ss_app {A} (R : A -> A -> Prop) l1 l2 : StronglySorted R (l1 ++ l2) -> StronglySorted R l2 /\ forall a b, In a l1 -> In b l2 -> R a b.
Proof.
  induction l1 as [|a l1 IH]; cbn [List.app]; intros H; [split; [auto|intros ? ? []]|]. inversion H as [|? ? Hs Hf]; subst. destruct (IH Hs) as (H1 & H2). split; auto.
  intros x y [<-|Hx] Hy; auto. rewrite Forall_forall in Hf. apply Hf, in_or_app; auto.
Qed.
Lemma map_fst_comb {A B} (l : list A) : forall (l' : list B), List.length l = List.length l' -> map fst (combine l l') = l.
Proof. induction l as [|a l IH]; intros [|b l'] H; cbn in *; try discriminate; auto. f_equal. apply IH. lia. Qed.
Lemma combine_map_l {A B C} (f : A -> C) (l : list A) : forall (l' : list B), combine (map f l) l' = map (fun ab => (f (fst ab), snd ab)) (combine l l').
Proof. induction l as [|a l IH]; intros [|b l']; cbn; auto. f_equal. auto. Qed.
Lemma topk_facts k sents lls : 1 <= k -> List.length sents <= 10 -> List.length lls = List.length sents ->
  fst (topk k sents lls) = sents
  /\ exists rest top, Permutation (combine sents lls) (rest ++ top) /\ map fst top = snd (topk k sents lls) /\ List.length top = Nat.min k (List.length sents)
    /\ (forall a b, In a rest -> In b top -> (snd a <= snd b)%R) /\ StronglySorted (fun a b => (snd a <= snd b)%R) top.
Proof.
  intros Hk Hs Hl. unfold topk. cbn [fst snd]. split; [apply tagged_strip; auto|]. set (keys := tagged sents).
  assert (Hkl : List.length keys = List.length lls) by (unfold keys; rewrite tagged_length; lia).
  rewrite dict_of_NoDup by (rewrite map_fst_comb by auto; apply tagged_NoDup).
  set (S := sort_by (combine keys lls)). unfold last_k. destruct (Nat.eqb_spec k 0); [lia|]. rewrite map_length.
  set (cut := List.length S - k). set (st := fun ab : list ascii * R => (skipn 2 (fst ab), snd ab)).
  assert (HS : List.length S = List.length sents) by (unfold S; rewrite (Permutation_length (sort_perm _)), combine_length; lia).
  pose proof (sort_sorted (combine keys lls)) as Hsort. fold S in Hsort. rewrite <- (firstn_skipn cut S) in Hsort. apply ss_app in Hsort. destruct Hsort as (So & Lo).
  exists (map st (firstn cut S)), (map st (skipn cut S)). repeat split.
  - rewrite <- map_app, firstn_skipn. unfold S. rewrite (Permutation_map st (sort_perm (combine keys lls))). unfold st. rewrite <- combine_map_l. unfold keys. rewrite tagged_strip by auto. auto.
  - rewrite skipn_map, !map_map. reflexivity.
  - rewrite map_length, skipn_length. lia.
  - intros a b Ha Hb. apply in_map_iff in Ha, Hb. destruct Ha as (a' & <- & Ha), Hb as (b' & <- & Hb). cbn. auto.
  - clear - So. induction So as [|a l Hs IH Hf]; cbn [map]; constructor; auto. apply Forall_forall. intros x Hx. apply in_map_iff in Hx. destruct Hx as (y & <- & Hy). rewrite Forall_forall in Hf. cbn. auto.
Qed.

(** ** Keys *)
Fixpoint depth (k : key) : nat := match k with Root _ => 0 | FoldIn k _ => S (depth k) | Split k _ _ => S (depth k) end.
Lemma fold_steps_depth k t : depth (fold_steps k t) = depth k + t.
Proof. induction t as [|t IH]; cbn; [lia|]. rewrite IH. lia. Qed.
Lemma chain_key_depth L s m t : depth (chain_key L s m t) = m * L + t.
Proof. unfold chain_key. rewrite fold_steps_depth. f_equal. induction m as [|m IH]; cbn [resample_start]; [reflexivity|]. rewrite fold_steps_depth, IH. lia. Qed.
Lemma chain_key_inj L s m t m' t' : 1 <= t <= L -> 1 <= t' <= L -> chain_key L s m t = chain_key L s m' t' -> m = m' /\ t = t'.
Proof.
  intros Ht Ht' H. apply (f_equal depth) in H. rewrite !chain_key_depth in H.
  assert (m = m') by nia. split; auto. subst. lia.
Qed.
