(** Text-infilling runs: the sentences they print. *)
From Coq Require Import String Reals List Arith Lra Lia Ascii Permutation Sorting.Sorted.
From Verif.Base Require Import RSum Cube Dist.
From Verif.Spec Require Import Chain SamplerRun InfillRunSpec.
From Verif.Model Require Import MathUtil FullRun Infill InfillRun.
From Verif.Proof Require Import AdaptiveRunProof BernEvalProof LangevinProof LangevinAdapt InfillProof FullRunProof FullRunInvar.
Import ListNotations.
Local Open Scope R_scope.

(** ** Writing the tokens into the sentence *)
Lemma put_length {T} pos : forall (x : list T) ids, length (put_tokens ids pos x) = length ids.
Proof.
  unfold put_tokens. induction pos as [|p pos IH]; intros [|v x] ids; cbn; try reflexivity. rewrite IH. apply set_at_length.
Qed.
Lemma put_off {T} pos : forall (x : list T) ids j, ~ In j pos -> nth_error (put_tokens ids pos x) j = nth_error ids j.
Proof.
  unfold put_tokens. induction pos as [|p pos IH]; intros [|v x] ids j Hj; cbn; try reflexivity. rewrite IH by (intros H; apply Hj; right; exact H).
  apply set_at_other. intros E. apply Hj. left. exact E.
Qed.
Lemma put_at {T} pos : forall (x : list T) ids i, NoDup pos -> Forall (fun p => (p < length ids)%nat) pos -> (i < length pos)%nat -> length x = length pos ->
  nth_error (put_tokens ids pos x) (nth i pos 0%nat) = nth_error x i.
Proof.
  induction pos as [|p pos IH]; intros x ids i Hn Hf Hi Hx; [cbn in Hi; lia|]. destruct x as [|v x]; [discriminate|]. inversion Hn as [|? ? Hp Hn']; subst. inversion Hf as [|? ? Hp' Hf']; subst.
  change (put_tokens ids (p :: pos) (v :: x)) with (put_tokens (set_at p v ids) pos x). destruct i as [|i]; cbn [nth nth_error].
  - rewrite put_off by exact Hp. apply set_at_same, Hp'.
  - apply IH; auto; [|cbn in Hi; lia]. eapply Forall_impl; [|exact Hf']. intros a Ha. cbn. rewrite set_at_length. exact Ha.
Qed.
Lemma tl_nth {T} (l : list T) j : nth_error (tl l) j = nth_error l (S j).
Proof. destruct l; [destruct j; reflexivity|reflexivity]. Qed.
Lemma removelast_nth {T} (l : list T) : forall j, (S j < length l)%nat -> nth_error (removelast l) j = nth_error l j.
Proof.
  induction l as [|a l IH]; intros j Hj; [cbn in Hj; lia|]. destruct l as [|b l]; [cbn in Hj; lia|]. change (removelast (a :: b :: l)) with (a :: removelast (b :: l)).
  destruct j as [|j]; [reflexivity|]. cbn [nth_error]. rewrite IH by (cbn in *; lia). reflexivity.
Qed.
Lemma removelast_len {T} (l : list T) : length (removelast l) = (length l - 1)%nat.
Proof. induction l as [|a l IH]; [reflexivity|]. destruct l as [|b l]; [reflexivity|]. change (removelast (a :: b :: l)) with (a :: removelast (b :: l)). cbn [length] in *. rewrite IH. lia. Qed.
Lemma tl_len {T} (l : list T) : length (tl l) = (length l - 1)%nat.
Proof. destruct l; cbn; lia. Qed.
Lemma decode_completes lm e x : placed e -> length x = length (x_pos e) -> completes e x (decode_ids (ids_of lm e) (x_pos e) x).
Proof.
  intros [Hn Hp] Hx. unfold ids_of. set (ids := input_ids (lm_cls lm) (lm_sep lm) (x_tokens e)).
  assert (HL : length ids = S (S (length (x_tokens e)))) by (unfold ids, input_ids; cbn [length]; rewrite app_length; cbn; lia).
  unfold decode_ids. set (out := put_tokens ids (x_pos e) x). assert (HO : length out = length ids) by apply put_length.
  assert (HJ : forall j, (j < length (x_tokens e))%nat -> nth_error (removelast (tl out)) j = nth_error out (S j)).
  { intros j Hj. rewrite removelast_nth by (rewrite tl_len; lia). apply tl_nth. }
  split; [rewrite removelast_len, tl_len; lia|]. split.
  - intros i Hi. assert (Hpi : (1 <= nth i (x_pos e) 0%nat <= length (x_tokens e))%nat) by (rewrite Forall_forall in Hp; apply Hp, nth_In, Hi).
    rewrite HJ by lia. replace (S (nth i (x_pos e) 0%nat - 1)) with (nth i (x_pos e) 0%nat) by lia. unfold out. apply put_at; auto.
    eapply Forall_impl; [|exact Hp]. intros a Ha. cbv beta in *. rewrite HL. lia.
  - intros j Hj Hnot. rewrite HJ by exact Hj. unfold out. rewrite put_off by exact Hnot. unfold ids, input_ids. cbn [nth_error]. apply nth_error_app1, Hj.
Qed.

(** ** The best sentences *)
Lemma str_nat_two i : (i < 100)%nat -> length (str_nat i) = if Nat.ltb i 10 then 1%nat else 2%nat.
Proof.
  intros H. assert (A : forallb (fun i => Nat.eqb (length (str_nat i)) (if Nat.ltb i 10 then 1 else 2)) (seq 0 100) = true) by (vm_compute; reflexivity).
  rewrite forallb_forall in A. apply Nat.eqb_eq, A, in_seq. lia.
Qed.
Lemma tagged_blank sents : (length sents <= 100)%nat -> map (skipn 2) (tagged sents) = blank_after_ten sents.
Proof.
  intros H. unfold tagged, blank_after_ten. rewrite map_map. apply map_ext_in. intros [i s] Hin. apply in_combine_l in Hin. apply in_seq in Hin. cbn [fst snd].
  pose proof (str_nat_two i ltac:(lia)) as L. destruct (Nat.ltb i 10).
  - destruct (str_nat i) as [|c [|]]; try discriminate. reflexivity.
  - destruct (str_nat i) as [|c [|c' [|]]]; try discriminate. reflexivity.
Qed.
Lemma blank_length sents : length (blank_after_ten sents) = length sents.
Proof. unfold blank_after_ten. rewrite map_length, combine_length, seq_length. lia. Qed.
Lemma blank_few sents : (length sents <= 10)%nat -> blank_after_ten sents = sents.
Proof. intros H. rewrite <- tagged_blank by lia. apply tagged_strip, H. Qed.
Lemma topk_long q sents lls : (1 <= q)%nat -> (length sents <= 100)%nat -> length lls = length sents ->
  fst (topk q sents lls) = blank_after_ten sents /\ best_of q (combine (blank_after_ten sents) lls) (snd (topk q sents lls)).
Proof.
  intros Hk Hs Hl. unfold topk. cbn [fst snd]. split; [apply tagged_blank; auto|]. set (keys := tagged sents).
  assert (Hkl : List.length keys = List.length lls) by (unfold keys; rewrite tagged_length; lia).
  rewrite dict_of_NoDup by (rewrite map_fst_comb by auto; apply tagged_NoDup).
  set (S := sort_by (combine keys lls)). unfold last_k. destruct (Nat.eqb_spec q 0); [lia|]. rewrite map_length.
  set (cut := (List.length S - q)%nat). set (st := fun ab : list ascii * R => (skipn 2 (fst ab), snd ab)).
  assert (HS : List.length S = List.length sents) by (unfold S; rewrite (Permutation_length (sort_perm _)), combine_length; lia).
  pose proof (sort_sorted (combine keys lls)) as Hsort. fold S in Hsort. rewrite <- (firstn_skipn cut S) in Hsort. apply ss_app in Hsort. destruct Hsort as (So & Lo).
  exists (map st (firstn cut S)), (map st (skipn cut S)). repeat split.
  - rewrite <- map_app, firstn_skipn. unfold S. rewrite (Permutation_map st (sort_perm (combine keys lls))). unfold st. rewrite <- combine_map_l. unfold keys. rewrite tagged_blank by auto. auto.
  - rewrite skipn_map, !map_map. reflexivity.
  - rewrite map_length, skipn_length, combine_length, blank_length. lia.
  - intros a b Ha Hb. apply in_map_iff in Ha, Hb. destruct Ha as (a' & <- & Ha), Hb as (b' & <- & Hb). cbn. auto.
  - clear - So. induction So as [|a l Hs IH Hf]; cbn [map]; constructor; auto. apply Forall_forall. intros x Hx. apply in_map_iff in Hx. destruct Hx as (y & <- & Hy). rewrite Forall_forall in Hf. cbn. auto.
Qed.

(** ** The run of one entry *)
Lemma E_repeat_dmap {A B} (h : A -> B) (D : dist A) m : forall F, E (indep (repeat (dmap h D) m)) F = E (indep (repeat D m)) (fun l => F (map h l)).
Proof.
  induction m as [|m IH]; intros F; [cbn [repeat indep]; rewrite !E_ret; reflexivity|]. cbn [repeat]. rewrite !E_indep_cons, E_dmap. apply E_ext. intros a. rewrite IH. reflexivity.
Qed.
Section Entry.
  Variable g dg : R.
  Variable rinit : bool.
  Variable lm : language.
  Variable d : nat.
  Variable k : sampler.
  Variable L : nat.
  Variable e : text.
  Let C := lm_C lm.
  Let T := fill_target lm d e.
  Let fw := t_fw T.
  Hypothesis Hd : (0 < d)%nat.
  Hypothesis HC : (2 <= C)%nat.
  Hypothesis Hw : well_shaped lm.
  Hypothesis Hlen : length (x_pos e) = d.

  Lemma start_good : is_prob (fill_start rinit lm e) /\ forall x w, In (x, w) (fill_start rinit lm e) -> In x (states d C).
  Proof.
    unfold fill_start. rewrite Hlen. destruct rinit.
    - destruct (proj1 (randint_even d C ltac:(lia))) as [H1 H2]. split; [exact H1|]. intros x w Hx. apply in_states. exact (H2 x w Hx).
    - set (row := fun i => net_of lm e (repeat (one_hot (lm_C lm) mask_token) d) i). assert (Hr : forall i, length (row i) = C) by (intros i; apply Hw).
      rewrite <- (map_map row categorical). split.
      + apply is_prob_indep. intros D HD. apply in_map_iff in HD. destruct HD as (l & <- & Hl). apply in_map_iff in Hl. destruct Hl as (i & <- & _). apply is_prob_categorical.
        intros E. specialize (Hr i). rewrite E in Hr. cbn in Hr. lia.
      + intros x w Hx. apply (in_indep_rows C) in Hx; [|apply Forall_forall; intros l Hl; apply in_map_iff in Hl; destruct Hl as (i & <- & _); apply Hr].
        rewrite map_length, seq_length in Hx. exact Hx.
  Qed.

  Definition chain_of (x0 : list nat) : dist (list nat) := dmap (fun o => hd [] (fst o)) (sampler_run g dg T k L ([x0], init_state k)).
  Hypothesis Hu : usable T k.
  Lemma chain_good x0 : In x0 (states d C) -> is_prob (chain_of x0) /\ forall x w, In (x, w) (chain_of x0) -> In x (states d C).
  Proof.
    intros Hx0. destruct (run_legal g dg T k L 1 [x0]) as [H1 H2]; auto.
    { split; [reflexivity|]. constructor; [|constructor]. apply in_states. exact Hx0. }
    unfold chain_of. split; [apply is_prob_dmap, H1|]. intros x w Hx. apply in_dmap in Hx. destruct Hx as (o & Ho & ->).
    destruct (H2 _ _ Ho) as [[Hl Hf] _]. destruct (fst o) as [|y [|]]; try discriminate. inversion Hf; subst. apply in_states. assumption.
  Qed.
  Definition outcome (keep : option nat) (fills : list (list nat)) : list (list ascii) * list (list ascii) :=
    match keep with Some q => topk q (map (sentence_of lm e) fills) (map fw fills) | None => (map (sentence_of lm e) fills, []) end.
  Lemma entry_law m keep F : E (fill_entry g dg rinit lm d k L m keep e) F =
    E (fill_start rinit lm e) (fun x0 => E (indep (repeat (chain_of x0) m)) (fun fills => F (outcome keep fills))).
  Proof.
    unfold fill_entry. rewrite Hlen, Nat.eqb_refl, E_bind. apply E_ext. intros x0. rewrite E_dmap.
    set (h := fun x : list nat => (sentence_of lm e x, fw x)).
    assert (Hone : fill_once g dg lm d k L e x0 = dmap h (chain_of x0)).
    { unfold fill_once, chain_of, dmap. rewrite map_map. reflexivity. }
    rewrite Hone, E_repeat_dmap. apply E_ext. intros fills. unfold outcome. rewrite !map_map. unfold h. cbn [fst snd]. destruct keep; reflexivity.
  Qed.
  Theorem entry_good m keep : is_prob (fill_entry g dg rinit lm d k L m keep e) /\
    forall o w, In (o, w) (fill_entry g dg rinit lm d k L m keep e) ->
      exists fills, length fills = m /\ Forall (fun x => In x (states d C)) fills /\ o = outcome keep fills.
  Proof.
    destruct start_good as [S1 S2].
    assert (Hone : forall x0, fill_once g dg lm d k L e x0 = dmap (fun x => (sentence_of lm e x, fw x)) (chain_of x0)).
    { intros x0. unfold fill_once, chain_of, dmap. rewrite map_map. reflexivity. }
    unfold fill_entry. rewrite Hlen, Nat.eqb_refl. split.
    - apply is_prob_bind; [exact S1|]. intros x0 w Hx0. apply is_prob_dmap, is_prob_indep. intros D HD. apply repeat_spec in HD. subst D. rewrite Hone. apply is_prob_dmap, chain_good, (S2 _ _ Hx0).
    - intros o w Ho. apply in_bind in Ho. destruct Ho as (x0 & v & v' & Hx0 & Ho). apply in_dmap in Ho. destruct Ho as (rs & Hrs & ->).
      destruct (in_indep_repeat _ _ _ _ Hrs) as [Hl Hr]. assert (G : exists fills, rs = map (fun x => (sentence_of lm e x, fw x)) fills /\ Forall (fun x => In x (states d C)) fills).
      { clear Hrs Hl. induction rs as [|r rs IH]; [exists []; split; [reflexivity|constructor]|]. destruct IH as (fills & -> & Hf); [inversion Hr; assumption|].
        inversion Hr as [|? ? (u & Hu') _]; subst. rewrite Hone in Hu'. apply in_dmap in Hu'. destruct Hu' as (x & Hx & ->). exists (x :: fills). split; [reflexivity|].
        constructor; [exact (proj2 (chain_good x0 (S2 _ _ Hx0)) x u Hx)|exact Hf]. }
      destruct G as (fills & -> & Hf). exists fills. split; [rewrite <- Hl; symmetry; apply map_length|]. split; [exact Hf|].
      unfold outcome. rewrite !map_map. cbn [fst snd]. destruct keep; reflexivity.
  Qed.
End Entry.
Lemma blank_tail sents i : (10 <= i < length sents)%nat -> exists s, nth_error (blank_after_ten sents) i = Some (" "%char :: s).
Proof.
  intros Hi. assert (K : forall (l : list (list ascii)) b j, (j < length l)%nat -> nth_error (combine (seq b (length l)) l) j = Some ((b + j)%nat, nth j l [])).
  { induction l as [|a l IH]; intros b j Hj; [cbn in Hj; lia|]. destruct j as [|j]; cbn [length seq combine nth_error nth]; [f_equal; f_equal; lia|]. rewrite IH by (cbn in Hj; lia). f_equal. f_equal. lia. }
  exists (nth i sents []). unfold blank_after_ten. erewrite map_nth_error; [|apply K; lia]. cbn [fst snd]. destruct (Nat.ltb_spec (0 + i) 10); [lia|reflexivity].
Qed.
