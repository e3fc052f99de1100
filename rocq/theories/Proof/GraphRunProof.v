From Coq Require Import String List Bool ZArith Reals Lra Lia Arith.
From Verif.Base Require Import RSum.
From Verif.Spec Require Import GraphSpec GraphRunSpec.
From Verif.Model Require Import CombOpt GraphIter Experiment Loaders GraphRun.
From Verif.Proof Require Import GraphIterProof ExperimentProof.
Import ListNotations.

Lemma list_nth_ext {Y} (l l' : list Y) : (forall i, nth_error l i = nth_error l' i) -> l = l'.
Proof.
  revert l'. induction l as [|a l IH]; intros [|b l'] H; try reflexivity; try (specialize (H 0%nat); discriminate).
  f_equal; [specialize (H 0%nat); cbn in H; congruence|]. apply IH. intros i. exact (H (S i)).
Qed.
Lemma nth_error_skip {Y} n : forall (l : list Y) i, nth_error (skipn n l) i = nth_error l (n + i).
Proof. induction n as [|n IH]; intros [|a l] i; cbn; try reflexivity; [destruct i; reflexivity|apply IH]. Qed.
Lemma nth_error_first {Y} n : forall (l : list Y) i, nth_error (firstn n l) i = if (i <? n)%nat then nth_error l i else None.
Proof.
  induction n as [|n IH]; intros [|a l] [|i]; cbn [firstn nth_error]; try reflexivity.
  - destruct (S i <? S n)%nat; reflexivity.
  - rewrite IH. reflexivity.
Qed.
Lemma nth_error_row {Y} n i (l : list Y) c : nth_error (row n i l) c = if (c <? n)%nat then nth_error l (i * n + c) else None.
Proof. unfold row. rewrite nth_error_first, nth_error_skip. reflexivity. Qed.
Lemma row_length {Y} n i m (l : list Y) : length l = (m * n)%nat -> (i < m)%nat -> length (row n i l) = n.
Proof. intros H Hi. unfold row. rewrite firstn_length, skipn_length, H. nia. Qed.
Lemma row_0 {Y} n (l r : list Y) : length l = n -> row n 0 (l ++ r) = l.
Proof. intros H. unfold row. cbn [Nat.mul skipn]. rewrite firstn_app, H, Nat.sub_diag, firstn_O, app_nil_r. apply firstn_all2. lia. Qed.
Lemma row_S {Y} n i (l : list Y) : row n (S i) l = row n i (skipn n l).
Proof. apply list_nth_ext. intros c. rewrite !nth_error_row, nth_error_skip. destruct (c <? n)%nat; [|reflexivity]. f_equal. lia. Qed.
Lemma row_S_app {Y} n i (l r : list Y) : length l = n -> row n (S i) (l ++ r) = row n i r.
Proof. intros H. rewrite row_S. rewrite skipn_app, H, Nat.sub_diag. cbn [skipn]. rewrite skipn_all2 by lia. reflexivity. Qed.
Lemma masked_prefix {Y} n m (l : list Y) : masked (repeat true n ++ repeat false m) l = firstn n l.
Proof.
  revert l. induction n as [|n IH]; intros l.
  - cbn [repeat app firstn]. unfold masked. revert l. induction m as [|m IH]; intros [|a l]; try reflexivity. cbn. exact (IH l).
  - destruct l as [|a l]; [reflexivity|]. unfold masked in *. cbn. f_equal. apply IH.
Qed.

Section Run.
Variables A X : Type.
Variable value : A -> R -> X -> R.
Variable zeros : X.
Variable dummy : A * R.

Lemma evaluations_seq slots T b m : forall a xs, length xs = (m * b)%nat -> (a + m <= length slots)%nat -> forall i s, (i < m)%nat -> nth_error slots (a + i) = Some s ->
  row b i (evaluations value slots T (seq a m) b xs) = map (value (fst s) T) (row b i xs).
Proof.
  induction m as [|m IH]; intros a xs Hl Ha i s Hi Hs; [lia|]. cbn [seq evaluations].
  destruct (nth_error slots a) as [sa|] eqn:Ea; [|apply nth_error_None in Ea; lia].
  assert (Hf : length (firstn b xs) = b) by (rewrite firstn_length, Hl; nia).
  destruct i as [|i].
  - rewrite row_0 by (rewrite map_length; exact Hf). rewrite Nat.add_0_r, Ea in Hs. injection Hs as ->. unfold row. reflexivity.
  - rewrite row_S_app by (rewrite map_length; exact Hf). rewrite row_S. apply IH; [rewrite skipn_length, Hl; nia|lia|lia|]. rewrite <- Hs. f_equal. lia.
Qed.
Lemma evaluations_same slots T n s d : forall xs, length xs = (d * n)%nat -> nth_error slots 0 = Some s -> evaluations value slots T (repeat 0%nat d) n xs = map (value (fst s) T) xs.
Proof.
  induction d as [|d IH]; intros xs Hl Hs; [destruct xs; [reflexivity|discriminate]|]. cbn [repeat evaluations]. rewrite Hs.
  rewrite IH by (auto; rewrite skipn_length, Hl; nia). rewrite <- map_app, firstn_skipn. reflexivity.
Qed.
Lemma concat_repeat_1 {Y} (y : Y) d : concat (repeat [y] d) = repeat y d.
Proof. induction d as [|d IH]; cbn [repeat concat app]; [reflexivity|rewrite IH; reflexivity]. Qed.

(** The values of the i-th instance are those of its own chains with its own parameters. *)
Lemma arrange_rows d par b m l slots T xs : (par = false \/ d = 1%nat \/ (0 < d /\ Nat.divide d m)%nat \/ (0 < d /\ Nat.divide d b /\ m = 1)%nat) -> arrange d par b m = Some l ->
  length slots = m -> (0 < m)%nat -> length xs = (m * b)%nat ->
  forall i s, nth_error slots i = Some s -> row b i (evaluations value slots T (block_of l) (block_size l) xs) = map (value (fst s) T) (row b i xs).
Proof.
  intros Hd Hl Hm Hm0 Hx i s Hs. assert (Hi : (i < m)%nat) by (rewrite <- Hm; apply nth_error_Some; congruence).
  assert (Dflt : row b i (evaluations value slots T (seq 0 m) b xs) = map (value (fst s) T) (row b i xs)) by (apply evaluations_seq; auto; lia).
  unfold arrange in Hl. destruct par; cbn [andb] in Hl; [|injection Hl as <-; exact Dflt].
  destruct (Nat.eqb_spec d 1) as [->|Nd]; cbn [negb] in Hl; [injection Hl as <-; exact Dflt|].
  destruct (Nat.leb_spec d m) as [Hdm|Hdm]; [destruct (Nat.eqb (m mod d) 0); [injection Hl as <-; exact Dflt|discriminate]|].
  destruct (Nat.eqb (b mod d) 0) eqn:Eb; [|discriminate]. injection Hl as <-. cbn [block_of block_size].
  assert (M1 : m = 1%nat).
  { destruct Hd as [H|[H|[[H0 H]|(_ & _ & H)]]]; [discriminate|contradiction| |exact H]. destruct H as [z Hz]. destruct z; nia. }
  rewrite M1 in *. cbn [seq]. rewrite concat_repeat_1. apply Nat.eqb_eq in Eb. assert (i = 0%nat) by lia. subst i.
  assert (Hb : (d * (b / d) = b)%nat) by (pose proof (Nat.div_mod b d ltac:(lia)); lia).
  rewrite (evaluations_same slots T (b / d) s d xs); [|rewrite Hx; lia|exact Hs]. unfold row. cbn [Nat.mul skipn]. rewrite firstn_map. reflexivity.
Qed.

Lemma group_nth out (B : nat) (G : list (entry (A * R))) t : (forall g, In g out -> length g = B) -> nth_error out t = Some G ->
  forall j, (j < B)%nat -> nth_error G j = nth_error (concat out) (t * B + j).
Proof.
  revert t. induction out as [|g out IH]; intros [|t] HL Ht j Hj; try discriminate.
  - injection Ht as ->. cbn [concat Nat.mul Nat.add]. rewrite nth_error_app1 by (rewrite (HL G (or_introl eq_refl)); exact Hj). reflexivity.
  - cbn [concat]. pose proof (HL g (or_introl eq_refl)) as Hg. rewrite nth_error_app2 by (rewrite Hg; cbn [Nat.mul]; nia).
    rewrite (IH t (fun g' Hg' => HL g' (or_intror Hg')) Ht j Hj). f_equal. rewrite Hg. cbn [Nat.mul]. lia.
Qed.
(** The last group. *)
Lemma last_group_is N m o (gs : list (A * R)) : (0 < m)%nat -> (length gs <= N)%nat -> last_group N m o ->
  exists out G, get_iterator N m 1 0 gs = Some (out ++ [G]) /\ (forall g, In g (out ++ [G]) -> length g = m) /\ length out = (o / m)%nat /\
    G = map (fun p => Real (fst p) (snd p)) (combine (seq o (length gs - o)) (skipn o gs)) ++ repeat Dummy (m - (length gs - o)).
Proof.
  intros Hm HN [[q Hq] Ho]. destruct (iterator_spec (A * R) N m 1 0 gs Hm ltac:(lia) ltac:(apply Nat.mod_1_r) HN) as (all & H1 & H2 & H3 & H4).
  rewrite Nat.div_1_r in *. destruct (total_batches_ceil N m Hm) as [T1 T2].
  assert (ET : total_batches N m = S q). { apply Nat.le_antisymm; [apply T2; nia|]. destruct (Nat.le_gt_cases (S q) (total_batches N m)); [assumption|]. nia. }
  rewrite ET in *. destruct (@exists_last _ all) as (out & G & ->); [intros ->; discriminate|]. rewrite app_length in H2. cbn [length] in H2.
  exists out, G. split; [exact H1|]. split; [exact H3|]. assert (EO : length out = q) by lia. split; [rewrite Hq, Nat.div_mul by lia; exact EO|].
  assert (LG : length G = m) by (apply H3, in_or_app; right; left; reflexivity).
  apply list_nth_ext. intros j. destruct (Nat.lt_ge_cases j m) as [Hj|Hj].
  - rewrite (group_nth (out ++ [G]) m G q H3 ltac:(rewrite nth_error_app2, EO, Nat.sub_diag by lia; reflexivity) j Hj), H4 by nia.
    replace (0 + 1 * (q * m + j))%nat with (o + j)%nat by lia. destruct (nth_error gs (o + j)) as [g|] eqn:E.
    + assert (Hlt : (o + j < length gs)%nat) by (apply nth_error_Some; congruence).
      assert (LC : length (combine (seq o (length gs - o)) (skipn o gs)) = (length gs - o)%nat) by (rewrite combine_length, seq_length, skipn_length; lia).
      rewrite nth_error_app1 by (rewrite map_length, LC; lia). symmetry. apply (map_nth_error (fun p => Real (fst p) (snd p)) j _ (d := (o + j, g)%nat)).
      assert (Hc : nth_error (combine (seq o (length gs - o)) (skipn o gs)) j = Some ((o + j)%nat, g)); [|exact Hc].
      clear - E Hlt. rewrite <- nth_error_skip in E. assert (Hj : (j < length gs - o)%nat) by lia. clear Hlt. revert E. generalize (skipn o gs). intros l.
      revert Hj. generalize (length gs - o)%nat. intros n. revert o j l. induction n as [|n IH]; intros o j l Hj E; [lia|]. destruct l as [|a l]; [destruct j; discriminate|].
      cbn [seq combine]. destruct j as [|j]; [cbn in *; rewrite Nat.add_0_r; congruence|]. cbn [nth_error]. replace (o + S j)%nat with (S o + j)%nat by lia. apply IH; [lia|exact E].
    + apply nth_error_None in E. rewrite nth_error_app2 by (rewrite map_length, combine_length, seq_length, skipn_length; lia).
      symmetry. rewrite map_length, combine_length, seq_length, skipn_length. apply nth_error_repeat. lia.
  - rewrite (proj2 (nth_error_None G j)) by lia. symmetry. apply nth_error_None. rewrite app_length, map_length, combine_length, seq_length, skipn_length, repeat_length. lia.
Qed.

(** ** Steps looked at *)
Lemma multiples log L : (0 < log)%nat -> filter (fun s => Nat.eqb (s mod log) 0) (seq 1 L) = map (fun q => (S q * log)%nat) (seq 0 (L / log)).
Proof.
  intros Hl. induction L as [|L IH]; [rewrite Nat.div_0_l by lia; reflexivity|].
  rewrite seq_S, filter_app, IH. cbn [filter Nat.add]. pose proof (Nat.div_mod L log ltac:(lia)) as E. pose proof (Nat.mod_upper_bound L log ltac:(lia)) as U.
  destruct (Nat.eqb_spec (S L mod log) 0) as [Z|Z].
  - apply Nat.mod_divides in Z; [|lia]. destruct Z as [c Hc]. assert (ED : (S L / log = c)%nat) by (rewrite Hc, Nat.mul_comm; apply Nat.div_mul; lia).
    assert (EC : c = S (L / log)) by nia. rewrite ED, EC, seq_S, map_app. cbn [map Nat.add]. do 2 f_equal. lia.
  - rewrite app_nil_r. f_equal. f_equal. destruct (Nat.eq_dec (L mod log) (log - 1)) as [Q|Q].
    + exfalso. apply Z. replace (S L) with (S (L / log) * log)%nat by nia. apply Nat.mod_mul. lia.
    + replace (S L) with (S (L mod log) + (L / log) * log)%nat by nia. rewrite Nat.div_add by lia. rewrite (Nat.div_small (S (L mod log))) by lia. reflexivity.
Qed.
Lemma filter_map_comm {Y Z} (f : Y -> Z) (p : Z -> bool) l : filter p (map f l) = map f (filter (fun y => p (f y)) l).
Proof. induction l as [|a l IH]; [reflexivity|]. cbn [map filter]. rewrite IH. destruct (p (f a)); reflexivity. Qed.
Lemma logged_are {Y} log L ratio (F : nat -> list R * list Y) : (0 < log)%nat -> (0 <= ratio <= 1)%R ->
  co_logged log (map (fun s => (s, F s)) (map fst (sampling_steps L ratio))) = map (fun q => F (S q * log)%nat) (seq 0 (L / log)).
Proof.
  intros Hl Hr. rewrite (steps_all L ratio Hr). unfold co_logged. rewrite filter_map_comm. cbn [fst]. rewrite map_map. cbn [snd].
  rewrite (multiples log L Hl), map_map. reflexivity.
Qed.
Lemma trace_nth {Y} ref (z : Y) ls : forall st t, (t < length ls)%nat -> nth_error (co_trace ref z st ls) t = Some (fst (fold_left (co_update ref z) (firstn (S t) ls) st)).
Proof.
  induction ls as [|s ls IH]; intros st t Ht; [cbn in Ht; lia|]. cbn [co_trace]. destruct t as [|t]; [reflexivity|].
  cbn [nth_error]. rewrite IH by (cbn in Ht; lia). reflexivity.
Qed.
Lemma firstn_seq k : forall a n, (k <= n)%nat -> firstn k (seq a n) = seq a k.
Proof. induction k as [|k IH]; intros a [|n] H; try reflexivity; try lia. cbn. f_equal. apply IH. lia. Qed.

(** ** The best value of one instance after [n] looks *)
Section One.
Variables (a : A) (ref : R) (sched : nat -> R) (log b j m : nat) (visits : nat -> list X).
Hypotheses (Hb : (0 < b)%nat) (Hlog : (0 < log)%nat) (Href : (0 < ref)%R) (Hj : (j < m)%nat) (Hv : forall t, length (visits t) = (m * b)%nat).
Definition look_at (t : nat) : list R * list X := (map (value a (sched t)) (row b j (visits t)), row b j (visits t)).
Definition after_looks (n : nat) : R * X := fold_left (co_update ref zeros) (map (fun q => look_at (S q * log)) (seq 0 n)) (co_init zeros).
Lemma look_wf t : wf_step X (look_at t).
Proof.
  unfold wf_step, look_at. cbn [fst snd]. rewrite map_length. split; [|reflexivity]. intros E. apply (f_equal (@length R)) in E. rewrite map_length, (row_length b j m) in E; auto. cbn in E. lia.
Qed.
Lemma in_looks n s : In s (map (fun q => look_at (S q * log)) (seq 0 n)) <-> exists t, looked_at log (n * log) t /\ s = look_at t.
Proof.
  rewrite in_map_iff. split.
  - intros (q & <- & Hq). apply in_seq in Hq. exists (S q * log)%nat. split; [|reflexivity]. split; [nia|]. exists (S q). reflexivity.
  - intros (t & ([H1 H2] & [c Hc]) & ->). subst t. exists (c - 1)%nat. destruct c as [|c]; [lia|]. cbn [Nat.sub]. rewrite Nat.sub_0_r. split; [reflexivity|]. apply in_seq. nia.
Qed.
Lemma row_in t c x : nth_error (row b j (visits t)) c = Some x <-> (c < b)%nat /\ nth_error (visits t) (j * b + c) = Some x.
Proof. rewrite nth_error_row. destruct (Nat.ltb_spec c b); split; [auto|intros []; auto|discriminate|intros []; lia]. Qed.
Lemma billion : (- IZR 1000000000 = - 10 ^ 9)%R. Proof. lra. Qed.
Lemma best_after n : best_seen ref (fst (after_looks n)) (fun v => exists t x, shown log (n * log) b j visits t x /\ v = value a (sched t) x) /\
  ((exists v t x, shown log (n * log) b j visits t x /\ v = value a (sched t) x /\ (- 10 ^ 9 < v / ref)%R) ->
   exists t, shown log (n * log) b j visits t (snd (after_looks n)) /\ fst (after_looks n) = (value a (sched t) (snd (after_looks n)) / ref)%R).
Proof.
  destruct (co_fold_spec X ref zeros Href (map (fun q => look_at (S q * log)) (seq 0 n)) (co_init zeros)) as (_ & H2 & H3).
  { intros s Hs. apply in_looks in Hs. destruct Hs as (t & _ & ->). apply look_wf. }
  fold (after_looks n) in H2, H3.
  assert (Up : forall v, (exists t x, shown log (n * log) b j visits t x /\ v = value a (sched t) x) -> (v / ref <= fst (after_looks n))%R).
  { intros v (t & x & (Ht & c & Hc & Hx) & ->). apply (H2 (look_at t)); [apply in_looks; eauto|]. cbn [look_at fst]. apply in_map. apply (nth_error_In _ c), row_in. auto. }
  assert (At : attained X ref (map (fun q => look_at (S q * log)) (seq 0 n)) (after_looks n) ->
     exists t, shown log (n * log) b j visits t (snd (after_looks n)) /\ fst (after_looks n) = (value a (sched t) (snd (after_looks n)) / ref)%R).
  { intros (s & c & v & Hs & Hc & Hx & E). apply in_looks in Hs. destruct Hs as (t & Ht & ->). cbn [look_at fst snd] in Hc, Hx.
    rewrite nth_error_map, Hx in Hc. cbn [option_map] in Hc. injection Hc as <-. exists t. split; [|exact E]. split; [exact Ht|]. exists c. apply row_in. exact Hx. }
  split; [split; [exact Up|]|].
  - destruct H3 as [H3|H3]; [left; rewrite H3; cbn [co_init fst]; apply billion|right]. destruct (At H3) as (t & Hs & E). eexists. split; [eauto|exact E].
  - intros (v & t & x & Hs & -> & Hg). destruct H3 as [H3|H3]; [exfalso|auto]. specialize (Up _ (ex_intro _ t (ex_intro _ x (conj Hs eq_refl)))). rewrite H3 in Up. cbn [co_init fst] in Up. lra.
Qed.
End One.

(** ** A group *)
Definition enough (par : bool) (d b m : nat) : Prop := par = false \/ d = 1%nat \/ (0 < d /\ Nat.divide d m)%nat \/ (0 < d /\ Nat.divide d b /\ m = 1)%nat.
Lemma arrange_some par d b m : (0 < m)%nat -> enough par d b m -> exists l, arrange d par b m = Some l.
Proof.
  intros Hm H. unfold arrange. destruct par; cbn [andb]; [|eauto]. destruct (Nat.eqb_spec d 1); cbn [negb]; [eauto|].
  destruct H as [H|[H|[[H0 H]|(H0 & H & H1)]]]; [discriminate|contradiction| |].
  - pose proof (Nat.divide_pos_le d m Hm H) as L. rewrite (proj2 (Nat.leb_le d m) L), (proj2 (Nat.mod_divide m d ltac:(lia)) H). cbn [Nat.eqb]. eauto.
  - destruct (Nat.leb_spec d m); [lia|]. rewrite (proj2 (Nat.mod_divide b d ltac:(lia)) H). cbn [Nat.eqb]. eauto.
Qed.
Lemma combine_seq_nth {Y} (l : list Y) : forall a j s, nth_error l j = Some s -> nth_error (combine (seq a (length l)) l) j = Some ((a + j)%nat, s).
Proof.
  induction l as [|y l IH]; intros a [|j] s H; try discriminate; cbn [length seq combine nth_error] in *.
  - rewrite Nat.add_0_r. congruence.
  - rewrite (IH (S a) j s H). do 2 f_equal. lia.
Qed.
Definition ends_well (d : nat) (k : co_conf) (G : list (entry (A * R))) : Prop :=
  length G = k_models k /\ device_ids d (k_parallel k) (k_models k) (map (slot_id) G) = Some (map slot_id G).
Lemma run_group_some d k G visits : (0 < k_models k)%nat -> enough (k_parallel k) d (k_batch k) (k_models k) -> ends_well d k G -> exists s, run_group value zeros dummy d k G visits = Some s.
Proof.
  intros Hm He [HL HI]. unfold run_group. destruct (arrange_some _ _ _ _ Hm He) as [l ->]. rewrite HI. unfold sample_mask. rewrite map_length, HL, Nat.eqb_refl. eauto.
Qed.
Lemma group_result d k reals n visits s : (0 < k_log k)%nat -> (0 < k_batch k)%nat -> (0 < k_models k)%nat -> (0 <= k_ratio k <= 1)%R -> enough (k_parallel k) d (k_batch k) (k_models k) ->
  (forall t, length (visits t) = (k_models k * k_batch k)%nat) ->
  let G := map (fun p => Real (fst p) (snd p)) reals ++ repeat Dummy n in
  ends_well d k G -> run_group value zeros dummy d k G visits = Some s ->
  length (s_best s) = length reals /\ length (s_trajectory s) = (k_length k / k_log k)%nat /\ (k_samples k = true -> length (s_samples s) = k_models k) /\
  forall j i a r, nth_error reals j = Some (i, (a, r)) ->
    let st := after_looks a (slot_ref k (a, r)) (k_schedule k) (k_log k) (k_batch k) j visits in
    nth_error (s_best s) j = Some (fst (st (k_length k / k_log k)%nat)) /\
    (k_samples k = true -> nth_error (s_samples s) j = Some (snd (st (k_length k / k_log k)%nat))) /\
    forall t, (t < k_length k / k_log k)%nat -> exists row, nth_error (s_trajectory s) t = Some row /\ nth_error row j = Some (fst (st (S t))).
Proof.
  intros Hlog Hb Hm Hr He Hv G [HL HI] HG. unfold run_group in HG. destruct (arrange_some _ _ _ _ Hm He) as [l El]. rewrite El, HI in HG. unfold sample_mask in HG.
  rewrite map_length, HL, Nat.eqb_refl in HG. cbv zeta in HG. injection HG as <-. cbn [s_best s_trajectory s_samples].
  assert (EM : map (Z.leb 0) (map slot_id G) = repeat true (length reals) ++ repeat false n).
  { unfold G. rewrite !map_app, !map_map. cbn [slot_id]. f_equal.
    - clear. induction reals as [|p l IH]; [reflexivity|]. cbn [map length repeat]. f_equal; [apply Z.leb_le; lia|exact IH].
    - clear. induction n as [|n IH]; [reflexivity|]. cbn. f_equal. exact IH. }
  rewrite EM. set (slots := map (slot dummy) G). assert (LS : length slots = k_models k) by (unfold slots; rewrite map_length; exact HL).
  assert (LR : (length reals <= k_models k)%nat) by (rewrite <- HL; unfold G; rewrite app_length, map_length; lia).
  assert (LC : length (combine (seq 0 (length slots)) slots) = k_models k) by (rewrite combine_length, seq_length; lia).
  assert (LG : forall F : nat -> list R * list X, length (co_logged (k_log k) (map (fun s => (s, F s)) (map fst (sampling_steps (k_length k) (k_ratio k))))) = (k_length k / k_log k)%nat)
    by (intros F; rewrite (logged_are _ _ _ F Hlog Hr), map_length, seq_length; reflexivity).
  rewrite (LG (fun _ => ([], []))).
  split; [rewrite masked_prefix, firstn_length, !map_length, LC; lia|]. split; [rewrite map_length, seq_length; reflexivity|].
  split; [intros ->; rewrite !map_length; exact LC|].
  intros j i a r Hj. set (st := after_looks a (slot_ref k (a, r)) (k_schedule k) (k_log k) (k_batch k) j visits). assert (Ljr : (j < length reals)%nat) by (apply nth_error_Some; congruence).
  assert (HS : nth_error slots j = Some (a, r)).
  { unfold slots, G. rewrite map_app, nth_error_app1 by (rewrite !map_length; exact Ljr). rewrite map_map. cbn [slot].
    rewrite (map_nth_error (fun x => snd x) j reals Hj). reflexivity. }
  assert (HC : nth_error (combine (seq 0 (length slots)) slots) j = Some (j, (a, r))) by (apply (combine_seq_nth slots 0 j (a, r) HS)).
  assert (HLg : co_logged (k_log k) (instance_steps value k l slots visits j) =
     map (fun q => look_at a (k_schedule k) (k_batch k) j visits (S q * k_log k)) (seq 0 (k_length k / k_log k))).
  { unfold instance_steps. rewrite (logged_are _ _ _ (fun s => (row (k_batch k) j (evaluations value slots (k_schedule k s) (block_of l) (block_size l) (visits s)), row (k_batch k) j (visits s))) Hlog Hr).
    apply map_ext. intros q. unfold look_at. f_equal. exact (arrange_rows d (k_parallel k) (k_batch k) (k_models k) l slots _ _ He El LS Hm (Hv _) j (a, r) HS). }
  assert (HF : co_run (slot_ref k (a, r)) zeros (k_log k) (instance_steps value k l slots visits j) = st (k_length k / k_log k)%nat)
    by (unfold co_run; rewrite HLg; reflexivity).
  split; [|split].
  - rewrite masked_prefix, nth_error_first, (proj2 (Nat.ltb_lt j _) Ljr), map_map. rewrite (map_nth_error (fun x => fst (co_run (slot_ref k (snd x)) zeros (k_log k) (instance_steps value k l slots visits (fst x)))) j _ HC).
    cbn [fst snd]. rewrite HF. reflexivity.
  - intros ->. rewrite map_map. rewrite (map_nth_error (fun x => snd (co_run (slot_ref k (snd x)) zeros (k_log k) (instance_steps value k l slots visits (fst x)))) j _ HC).
    cbn [fst snd]. rewrite HF. reflexivity.
  - intros t Ht. eexists. split; [apply map_nth_error; rewrite (nth_error_nth' _ 0%nat) by (rewrite seq_length; exact Ht); rewrite seq_nth by exact Ht; reflexivity|].
    rewrite masked_prefix, nth_error_first, (proj2 (Nat.ltb_lt j _) Ljr), map_map.
    rewrite (map_nth_error (fun x => nth (0 + t) (co_trace (slot_ref k (snd x)) zeros (co_init zeros) (co_logged (k_log k) (instance_steps value k l slots visits (fst x)))) 0%R) j _ HC).
    cbn [fst snd Nat.add]. rewrite HLg. f_equal. apply nth_error_nth. rewrite trace_nth by (rewrite map_length, seq_length; exact Ht).
    unfold st, after_looks. rewrite firstn_map, firstn_seq by exact Ht. reflexivity.
Qed.

(** ** All groups *)
Lemma run_groups_all d k : forall groups G visits f, (forall g v, In g (groups ++ [G]) -> exists s, run_group value zeros dummy d k g v = Some s) ->
  exists s f', run_group value zeros dummy d k G (visits (length groups)) = Some s /\ run_groups value zeros dummy d k (groups ++ [G]) visits f = (f', true) /\ f' "results"%string = Some s.
Proof.
  induction groups as [|g groups IH]; intros G visits f H; cbn [app length run_groups].
  - destruct (H G (visits 0%nat) (or_introl eq_refl)) as [s Es]. rewrite Es. exists s. eexists. split; [reflexivity|]. split; [reflexivity|]. reflexivity.
  - destruct (H g (visits 0%nat) (or_introl eq_refl)) as [s Es]. rewrite Es. apply (IH G (fun q => visits (S q))). intros g' v Hg. apply H. right. exact Hg.
Qed.
End Run.
