(** Proofs about the launch, plot and evaluation tools (Model/Tools.v). *)
From Coq Require Import String Reals List Arith Bool Lia Lra Permutation.
From Verif.Base Require Import RSum.
From Verif.Spec Require Import ToolSpec GraphSpec.
From Verif.Model Require Import Tools.
Import ListNotations.
Local Open Scope nat_scope.

(** ** Sweeps *)
Lemma in_product {V} (vss : list (list V)) : forall vs, In vs (product vss) <-> Forall2 (fun v l => In v l) vs vss.
Proof.
  induction vss as [|l vss IH]; intros vs; cbn [product].
  - split; [intros [<-|[]]; constructor|]. intros H. inversion H. left; reflexivity.
  - rewrite in_flat_map. split.
    + intros (v & Hv & H). apply in_map_iff in H. destruct H as (vs' & <- & H). constructor; auto. apply IH; auto.
    + intros H. inversion H as [|v ? vs' ? Hv Hvs]; subst. exists v. split; auto. apply in_map. apply IH; auto.
Qed.
Lemma product_length {V} (vss : list (list V)) : List.length (product vss) = fold_right (fun l m => List.length l * m) 1 vss.
Proof.
  induction vss as [|l vss IH]; cbn [product fold_right]; [reflexivity|]. rewrite <- IH. clear IH.
  induction l as [|v l IHl]; cbn [flat_map List.length]; [reflexivity|]. rewrite app_length, map_length, IHl. lia.
Qed.
Lemma product_NoDup {V} (vss : list (list V)) : Forall (@NoDup V) vss -> NoDup (product vss).
Proof.
  induction 1 as [|l vss Hl _ IH]; cbn [product]; [repeat constructor; intros []|].
  induction Hl as [|v l Hv _ IHl]; cbn [flat_map]; [constructor|]. apply NoDup_app_intro; auto.
  - apply NoDup_map_inj; auto. intros a b _ _ E. congruence.
  - intros x H1 H2. apply in_map_iff in H1. destruct H1 as (a & <- & _). apply in_flat_map in H2. destruct H2 as (w & Hw & H2).
    apply in_map_iff in H2. destruct H2 as (b & E & _). inversion E; subst. contradiction.
Qed.
Lemma product_row_length {V} (vss : list (list V)) vs : In vs (product vss) -> List.length vs = List.length vss.
Proof. rewrite in_product. induction 1; cbn; auto. Qed.

Lemma map_fst_combine {A B} (l : list A) : forall (l' : list B), List.length l' = List.length l -> map fst (combine l l') = l.
Proof. induction l as [|a l IH]; intros [|b l'] H; cbn in *; try discriminate; auto. f_equal. apply IH. lia. Qed.
Lemma map_snd_combine {A B} (l : list A) : forall (l' : list B), List.length l' = List.length l -> map snd (combine l l') = l'.
Proof. induction l as [|a l IH]; intros [|b l'] H; cbn in *; try discriminate; auto. f_equal. apply IH. lia. Qed.
Lemma combine_fst_snd {A B} (l : list (A * B)) : combine (map fst l) (map snd l) = l.
Proof. induction l as [|[a b] l IH]; cbn; auto. f_equal. auto. Qed.
Lemma Forall2_map_both {A B C D} (R : C -> D -> Prop) (f : A -> C) (g : B -> D) l : forall l', Forall2 R (map f l) (map g l') <-> Forall2 (fun a b => R (f a) (g b)) l l'.
Proof.
  induction l as [|a l IH]; intros [|b l']; cbn; split; intros H; inversion H; subst; constructor; auto; apply IH; auto.
Qed.

Lemma sweeps_complete {V} (s : list (string * list V)) L cfg : get_sweeps s = Some L ->
  (In cfg L <-> map fst cfg = map fst s /\ Forall2 (fun kv kvs => In (snd kv) (snd kvs)) cfg s).
Proof.
  intros H. assert (E : L = map (fun v => combine (map fst s) v) (product (map snd s))) by (destruct s; [discriminate|injection H as <-; reflexivity]). subst L. clear H.
  rewrite in_map_iff. split.
  - intros (vs & <- & Hin). pose proof (product_row_length _ _ Hin) as Hl. rewrite map_length in Hl.
    split; [apply map_fst_combine; rewrite map_length; auto|].
    apply (Forall2_map_both (fun v l => In v l) snd snd). rewrite map_snd_combine by (rewrite map_length; auto). apply in_product; auto.
  - intros (Hk & Hv). exists (map snd cfg). split; [rewrite <- Hk; apply combine_fst_snd|].
    apply in_product. apply Forall2_map_both. auto.
Qed.
Lemma sweeps_count {V} (s : list (string * list V)) L : get_sweeps s = Some L -> List.length L = fold_right (fun kvs m => List.length (snd kvs) * m) 1 s.
Proof.
  intros H. assert (E : L = map (fun v => combine (map fst s) v) (product (map snd s))) by (destruct s; [discriminate|injection H as <-; reflexivity]). subst L. clear H.
  rewrite map_length, product_length. induction s as [|a s IH]; cbn; auto.
Qed.
Lemma sweeps_NoDup {V} (s : list (string * list V)) L : (forall k vs, In (k, vs) s -> NoDup vs) -> get_sweeps s = Some L -> NoDup L.
Proof.
  intros Hn H. assert (E : L = map (fun v => combine (map fst s) v) (product (map snd s))) by (destruct s; [discriminate|injection H as <-; reflexivity]). subst L. clear H.
  apply NoDup_map_inj.
  - intros a b Ha Hb E. apply product_row_length in Ha, Hb. rewrite map_length in Ha, Hb.
    rewrite <- (map_snd_combine (map fst s) a), <- (map_snd_combine (map fst s) b) by (rewrite map_length; auto). congruence.
  - apply product_NoDup. apply Forall_forall. intros vs Hv. apply in_map_iff in Hv. destruct Hv as ([k vs'] & <- & Hin). eapply Hn; eauto.
Qed.

(** ** Image tiling *)
Lemma grid_fits n nc rows cols : grid n nc = Some (rows, cols) -> n <= rows * cols.
Proof.
  unfold grid. destruct (Nat.eqb_spec nc 0) as [->|Hnc].
  - intros E. injection E as <- <-. destruct (Nat.eq_dec n 0) as [->|Hn]; [lia|]. pose proof (Nat.sqrt_up_spec n ltac:(lia)). lia.
  - destruct (Nat.eqb_spec (n mod nc) 0) as [Hm|]; [|discriminate]. intros E. injection E as <- <-.
    apply Nat.mod_divides in Hm; auto. destruct Hm as (q & ->). replace (nc * q + nc - 1) with (nc - 1 + q * nc) by lia.
    rewrite Nat.div_add, Nat.div_small by lia. lia.
Qed.
Lemma grid_exact n nc rows cols : 0 < nc -> grid n nc = Some (rows, cols) -> cols = nc /\ rows * cols = n.
Proof.
  intros H0. unfold grid. destruct (Nat.eqb_spec nc 0) as [->|Hnc]; [lia|].
  destruct (Nat.eqb_spec (n mod nc) 0) as [Hm|]; [|discriminate]. intros E. injection E as <- <-. split; auto.
  apply Nat.mod_divides in Hm; auto. destruct Hm as (q & ->). replace (nc * q + nc - 1) with (nc - 1 + q * nc) by lia.
  rewrite Nat.div_add, Nat.div_small by lia. lia.
Qed.
Lemma grid_rejects n nc : grid n nc = None <-> 0 < nc /\ ~ Nat.divide nc n.
Proof.
  unfold grid. destruct (Nat.eqb_spec nc 0) as [->|Hnc]; [split; [discriminate|lia]|].
  destruct (Nat.eqb_spec (n mod nc) 0) as [Hm|Hm].
  - split; [discriminate|]. intros (_ & H). exfalso. apply H. apply Nat.mod_divide; auto.
  - split; auto. intros _. split; [lia|]. intros H. apply Hm. apply Nat.mod_divide; auto.
Qed.
Lemma div_pos a b r : r < b -> (a * b + r) / b = a.
Proof. intros. rewrite Nat.add_comm, Nat.div_add by lia. rewrite Nat.div_small by auto. lia. Qed.
Lemma mod_pos a b r : r < b -> (a * b + r) mod b = r.
Proof. intros. rewrite Nat.add_comm, Nat.mod_add by lia. apply Nat.mod_small; auto. Qed.

Section TilingFacts.
Variable pixel : Type.
Lemma tile_places n h w p nc bg (img : nat -> nat -> nat -> pixel) H W out : np_tile_imgs pixel n h w p nc bg img = Some (H, W, out) ->
  exists rows cols, grid n nc = Some (rows, cols) /\ H = rows * (h + 2 * p) - 2 * p /\ W = cols * (w + 2 * p) - 2 * p
  /\ (forall k r c, k < n -> r < h -> c < w ->
       k / cols * (h + 2 * p) + r < H /\ k mod cols * (w + 2 * p) + c < W /\ out (k / cols * (h + 2 * p) + r) (k mod cols * (w + 2 * p) + c) = img k r c)
  /\ (forall y x, y < H -> x < W -> (forall k r c, k < n -> r < h -> c < w -> y = k / cols * (h + 2 * p) + r -> x = k mod cols * (w + 2 * p) + c -> False) -> out y x = bg).
Proof.
  unfold np_tile_imgs. destruct (grid n nc) as [[rows cols]|] eqn:G; [|discriminate]. intros E. injection E as <- <- <-.
  exists rows, cols. split; auto. pose proof (grid_fits _ _ _ _ G) as Hfit. repeat split; auto.
  - assert (Hc : 0 < cols) by nia. assert (k / cols < rows) by (apply Nat.div_lt_upper_bound; nia). nia.
  - assert (Hc : 0 < cols) by nia. pose proof (Nat.mod_upper_bound k cols ltac:(lia)). nia.
  - assert (Hc : 0 < cols) by nia. unfold merge_grid, transpose, split_grid.
    replace (k / cols * (h + 2 * p) + r + p) with (k / cols * (h + 2 * p) + (r + p)) by lia.
    replace (k mod cols * (w + 2 * p) + c + p) with (k mod cols * (w + 2 * p) + (c + p)) by lia.
    rewrite !div_pos, !mod_pos by lia. rewrite (Nat.mul_comm (k / cols)), <- (Nat.div_mod k cols) by lia.
    unfold padded. repeat match goal with |- context [Nat.ltb ?a ?b] => destruct (Nat.ltb_spec a b); [|lia] | |- context [Nat.leb ?a ?b] => destruct (Nat.leb_spec a b); [|lia] end.
    cbn. f_equal; lia.
  - intros y x Hy Hx Hno. unfold merge_grid, transpose, split_grid, padded.
    match goal with |- (if ?b then _ else _) = _ => destruct b eqn:B; [exfalso|reflexivity] end.
    apply andb_true_iff in B. destruct B as (B & B3). apply andb_true_iff in B. destruct B as (B1 & B2).
    apply andb_true_iff in B2, B3. destruct B2 as (B2 & B2'), B3 as (B3 & B3').
    apply Nat.ltb_lt in B1, B2', B3'. apply Nat.leb_le in B2, B3.
    change (h + (p + (p + 0))) with (h + 2 * p) in *. change (w + (p + (p + 0))) with (w + 2 * p) in *.
    set (h' := h + 2 * p) in *. set (w' := w + 2 * p) in *. assert (Hh : 0 < h') by lia. assert (Hw : 0 < w') by lia.
    assert (Hxc : (x + p) / w' < cols) by (apply Nat.div_lt_upper_bound; nia).
    pose proof (Nat.div_mod (y + p) h' ltac:(lia)) as Dy. pose proof (Nat.div_mod (x + p) w' ltac:(lia)) as Dx.
    assert (Er : ((y + p) / h' * cols + (x + p) / w') / cols = (y + p) / h') by (apply div_pos; auto).
    assert (Ec : ((y + p) / h' * cols + (x + p) / w') mod cols = (x + p) / w') by (apply mod_pos; auto).
    apply (Hno ((y + p) / h' * cols + (x + p) / w') ((y + p) mod h' - p) ((x + p) mod w' - p) B1).
    + clear - B2 B2'. revert B2 B2'. generalize ((y + p) mod h'). intros; lia.
    + clear - B3 B3'. revert B3 B3'. generalize ((x + p) mod w'). intros; lia.
    + rewrite Er. clear - Dy B2. revert Dy B2. generalize ((y + p) mod h') ((y + p) / h'). intros; nia.
    + rewrite Ec. clear - Dx B3. revert Dx B3. generalize ((x + p) mod w') ((x + p) / w'). intros; nia.
Qed.
End TilingFacts.

(** ** N-grams *)
Section NGramFacts.
Variable word : Type.
Variable word_dec : forall a b : word, {a = b} + {a <> b}.
Notation gdec := (gram_dec word word_dec).
Notation keys := (counter_keys word word_dec).
Notation total := (counter_total word word_dec).

Lemma sum_one (a : list word) ks : NoDup ks -> In a ks -> fold_right (fun k s => (if gdec a k then 1 else 0) + s) 0 ks = 1.
Proof.
  intros Hn. induction Hn as [|k ks Hk Hn IH]; cbn [fold_right]; intros Hin; [destruct Hin|].
  destruct (gdec a k) as [->|Hne].
  - replace (fold_right (fun k0 s => (if gdec k k0 then 1 else 0) + s) 0 ks) with 0; auto.
    clear IH Hn Hin. induction ks as [|b ks IHk]; cbn [fold_right]; auto. destruct (gdec k b) as [->|]; [exfalso; apply Hk; left; auto|].
    cbn. apply IHk. intros H. apply Hk. right; auto.
  - destruct Hin as [->|Hin]; [congruence|]. cbn. apply IH; auto.
Qed.
Lemma sum_counts_len (l : list (list word)) : forall ks, NoDup ks -> incl l ks -> fold_right (fun k s => count_occ gdec l k + s) 0 ks = List.length l.
Proof.
  induction l as [|a l IH]; intros ks Hn Hi.
  - cbn. clear. induction ks; cbn; auto.
  - cbn [List.length]. rewrite <- (IH ks Hn) by (intros x Hx; apply Hi; right; auto).
    replace (S (fold_right (fun k s => count_occ gdec l k + s) 0 ks)) with (1 + fold_right (fun k s => count_occ gdec l k + s) 0 ks) by reflexivity.
    set (X := fold_right (fun k s => count_occ gdec l k + s) 0 ks). rewrite <- (sum_one a ks Hn (Hi a (or_introl eq_refl))). subst X. clear. induction ks as [|k ks IHk]; cbn [fold_right]; auto.
    rewrite IHk. cbn [count_occ]. destruct (gdec a k); lia.
Qed.
Lemma total_length l : total l = List.length l.
Proof. apply sum_counts_len; [apply NoDup_nodup|]. intros x Hx. apply nodup_In; auto. Qed.
Lemma keys_length l : List.length (keys l) <= List.length l.
Proof. apply NoDup_incl_length; [apply NoDup_nodup|]. intros x Hx. eapply nodup_In; eauto. Qed.

Lemma in_ngrams n g (s : list word) : 1 <= n -> (In g (ngrams word n s) <-> occurs n g s).
Proof.
  intros Hn. unfold ngrams, occurs. rewrite in_map_iff. split.
  - intros (i & <- & Hi). apply in_seq in Hi. assert (Hl : n <= List.length (skipn i s)) by (rewrite skipn_length; lia).
    split; [apply firstn_length_le; auto|]. exists (firstn i s), (skipn n (skipn i s)). rewrite firstn_skipn, firstn_skipn. reflexivity.
  - intros (Hg & pre & post & ->). exists (List.length pre). rewrite !app_length, in_seq. split; [|lia].
    rewrite skipn_app, skipn_all, Nat.sub_diag. cbn. rewrite <- Hg, firstn_app, firstn_all, Nat.sub_diag. cbn. apply app_nil_r.
Qed.
Lemma in_all_grams n g (ss : list (list word)) : 1 <= n -> (In g (all_grams word n ss) <-> exists s, In s ss /\ occurs n g s).
Proof. intros Hn. unfold all_grams. rewrite in_flat_map. split; intros (s & Hs & H); exists s; split; auto; apply (in_ngrams n g s Hn); auto. Qed.
Lemma all_grams_nil n (ss : list (list word)) : all_grams word n ss = [] <-> forall s, In s ss -> List.length s < n.
Proof.
  unfold all_grams. induction ss as [|s ss IH]; cbn [flat_map]; [split; [intros _ s []|reflexivity]|]. split.
  - intros H. apply app_eq_nil in H. destruct H as (H1 & H2). intros s' [<-|Hs]; [|apply IH; auto].
    unfold ngrams in H1. apply map_eq_nil in H1. apply (f_equal (@List.length nat)) in H1. rewrite seq_length in H1. cbn in H1. lia.
  - intros H. rewrite (proj2 IH) by (intros; apply H; right; auto). rewrite app_nil_r. unfold ngrams.
    specialize (H s (or_introl eq_refl)). replace (List.length s + 1 - n) with 0 by lia. reflexivity.
Qed.

Lemma keys_full l : List.length (keys l) = List.length l -> NoDup l.
Proof.
  unfold counter_keys. induction l as [|a l IH]; intros H; [constructor|]. cbn [nodup] in H. destruct (in_dec gdec a l) as [Hin|Hni].
  - exfalso. cbn [List.length] in H. pose proof (keys_length l). unfold counter_keys in *. lia.
  - constructor; [exact Hni|]. apply IH. cbn [List.length] in H. lia.
Qed.
Lemma filter_length_le {A} (f : A -> bool) l : List.length (filter f l) <= List.length l.
Proof. induction l as [|a l IH]; cbn; auto. destruct (f a); cbn; lia. Qed.
Lemma filter_all {A} (f : A -> bool) l : List.length (filter f l) = List.length l -> forall x, In x l -> f x = true.
Proof.
  induction l as [|a l IH]; intros H x Hx; [destruct Hx|]. cbn [filter] in H. pose proof (filter_length_le f l).
  destruct (f a) eqn:E; cbn [List.length] in H; [|lia]. destruct Hx as [<-|Hx]; [exact E|apply IH; [lia|exact Hx]].
Qed.
Lemma filter_none {A} (f : A -> bool) l : List.length (filter f l) = 0 <-> forall x, In x l -> f x = false.
Proof.
  induction l as [|a l IH]; cbn; [split; [intros _ x []|auto]|]. destruct (f a) eqn:E; cbn.
  - split; [lia|]. intros H. rewrite (H a (or_introl eq_refl)) in E. discriminate.
  - rewrite IH. split; [intros H x [<-|Hx]; auto|intros H x Hx; apply H; auto].
Qed.

Local Open Scope R_scope.
Lemma frac_facts (a b : nat) : (a <= b)%nat -> (0 < b)%nat -> 0 <= INR a / INR b <= 1 /\ (INR a / INR b = 0 <-> a = 0%nat) /\ (INR a / INR b = 1 <-> a = b).
Proof.
  intros Hab Hb. assert (Pb : 0 < INR b) by (apply lt_0_INR; auto). assert (Ha : 0 <= INR a) by apply pos_INR. assert (Hle : INR a <= INR b) by (apply le_INR; auto).
  split; [split; [apply Rmult_le_pos; auto; left; apply Rinv_0_lt_compat; auto|apply Rmult_le_reg_r with (INR b); auto; unfold Rdiv; rewrite Rmult_assoc, Rinv_l by lra; lra]|].
  split; split.
  - intros H. apply INR_eq. cbn. apply (f_equal (fun v => v * INR b)) in H. unfold Rdiv in H. rewrite Rmult_assoc, Rinv_l in H by lra. lra.
  - intros ->. cbn. unfold Rdiv. ring.
  - intros H. apply INR_eq. apply (f_equal (fun v => v * INR b)) in H. unfold Rdiv in H. rewrite Rmult_assoc, Rinv_l in H by lra. lra.
  - intros ->. apply Rinv_r. lra.
Qed.

Lemma ref_unique_facts n preds refs : (exists s, In s preds /\ (n <= List.length s)%nat) -> (1 <= n)%nat ->
  exists v, ref_unique_n word word_dec n preds refs = Some v /\ 0 <= v <= 1
  /\ (v = 0 <-> forall g s, In s preds -> occurs n g s -> exists s', In s' refs /\ occurs n g s')
  /\ (v = 1 <-> NoDup (all_grams word n preds) /\ forall g s s', In s preds -> occurs n g s -> In s' refs -> ~ occurs n g s').
Proof.
  intros (s0 & Hs0 & Hl0) Hn. unfold ref_unique_n. rewrite total_length. set (p := all_grams word n preds). set (r := all_grams word n refs).
  assert (Hp : (0 < List.length p)%nat).
  { destruct (List.length p) eqn:E; [|lia]. apply length_zero_iff_nil in E. pose proof (proj1 (all_grams_nil n preds) E s0 Hs0). lia. }
  destruct (Nat.eqb_spec (List.length p) 0); [lia|]. set (f := fun k => if in_dec gdec k (keys r) then false else true).
  pose proof (keys_length p) as Hk. pose proof (filter_length_le f (keys p)) as Hf.
  destruct (frac_facts (List.length (filter f (keys p))) (List.length p)) as (H1 & H2 & H3); [lia|auto|].
  eexists. split; [reflexivity|]. split; [exact H1|]. split.
  - rewrite H2, filter_none. split.
    + intros H g s Hs Ho. assert (Hin : In g (keys p)) by (apply nodup_In, in_all_grams; auto; eauto). specialize (H g Hin). unfold f in H.
      destruct (in_dec gdec g (keys r)) as [Hr|]; [|discriminate]. apply nodup_In, in_all_grams in Hr; auto.
    + intros H g Hg. apply nodup_In, in_all_grams in Hg; auto. destruct Hg as (s & Hs & Ho). destruct (H g s Hs Ho) as (s' & Hs' & Ho').
      unfold f. destruct (in_dec gdec g (keys r)) as [|Hr]; auto. exfalso. apply Hr. apply nodup_In, in_all_grams; eauto.
  - rewrite H3. split.
    + intros E. assert (E1 : List.length (keys p) = List.length p) by lia. assert (E2 : List.length (filter f (keys p)) = List.length (keys p)) by lia.
      split; [apply keys_full; auto|]. intros g s s' Hs Ho Hs' Ho'. assert (Hin : In g (keys p)) by (apply nodup_In, in_all_grams; eauto).
      pose proof (filter_all f _ E2 g Hin) as Hfg. unfold f in Hfg. destruct (in_dec gdec g (keys r)) as [|Hr]; [discriminate|].
      apply Hr. apply nodup_In, in_all_grams; eauto.
    + intros (Hnd & H). unfold counter_keys. rewrite (nodup_fixed_point gdec Hnd). f_equal.
      assert (Hall : forall x, In x p -> f x = true).
      { intros g Hg. apply in_all_grams in Hg; auto. destruct Hg as (s & Hs & Ho). unfold f. destruct (in_dec gdec g (keys r)) as [Hr|]; auto.
        apply nodup_In, in_all_grams in Hr; auto. destruct Hr as (s' & Hs' & Ho'). exfalso. eapply H; eauto. }
      clear - Hall. induction p as [|a p IH]; cbn; auto. rewrite (Hall a) by (left; auto). f_equal. apply IH. intros; apply Hall; right; auto.
Qed.

Lemma self_unique_facts n preds : (exists s, In s preds /\ (n <= List.length s)%nat) -> (1 <= n)%nat ->
  exists v, self_unique_n word word_dec n preds = Some v /\ 0 <= v <= 1
  /\ (v = 0 <-> forall g, In g (all_grams word n preds) -> (2 <= count_occ gdec (all_grams word n preds) g)%nat)
  /\ (v = 1 <-> NoDup (all_grams word n preds)).
Proof.
  intros (s0 & Hs0 & Hl0) Hn. unfold self_unique_n. rewrite total_length. set (p := all_grams word n preds).
  assert (Hp : (0 < List.length p)%nat).
  { destruct (List.length p) eqn:E; [|lia]. apply length_zero_iff_nil in E. pose proof (proj1 (all_grams_nil n preds) E s0 Hs0). lia. }
  destruct (Nat.eqb_spec (List.length p) 0); [lia|]. set (f := fun k => Nat.eqb (count_occ gdec p k) 1).
  pose proof (keys_length p) as Hk. pose proof (filter_length_le f (keys p)) as Hf.
  destruct (frac_facts (List.length (filter f (keys p))) (List.length p)) as (H1 & H2 & H3); [lia|auto|].
  eexists. split; [reflexivity|]. split; [exact H1|]. split.
  - rewrite H2, filter_none. split.
    + intros H g Hg. assert (Hin : In g (keys p)) by (apply nodup_In; auto). specialize (H g Hin). unfold f in H. apply Nat.eqb_neq in H.
      apply (count_occ_In gdec) in Hg. lia.
    + intros H g Hg. apply nodup_In in Hg. specialize (H g Hg). apply Nat.eqb_neq. lia.
  - rewrite H3. split.
    + intros E. apply keys_full. lia.
    + intros Hnd. unfold counter_keys. rewrite (nodup_fixed_point gdec Hnd).
      assert (Hall : forall x, In x p -> f x = true).
      { intros g Hg. unfold f. apply Nat.eqb_eq. apply (proj1 (NoDup_count_occ' gdec p) Hnd). auto. }
      clear - Hall. revert Hall. generalize f as f0. intros f0. induction p as [|a p IH]; cbn; auto. intros Hall. rewrite (Hall a) by (left; auto). cbn. f_equal. apply IH. intros; apply Hall; right; auto.
Qed.

Lemma collect_none f ns : collect f ns = None <-> exists n, In n ns /\ f n = None.
Proof.
  induction ns as [|n ns IH]; cbn [collect]; [split; [discriminate|intros (n & [] & _)]|].
  destruct (f n) as [v|] eqn:E.
  - destruct (collect f ns) as [vs|].
    + split; [discriminate|]. intros (m & [<-|Hm] & Hf); [congruence|]. assert (X : @Some (list (nat * R)) vs = None) by (apply IH; eauto). discriminate.
    + split; auto. intros _. destruct (proj1 IH eq_refl) as (m & Hm & Hf). exists m. split; [right; auto|auto].
  - split; auto. intros _. exists n. split; [left; auto|auto].
Qed.
Lemma collect_some f ns vs : collect f ns = Some vs -> map fst vs = ns /\ forall n v, In (n, v) vs -> f n = Some v.
Proof.
  revert vs. induction ns as [|n ns IH]; cbn [collect]; intros vs H; [injection H as <-; split; auto; intros n v []|].
  destruct (f n) as [v|] eqn:E; [|discriminate]. destruct (collect f ns) as [vs'|]; [|discriminate]. injection H as <-.
  destruct (IH vs' eq_refl) as (H1 & H2). split; [cbn; f_equal; auto|]. intros m w [Em|Hm]; [injection Em as <- <-; auto|auto].
Qed.
Lemma score_none_iff n preds : Nat.eqb (total (all_grams word n preds)) 0 = true <-> forall s, In s preds -> (List.length s < n)%nat.
Proof. rewrite Nat.eqb_eq, total_length, length_zero_iff_nil. apply all_grams_nil. Qed.
Lemma ref_unique_none n preds refs : ref_unique_n word word_dec n preds refs = None <-> forall s, In s preds -> (List.length s < n)%nat.
Proof.
  rewrite <- score_none_iff. unfold ref_unique_n. destruct (Nat.eqb (total (all_grams word n preds)) 0); split; intros; auto; discriminate.
Qed.
Lemma self_unique_none n preds : self_unique_n word word_dec n preds = None <-> forall s, In s preds -> (List.length s < n)%nat.
Proof.
  rewrite <- score_none_iff. unfold self_unique_n. destruct (Nat.eqb (total (all_grams word n preds)) 0); split; intros; auto; discriminate.
Qed.
Lemma ref_ngrams_fail preds refs m : ref_unique_ngrams word word_dec preds refs m = None <-> (1 <= m)%nat /\ forall s, In s preds -> (List.length s < m)%nat.
Proof.
  unfold ref_unique_ngrams. rewrite collect_none. split.
  - intros (n & Hn & H). apply in_seq in Hn. split; [lia|]. intros s Hs. pose proof (proj1 (ref_unique_none n preds refs) H s Hs). lia.
  - intros (Hm & H). exists m. split; [apply in_seq; lia|]. apply ref_unique_none; auto.
Qed.
Lemma self_ngrams_fail preds m : self_unique_ngrams word word_dec preds m = None <-> (1 <= m)%nat /\ forall s, In s preds -> (List.length s < m)%nat.
Proof.
  unfold self_unique_ngrams. rewrite collect_none. split.
  - intros (n & Hn & H). apply in_seq in Hn. split; [lia|]. intros s Hs. pose proof (proj1 (self_unique_none n preds) H s Hs). lia.
  - intros (Hm & H). exists m. split; [apply in_seq; lia|]. apply self_unique_none; auto.
Qed.
End NGramFacts.
