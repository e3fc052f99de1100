(** Proofs about the utilities: sharding, pytrees, keys, configuration strings. *)
From Coq Require Import List Arith Lia Ascii Bool NArith.
From Verif.Spec Require Import ToolSpec.
From Verif.Model Require Import Utils.
Import ListNotations.
Local Open Scope nat_scope.

(** ** Sharding *)
Lemma blocks_length {A} n k (xs : list A) : length (blocks n k xs) = n.
Proof. revert xs. induction n; intros; cbn [blocks length]; auto. Qed.
Lemma blocks_concat {A} n k (xs : list A) : concat (blocks n k xs) = firstn (n * k) xs.
Proof.
  revert xs. induction n as [|n IH]; intros xs; [reflexivity|]. cbn [blocks concat]. rewrite IH. cbn [Nat.mul].
  rewrite <- (firstn_skipn k xs) at 3. rewrite firstn_app. destruct (Nat.le_gt_cases k (length xs)).
  - rewrite firstn_length_le by auto. replace (k + n * k - k) with (n * k) by lia. f_equal. rewrite firstn_firstn. f_equal. lia.
  - rewrite (skipn_all2 xs) by lia. rewrite !firstn_nil, !app_nil_r, firstn_firstn. f_equal. lia.
Qed.
Lemma blocks_sizes {A} n k (xs : list A) : n * k <= length xs -> Forall (fun b => length b = k) (blocks n k xs).
Proof.
  revert xs. induction n as [|n IH]; intros xs H; cbn [blocks]; constructor; cbn [Nat.mul] in H.
  - apply firstn_length_le. lia.
  - apply IH. rewrite skipn_length. lia.
Qed.
Lemma nth_error_skipn {A} k (xs : list A) i : nth_error (skipn k xs) i = nth_error xs (k + i).
Proof. revert xs. induction k as [|k IH]; intros xs; [reflexivity|]. destruct xs; cbn [skipn]; [destruct i; reflexivity|]. rewrite IH. reflexivity. Qed.
Lemma nth_error_firstn {A} k (xs : list A) i : i < k -> nth_error (firstn k xs) i = nth_error xs i.
Proof. revert xs i. induction k as [|k IH]; intros xs i H; [lia|]. destruct xs; [reflexivity|]. destruct i; [reflexivity|]. cbn. apply IH. lia. Qed.
Lemma blocks_nth {A} n k (xs : list A) d r : d < n -> r < k -> nth_error (nth d (blocks n k xs) []) r = nth_error xs (d * k + r).
Proof.
  revert xs d. induction n as [|n IH]; intros xs d Hd Hr; [lia|]. destruct d as [|d]; cbn [blocks nth].
  - rewrite nth_error_firstn by auto. reflexivity.
  - rewrite IH by lia. rewrite nth_error_skipn. f_equal. lia.
Qed.

Theorem shard_ok {A} n (xs : list A) ss : 0 < n -> shard n xs = Some ss ->
  concat ss = xs /\ length ss = n /\ Forall (fun b => length b = length xs / n) ss
  /\ forall d r, d < n -> r < length xs / n -> nth_error (nth d ss []) r = nth_error xs (d * (length xs / n) + r).
Proof.
  intros Hn. unfold shard. destruct (Nat.eqb_spec (length xs mod n) 0) as [E|E]; [|discriminate]. intros H. injection H as <-.
  assert (El : n * (length xs / n) = length xs) by (pose proof (Nat.div_mod (length xs) n ltac:(lia)); lia).
  split; [rewrite blocks_concat, El; apply firstn_all|]. split; [apply blocks_length|]. split; [apply blocks_sizes; lia|].
  intros; apply blocks_nth; auto.
Qed.
Theorem shard_rejects {A} n (xs : list A) : 0 < n -> (shard n xs = None <-> ~ Nat.divide n (length xs)).
Proof.
  intros Hn. unfold shard. destruct (Nat.eqb_spec (length xs mod n) 0) as [E|E]; split; intros H; try discriminate; auto.
  - exfalso. apply H. apply Nat.mod_divide; auto; lia.
  - intros D. apply E. apply Nat.mod_divide; auto; lia.
Qed.
Theorem per_process_ok D P B b : 0 < P -> Nat.divide P D -> 0 < D -> per_process D P B = Some b -> P * b = B /\ Nat.divide (D / P) b.
Proof.
  intros HP (q & Hq) HD. unfold per_process. destruct (Nat.eqb_spec (B / D * D) B) as [E|E]; [|discriminate]. intros H. injection H as <-.
  set (t := B / D) in *. assert (EB : B = (t * q) * P) by nia. rewrite EB, Nat.div_mul by lia. split; [lia|].
  rewrite Hq, Nat.div_mul by lia. exists t. lia.
Qed.
Theorem per_process_rejects D P B : 0 < D -> (per_process D P B = None <-> ~ Nat.divide D B).
Proof.
  intros HD. unfold per_process. destruct (Nat.eqb_spec (B / D * D) B) as [E|E]; split; intros H; try discriminate; auto.
  - exfalso. apply H. exists (B / D). lia.
  - intros (q & ->). apply E. rewrite Nat.div_mul by lia. reflexivity.
Qed.
Theorem gather_shard {A} n (xs : list A) ss : 0 < n -> shard n xs = Some ss -> all_gather ss = repeat xs n.
Proof.
  intros Hn H. destruct (shard_ok n xs ss Hn H) as (Hc & Hl & _). unfold all_gather. rewrite Hc. clear -Hl. revert n Hl.
  induction ss as [|s ss IH]; intros n Hl; cbn in Hl; subst; [reflexivity|]. cbn [map length repeat]. f_equal. apply IH. reflexivity.
Qed.

(** Dataset sharding over processes. *)
Lemma every_in {A} n pos i (xs : list A) x : In x (every n pos i xs) <-> exists j, nth_error xs j = Some x /\ (pos + j) mod n = i.
Proof.
  revert pos. induction xs as [|a xs IH]; intros pos; cbn [every].
  - split; [intros []|]. intros (j & H & _). destruct j; discriminate.
  - rewrite in_app_iff, IH. split.
    + intros [H|(j & H & E)].
      * destruct (Nat.eqb_spec (pos mod n) i) as [E|E]; [|destruct H]. destruct H as [->|[]]. exists 0. rewrite Nat.add_0_r. auto.
      * exists (S j). split; auto. rewrite Nat.add_succ_r. exact E.
    + intros (j & H & E). destruct j as [|j].
      * left. injection H as ->. rewrite Nat.add_0_r in E. rewrite (proj2 (Nat.eqb_eq _ _) E). left; auto.
      * right. exists j. split; auto. rewrite Nat.add_succ_r in E. exact E.
Qed.
(** The q-th element of a share is at position q * n + i of the data. *)
Lemma every_nth {A} n pos i (xs : list A) q : i < n ->
  nth_error (every n pos i xs) q = nth_error xs ((if Nat.leb (pos mod n) i then i - pos mod n else i + n - pos mod n) + q * n).
Proof.
  intros Hi. revert pos q. induction xs as [|a xs IH]; intros pos q; cbn [every].
  - destruct q; [|cbn]; match goal with |- _ = nth_error [] ?k => destruct k end; reflexivity.
  - pose proof (Nat.mod_upper_bound pos n ltac:(lia)) as Hp.
    assert (HS : S pos mod n = if Nat.eqb (S (pos mod n)) n then 0 else S (pos mod n)).
    { pose proof (Nat.div_mod pos n ltac:(lia)) as D. destruct (Nat.eqb_spec (S (pos mod n)) n) as [E|E].
      - symmetry. apply (Nat.mod_unique _ _ (S (pos / n))); [lia|]. rewrite Nat.mul_succ_r. lia.
      - symmetry. apply (Nat.mod_unique _ _ (pos / n)); lia. }
    set (r := pos mod n) in *. destruct (Nat.eqb_spec r i) as [E|E].
    + replace (Nat.leb r i) with true by (symmetry; apply Nat.leb_le; lia). replace (i - r) with 0 by lia. destruct q as [|q]; [reflexivity|]. cbn [app nth_error].
      rewrite IH, HS. cbn [Nat.add Nat.mul]. destruct (Nat.eqb_spec (S r) n) as [E2|E2].
      * cbn [Nat.leb]. replace (n + q * n) with (S (i - 0 + q * n)) by lia. reflexivity.
      * replace (Nat.leb (S r) i) with false by (symmetry; apply Nat.leb_gt; lia). replace (n + q * n) with (S (i + n - S r + q * n)) by lia. reflexivity.
    + cbn [app]. rewrite IH, HS. destruct (Nat.eqb_spec (S r) n) as [E2|E2].
      * cbn [Nat.leb]. replace (Nat.leb r i) with false by (symmetry; apply Nat.leb_gt; lia). replace (i + n - r + q * n) with (S (i - 0 + q * n)) by lia. reflexivity.
      * destruct (Nat.leb_spec r i).
        -- replace (Nat.leb (S r) i) with true by (symmetry; apply Nat.leb_le; lia). replace (i - r + q * n) with (S (i - S r + q * n)) by lia. reflexivity.
        -- replace (Nat.leb (S r) i) with false by (symmetry; apply Nat.leb_gt; lia). replace (i + n - r + q * n) with (S (i + n - S r + q * n)) by lia. reflexivity.
Qed.
Lemma ds_shard_nth {A} n i (xs : list A) q : i < n -> nth_error (ds_shard n i xs) q = nth_error xs (q * n + i).
Proof.
  intros Hi. unfold ds_shard. rewrite every_nth by auto. rewrite Nat.mod_0_l by lia. cbn [Nat.leb]. f_equal. lia.
Qed.
Fixpoint sum_nat (l : list nat) : nat := match l with [] => 0 | a :: l' => a + sum_nat l' end.
Lemma sum_nat_add {B} (f g : B -> nat) l : sum_nat (map (fun i => f i + g i) l) = sum_nat (map f l) + sum_nat (map g l).
Proof. induction l as [|a l IH]; cbn [map sum_nat]; [reflexivity|]. rewrite IH. lia. Qed.
Lemma sum_nat_indicator l v : NoDup l -> sum_nat (map (fun i => if Nat.eqb v i then 1 else 0) l) = if in_dec Nat.eq_dec v l then 1 else 0.
Proof.
  induction l as [|a l IH]; intros Hn; cbn [map sum_nat]; [reflexivity|]. inversion Hn; subst. rewrite IH by auto.
  destruct (Nat.eqb_spec v a) as [->|Hne].
  - destruct (in_dec Nat.eq_dec a l); [contradiction|]. destruct (in_dec Nat.eq_dec a (a :: l)) as [|nj]; [reflexivity|]. exfalso. apply nj. left; auto.
  - destruct (in_dec Nat.eq_dec v l) as [j|j]; destruct (in_dec Nat.eq_dec v (a :: l)) as [i|i]; try reflexivity.
    + exfalso. apply i. right; auto.
    + destruct i as [E|E]; [congruence|contradiction].
Qed.
Lemma every_total {A} n pos (xs : list A) : 0 < n -> sum_nat (map (fun i => length (every n pos i xs)) (seq 0 n)) = length xs.
Proof.
  intros Hn. revert pos. induction xs as [|a xs IH]; intros pos; cbn [every length].
  - induction (seq 0 n); cbn; auto.
  - rewrite (map_ext _ (fun i => (if Nat.eqb (pos mod n) i then 1 else 0) + length (every n (S pos) i xs))).
    2:{ intros i. rewrite app_length. destruct (Nat.eqb (pos mod n) i); reflexivity. }
    rewrite sum_nat_add, IH, sum_nat_indicator by apply seq_NoDup.
    destruct (in_dec Nat.eq_dec (pos mod n) (seq 0 n)) as [|ni]; [reflexivity|]. exfalso. apply ni. apply in_seq. pose proof (Nat.mod_upper_bound pos n). lia.
Qed.
Theorem ds_batch_shape {A} k (xs : list A) : 0 < k -> length (ds_batch k xs) = length xs / k /\ Forall (fun b => length b = k) (ds_batch k xs)
  /\ concat (ds_batch k xs) = firstn (length xs / k * k) xs.
Proof.
  intros Hk. unfold ds_batch. split; [apply blocks_length|]. split; [apply blocks_sizes|apply blocks_concat]. pose proof (Nat.div_mod (length xs) k). lia.
Qed.
Theorem dataloader_shape {A} D P i B (xs : list A) bs : 0 < P -> Nat.divide P D -> 0 < D -> 0 < B -> dataloader D P i B xs = Some bs ->
  P * (D / P) = D /\ exists b, P * ((D / P) * b) = B
  /\ Forall (fun batch => length batch = D / P /\ Forall (fun dev => length dev = b) batch) bs
  /\ concat (concat bs) = firstn (length bs * (D / P * b)) (ds_shard P i xs).
Proof.
  intros HP HPD HD HB. unfold dataloader. destruct (per_process D P B) as [b|] eqn:Hb; [|discriminate]. intros H. injection H as <-.
  destruct (per_process_ok D P B b HP HPD HD Hb) as [Hb1 Hb2].
  assert (HDP : P * (D / P) = D) by (destruct HPD as (q & ->); rewrite Nat.div_mul by lia; lia).
  set (n := D / P) in *. assert (Hn : 0 < n) by nia. assert (Hbb : n * (b / n) = b) by (destruct Hb2 as (q & ->); rewrite Nat.div_mul by lia; lia).
  split; [exact HDP|]. exists (b / n). split; [rewrite Hbb; exact Hb1|].
  assert (Hk : 0 < b / n) by nia.
  destruct (ds_batch_shape (b / n) (ds_shard P i xs) Hk) as (S1 & S2 & S3). destruct (ds_batch_shape n (ds_batch (b / n) (ds_shard P i xs)) Hn) as (T1 & T2 & T3).
  split.
  - apply Forall_forall. intros batch Hin. rewrite Forall_forall in T2. split; [apply T2; auto|]. apply Forall_forall. intros dev Hdev. rewrite Forall_forall in S2. apply S2.
    assert (In dev (concat (ds_batch n (ds_batch (b / n) (ds_shard P i xs))))) as Hc by (apply in_concat; eauto). rewrite T3 in Hc. rewrite <- (firstn_skipn (length (ds_batch (b / n) (ds_shard P i xs)) / n * n)). apply in_or_app. left; auto.
  - rewrite T1, T3. set (l := ds_batch (b / n) (ds_shard P i xs)) in *. set (q := length l / n).
    assert (Hq : q * n <= length l) by (unfold q; pose proof (Nat.div_mod (length l) n); lia).
    assert (K : forall (l : list (list A)) t ys, Forall (fun x => length x = b / n) l -> concat l = firstn (length l * (b / n)) ys -> t <= length l -> length l * (b / n) <= length ys -> concat (firstn t l) = firstn (t * (b / n)) ys).
    { clear. induction l as [|x l IH]; intros t ys HF Hc Ht Hlen; [cbn in Ht; assert (t = 0) as -> by lia; reflexivity|]. destruct t as [|t]; [reflexivity|].
      inversion HF; subst. cbn [firstn concat length] in *. cbn [Nat.mul] in *.
      assert (Hx : firstn (length x) ys = x).
      { transitivity (firstn (length x) (x ++ concat l)); [rewrite Hc, firstn_firstn; f_equal; lia|]. rewrite firstn_app, Nat.sub_diag, firstn_O, app_nil_r. apply firstn_all. }
      assert (Hr : concat l = firstn (length l * (b / n)) (skipn (length x) ys)).
      { assert (E : concat l = skipn (length x) (x ++ concat l)) by (rewrite skipn_app, skipn_all, Nat.sub_diag; reflexivity).
        rewrite E, Hc. rewrite skipn_firstn_comm. f_equal. lia. }
      rewrite (IH t (skipn (length x) ys)); auto; try lia; [|rewrite skipn_length; lia].
      rewrite <- H1 at 2. rewrite <- (firstn_skipn (length x) ys) at 2. rewrite firstn_app, firstn_length_le by lia. replace (length x + t * (b / n) - length x) with (t * (b / n)) by lia.
      rewrite firstn_firstn. rewrite Nat.min_r by lia. rewrite Hx. reflexivity. }
    rewrite (K l (q * n) (ds_shard P i xs)); auto; [f_equal; lia| |].
    + rewrite S3, S1. reflexivity.
    + rewrite S1. pose proof (Nat.div_mod (length (ds_shard P i xs)) (b / n)). lia.
Qed.

(** ** Pytrees *)
Lemma fill_leaves {A B} (t : tree A) (xs rest : list B) : length xs = length (leaves t) -> exists u, fill (treedef t) (xs ++ rest) = Some (u, rest) /\ leaves u = xs /\ treedef u = treedef t.
Proof.
  unfold treedef. revert xs rest. induction t as [|a|l IHl r IHr]; intros xs rest H; cbn [leaves tmap fill] in *.
  - destruct xs; [|discriminate]. exists TNil. auto.
  - destruct xs as [|x [|y xs]]; try discriminate. exists (TLeaf x). auto.
  - rewrite app_length in H. rewrite <- (firstn_skipn (length (leaves l)) xs), <- app_assoc.
    destruct (IHl (firstn (length (leaves l)) xs) (skipn (length (leaves l)) xs ++ rest) ltac:(apply firstn_length_le; lia)) as (ul & E1 & E2 & E3).
    destruct (IHr (skipn (length (leaves l)) xs) rest ltac:(rewrite skipn_length; lia)) as (ur & F1 & F2 & F3).
    rewrite E1, F1. exists (TPair ul ur). split; [reflexivity|]. cbn [leaves tmap]. rewrite E2, F2, E3, F3. split; reflexivity.
Qed.
Lemma leaves_tmap {A B} (f : A -> B) t : leaves (tmap f t) = map f (leaves t).
Proof. induction t; cbn [leaves tmap map]; auto. rewrite map_app, IHt1, IHt2. reflexivity. Qed.
Lemma treedef_tmap {A B} (f : A -> B) t : treedef (tmap f t) = treedef t.
Proof. unfold treedef. induction t; cbn [tmap]; auto. rewrite IHt1, IHt2. reflexivity. Qed.
Lemma treedef_leaves_length {A B} (t : tree A) (u : tree B) : treedef t = treedef u -> length (leaves t) = length (leaves u).
Proof. intros H. assert (E : length (leaves (treedef t)) = length (leaves (treedef u))) by (rewrite H; auto). unfold treedef in E. rewrite !leaves_tmap, !map_length in E. exact E. Qed.
Lemma tree_ext {A} (t u : tree A) : treedef t = treedef u -> leaves t = leaves u -> t = u.
Proof.
  revert u. induction t as [|a|l IHl r IHr]; intros [|b|l' r']; cbn; intros E F; try discriminate; auto.
  - injection F as ->. reflexivity.
  - unfold treedef in *. cbn in E. injection E as E1 E2. pose proof (treedef_leaves_length l l' E1) as Hl.
    assert (leaves l = leaves l' /\ leaves r = leaves r') as [F1 F2].
    { clear -F Hl. revert F Hl. generalize (leaves l), (leaves l'). induction l0 as [|x l0 IH]; intros [|y l1] F Hl; cbn in *; try discriminate; auto.
      injection F as -> F. injection Hl as Hl. destruct (IH _ F Hl) as [-> ->]. auto. }
    rewrite (IHl l'), (IHr r') by auto. reflexivity.
Qed.
Lemma heads_some {A} (xss : list (list A)) n : (forall xs, In xs xss -> length xs = S n) ->
  exists h t, heads xss = Some (h, t) /\ length h = length xss /\ length t = length xss /\ (forall xs, In xs t -> length xs = n)
    /\ forall i xs, nth_error xss i = Some xs -> exists x xs', xs = x :: xs' /\ nth_error h i = Some x /\ nth_error t i = Some xs'.
Proof.
  induction xss as [|xs xss IH]; intros H.
  - exists [], []. cbn. repeat split; auto; [intros _ []|]. intros i xs Hi. destruct i; discriminate.
  - destruct IH as (h & t & E & L1 & L2 & L3 & L4); [intros; apply H; right; auto|]. cbn [heads fold_right]. fold (heads xss). rewrite E.
    pose proof (H xs (or_introl eq_refl)) as Hl. destruct xs as [|x xs]; [discriminate|]. exists (x :: h), (xs :: t). cbn [length]. repeat split; auto.
    + intros ys [<-|Hy]; auto.
    + intros i ys Hi. destruct i as [|i]; cbn [nth_error] in *; [injection Hi as <-; eauto|]. apply L4; auto.
Qed.
Lemma zip_star_spec {A} n (xss : list (list A)) : (forall xs, In xs xss -> length xs = n) ->
  length (zip_star n xss) = n /\ forall i xs d, nth_error xss i = Some xs -> map (fun col => nth i col d) (zip_star n xss) = xs.
Proof.
  revert xss. induction n as [|n IH]; intros xss H; cbn [zip_star].
  - split; [reflexivity|]. intros i xs d Hi. apply nth_error_In in Hi. apply H in Hi. destruct xs; [reflexivity|discriminate].
  - destruct (heads_some xss n H) as (h & t & E & L1 & L2 & L3 & L4). rewrite E. destruct (IH t L3) as [Z1 Z2]. split; [cbn; lia|].
    intros i xs d Hi. destruct (L4 i xs Hi) as (x & xs' & -> & Hh & Ht). cbn [map]. rewrite (Z2 i xs' d Ht). f_equal. apply nth_error_nth; auto.
Qed.
Theorem tree_stack_unstack {A} (ts : list (tree A)) t0 (d : A) : In t0 ts -> (forall t, In t ts -> treedef t = treedef t0) ->
  exists T, tree_stack ts = Some T /\ treedef T = treedef t0 /\ Forall (fun leaf => length leaf = length ts) (leaves T)
    /\ forall i t, nth_error ts i = Some t -> tmap (fun leaf => nth i leaf d) T = t.
Proof.
  intros Hin Hdef. destruct ts as [|t1 ts']; [destruct Hin|]. set (ts := t1 :: ts') in *. unfold tree_stack, ts. fold ts.
  assert (Hlen : forall xs, In xs (map leaves ts) -> length xs = length (leaves t1)).
  { intros xs Hxs. apply in_map_iff in Hxs. destruct Hxs as (t & <- & Ht). apply treedef_leaves_length. rewrite (Hdef t Ht). symmetry. apply Hdef. left; auto. }
  destruct (zip_star_spec (length (leaves t1)) (map leaves ts) Hlen) as [Z1 Z2].
  destruct (fill_leaves t1 (zip_star (length (leaves t1)) (map leaves ts)) [] Z1) as (T & F1 & F2 & F3). rewrite app_nil_r in F1.
  exists T. unfold unflatten. rewrite F1. split; [reflexivity|]. split; [rewrite F3; apply Hdef; left; auto|]. split.
  - rewrite F2. assert (K : forall n (xss : list (list A)), (forall xs, In xs xss -> length xs = n) -> Forall (fun leaf => length leaf = length xss) (zip_star n xss)).
    { clear. induction n as [|n IH]; intros xss H; cbn [zip_star]; [constructor|]. destruct (heads_some xss n H) as (h & t & E & L1 & L2 & L3 & L4). rewrite E. constructor; [exact L1|]. rewrite <- L2. apply IH. auto. }
    rewrite <- (map_length leaves ts). apply K. auto.
  - intros i t Hi. apply tree_ext.
    + rewrite treedef_tmap, F3. rewrite (Hdef t) by (eapply nth_error_In; eauto). apply Hdef. left; auto.
    + rewrite leaves_tmap, F2. apply Z2. rewrite nth_error_map, Hi. reflexivity.
Qed.
Lemma tree_stack_drops : exists (ts : list (tree nat)) T, tree_stack ts = Some T /\ exists t, In t ts /\ length (leaves t) <> length (leaves T).
Proof. exists [TLeaf 1; TPair (TLeaf 2) (TLeaf 3)], (TLeaf [1; 2]). split; [reflexivity|]. exists (TPair (TLeaf 2) (TLeaf 3)). split; [cbn; auto|discriminate]. Qed.

(** ** Keys *)
Lemma requests_keys g cs : (forall c, In c cs -> 1 <= c) -> NoDup (requests g cs) /\ forall k, In k (requests g cs) -> exists n, k = FoldIn (base_rng g) n /\ counter g < n.
Proof.
  revert g. induction cs as [|c cs IH]; intros g H; cbn [requests]; [split; [constructor|intros k []]|].
  set (g' := {| base_rng := base_rng g; counter := counter g + c |}). unfold advance. fold g'.
  destruct (IH g' ltac:(intros; apply H; right; auto)) as [Hn Hk]. pose proof (H c (or_introl eq_refl)) as Hc.
  assert (Hk' : forall k, In k (requests g' cs) -> exists n, k = FoldIn (base_rng g) n /\ counter g + c < n) by (intros k Hin; destruct (Hk k Hin) as (n & E & Hlt); exists n; auto).
  destruct (uint32_ok (counter g + c)).
  - split.
    + constructor; auto. intros Hin. destruct (Hk' _ Hin) as (n & E & Hlt). injection E as E. lia.
    + intros k [<-|Hin]; [exists (counter g + c); split; auto; lia|]. destruct (Hk' k Hin) as (n & E & Hlt). exists n. split; auto. lia.
  - split; auto. intros k Hin. destruct (Hk' k Hin) as (n & E & Hlt). exists n. split; auto. lia.
Qed.
Fixpoint sum_counts (cs : list nat) : nat := match cs with [] => 0 | c :: cs' => c + sum_counts cs' end.
Lemma requests_length g cs : (N.of_nat (counter g + sum_counts cs) < 4294967296)%N -> length (requests g cs) = length cs.
Proof.
  revert g. induction cs as [|c cs IH]; intros g H; cbn [requests sum_counts length] in *; [reflexivity|]. unfold advance.
  unfold uint32_ok. destruct (N.ltb_spec (N.of_nat (counter g + c)) 4294967296) as [L|L]; [|lia]. cbn [length]. f_equal. apply IH. cbn [counter]. lia.
Qed.

Lemma micro_inj k k' m m' : micro_key k m = micro_key k' m' -> m = m' /\ k = k'.
Proof.
  revert m'. induction m as [|m IH]; intros [|m']; cbn [micro_key]; intros H; injection H; intros; try discriminate; auto. 
  destruct (IH m') as [E1 E2]; auto.
Qed.
Lemma process_key_gen g p p' i s s' : process_key g p i s = process_key g p' i s' -> s = s' -> p = p'.
Proof. intros H ->. revert H. induction s' as [|s IH]; cbn [process_key]; intros H; injection H; auto. Qed.
Fixpoint depth (k : key) : nat := match k with Root _ => 0 | FoldIn k _ => S (depth k) | Split k _ _ => S (depth k) end.
Lemma process_depth g p i s : depth (process_key g p i s) = depth g + 1 + 2 * s.
Proof. induction s as [|s IH]; cbn [process_key depth]; lia. Qed.
Lemma process_inj2 g p p' i s s' : process_key g p i s = process_key g p' i s' -> s = s' /\ p = p'.
Proof.
  intros H. assert (s = s') as -> by (pose proof (process_depth g p i s); pose proof (process_depth g p' i s'); rewrite H in *; lia).
  split; auto. eapply process_key_gen; eauto.
Qed.
Lemma batch_inj g p p' i s s' : batch_key g p i s = batch_key g p' i s' -> s = s' /\ p = p'.
Proof. unfold batch_key. intros H. injection H as H H2. apply process_inj2 in H. tauto. Qed.
Lemma sampler_key_inj n g p p' i s s' m m' d d' : sampler_key n g p i s m d = sampler_key n g p' i s' m' d' -> p = p' /\ s = s' /\ m = m' /\ d = d'.
Proof. unfold sampler_key. intros H. injection H as H Hd. apply micro_inj in H. destruct H as [-> H]. apply batch_inj in H. tauto. Qed.
Lemma update_key_inj n g p p' i s s' d d' : update_key n g p i s d = update_key n g p' i s' d' -> p = p' /\ s = s' /\ d = d'.
Proof. unfold update_key. intros H. injection H as H Hs Hd. apply process_inj2 in H. tauto. Qed.
Lemma sampler_update_differ n g p p' i s s' m d d' : sampler_key n g p i s m d <> update_key n g p' i s' d'.
Proof. unfold sampler_key, update_key. destruct m; cbn [micro_key process_key]; discriminate. Qed.

(** ** Configuration strings *)
Lemma split_on_nil sep s : split_on sep s <> [].
Proof. destruct s as [|c s]; cbn [split_on]; [discriminate|]. destruct (Ascii.eqb c sep); [discriminate|]. destruct (split_on sep s); discriminate. Qed.
Lemma split_on_none sep w : ~ In sep w -> split_on sep w = [w].
Proof.
  induction w as [|c w IH]; intros H; cbn [split_on]; [reflexivity|]. destruct (Ascii.eqb_spec c sep) as [->|Hne]; [exfalso; apply H; left; auto|].
  rewrite IH by (intros Hin; apply H; right; auto). reflexivity.
Qed.
Lemma split_on_app sep w s : ~ In sep w -> split_on sep (w ++ sep :: s) = w :: split_on sep s.
Proof.
  induction w as [|c w IH]; intros H; cbn [app split_on]; [rewrite Ascii.eqb_refl; reflexivity|]. destruct (Ascii.eqb_spec c sep) as [->|Hne]; [exfalso; apply H; left; auto|].
  rewrite IH by (intros Hin; apply H; right; auto). reflexivity.
Qed.
Lemma join_split sep s : join sep (split_on sep s) = s.
Proof.
  induction s as [|c s IH]; cbn [split_on]; [reflexivity|]. pose proof (split_on_nil sep s) as Hn. destruct (Ascii.eqb_spec c sep) as [->|Hne].
  - cbn [join]. destruct (split_on sep s); [contradiction|]. cbn [app]. f_equal. exact IH.
  - destruct (split_on sep s) as [|w ws]; [contradiction|]. destruct ws; cbn [join] in *; cbn [app]; f_equal; exact IH.
Qed.
Lemma split_join sep ws : ws <> [] -> (forall w, In w ws -> ~ In sep w) -> split_on sep (join sep ws) = ws.
Proof.
  induction ws as [|w ws IH]; intros Hne H; [contradiction|]. destruct ws as [|w' ws]; cbn [join].
  - apply split_on_none. apply H. left; auto.
  - rewrite split_on_app by (apply H; left; auto). f_equal. apply IH; [discriminate|]. intros; apply H; right; auto.
Qed.
Lemma parse_kv_spec k v : ~ In "-"%char k -> parse_kv (k ++ "-"%char :: v) = (k, v).
Proof. intros H. unfold parse_kv. rewrite split_on_app by auto. rewrite join_split. reflexivity. Qed.
Lemma set_item_fresh {V} k (v : V) d : ~ In k (map fst d) -> set_item k v d = d ++ [(k, v)].
Proof.
  induction d as [|[k' v'] d IH]; intros H; cbn [set_item app]; [reflexivity|]. unfold text_eq. destruct (list_eq_dec ascii_dec k' k) as [->|Hne]; [exfalso; apply H; left; auto|].
  f_equal. apply IH. intros Hin; apply H; right; auto.
Qed.
Lemma encode_join kvs : encode kvs = join ","%char (map (fun kv => fst kv ++ "-"%char :: snd kv) kvs).
Proof.
  induction kvs as [|[k v] kvs IH]; [reflexivity|]. destruct kvs as [|kv kvs]; [reflexivity|]. 
  change (k ++ "-"%char :: v ++ ","%char :: encode (kv :: kvs) = (k ++ "-"%char :: v) ++ ","%char :: join ","%char (map (fun kv => fst kv ++ "-"%char :: snd kv) (kv :: kvs))).
  rewrite IH, <- app_assoc. reflexivity.
Qed.
Theorem parse_encode kvs : kvs <> [] -> NoDup (map fst kvs) ->
  (forall k v, In (k, v) kvs -> ~ In ","%char k /\ ~ In "-"%char k /\ ~ In ","%char v) -> parse_cfg_str (encode kvs) = kvs.
Proof.
  intros Hne Hnd H. unfold parse_cfg_str. rewrite encode_join, split_join.
  - assert (K : forall l acc, (forall k v, In (k, v) l -> ~ In "-"%char k) -> NoDup (map fst (acc ++ l)) ->
      fold_left (fun d kv => let (k, v) := parse_kv kv in set_item k v d) (map (fun kv => fst kv ++ "-"%char :: snd kv) l) acc = acc ++ l).
    { induction l as [|[k v] l IH]; intros acc Hk Hd; cbn [map fold_left fst snd]; [rewrite app_nil_r; reflexivity|].
      rewrite parse_kv_spec by (eapply Hk; left; reflexivity). rewrite set_item_fresh.
      - rewrite IH; [rewrite <- app_assoc; reflexivity|intros; eapply Hk; right; eauto|rewrite <- app_assoc; exact Hd].
      - rewrite map_app in Hd. cbn [map fst] in Hd. apply NoDup_remove_2 in Hd. intros Hin. apply Hd. apply in_or_app. left; auto. }
    apply (K kvs []); auto. intros k v Hin. apply (H k v Hin).
  - destruct kvs; [contradiction|discriminate].
  - intros w Hw. apply in_map_iff in Hw. destruct Hw as ([k v] & <- & Hin). destruct (H k v Hin) as (H1 & H2 & H3). cbn [fst snd].
    intros Hc. apply in_app_or in Hc. destruct Hc as [Hc|[Hc|Hc]]; auto. discriminate.
Qed.
Lemma text_eq_refl a : text_eq a a = true. Proof. unfold text_eq. destruct (list_eq_dec ascii_dec a a); congruence. Qed.
Lemma text_eq_neq a b : a <> b -> text_eq a b = false. Proof. unfold text_eq. destruct (list_eq_dec ascii_dec a b); congruence. Qed.
Lemma lookup_set {V} k k' (v : V) d : lookup k (set_item k' v d) = if text_eq k' k then Some v else lookup k d.
Proof.
  unfold text_eq. induction d as [|[k1 v1] d IH]; cbn [set_item lookup]; unfold text_eq in *; [destruct (list_eq_dec ascii_dec k' k); reflexivity|].
  destruct (list_eq_dec ascii_dec k1 k') as [->|Hne]; cbn [lookup].
  - destruct (list_eq_dec ascii_dec k' k); reflexivity.
  - destruct (list_eq_dec ascii_dec k1 k) as [->|]; [|exact IH]. destruct (list_eq_dec ascii_dec k' k); [congruence|reflexivity].
Qed.
Theorem parse_last_wins pre k v post : ~ In "-"%char k -> ~ In ","%char k -> ~ In ","%char v ->
  (forall w, In w post -> ~ In ","%char w /\ fst (parse_kv w) <> k) -> (forall w, In w pre -> ~ In ","%char w) ->
  lookup k (parse_cfg_str (join ","%char (pre ++ (k ++ "-"%char :: v) :: post))) = Some v.
Proof.
  intros Hk1 Hk2 Hv Hpost Hpre. unfold parse_cfg_str. rewrite split_join.
  - rewrite fold_left_app. cbn [fold_left]. rewrite parse_kv_spec by auto. generalize (fold_left (fun d kv => let (k0, v0) := parse_kv kv in set_item k0 v0 d) pre []). intros d.
    assert (K : forall l d, (forall w, In w l -> fst (parse_kv w) <> k) -> lookup k (fold_left (fun d kv => let (k0, v0) := parse_kv kv in set_item k0 v0 d) l d) = lookup k d).
    { induction l as [|w l IH]; intros d0 H; cbn [fold_left]; [reflexivity|]. rewrite IH by (intros; apply H; right; auto). specialize (H w (or_introl eq_refl)).
      destruct (parse_kv w) as [k0 v0]. cbn [fst] in H. rewrite lookup_set, text_eq_neq; auto. }
    rewrite K by (intros w Hw; apply Hpost; auto). rewrite lookup_set, text_eq_refl. reflexivity.
  - destruct pre; discriminate.
  - intros w Hw. apply in_app_or in Hw. destruct Hw as [Hw|[<-|Hw]]; [apply Hpre; auto| |apply Hpost; auto].
    intros Hc. apply in_app_or in Hc. destruct Hc as [Hc|[Hc|Hc]]; auto. discriminate.
Qed.
Theorem dataloader_dropped {A} D P i B (xs : list A) bs : 0 < P -> Nat.divide P D -> 0 < D -> 0 < B -> dataloader D P i B xs = Some bs ->
  P * (length (ds_shard P i xs) - length (concat (concat bs))) < B.
Proof.
  intros HP HPD HD HB H. destruct (dataloader_shape D P i B xs bs HP HPD HD HB H) as (HDP & b & Hb & _ & Hc).
  unfold dataloader in H. destruct (per_process D P B) as [b'|] eqn:Hb'; [|discriminate]. injection H as H.
  destruct (per_process_ok D P B b' HP HPD HD Hb') as [Hb1 Hb2].
  set (n := D / P) in *. assert (Hn : 0 < n) by nia. assert (b' = n * b) as -> by nia.
  replace (n * b / n) with b in H by (rewrite Nat.mul_comm, Nat.div_mul by lia; reflexivity).
  assert (Hbpos : 0 < b) by nia. rewrite Hc, firstn_length. set (L := length (ds_shard P i xs)) in *.
  assert (Hlen : length bs = L / b / n).
  { rewrite <- H. unfold ds_batch. rewrite !blocks_length. reflexivity. }
  rewrite Hlen, Nat.div_div by lia. rewrite (Nat.mul_comm b n). pose proof (Nat.div_mod L (n * b) ltac:(nia)). pose proof (Nat.mod_upper_bound L (n * b) ltac:(nia)).
  set (q := L / (n * b)) in *. rewrite Nat.min_l by nia. rewrite <- Hb. apply Nat.mul_lt_mono_pos_l; [lia|]. nia.
Qed.
