(** Padded arrays carry the sums of the graph; extraction of independent sets and cliques. *)
From Coq Require Import Reals List Lra Lia Arith Permutation.
From Verif.Base Require Import RSum.
From Verif.Spec Require Import GraphSpec.
From Verif.Model Require Import CombOpt.
Import ListNotations.
Local Open Scope R_scope.

(** ** Padded sums *)
Lemma combine_app {A B} (a a' : list A) (b b' : list B) : length a = length b -> combine (a ++ a') (b ++ b') = combine a b ++ combine a' b'.
Proof. revert b; induction a as [|x a IH]; intros [|y b] H; simpl in H; try discriminate; simpl; auto. rewrite IH; auto. Qed.

Lemma combine_repeat {A B} (a : A) (b : B) n : combine (repeat a n) (repeat b n) = repeat (a, b) n.
Proof. induction n; simpl; congruence. Qed.

Lemma rsum_repeat {A} (a : A) n f : rsum (repeat a n) f = INR n * f a.
Proof. induction n as [|n IH]; [simpl; ring|]. cbn [repeat rsum]. rewrite IH, S_INR. ring. Qed.

Lemma combine_map2 {A B C} (f : A -> B) (g : A -> C) l : combine (map f l) (map g l) = map (fun a => (f a, g a)) l.
Proof. induction l; simpl; congruence. Qed.

Lemma repeat_as_map {A B} (b : B) (l : list A) : repeat b (length l) = map (fun _ => b) l.
Proof. induction l; simpl; congruence. Qed.

Lemma masked_sum m pw g (F : nat * nat -> R) :
  rsum (combine (ep_edges (graph2edges m pw g)) (ep_mask (graph2edges m pw g))) (fun em => F (fst em) * snd em)
  = rsum (map ends (g_edges g)) F.
Proof.
  unfold graph2edges. cbn [ep_edges ep_mask]. rewrite combine_app by (rewrite map_length, repeat_length; auto).
  rewrite rsum_app, combine_repeat, rsum_repeat. cbn [fst snd]. rewrite repeat_as_map, combine_map2, !rsum_map. cbn [fst snd].
  rewrite (rsum_ext _ (fun a => F (ends a) * 1) (fun a => F (ends a))) by (intros; ring). ring.
Qed.

Lemma weighted_sum m pw g (F : nat * nat -> R -> R) : (F (0, 0)%nat (0 + pw) = 0) ->
  rsum (combine (ep_edges (graph2edges m pw g)) (ep_weight (graph2edges m pw g))) (fun ew => F (fst ew) (snd ew))
  = rsum (g_edges g) (fun e => F (ends e) (snd e)).
Proof.
  intros H0. unfold graph2edges. cbn [ep_edges ep_weight]. rewrite combine_app by (rewrite !map_length; auto).
  rewrite rsum_app, combine_repeat, rsum_repeat. cbn [fst snd]. rewrite combine_map2, rsum_map. cbn [fst snd]. rewrite H0. ring.
Qed.

(** The dictionary itself. *)
Lemma graph2edges_lengths m pw g :
  let p := graph2edges m pw g in
  length (ep_edges p) = Nat.max m (length (g_edges g)) /\ length (ep_mask p) = Nat.max m (length (g_edges g))
  /\ length (ep_weight p) = Nat.max m (length (g_edges g)) /\ length (ep_bidir p) = (2 * Nat.max m (length (g_edges g)))%nat
  /\ length (ep_bidir_weight p) = (2 * Nat.max m (length (g_edges g)))%nat.
Proof.
  intros p. unfold p, graph2edges. cbn [ep_edges ep_mask ep_weight ep_bidir ep_bidir_weight].
  assert (Hn : padded_edges m g = Nat.max m (length (g_edges g))).
  { unfold padded_edges. destruct (Nat.ltb_spec 0 m); destruct (Nat.ltb_spec (length (g_edges g)) m); cbn [andb]; lia. }
  rewrite !Hn. repeat (rewrite ?app_length, ?map_length, ?repeat_length). lia.
Qed.

Lemma graph2edges_prefix m pw g k e : nth_error (g_edges g) k = Some e ->
  let p := graph2edges m pw g in
  nth_error (ep_edges p) k = Some (ends e) /\ nth_error (ep_mask p) k = Some 1 /\ nth_error (ep_weight p) k = Some (snd e).
Proof.
  intros H p. assert (Hk : (k < length (g_edges g))%nat) by (apply nth_error_Some; congruence).
  unfold p, graph2edges. cbn [ep_edges ep_mask ep_weight]. rewrite !nth_error_app1 by (rewrite ?map_length, ?repeat_length; auto).
  repeat split.
  - apply map_nth_error; auto.
  - apply nth_error_repeat; auto.
  - apply map_nth_error; auto.
Qed.

Lemma graph2edges_padding m pw g k : (length (g_edges g) <= k < Nat.max m (length (g_edges g)))%nat ->
  let p := graph2edges m pw g in
  nth_error (ep_edges p) k = Some (0, 0)%nat /\ nth_error (ep_mask p) k = Some 0 /\ nth_error (ep_weight p) k = Some (0 + pw).
Proof.
  intros Hk p.
  assert (Hn : padded_edges m g = Nat.max m (length (g_edges g))).
  { unfold padded_edges. destruct (Nat.ltb_spec 0 m); destruct (Nat.ltb_spec (length (g_edges g)) m); cbn [andb]; lia. }
  unfold p, graph2edges. cbn [ep_edges ep_mask ep_weight]. rewrite !nth_error_app2 by (rewrite ?map_length, ?repeat_length; lia).
  rewrite ?map_length, ?repeat_length, Hn. repeat split; apply nth_error_repeat; lia.
Qed.

Lemma graph2edges_bidir m pw g k : (k < length (ep_edges (graph2edges m pw g)))%nat ->
  let p := graph2edges m pw g in
  nth_error (ep_bidir p) k = nth_error (ep_edges p) k
  /\ nth_error (ep_bidir p) (length (ep_edges p) + k) = option_map swap (nth_error (ep_edges p) k)
  /\ nth_error (ep_bidir_weight p) k = nth_error (ep_weight p) k
  /\ nth_error (ep_bidir_weight p) (length (ep_edges p) + k) = nth_error (ep_weight p) k.
Proof.
  intros Hk p. destruct (graph2edges_lengths m pw g) as (L1 & _ & L3 & _). fold p in Hk, L1, L3.
  assert (E1 : ep_bidir p = ep_edges p ++ map swap (ep_edges p)) by reflexivity.
  assert (E2 : ep_bidir_weight p = ep_weight p ++ ep_weight p) by reflexivity.
  rewrite E1, E2. assert (L : length (ep_weight p) = length (ep_edges p)) by congruence.
  split; [apply nth_error_app1; auto|]. split.
  - rewrite nth_error_app2 by lia. replace (length (ep_edges p) + k - length (ep_edges p))%nat with k by lia. apply nth_error_map.
  - split; [apply nth_error_app1; lia|]. rewrite nth_error_app2 by lia. f_equal. lia.
Qed.

(** Sums over the bidirectional arrays. *)
Lemma rsum_filter_if {A} (p : A -> bool) (l : list A) f : rsum (filter p l) f = rsum l (fun a => if p a then f a else 0).
Proof. induction l as [|a l IH]; simpl; auto. destruct (p a); simpl; rewrite IH; ring. Qed.

Lemma combine_map_l {A B C} (f : A -> C) (l : list A) (l' : list B) : combine (map f l) l' = map (fun p => (f (fst p), snd p)) (combine l l').
Proof. revert l'; induction l as [|a l IH]; intros [|b l']; simpl; auto. rewrite IH. auto. Qed.

Lemma bidir_sum m pw g (F : nat * nat -> R -> R) : F (0, 0)%nat (0 + pw) = 0 ->
  let p := graph2edges m pw g in
  rsum (combine (ep_bidir p) (ep_bidir_weight p)) (fun ew => F (fst ew) (snd ew))
  = rsum (g_edges g) (fun e => F (ends e) (snd e)) + rsum (g_edges g) (fun e => F (swap (ends e)) (snd e)).
Proof.
  intros H0 p. assert (E1 : ep_bidir p = ep_edges p ++ map swap (ep_edges p)) by reflexivity.
  assert (E2 : ep_bidir_weight p = ep_weight p ++ ep_weight p) by reflexivity.
  destruct (graph2edges_lengths m pw g) as (L1 & _ & L3 & _). fold p in L1, L3.
  rewrite E1, E2, combine_app by congruence. rewrite rsum_app. f_equal.
  - apply (weighted_sum m pw g F H0).
  - rewrite combine_map_l, rsum_map. cbn [fst snd]. apply (weighted_sum m pw g (fun e w => F (swap e) w)). exact H0.
Qed.

(** Without weights, the sum over bidirectional edges with the padding made explicit. *)
Lemma bidir_sum_unweighted m pw g (F : nat * nat -> R) :
  let p := graph2edges m pw g in
  rsum (ep_bidir p) F = rsum (g_edges g) (fun e => F (ends e)) + rsum (g_edges g) (fun e => F (swap (ends e)))
    + 2 * INR (m - length (g_edges g)) * F (0, 0)%nat.
Proof.
  intros p. unfold p, graph2edges. cbn [ep_bidir].
  assert (Hn : padded_edges m g = Nat.max m (length (g_edges g))).
  { unfold padded_edges. destruct (Nat.ltb_spec 0 m); destruct (Nat.ltb_spec (length (g_edges g)) m); cbn [andb]; lia. }
  rewrite Hn. replace (Nat.max m (length (g_edges g)) - length (g_edges g))%nat with (m - length (g_edges g))%nat by lia.
  rewrite rsum_app, !rsum_map, !rsum_app, !rsum_map, !rsum_repeat. change (swap (0, 0)%nat) with (0, 0)%nat. ring.
Qed.

(** ** Vectors and node sets *)
Lemma rsum_indicator (p : nat -> bool) l : rsum l (fun i => if p i then 1 else 0) = INR (length (filter p l)).
Proof. induction l as [|a l IH]; [reflexivity|]. cbn [rsum filter]. rewrite IH. destruct (p a); cbn [length]; rewrite ?S_INR; ring. Qed.

Lemma node_set_selected n x : node_set n (selected n x).
Proof.
  split; [apply NoDup_filter, seq_NoDup|]. intros v H. apply filter_In in H. destruct H as [H _]. apply in_seq in H. lia.
Qed.

Lemma in_selected n x v : In v (selected n x) <-> (v < n)%nat /\ x v = true.
Proof. unfold selected. rewrite filter_In, in_seq. split; intros [H1 H2]; split; auto; lia. Qed.

Lemma mask_sum n N x : (n <= N)%nat -> rsum (seq 0 N) (fun i => vec x i * (if Nat.ltb i n then 1 else 0)) = INR (length (selected n x)).
Proof.
  intros H. replace N with (n + (N - n))%nat by lia. rewrite seq_app, rsum_app. cbn [Nat.add].
  rewrite (rsum_ext (seq n (N - n)) _ (fun _ => 0)), (rsum_const0 (seq n (N - n))) by
    first [reflexivity | intros i Hi; apply in_seq in Hi; destruct (Nat.ltb_spec i n); [lia|ring]].
  rewrite (rsum_ext (seq 0 n) _ (fun i => if x i then 1 else 0)).
  - rewrite rsum_indicator. unfold selected. ring.
  - intros i Hi. apply in_seq in Hi. destruct (Nat.ltb_spec i n); [|lia]. unfold vec. destruct (x i); ring.
Qed.

(** ** Removing one endpoint per violated edge *)
Definition hits (S : list nat) (e : nat * nat) : bool :=
  andb (if in_dec Nat.eq_dec (fst e) S then true else false) (if in_dec Nat.eq_dec (snd e) S then true else false).

Lemma hits_iff S e : hits S e = true <-> In (fst e) S /\ In (snd e) S.
Proof. unfold hits. destruct (in_dec Nat.eq_dec (fst e) S), (in_dec Nat.eq_dec (snd e) S); cbn [andb]; intuition discriminate. Qed.

Lemma extract (es : list (nat * nat)) : forall S, NoDup S ->
  exists S', NoDup S' /\ incl S' S /\ (forall e, In e es -> hits S' e = false) /\ (length S <= length S' + length (filter (hits S) es))%nat.
Proof.
  induction es as [|e es IH]; intros S HS.
  - exists S. split; [auto|]. split; [apply incl_refl|]. split; [intros ? []|]. simpl. lia.
  - destruct (IH S HS) as (S1 & H1 & H2 & H3 & H4). destruct (hits S1 e) eqn:E.
    + assert (Hin : In (fst e) S1) by (apply hits_iff in E; tauto).
      exists (remove Nat.eq_dec (fst e) S1).
      assert (Hlen : forall l, NoDup l -> In (fst e) l -> length l = Datatypes.S (length (remove Nat.eq_dec (fst e) l))).
      { clear. induction l as [|a l IH]; intros Hn Hi; [destruct Hi|]. inversion Hn; subst. cbn [remove]. destruct (Nat.eq_dec (fst e) a) as [->|Hne].
        - rewrite notin_remove by auto. reflexivity.
        - cbn [length]. rewrite <- IH; auto. destruct Hi; congruence. }
      assert (Hnr : forall l, NoDup l -> NoDup (remove Nat.eq_dec (fst e) l)).
      { clear. induction l as [|a l IH]; intros Hn; cbn [remove]; [constructor|]. inversion Hn; subst.
        destruct (Nat.eq_dec (fst e) a); auto. constructor; auto. intros H. apply in_remove in H. tauto. }
      split; [auto|]. split; [|split].
      * intros v Hv. apply in_remove in Hv. apply H2. tauto.
      * intros e' He'. destruct (hits (remove Nat.eq_dec (fst e) S1) e') eqn:E'; auto. apply hits_iff in E'. destruct E' as [E1 E2].
        apply in_remove in E1, E2. destruct He' as [<-|He'].
        -- tauto.
        -- rewrite <- (H3 e' He'). symmetry. apply hits_iff. tauto.
      * cbn [filter]. assert (hits S e = true) as ->.
        { apply hits_iff. apply hits_iff in E. split; apply H2; tauto. }
        cbn [length]. specialize (Hlen S1 H1 Hin). lia.
    + exists S1. split; [auto|]. split; [auto|]. split.
      * intros e' [<-|He']; auto.
      * cbn [filter]. destruct (hits S e); cbn [length]; lia.
Qed.

(** ** Pairs of a duplicate-free list *)
Definition pairs (S : list nat) : list (nat * nat) := filter (fun e => Nat.ltb (fst e) (snd e)) (list_prod S S).

Lemma count_split (S : list nat) : NoDup S -> INR (length (pairs S)) = INR (length S) * (INR (length S) - 1) / 2.
Proof.
  intros HS.
  assert (Hc : forall p : nat * nat -> bool, INR (length (filter p (list_prod S S))) = rsum S (fun u => rsum S (fun v => if p (u, v) then 1 else 0))).
  { intros p. rewrite <- (rsum_list_prod S S (fun e => if p e then 1 else 0)). generalize (list_prod S S) as l. induction l as [|a l IH]; [reflexivity|].
    cbn [filter rsum]. rewrite <- IH. destruct (p a); cbn [length]; rewrite ?S_INR; ring. }
  unfold pairs. rewrite Hc. cbn [fst snd].
  assert (H1 : rsum S (fun u => rsum S (fun v => if Nat.ltb u v then 1 else 0)) = rsum S (fun u => rsum S (fun v => if Nat.ltb v u then 1 else 0))).
  { rewrite rsum_swap. reflexivity. }
  assert (H2 : rsum S (fun u => rsum S (fun v => if Nat.ltb u v then 1 else 0)) + rsum S (fun u => rsum S (fun v => if Nat.ltb v u then 1 else 0))
     + rsum S (fun u => rsum S (fun v => if Nat.eqb v u then 1 else 0)) = INR (length S) * INR (length S)).
  { rewrite <- !rsum_plus. rewrite (rsum_ext S _ (fun _ => INR (length S))); [rewrite rsum_const; ring|].
    intros u _. rewrite <- !rsum_plus. rewrite (rsum_ext S _ (fun _ => 1)); [rewrite rsum_const; ring|].
    intros v _. destruct (Nat.ltb_spec u v); destruct (Nat.ltb_spec v u); destruct (Nat.eqb_spec v u); try lia; ring. }
  assert (H3 : rsum S (fun u => rsum S (fun v => if Nat.eqb v u then 1 else 0)) = INR (length S)).
  { rewrite (rsum_ext S _ (fun _ => 1)); [rewrite rsum_const; ring|]. intros u Hu.
    rewrite (rsum_single S _ u); auto.
    - rewrite Nat.eqb_refl. reflexivity.
    - intros v _ Hne. destruct (Nat.eqb_spec v u); congruence. }
  lra.
Qed.

Definition norm (e : nat * nat) : nat * nat := (Nat.min (fst e) (snd e), Nat.max (fst e) (snd e)).

Definition pair_eq_dec : forall a b : nat * nat, {a = b} + {a <> b}.
Proof. decide equality; apply Nat.eq_dec. Defined.
Definition joined (es : list (nat * nat)) (e : nat * nat) : bool := if in_dec pair_eq_dec e (map norm es) then true else false.


Lemma NoDup_pairs S : NoDup S -> NoDup (pairs S).
Proof. intros H. apply NoDup_filter. apply NoDup_list_prod; auto. Qed.

Lemma in_pairs S e : In e (pairs S) <-> In (fst e) S /\ In (snd e) S /\ (fst e < snd e)%nat.
Proof. unfold pairs. rewrite filter_In. destruct e as [u v]. rewrite in_prod_iff. cbn [fst snd]. rewrite Nat.ltb_lt. tauto. Qed.

Lemma map_filter_len {A B} (f : A -> B) (p : B -> bool) l : length (filter p (map f l)) = length (filter (fun a => p (f a)) l).
Proof. induction l as [|a l IH]; simpl; auto. destruct (p (f a)); simpl; auto. Qed.

Lemma hits_norm S e : hits S (norm e) = hits S e.
Proof.
  destruct e as [u v]. unfold norm. cbn [fst snd]. destruct (Nat.le_ge_cases u v).
  - rewrite Nat.min_l, Nat.max_r by lia. reflexivity.
  - rewrite Nat.min_r, Nat.max_l by lia. unfold hits. cbn [fst snd]. apply Bool.andb_comm.
Qed.

Lemma filter_ext_length {A} (p q : A -> bool) l : (forall a, In a l -> p a = q a) -> length (filter p l) = length (filter q l).
Proof. intros H. rewrite (filter_ext_in p q l H). reflexivity. Qed.

Lemma covered_pairs n es S : simple n es -> NoDup S -> length (filter (hits S) es) = length (filter (joined es) (pairs S)).
Proof.
  intros [Hl Hn] HS.
  rewrite <- (filter_ext_length (fun e => hits S (norm e)) (hits S) es) by (intros; apply hits_norm).
  rewrite <- map_filter_len. apply Permutation_length. apply NoDup_Permutation.
  - apply NoDup_filter. exact Hn.
  - apply NoDup_filter. apply NoDup_pairs; auto.
  - intros e. rewrite !filter_In, in_pairs, hits_iff. unfold joined. destruct (in_dec pair_eq_dec e (map norm es)) as [Hi|Hi].
    + split; intros H; [|tauto]. split; [|reflexivity]. split; [tauto|]. split; [tauto|].
      apply in_map_iff in Hi. destruct Hi as ([u v] & <- & Hi). destruct (Hl u v Hi) as (_ & _ & Hne). unfold norm. cbn [fst snd]. lia.
    + split; intros [H1 H2]; [tauto|discriminate].
Qed.

Lemma joined_iff es u v : (u < v)%nat -> joined es (u, v) = true <-> adjacent es u v.
Proof.
  intros Huv. unfold joined, adjacent. destruct (in_dec pair_eq_dec (u, v) (map norm es)) as [Hi|Hi].
  - split; auto. intros _. apply in_map_iff in Hi. destruct Hi as ([a b] & He & Hi). unfold norm in He. cbn [fst snd] in He.
    injection He as H1 H2. destruct (Nat.le_ge_cases a b).
    + rewrite Nat.min_l in H1 by lia. rewrite Nat.max_r in H2 by lia. subst. auto.
    + rewrite Nat.min_r in H1 by lia. rewrite Nat.max_l in H2 by lia. subst. auto.
  - split; [discriminate|]. intros H. exfalso. apply Hi. apply in_map_iff. destruct H as [H|H].
    + exists (u, v). unfold norm. cbn [fst snd]. rewrite Nat.min_l, Nat.max_r by lia. auto.
    + exists (v, u). unfold norm. cbn [fst snd]. rewrite Nat.min_r, Nat.max_l by lia. auto.
Qed.

Lemma filter_compl_length {A} (p : A -> bool) l : length l = (length (filter p l) + length (filter (fun a => negb (p a)) l))%nat.
Proof. induction l as [|a l IH]; simpl; auto. destruct (p a); simpl; lia. Qed.

(** Clique extraction: the missing pairs play the part of the edges. *)
Lemma extract_clique n es S : simple n es -> node_set n S ->
  exists S', clique n es S' /\ incl S' S /\
    INR (length S) <= INR (length S') + (INR (length S) * (INR (length S) - 1) / 2 - INR (length (filter (hits S) es))).
Proof.
  intros Hs [HS Hlt].
  destruct (extract (filter (fun e => negb (joined es e)) (pairs S)) S HS) as (S' & H1 & H2 & H3 & H4).
  exists S'. split; [|split]; auto.
  - split; [split; auto; intros; apply Hlt; auto|]. intros u v Hu Hv Hne.
    assert (HH : forall a b, In a S' -> In b S' -> (a < b)%nat -> adjacent es a b).
    { intros a b Ha Hb Hab. destruct (joined es (a, b)) eqn:E; [apply joined_iff in E; auto|]. exfalso.
      assert (Hin : In (a, b) (filter (fun e => negb (joined es e)) (pairs S))).
      { apply filter_In. split; [apply in_pairs; cbn [fst snd]; auto|]. rewrite E. reflexivity. }
      specialize (H3 _ Hin). assert (hits S' (a, b) = true) by (apply hits_iff; auto). congruence. }
    destruct (Nat.lt_total u v) as [Hl|[He|Hl]]; [auto|congruence|]. destruct (HH v u Hv Hu Hl) as [K|K]; [right|left]; auto.
  - rewrite <- (count_split S HS). rewrite (covered_pairs n es S Hs HS).
    rewrite (filter_compl_length (joined es) (pairs S)), plus_INR. apply le_INR in H4. rewrite plus_INR in H4.
    assert (Hf : (length (filter (hits S) (filter (fun e => negb (joined es e)) (pairs S))) <= length (filter (fun e => negb (joined es e)) (pairs S)))%nat).
    { clear. generalize (filter (fun e => negb (joined es e)) (pairs S)) as l. induction l as [|a l IH]; simpl; auto. destruct (hits S a); simpl; lia. }
    apply le_INR in Hf. lra.
Qed.
