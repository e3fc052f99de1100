(** Property theorems C48 to C51 and C55: sweeps, clusters, n-gram scores, normalised-cut evaluation, image tiling. *)
From Coq Require Import String Reals List Arith Lia Lra Permutation.
From Verif.Base Require Import RSum.
From Verif.Spec Require Import ToolSpec GraphSpec.
From Verif.Model Require Import Tools.
From Verif.Proof Require Import ToolsProof ToolsProof2.
Import ListNotations.
Local Open Scope nat_scope.

(** ** C48 *)
(** The configurations are exactly the choices of one listed value per key. *)
Theorem C48_every_combination : forall V (s : list (string * list V)) L cfg, get_sweeps s = Some L ->
  (In cfg L <-> map fst cfg = map fst s /\ Forall2 (fun kv kvs => In (snd kv) (snd kvs)) cfg s).
Proof. exact @sweeps_complete. Qed.
Theorem C48_count : forall V (s : list (string * list V)) L, get_sweeps s = Some L -> List.length L = fold_right (fun kvs m => List.length (snd kvs) * m) 1 s.
Proof. exact @sweeps_count. Qed.
Theorem C48_once : forall V (s : list (string * list V)) L, (forall k vs, In (k, vs) s -> NoDup vs) -> get_sweeps s = Some L -> NoDup L.
Proof. exact @sweeps_NoDup. Qed.
(** A sweep with at least one key always succeeds; one without keys raises. *)
Theorem C48_fails_only_empty : forall V (s : list (string * list V)), get_sweeps s = None <-> s = [].
Proof. intros V [|a s]; split; intros H; auto; discriminate. Qed.
Example C48_ex : get_sweeps [("lr"%string, [1; 2]); ("n"%string, [7; 8; 9])]
  = Some [[("lr"%string, 1); ("n"%string, 7)]; [("lr"%string, 1); ("n"%string, 8)]; [("lr"%string, 1); ("n"%string, 9)];
          [("lr"%string, 2); ("n"%string, 7)]; [("lr"%string, 2); ("n"%string, 8)]; [("lr"%string, 2); ("n"%string, 9)]].
Proof. reflexivity. Qed.

(** ** C49 *)
(** Every experiment that has the key is in exactly one cluster, the others in none; no cluster is empty. *)
Theorem C49_partition : forall V (veq : V -> V -> bool) key (ds : list (dict V)),
  NoDup (concat (get_clusters veq key ds)) /\ Forall (fun c => c <> []) (get_clusters veq key ds)
  /\ forall i, In i (concat (get_clusters veq key ds)) <-> i < List.length ds /\ In key (map fst (nth i ds [])).
Proof.
  intros V veq key ds. destruct (clusters_partition V veq key ds) as (P & H). split; [|split; [exact H|]].
  - apply (Permutation_NoDup (Permutation_sym P)). apply NoDup_filter, seq_NoDup.
  - intros i. rewrite <- has_in. split; intros X.
    + apply (Permutation_in _ P) in X. apply filter_In in X. destruct X as (X & Y). apply in_seq in X. split; [lia|exact Y].
    + apply (Permutation_in _ (Permutation_sym P)). apply filter_In. split; [apply in_seq; lia|apply X].
Qed.
(** Experiments with the same set of keys: two share a cluster exactly when they differ at most in the key (results and name aside). *)
Theorem C49_same_iff_agree : forall V (veq : V -> V -> bool) key (ds : list (dict V)), (forall a b, veq a b = true <-> a = b) -> (forall d, In d ds -> NoDup (map fst d)) ->
  (forall d1 d2, In d1 ds -> In d2 ds -> In key (map fst d1) -> In key (map fst d2) ->
     forall k, k <> "results"%string -> k <> "name"%string -> (In k (map fst d1) <-> In k (map fst d2))) ->
  forall i j, i < List.length ds -> j < List.length ds -> In key (map fst (nth i ds [])) -> In key (map fst (nth j ds [])) ->
  (share (get_clusters veq key ds) i j <-> agree_outside key (nth i ds []) (nth j ds [])).
Proof. intros V veq key ds Hv. apply (clusters_iff V veq Hv key ds). Qed.
(** In general a member agrees with the first of its cluster only on the settings the first one has. *)
Theorem C49_agrees_with_first : forall V (veq : V -> V -> bool), (forall a b, veq a b = true <-> a = b) -> forall key (ds : list (dict V)), (forall d, In d ds -> NoDup (map fst d)) ->
  forall c i, In c (get_clusters veq key ds) -> In i c ->
  forall k v, In (k, v) (nth (hd 0 c) ds []) -> k <> key -> k <> "results"%string -> k <> "name"%string -> In (k, v) (nth i ds []).
Proof. exact clusters_first. Qed.
(** An experiment with an additional setting joins a cluster it does not agree with, and the clusters depend on the order of the experiments. *)
Theorem C49_extra_setting_refuted : exists (ds : list (dict nat)) i j, (forall d, In d ds -> NoDup (map fst d)) /\ i < List.length ds /\ j < List.length ds
  /\ share (get_clusters Nat.eqb "n" ds) i j /\ ~ agree_outside "n" (nth i ds []) (nth j ds [])
  /\ List.length (get_clusters Nat.eqb "n" ds) <> List.length (get_clusters Nat.eqb "n" (rev ds)).
Proof.
  exists [[("n", 1)]; [("n", 2); ("lr", 5)]]%string, 0, 1.
  split; [intros d [<-|[<-|[]]]; repeat constructor; cbn; intuition discriminate|]. split; [cbn; lia|]. split; [cbn; lia|].
  split; [exists [0; 1]; split; [left; reflexivity|cbn; auto]|]. split; [|cbn; lia].
  intros H. destruct (H "lr"%string 5) as (_ & H2); [discriminate|discriminate|discriminate|]. destruct H2 as [E|[]]; [cbn; auto|discriminate].
Qed.
Example C49_ex : get_clusters Nat.eqb "n" [[("n", 1); ("lr", 5)]; [("lr", 5)]; [("n", 1); ("lr", 6)]; [("lr", 5); ("n", 3)]]%string = [[0; 3]; [2]].
Proof. reflexivity. Qed.

(** ** C50 *)
(** Score against a reference: 0 iff every predicted n-gram occurs in the reference, 1 iff none does and none is repeated. *)
Theorem C50_reference_score : forall word (word_dec : forall a b : word, {a = b} + {a <> b}) n preds refs, (exists s, In s preds /\ n <= List.length s) -> 1 <= n ->
  exists v, ref_unique_n word word_dec n preds refs = Some v /\ (0 <= v <= 1)%R
  /\ (v = 0%R <-> forall g s, In s preds -> occurs n g s -> exists s', In s' refs /\ occurs n g s')
  /\ (v = 1%R <-> NoDup (all_grams word n preds) /\ forall g s s', In s preds -> occurs n g s -> In s' refs -> ~ occurs n g s').
Proof. exact ref_unique_facts. Qed.
(** Score within the predictions: 0 iff every n-gram is repeated, 1 iff none is. *)
Theorem C50_self_score : forall word (word_dec : forall a b : word, {a = b} + {a <> b}) n preds, (exists s, In s preds /\ n <= List.length s) -> 1 <= n ->
  exists v, self_unique_n word word_dec n preds = Some v /\ (0 <= v <= 1)%R
  /\ (v = 0%R <-> forall g, In g (all_grams word n preds) -> 2 <= count_occ (list_eq_dec word_dec) (all_grams word n preds) g)
  /\ (v = 1%R <-> NoDup (all_grams word n preds)).
Proof. exact self_unique_facts. Qed.
(** The evaluations fail exactly when all predictions are shorter than the largest size asked for. *)
Theorem C50_fails_iff : forall word (word_dec : forall a b : word, {a = b} + {a <> b}) preds refs m,
  (ref_unique_ngrams word word_dec preds refs m = None <-> 1 <= m /\ forall s, In s preds -> List.length s < m)
  /\ (self_unique_ngrams word word_dec preds m = None <-> 1 <= m /\ forall s, In s preds -> List.length s < m).
Proof. intros. split; [apply ref_ngrams_fail|apply self_ngrams_fail]. Qed.
(** The reported tables have one entry per size 1 .. m, the score of that size. *)
Theorem C50_tables : forall word (word_dec : forall a b : word, {a = b} + {a <> b}) preds refs m,
  (forall t, ref_unique_ngrams word word_dec preds refs m = Some t -> map fst t = seq 1 m /\ forall n v, In (n, v) t -> ref_unique_n word word_dec n preds refs = Some v)
  /\ (forall t, self_unique_ngrams word word_dec preds m = Some t -> map fst t = seq 1 m /\ forall n v, In (n, v) t -> self_unique_n word word_dec n preds = Some v).
Proof.
  intros. split; intros t H.
  - exact (collect_some (fun n => ref_unique_n word word_dec n preds refs) (seq 1 m) t H).
  - exact (collect_some (fun n => self_unique_n word word_dec n preds) (seq 1 m) t H).
Qed.
Example C50_ex : ref_unique_n nat Nat.eq_dec 2 [[1; 2; 3]; [1; 2]] [[2; 3; 4]] = Some (1 / (1 + 1 + 1))%R
  /\ self_unique_n nat Nat.eq_dec 2 [[1; 2; 3]; [1; 2]] = Some (1 / (1 + 1 + 1))%R /\ self_unique_ngrams nat Nat.eq_dec [[1; 2]] 3 = None.
Proof. repeat split; reflexivity. Qed.

(** ** C51 *)
Local Open Scope R_scope.
(** Simple unweighted graphs: every cut edge is counted twice, the cut ratio is the fraction of cut edges. *)
Theorem C51_cut : forall groups n es, simple n es -> num_cut_adj_mat groups n (adj_matrix (unit_weights es)) = 2 * INR (cut_edges groups es).
Proof. exact cut_mat_unit. Qed.
Theorem C51_cut_ratio : forall groups n es, simple n es -> es <> [] ->
  cut_ratio groups n (2 * INR (List.length es)) (adj_matrix (unit_weights es)) = INR (cut_edges groups es) / INR (List.length es)
  /\ 0 <= cut_ratio groups n (2 * INR (List.length es)) (adj_matrix (unit_weights es)) <= 1.
Proof.
  intros groups n es Hs Hne. assert (L : (0 < List.length es)%nat) by (destruct es; [congruence|cbn; lia]).
  assert (E : cut_ratio groups n (2 * INR (List.length es)) (adj_matrix (unit_weights es)) = INR (cut_edges groups es) / INR (List.length es)).
  { unfold cut_ratio. rewrite cut_mat_unit by exact Hs. field. apply not_0_INR. lia. }
  split; [exact E|]. rewrite E. apply frac_facts; [apply cut_le|exact L].
Qed.
Theorem C51_cut_list : forall groups n es (adj : nat -> list nat), simple n es ->
  (forall i, (i < n)%nat -> NoDup (adj i) /\ forall j, In j (adj i) <-> adjacent es i j) -> num_cut groups n adj = INR (cut_edges groups es).
Proof. exact num_cut_list. Qed.
(** The volumes add up to twice the total edge weight; the volume of a group counts the edge ends in it. *)
Theorem C51_volumes : forall groups n k es, simple n (map fst es) -> (forall i, (i < n)%nat -> (groups i < k)%nat) ->
  rsum (seq 0 k) (calc_volume groups n (adj_matrix es)) = 2 * rsum es snd.
Proof. exact volumes_sum. Qed.
Theorem C51_volume_of_group : forall groups n es g, simple n es ->
  calc_volume groups n (adj_matrix (unit_weights es)) g
  = rsum es (fun e => (if Nat.eqb (groups (fst e)) g then 1 else 0) + (if Nat.eqb (groups (snd e)) g then 1 else 0)).
Proof. exact volume_degrees. Qed.
(** The balance score is at most 1, and 1 exactly for groups of equal size. *)
Theorem C51_balance : forall groups n k, (2 <= k)%nat -> (0 < n)%nat -> (forall i, (i < n)%nat -> (groups i < k)%nat) ->
  0 <= balanceness groups n k <= 1 /\ (balanceness groups n k = 1 <-> forall g, (g < k)%nat -> (k * group_size groups n g = n)%nat).
Proof. exact balance_facts. Qed.
(** Edges of weight other than 1 are not seen by the cut count. *)
Theorem C51_weighted_refuted : exists n es groups, simple n (map fst es) /\ (forall e, In e es -> 0 < snd e)
  /\ num_cut_adj_mat groups n (adj_matrix es) = 0 /\ cut_edges groups (map fst es) = 1%nat.
Proof.
  exists 2%nat, [((0, 1)%nat, 2)], (fun i => i). assert (S : simple 2 [(0, 1)%nat]).
  { split; [intros u v [E|[]]; injection E as <- <-; repeat split; lia|]. repeat constructor. intros []. }
  split; [exact S|]. split; [intros e [<-|[]]; cbn; lra|]. split; [|reflexivity]. rewrite cut_mat_sum by exact S. cbn. destruct (Req_EM_T 2 1); [lra|]. cbn. lra.
Qed.
(** A self-loop enters a volume once, so the volumes no longer add up to twice the edges. *)
Theorem C51_loop_refuted : exists n es groups, (forall e, In e es -> (fst (fst e) < n)%nat /\ (snd (fst e) < n)%nat) /\ (forall i, (i < n)%nat -> (groups i < 1)%nat)
  /\ rsum (seq 0 1) (calc_volume groups n (adj_matrix es)) <> 2 * rsum es snd.
Proof.
  exists 1%nat, [((0, 0)%nat, 1)], (fun _ => 0%nat). split; [intros e [<-|[]]; cbn; lia|]. split; [intros; lia|]. cbn. lra.
Qed.
Example C51_ex : let es := [(0, 1); (1, 2); (2, 3)]%nat in let groups := fun i => Nat.div i 2 in
  simple 4 es /\ num_cut_adj_mat groups 4 (adj_matrix (unit_weights es)) = 2 /\ balanceness groups 4 2 = 1.
Proof.
  intros es groups. assert (S : simple 4 es).
  { split; [intros u v H; cbn in H; repeat destruct H as [H|H]; try contradiction; injection H as <- <-; repeat split; lia|].
    repeat constructor; cbn; intuition discriminate. }
  split; [exact S|]. split; [rewrite C51_cut by exact S; cbn; lra|].
  apply C51_balance; [lia|lia|intros i Hi; apply Nat.div_lt_upper_bound; lia|]. intros g Hg. destruct g as [|[|g]]; [reflexivity|reflexivity|lia].
Qed.

(** ** C55 *)
Local Open Scope nat_scope.
(** Pixel (r, c) of image k is at row k / cols, column k mod cols of the grid (cells are p + p pixels apart); every other pixel is background. *)
Theorem C55_tiling : forall pixel n h w p nc bg (img : nat -> nat -> nat -> pixel) H W out, np_tile_imgs pixel n h w p nc bg img = Some (H, W, out) ->
  exists rows cols, (0 < nc -> cols = nc /\ rows * cols = n) /\ (nc = 0 -> rows = cols) /\ n <= rows * cols
  /\ H = rows * (h + 2 * p) - 2 * p /\ W = cols * (w + 2 * p) - 2 * p
  /\ (forall k r c, k < n -> r < h -> c < w ->
       k / cols * (h + 2 * p) + r < H /\ k mod cols * (w + 2 * p) + c < W /\ out (k / cols * (h + 2 * p) + r) (k mod cols * (w + 2 * p) + c) = img k r c)
  /\ (forall y x, y < H -> x < W -> (forall k r c, k < n -> r < h -> c < w -> y = k / cols * (h + 2 * p) + r -> x = k mod cols * (w + 2 * p) + c -> False) -> out y x = bg).
Proof.
  intros pixel n h w p nc bg img H W out E. destruct (tile_places pixel n h w p nc bg img H W out E) as (rows & cols & G & HH & HW & H1 & H2).
  exists rows, cols. split; [intros Hc; eapply grid_exact; eauto|]. split; [intros ->; cbn in G; injection G as <- <-; reflexivity|].
  split; [eapply grid_fits; eauto|]. auto.
Qed.
(** It fails exactly when a number of columns is requested that does not divide the number of images. *)
Theorem C55_fails_iff : forall pixel n h w p nc bg (img : nat -> nat -> nat -> pixel), np_tile_imgs pixel n h w p nc bg img = None <-> 0 < nc /\ ~ Nat.divide nc n.
Proof. intros. rewrite <- grid_rejects. unfold np_tile_imgs. destruct (grid n nc) as [[a b]|]; split; intros; auto; discriminate. Qed.
(** The square grid is the smallest that holds the images. *)
Theorem C55_square_smallest : forall n m, n <= m * m -> exists s, grid n 0 = Some (s, s) /\ s <= m.
Proof. intros n m H. exists (Nat.sqrt_up n). split; [reflexivity|]. rewrite <- (Nat.sqrt_up_square m) by lia. apply Nat.sqrt_up_le_mono. exact H. Qed.
Example C55_ex : exists out, np_tile_imgs nat 3 1 2 1 0 9 (fun k r c => 10 * k + c) = Some (4, 6, out)
  /\ map (fun y => map (out y) (seq 0 6)) (seq 0 4) = [[0; 1; 9; 9; 10; 11]; [9; 9; 9; 9; 9; 9]; [9; 9; 9; 9; 9; 9]; [20; 21; 9; 9; 9; 9]].
Proof. eexists. split; reflexivity. Qed.

Print Assumptions C48_every_combination.
Print Assumptions C48_once.
Print Assumptions C49_partition.
Print Assumptions C49_same_iff_agree.
Print Assumptions C49_extra_setting_refuted.
Print Assumptions C50_reference_score.
Print Assumptions C50_fails_iff.
Print Assumptions C51_cut_ratio.
Print Assumptions C51_volumes.
Print Assumptions C51_balance.
Print Assumptions C55_tiling.
