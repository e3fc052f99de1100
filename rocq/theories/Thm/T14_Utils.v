(** Property theorems C44, C45, C47 and C61: sharding, random keys, configuration strings, data loading. *)
From Coq Require Import String List Arith Lia Ascii NArith.
From Verif.Spec Require Import ToolSpec.
From Verif.Model Require Import Utils.
From Verif.Proof Require Import UtilsProof.
Import ListNotations.
Local Open Scope nat_scope.

(** ** C44 *)
(** Shards put together give the batch back, there is one shard per device, all of the same size, and row r of device d is
    row d * size + r of the batch. *)
Theorem C44_shard_roundtrip : forall A n (xs : list A) ss, 0 < n -> shard n xs = Some ss ->
  concat ss = xs /\ List.length ss = n /\ Forall (fun b => List.length b = List.length xs / n) ss
  /\ forall d r, d < n -> r < List.length xs / n -> nth_error (nth d ss []) r = nth_error xs (d * (List.length xs / n) + r).
Proof. exact @shard_ok. Qed.
Print Assumptions C44_shard_roundtrip.
Theorem C44_shard_rejects : forall A n (xs : list A), 0 < n -> (shard n xs = None <-> ~ Nat.divide n (List.length xs)).
Proof. exact @shard_rejects. Qed.
Print Assumptions C44_shard_rejects.
Theorem C44_gather : forall A n (xs : list A) ss, 0 < n -> shard n xs = Some ss -> all_gather ss = repeat xs n.
Proof. exact @gather_shard. Qed.
Print Assumptions C44_gather.
(** The per-process batch sizes add up to the batch size and can be sharded over the local devices. *)
Theorem C44_per_process : forall D P B b, 0 < P -> Nat.divide P D -> 0 < D -> per_process D P B = Some b -> P * b = B /\ Nat.divide (D / P) b.
Proof. exact per_process_ok. Qed.
Print Assumptions C44_per_process.
Theorem C44_per_process_rejects : forall D P B, 0 < D -> (per_process D P B = None <-> ~ Nat.divide D B).
Proof. exact per_process_rejects. Qed.
Print Assumptions C44_per_process_rejects.
(** Stacking trees of one structure loses nothing: slice i of every leaf is tree i. *)
Theorem C44_stack_roundtrip : forall A (ts : list (tree A)) t0 (d : A), In t0 ts -> (forall t, In t ts -> treedef t = treedef t0) ->
  exists T, tree_stack ts = Some T /\ treedef T = treedef t0 /\ Forall (fun leaf => List.length leaf = List.length ts) (leaves T)
    /\ forall i t, nth_error ts i = Some t -> tmap (fun leaf => nth i leaf d) T = t.
Proof. exact @tree_stack_unstack. Qed.
Print Assumptions C44_stack_roundtrip.
(** Trees of different structure are not rejected: leaves can be dropped silently. *)
Theorem C44_stack_mismatch_refuted : exists (ts : list (tree nat)) T, tree_stack ts = Some T /\ exists t, In t ts /\ List.length (leaves t) <> List.length (leaves T).
Proof. exact tree_stack_drops. Qed.
Print Assumptions C44_stack_mismatch_refuted.
Example C44_ex : shard 2 [10; 11; 12; 13; 14; 15] = Some [[10; 11; 12]; [13; 14; 15]] /\ shard 4 [10; 11; 12; 13; 14; 15] = None
  /\ per_process 8 2 32 = Some 16 /\ per_process 8 2 36 = None
  /\ tree_stack [TPair (TLeaf 1) (TLeaf 2); TPair (TLeaf 3) (TLeaf 4)] = Some (TPair (TLeaf [1; 3]) (TLeaf [2; 4])).
Proof. repeat split; reflexivity. Qed.

(** ** C45 *)
(** Requests that advance the counter never get the same key twice; below 2^32 each request gets one. *)
Theorem C45_distinct : forall k cs, (forall c, In c cs -> 1 <= c) -> NoDup (requests (new_gen k) cs).
Proof. intros k cs H. apply requests_keys; auto. Qed.
Print Assumptions C45_distinct.
Theorem C45_all_served : forall k cs, (N.of_nat (sum_counts cs) < 4294967296)%N -> List.length (requests (new_gen k) cs) = List.length cs.
Proof. intros k cs H. apply requests_length. exact H. Qed.
Print Assumptions C45_all_served.
(** advance(0) hands out the previous key again. *)
Theorem C45_advance_zero_refuted : exists k cs, ~ NoDup (requests (new_gen k) cs).
Proof. exists (Root 0), [1; 0]. cbn. intros H. inversion H as [|? ? Hn ?]; subst. apply Hn. left; reflexivity. Qed.
Print Assumptions C45_advance_zero_refuted.
(** Training: over all processes, loop passes, micro steps and devices, no sampler key and no update key is used twice. *)
Theorem C45_training_sampler_keys : forall n g p p' i s s' m m' d d', sampler_key n g p i s m d = sampler_key n g p' i s' m' d' -> p = p' /\ s = s' /\ m = m' /\ d = d'.
Proof. exact sampler_key_inj. Qed.
Print Assumptions C45_training_sampler_keys.
Theorem C45_training_update_keys : forall n g p p' i s s' d d', update_key n g p i s d = update_key n g p' i s' d' -> p = p' /\ s = s' /\ d = d'.
Proof. exact update_key_inj. Qed.
Print Assumptions C45_training_update_keys.
Theorem C45_training_disjoint : forall n g p p' i s s' m d d', sampler_key n g p i s m d <> update_key n g p' i s' d'.
Proof. exact sampler_update_differ. Qed.
Print Assumptions C45_training_disjoint.
Example C45_ex : requests (new_gen (Root 7)) [1; 1; 5] = [FoldIn (Root 7) 1; FoldIn (Root 7) 2; FoldIn (Root 7) 7]
  /\ sampler_key 2 (Root 7) 0 0 1 1 1 = Split (FoldIn (FoldIn (Split (FoldIn (Split (FoldIn (FoldIn (Root 7) 0) 1) 2 0) 2) 2 1) 0) 1) 2 1.
Proof. split; reflexivity. Qed.

(** ** C47 *)
(** Encoding then parsing is the identity; values are kept verbatim (also when they hold '-'). *)
Theorem C47_roundtrip : forall kvs, kvs <> [] -> NoDup (map fst kvs) ->
  (forall k v, In (k, v) kvs -> ~ In ","%char k /\ ~ In "-"%char k /\ ~ In ","%char v) -> parse_cfg_str (encode kvs) = kvs.
Proof. exact parse_encode. Qed.
Print Assumptions C47_roundtrip.
(** A repeated key: the last entry counts. *)
Theorem C47_last_wins : forall pre k v post, ~ In "-"%char k -> ~ In ","%char k -> ~ In ","%char v ->
  (forall w, In w post -> ~ In ","%char w /\ fst (parse_kv w) <> k) -> (forall w, In w pre -> ~ In ","%char w) ->
  lookup k (parse_cfg_str (join ","%char (pre ++ (k ++ "-"%char :: v) :: post))) = Some v.
Proof. exact parse_last_wins. Qed.
Print Assumptions C47_last_wins.
(** A value holding a comma is not recovered. *)
Theorem C47_comma_refuted : exists kvs, kvs <> [] /\ NoDup (map fst kvs) /\ parse_cfg_str (encode kvs) <> kvs.
Proof. exists [(list_ascii_of_string "r", list_ascii_of_string "a,b")]. split; [discriminate|]. split; [repeat constructor; intros []|]. discriminate. Qed.
Print Assumptions C47_comma_refuted.
Example C47_ex : parse_cfg_str (list_ascii_of_string "r-ba-4-n-1024-1100,s-7")
  = [(list_ascii_of_string "r", list_ascii_of_string "ba-4-n-1024-1100"); (list_ascii_of_string "s", list_ascii_of_string "7")]
  /\ encode [(list_ascii_of_string "r", list_ascii_of_string "ba-4-n-1024-1100"); (list_ascii_of_string "s", list_ascii_of_string "7")] = list_ascii_of_string "r-ba-4-n-1024-1100,s-7".
Proof. split; reflexivity. Qed.

(** ** C61 *)
(** Process i of P holds exactly the examples at positions i, P + i, 2 P + i, ... and cuts them, in order, into batches of
    one equal block per local device. *)
Theorem C61_share : forall A P i (xs : list A) q, i < P -> nth_error (ds_shard P i xs) q = nth_error xs (q * P + i).
Proof. exact @ds_shard_nth. Qed.
Print Assumptions C61_share.
Theorem C61_batches : forall A D P i B (xs : list A) bs, 0 < P -> Nat.divide P D -> 0 < D -> 0 < B -> dataloader D P i B xs = Some bs ->
  P * (D / P) = D /\ exists b, P * ((D / P) * b) = B
  /\ Forall (fun batch => List.length batch = D / P /\ Forall (fun dev => List.length dev = b) batch) bs
  /\ concat (concat bs) = firstn (List.length bs * (D / P * b)) (ds_shard P i xs).
Proof. exact @dataloader_shape. Qed.
Print Assumptions C61_batches.
(** Together the processes see every example once. *)
Theorem C61_total : forall A P (xs : list A), 0 < P -> sum_nat (map (fun i => List.length (ds_shard P i xs)) (seq 0 P)) = List.length xs.
Proof. intros A P xs H. exact (every_total P 0 xs H). Qed.
Print Assumptions C61_total.
(** At most one batch worth of examples is dropped at the end. *)
Theorem C61_dropped : forall A D P i B (xs : list A) bs, 0 < P -> Nat.divide P D -> 0 < D -> 0 < B -> dataloader D P i B xs = Some bs ->
  P * (List.length (ds_shard P i xs) - List.length (concat (concat bs))) < B.
Proof. exact @dataloader_dropped. Qed.
Print Assumptions C61_dropped.
Example C61_ex : dataloader 4 2 1 8 (seq 0 20) = Some [[[1; 3]; [5; 7]]; [[9; 11]; [13; 15]]].
Proof. reflexivity. Qed.
