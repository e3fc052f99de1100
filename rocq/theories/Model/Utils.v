(** Model of discs/common/utils.py (sharding, pytrees, keys, configuration strings), discs/common/data_loader.py 9-44 (batch sizes)
    and of the key handling of discs/learning/train.py 145-183 and discs/learning/binary_ebm/main_binary_training.py 61-82. *)
From Coq Require Import List Arith Ascii Bool NArith.
Import ListNotations.
Local Open Scope nat_scope.

(** ** Sharding *)
(** Row-major reshape of the leading axis into [n] blocks of [k] rows (jnp.reshape, utils.py 85). *)
Fixpoint blocks {A} (n k : nat) (xs : list A) : list (list A) :=
  match n with 0 => [] | S n' => firstn k xs :: blocks n' k (skipn k xs) end.
(** utils.py 80-87 on one array with its rows in a list; [None] is the AssertionError. *)
Definition shard {A} (n_local : nat) (xs : list A) : option (list (list A)) :=
  if Nat.eqb (length xs mod n_local) 0 then Some (blocks n_local (length xs / n_local) xs) else None.
(** utils.py 90-98; [None] is the AssertionError. *)
Definition per_process (num_devices num_proc batch_size : nat) : option nat :=
  if Nat.eqb (batch_size / num_devices * num_devices) batch_size then Some (batch_size / num_proc) else None.
(** utils.py 32-34: all_gather with tiled=True gives every device the concatenation. *)
Definition all_gather {A} (shards : list (list A)) : list (list A) := map (fun _ => concat shards) shards.

(** data_loader.py 23-25: dataset.shard keeps the elements whose position is [index] modulo [num_shards]. *)
Fixpoint every {A} (num_shards pos index : nat) (xs : list A) : list A :=
  match xs with
  | [] => []
  | x :: xs' => (if Nat.eqb (pos mod num_shards) index then [x] else []) ++ every num_shards (S pos) index xs'
  end.
Definition ds_shard {A} (num_shards index : nat) (xs : list A) : list A := every num_shards 0 index xs.
(** dataset.batch(k, drop_remainder=True), data_loader.py 39-42. *)
Definition ds_batch {A} (k : nat) (xs : list A) : list (list A) := blocks (length xs / k) k xs.
(** data_loader.py 9-44 without repeat, shuffle and preprocessing; [None] is the assertion of get_per_process_batch_size.
    A process has [num_devices / num_proc] local devices. *)
Definition dataloader {A} (num_devices num_proc index batch_size : nat) (xs : list A) : option (list (list (list A))) :=
  match per_process num_devices num_proc batch_size with
  | Some b => let n_local := num_devices / num_proc in Some (ds_batch n_local (ds_batch (b / n_local) (ds_shard num_proc index xs)))
  | None => None
  end.

(** ** Pytrees *)
(** Nested containers as binary trees; [TNil] is an empty container. *)
Inductive tree (A : Type) := TNil | TLeaf (a : A) | TPair (l r : tree A).
Arguments TNil {A}. Arguments TLeaf {A} a. Arguments TPair {A} l r.
Fixpoint tmap {A B} (f : A -> B) (t : tree A) : tree B :=
  match t with TNil => TNil | TLeaf a => TLeaf (f a) | TPair l r => TPair (tmap f l) (tmap f r) end.
(** jax.tree_util.tree_flatten (utils.py 42): leaves and structure. *)
Fixpoint leaves {A} (t : tree A) : list A := match t with TNil => [] | TLeaf a => [a] | TPair l r => leaves l ++ leaves r end.
Definition treedef {A} (t : tree A) : tree unit := tmap (fun _ => tt) t.
(** treedef.unflatten (utils.py 48); [None] when the number of leaves is wrong. *)
Fixpoint fill {A} (d : tree unit) (xs : list A) : option (tree A * list A) :=
  match d with
  | TNil => Some (TNil, xs)
  | TLeaf _ => match xs with [] => None | x :: xs' => Some (TLeaf x, xs') end
  | TPair l r => match fill l xs with Some (l', xs') => match fill r xs' with Some (r', xs'') => Some (TPair l' r', xs'') | None => None end | None => None end
  end.
Definition unflatten {A} (d : tree unit) (xs : list A) : option (tree A) :=
  match fill d xs with Some (t, []) => Some t | _ => None end.
(** Python zip( *lists ) (utils.py 46): stops at the shortest list. *)
Definition heads {A} (xss : list (list A)) : option (list A * list (list A)) :=
  fold_right (fun xs acc => match xs, acc with x :: xs', Some (h, t) => Some (x :: h, xs' :: t) | _, _ => None end) (Some ([], [])) xss.
Fixpoint zip_star {A} (fuel : nat) (xss : list (list A)) : list (list A) :=
  match fuel with
  | 0 => []
  | S f => match heads xss with Some (h, t) => h :: zip_star f t | None => [] end
  end.
(** utils.py 37-48.  A stacked leaf is the list of the leaves (jnp.stack; the leaves are taken to have equal shapes).
    [None]: no tree given (IndexError) or wrong number of leaves. *)
Definition tree_stack {A} (trees : list (tree A)) : option (tree (list A)) :=
  match trees with
  | [] => None
  | t :: _ => unflatten (treedef t) (zip_star (length (leaves t)) (map leaves trees))
  end.

(** ** Keys *)
(** Random keys as derivations: PRNGKey(seed), fold_in(key, data), the i-th of split(key, num). *)
Inductive key := Root (seed : nat) | FoldIn (k : key) (data : nat) | Split (k : key) (num i : nat).
Definition uint32_ok (c : nat) : bool := N.ltb (N.of_nat c) 4294967296.
(** utils.py 109-124: RngGen. *)
Record rng_gen := { base_rng : key; counter : nat }.
Definition new_gen (k : key) : rng_gen := {| base_rng := k; counter := 0 |}.
(** 122-124; fold_in takes a 32-bit integer. *)
Definition advance (g : rng_gen) (count : nat) : rng_gen * option key :=
  let c := counter g + count in
  ({| base_rng := base_rng g; counter := c |}, if uint32_ok c then Some (FoldIn (base_rng g) c) else None).
(** 119-120. *)
Definition next_key (g : rng_gen) : rng_gen * option key := advance g 1.
(** The keys handed out by a sequence of requests. *)
Fixpoint requests (g : rng_gen) (counts : list nat) : list key :=
  match counts with
  | [] => []
  | c :: cs => let (g', k) := advance g c in match k with Some k => k :: requests g' cs | None => requests g' cs end
  end.

(** utils.py 101-106. *)
Definition shard_prng_key (n_local : nat) (k : key) : list key := map (Split k n_local) (seq 0 n_local).
(** train.py 154 and 169-170: the process key before step [init_step + s + 1]; 154 folds in the process index. *)
Fixpoint process_key (global : key) (proc init_step s : nat) : key :=
  match s with 0 => FoldIn global proc | S s' => Split (FoldIn (process_key global proc init_step s') (init_step + S s')) 2 0 end.
Definition batch_key (global : key) (proc init_step s : nat) : key := Split (FoldIn (process_key global proc init_step s) (init_step + S s)) 2 1.
(** main_binary_training.py 66-69 and main_rbm_training.py 78-81: the key chain of the micro steps. *)
Fixpoint micro_key (k : key) (m : nat) : key := match m with 0 => FoldIn k 0 | S m' => FoldIn (micro_key k m') m end.
(** The key used by local device [d] in micro step [m] of loop pass [s] (sampler), and the one given to the update (train.py 173). *)
Definition sampler_key (n_local : nat) (global : key) (proc init_step s m d : nat) : key := Split (micro_key (batch_key global proc init_step s) m) n_local d.
Definition update_key (n_local : nat) (global : key) (proc init_step s d : nat) : key := Split (process_key global proc init_step (S s)) n_local d.
(** utils.py 127-140, samplers' and initial samples' keys; train.py 104-113 splits the run key first. *)
Definition init_key (sampler_key : key) : key := Split sampler_key 2 0.
Definition state_keys (n_local : nat) (sampler_key : key) : list key := map (Split (Split sampler_key 2 1) n_local) (seq 0 n_local).

(** ** Configuration strings *)
(** str.split with a one-character separator. *)
Fixpoint split_on (sep : ascii) (s : list ascii) : list (list ascii) :=
  match s with
  | [] => [[]]
  | c :: s' => if Ascii.eqb c sep then [] :: split_on sep s'
               else match split_on sep s' with w :: ws => (c :: w) :: ws | [] => [[c]] end
  end.
(** str.join. *)
Fixpoint join (sep : ascii) (ws : list (list ascii)) : list ascii :=
  match ws with [] => [] | [w] => w | w :: ws' => w ++ sep :: join sep ws' end.
Definition text_eq (a b : list ascii) : bool := if list_eq_dec ascii_dec a b then true else false.
(** Python dict assignment: an existing key keeps its place. *)
Fixpoint set_item {V} (k : list ascii) (v : V) (d : list (list ascii * V)) : list (list ascii * V) :=
  match d with
  | [] => [(k, v)]
  | (k', v') :: d' => if text_eq k' k then (k', v) :: d' else (k', v') :: set_item k v d'
  end.
(** utils.py 188-190: one entry. *)
Definition parse_kv (kv : list ascii) : list ascii * list ascii :=
  match split_on "-"%char kv with k :: rest => (k, join "-"%char rest) | [] => ([], []) end.
(** utils.py 184-192. *)
Definition parse_cfg_str (cfg : list ascii) : list (list ascii * list ascii) :=
  fold_left (fun d kv => let (k, v) := parse_kv kv in set_item k v d) (split_on ","%char cfg) [].
