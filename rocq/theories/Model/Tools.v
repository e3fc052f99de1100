(** Model of the launch, plot and evaluation tools: discs/xm_launcher.py 47-51 [get_sweeps], discs/plot_results/plot_utils.py
    97-121 and 186-195 (clusters), discs/plot_results/plot.py 10-59 [np_tile_imgs], discs/evaluators/lm_eval.py 57-85 (n-gram scores),
    discs/common/normcut_evaluator.py 22-108. *)
From Coq Require Import String Reals List Arith Bool.
From Verif.Base Require Import RSum.
Import ListNotations.
Local Open Scope nat_scope.

(** ** Sweeps, xm_launcher.py 47-51 *)
(** itertools.product. *)
Fixpoint product {V} (vss : list (list V)) : list (list V) :=
  match vss with [] => [[]] | vs :: vss' => flat_map (fun v => map (cons v) (product vss')) vs end.
(** [None] is the ValueError of unpacking zip() of nothing. *)
Definition get_sweeps {V} (sweeps : list (string * list V)) : option (list (list (string * V))) :=
  match sweeps with
  | [] => None
  | _ => Some (map (fun v => combine (map fst sweeps) v) (product (map snd sweeps)))
  end.

(** ** Clusters, plot_utils.py 97-121 *)
(** A results dictionary: its items in order. *)
Definition dict (V : Type) := list (string * V).
Fixpoint get {V} (k : string) (d : dict V) : option V := match d with [] => None | (k', v) :: d' => if String.eqb k' k then Some v else get k d' end.
Definition has {V} (k : string) (d : dict V) : bool := match get k d with Some _ => true | None => false end.
(** plot_utils.py 186-195 [get_diff_key]; False and None are both falsy.  [veq] is Python's == on the values. *)
Fixpoint diff_from {V} (veq : V -> V -> bool) (key : string) (items : dict V) (d2 : dict V) : bool :=
  match items with
  | [] => true
  | (k, v) :: items' =>
      if String.eqb k "results" || String.eqb k "name" then diff_from veq key items' d2
      else match get k d2 with
           | None => false
           | Some v2 => if negb (veq v v2) && negb (String.eqb k key) then false else diff_from veq key items' d2
           end
  end.
Definition get_diff_key {V} (veq : V -> V -> bool) (key : string) (d1 d2 : dict V) : bool := diff_from veq key d1 d2.
(** plot_utils.py 113-117: the first cluster whose first member matches gets [i]; [None] when there is none. *)
Fixpoint add_to {V} (veq : V -> V -> bool) (key : string) (ds : list (dict V)) (d : dict V) (i : nat) (clusters : list (list nat)) : option (list (list nat)) :=
  match clusters with
  | [] => None
  | c :: cs =>
      if get_diff_key veq key (nth (hd 0 c) ds []) d then Some ((c ++ [i]) :: cs)
      else match add_to veq key ds d i cs with Some cs' => Some (c :: cs') | None => None end
  end.
(** plot_utils.py 104-119: one experiment; [get_clusters] is the loop. *)
Definition cluster_step {V} (veq : V -> V -> bool) (key : string) (ds : list (dict V)) (clusters : list (list nat)) (i : nat) : list (list nat) :=
  let d := nth i ds [] in
  if negb (has key d) then clusters
  else match clusters with
       | [] => [[i]]
       | _ => match add_to veq key ds d i clusters with Some cs => cs | None => clusters ++ [[i]] end
       end.
Definition get_clusters {V} (veq : V -> V -> bool) (key : string) (ds : list (dict V)) : list (list nat) :=
  fold_left (cluster_step veq key ds) (seq 0 (List.length ds)) [].

(** ** N-gram scores, lm_eval.py 57-85 *)
Section NGrams.
Variable word : Type.
Variable word_dec : forall a b : word, {a = b} + {a <> b}.
Definition gram_dec : forall a b : list word, {a = b} + {a <> b} := list_eq_dec word_dec.
(** nltk.util.ngrams: all windows of [n] consecutive words. *)
Definition ngrams (n : nat) (sent : list word) : list (list word) := map (fun i => firstn n (skipn i sent)) (seq 0 (List.length sent + 1 - n)).
(** lm_eval.py 57-61: the multiset of n-grams; Counter keys and values. *)
Definition all_grams (n : nat) (sents : list (list word)) : list (list word) := flat_map (ngrams n) sents.
Definition counter_keys (l : list (list word)) : list (list word) := nodup gram_dec l.
Definition counter_total (l : list (list word)) : nat := fold_right (fun k s => count_occ gram_dec l k + s) 0 (counter_keys l).
(** lm_eval.py 63-75, one n; [None] is the ZeroDivisionError. *)
Definition ref_unique_n (n : nat) (preds refs : list (list word)) : option R :=
  let p := all_grams n preds in let r := all_grams n refs in
  let novel := filter (fun k => if in_dec gram_dec k (counter_keys r) then false else true) (counter_keys p) in
  if Nat.eqb (counter_total p) 0 then None else Some (INR (List.length novel) / INR (counter_total p))%R.
(** lm_eval.py 77-85, one n. *)
Definition self_unique_n (n : nat) (preds : list (list word)) : option R :=
  let p := all_grams n preds in
  let once := filter (fun k => Nat.eqb (count_occ gram_dec p k) 1) (counter_keys p) in
  if Nat.eqb (counter_total p) 0 then None else Some (INR (List.length once) / INR (counter_total p))%R.
(** lm_eval.py 68 and 81: the loops over i in range(1, max_n + 1); the first exception ends them. *)
Fixpoint collect (f : nat -> option R) (ns : list nat) : option (list (nat * R)) :=
  match ns with
  | [] => Some []
  | n :: ns' => match f n with Some v => match collect f ns' with Some vs => Some ((n, v) :: vs) | None => None end | None => None end
  end.
Definition ref_unique_ngrams (preds refs : list (list word)) (max_n : nat) : option (list (nat * R)) := collect (fun n => ref_unique_n n preds refs) (seq 1 max_n).
Definition self_unique_ngrams (preds : list (list word)) (max_n : nat) : option (list (nat * R)) := collect (fun n => self_unique_n n preds) (seq 1 max_n).
End NGrams.

(** ** Normalised-cut evaluator *)
(** networkx.to_numpy_array on an undirected graph with nodes 0 .. n-1: the weight of the edge (1 when unweighted), 0 without one. *)
Definition adj_matrix (es : list (nat * nat * R)) (i j : nat) : R :=
  match find (fun e => (Nat.eqb (fst (fst e)) i && Nat.eqb (snd (fst e)) j) || (Nat.eqb (fst (fst e)) j && Nat.eqb (snd (fst e)) i)) es with
  | Some e => snd e
  | None => 0%R
  end.
(** normcut_evaluator.py 37-62, dense branch: entries equal to 1.0. *)
Definition num_cut_adj_mat (groups : nat -> nat) (n : nat) (a : nat -> nat -> R) : R :=
  rsum (seq 0 n) (fun i => rsum (seq 0 n) (fun j => if Req_EM_T (a i j) 1 then if Nat.eqb (groups i) (groups j) then 0%R else 1%R else 0%R)).
(** normcut_evaluator.py 28-34. *)
Definition num_cut (groups : nat -> nat) (n : nat) (adj : nat -> list nat) : R :=
  (rsum (seq 0 n) (fun i => rsum (adj i) (fun j => if Nat.eqb (groups i) (groups j) then 0 else 1)) / 2)%R.
(** normcut_evaluator.py 65-70, entry [g]. *)
Definition calc_volume (groups : nat -> nat) (n : nat) (a : nat -> nat -> R) (g : nat) : R :=
  rsum (seq 0 n) (fun i => if Nat.eqb (groups i) g then rsum (seq 0 n) (a i) else 0%R).
(** normcut_evaluator.py 22-25: sizes of the groups that occur.  [bound] exceeds every group label (the caller passes num_groups; a larger label
    makes [calc_volume] raise IndexError). *)
Definition bin_sizes (groups : nat -> nat) (n bound : nat) : list nat :=
  filter (fun c => negb (Nat.eqb c 0)) (map (fun g => List.length (filter (fun i => Nat.eqb (groups i) g) (seq 0 n))) (seq 0 bound)).
(** normcut_evaluator.py 97. *)
Definition cut_ratio (groups : nat -> nat) (n : nat) (sum_degrees : R) (a : nat -> nat -> R) : R := (num_cut_adj_mat groups n a / sum_degrees)%R.
(** normcut_evaluator.py 99-102: the outer product of the sizes with zero diagonal, summed. *)
Definition balanceness (groups : nat -> nat) (n num_groups : nat) : R :=
  let b := bin_sizes groups n num_groups in
  let ix := seq 0 (List.length b) in
  (rsum ix (fun s => rsum ix (fun t => if Nat.eqb s t then 0 else INR (nth s b 0%nat) * INR (nth t b 0%nat))) * INR num_groups
   / ((INR num_groups - 1) * INR n ^ 2))%R.

(** ** Image tiling, plot.py 10-59 *)
Section Tiling.
Variable pixel : Type.
(** plot.py 34-42: the grid; [None] is the AssertionError of line 41. [num_col = 0] asks for a square. *)
Definition grid (n num_col : nat) : option (nat * nat) :=
  if Nat.eqb num_col 0 then Some (Nat.sqrt_up n, Nat.sqrt_up n)
  else if Nat.eqb (n mod num_col) 0 then Some ((n + num_col - 1) / num_col, num_col) else None.
(** plot.py 44-49 np.pad: images past the n-th and the frame of [p] pixels hold the background. *)
Definition padded (n h w p : nat) (bg : pixel) (img : nat -> nat -> nat -> pixel) (k r c : nat) : pixel :=
  if Nat.ltb k n && (Nat.leb p r && Nat.ltb r (p + h)) && (Nat.leb p c && Nat.ltb c (p + w)) then img k (r - p) (c - p) else bg.
(** plot.py 51: reshape (rows * cols, h, w) -> (rows, cols, h, w). *)
Definition split_grid (cols : nat) (a : nat -> nat -> nat -> pixel) (i j r c : nat) : pixel := a (i * cols + j) r c.
(** plot.py 52: transpose (0, 2, 1, 3). *)
Definition transpose (a : nat -> nat -> nat -> nat -> pixel) (i r j c : nat) : pixel := a i j r c.
(** plot.py 53: reshape (rows, h, cols, w) -> (rows * h, cols * w). *)
Definition merge_grid (h w : nat) (a : nat -> nat -> nat -> nat -> pixel) (y x : nat) : pixel := a (y / h) (y mod h) (x / w) (x mod w).
(** plot.py 10-56: size and pixels of the result (55-56 crops the outer frame).  Channels are carried along unchanged, so a pixel is opaque;
    the argument checks of 20-32 are not modelled. *)
Definition np_tile_imgs (n h w p num_col : nat) (bg : pixel) (img : nat -> nat -> nat -> pixel) : option (nat * nat * (nat -> nat -> pixel)) :=
  match grid n num_col with
  | None => None
  | Some (rows, cols) =>
      let h' := h + 2 * p in let w' := w + 2 * p in
      let big := merge_grid h' w' (transpose (split_grid cols (padded n h w p bg img))) in
      Some (rows * h' - 2 * p, cols * w' - 2 * p, fun y x => big (y + p) (x + p))
  end.
End Tiling.
