(** Model of the combinatorial models (discs/models/comb_ebm.py, mis.py, maxclique.py, maxcut.py, normcut.py) and of the
    conversion of a graph to arrays (discs/common/utils.py 143-181 and the loaders' graph2edges), one sample.
    A sample of max_num_nodes entries is a function of the node index. *)
From Coq Require Import Reals List Arith ZArith.
From Verif.Base Require Import RSum.
Import ListNotations.
Local Open Scope R_scope.

(** A networkx graph: nodes in iteration order, edges in iteration order with their weight attribute. *)
Record graph := { g_nodes : list nat; g_edges : list (nat * nat * R) }.
Definition ends (e : nat * nat * R) : nat * nat := fst e.
Definition swap (e : nat * nat) : nat * nat := (snd e, fst e).

(** The dictionary returned by utils.graph2edges plus the entries the loaders add.  Zipped: [ep_edges] is
    (edge_from, edge_to). *)
Record eparams := {
  ep_num_edges : nat;
  ep_edges : list (nat * nat);
  ep_mask : list R;                (* edge_mask *)
  ep_weight : list R;              (* edge_weight *)
  ep_bidir : list (nat * nat);     (* bidir_edge_from, bidir_edge_to *)
  ep_bidir_weight : list R;
  ep_num_nodes : nat;
  ep_node_mask : nat -> R;         (* mask *)
  ep_degrees : list R;             (* node_degrees *)
}.

(** utils.py 151-153. *)
Definition padded_edges (padded_num_edges : nat) (g : graph) : nat :=
  let len := length (g_edges g) in
  if andb (Nat.ltb 0 padded_num_edges) (Nat.ltb len padded_num_edges) then padded_num_edges else len.

(** Degree as networkx counts it (a self loop counts twice); normcut_loader.py 29: np.array(g.degree)[:, 1] lists the
    degrees in node iteration order, without padding. *)
Definition degree (g : graph) (v : nat) : nat :=
  list_sum (map (fun e => ((if Nat.eqb (fst (ends e)) v then 1 else 0) + (if Nat.eqb (snd (ends e)) v then 1 else 0))%nat) (g_edges g)).

(** utils.py 143-181 [graph2edges] with build_bidir_edges, and mis_loader.py 21-31 / maxclique_loader.py 20-27 /
    maxcut_loader.py 14-17 / normcut_loader.py 20-31.  (maxcut leaves mask = None; it is not used there.) *)
Definition graph2edges (max_num_edges : nat) (padded_weight : R) (g : graph) : eparams :=
  let len := length (g_edges g) in
  let pad := (padded_edges max_num_edges g - len)%nat in
  let edges := map ends (g_edges g) ++ repeat (0, 0)%nat pad in
  let weight := map snd (g_edges g) ++ repeat (0 + padded_weight) pad in
  {| ep_num_edges := len;
     ep_edges := edges;
     ep_mask := repeat 1 len ++ repeat 0 pad;
     ep_weight := weight;
     ep_bidir := edges ++ map swap edges;
     ep_bidir_weight := weight ++ weight;
     ep_num_nodes := length (g_nodes g);
     ep_node_mask := fun i => if Nat.ltb i (length (g_nodes g)) then 1 else 0;
     ep_degrees := map (fun v => INR (degree g v)) (g_nodes g) |}.

(** comb_ebm.py 26-29 [forward] and 41-42 [evaluate]. *)
Definition comb_forward (objective penalty : (nat -> R) -> R) (temperature : R) (x : nat -> R) : R :=
  (objective x - penalty x) / temperature.
Definition comb_evaluate (objective penalty : (nat -> R) -> R) (temperature : R) (x : nat -> R) : R :=
  comb_forward objective penalty temperature x * temperature.

(** mis.py 24-35 [penalty] and 37-40 [objective]. *)
Definition mis_penalty (coeff : R) (p : eparams) (x : nat -> R) : R :=
  let x' := fun i => x i * ep_node_mask p i in
  coeff * rsum (combine (ep_edges p) (ep_mask p)) (fun em => x' (fst (fst em)) * x' (snd (fst em)) * snd em).
Definition mis_objective (n : nat) (p : eparams) (x : nat -> R) : R :=
  rsum (seq 0 n) (fun i => x i * ep_node_mask p i).

(** mis.py 42-55 [logratio_in_neighborhood]; the scatter-add collects the contributions of all bidirectional edges that
    start at node i. *)
Definition mis_logratio (coeff : R) (p : eparams) (temperature : R) (x : nat -> R) (i : nat) : R :=
  let diff := rsum (filter (fun e => Nat.eqb (fst e) i) (ep_bidir p)) (fun e => coeff * x (snd e)) in
  let sign := (1 - x i * 2) * ep_node_mask p i in
  let logratio := (sign - sign * diff) / temperature in
  logratio * ep_node_mask p i + - IZR 1000000000 * (1 - ep_node_mask p i).

(** maxclique.py 24-36 [penalty]; the objective (38-41) is that of mis.py. *)
Definition clique_penalty (n : nat) (coeff : R) (p : eparams) (x : nat -> R) : R :=
  let x' := fun i => x i * ep_node_mask p i in
  let clique_size := rsum (seq 0 n) x' in
  let total_edges_needed := clique_size * (clique_size - 1) / 2 in
  let covered_edges := rsum (combine (ep_edges p) (ep_mask p)) (fun em => x' (fst (fst em)) * x' (snd (fst em)) * snd em) in
  coeff * (total_edges_needed - covered_edges).

(** maxcut.py 29-38 [objective]; the penalty is 0 (comb_ebm.py 23-24). *)
Definition maxcut_objective (p : eparams) (x : nat -> R) : R :=
  let s := fun i => x i * 2 - 1 in
  rsum (combine (ep_edges p) (ep_weight p)) (fun ew => (1 - s (fst (fst ew)) * s (snd (fst ew))) / 2 * snd ew).
Definition no_penalty (x : nat -> R) : R := 0.

(** maxcut.py 40-58 [logratio_in_neighborhood]. *)
Definition maxcut_cut_weight (p : eparams) (temperature : R) (x : nat -> R) : R :=
  rsum (combine (ep_bidir p) (ep_bidir_weight p)) (fun ew => (x (fst (fst ew)) - x (snd (fst ew))) ^ 2 * snd ew) / 2 / temperature.
Definition maxcut_logratio (p : eparams) (temperature : R) (x : nat -> R) (i : nat) : R :=
  let diff := rsum (filter (fun ew => Nat.eqb (fst (fst ew)) i) (combine (ep_bidir p) (ep_bidir_weight p)))
                   (fun ew => snd ew * (1 - 2 * x (snd (fst ew)))) in
  diff * (1 - x i * 2) / temperature.

(** normcut.py: x as a one-hot array, node and cluster index. *)
Definition onehot (x : nat -> nat) : nat -> nat -> R := fun i c => if Nat.eqb (x i) c then 1 else 0.
(** normcut.py 45-55 [get_cut_sizes], entry c. *)
Definition cut_sizes (p : eparams) (x : nat -> nat -> R) (c : nat) : R :=
  rsum (ep_edges p) (fun e => let s := x (fst e) c + x (snd e) c in - s ^ 2 + 2 * s).
(** normcut.py 72-73 (volume), 22 (eps = 1e-8), 57-77 [objective] when penalty <= 0. *)
Definition nc_eps : R := / 100000000.
Definition volume (n : nat) (p : eparams) (x : nat -> nat -> R) (c : nat) : R :=
  rsum (seq 0 n) (fun i => x i c * nth i (ep_degrees p) 0).
Definition normcut_objective (n C : nat) (p : eparams) (x : nat -> nat -> R) : R :=
  - rsum (seq 0 C) (fun c => (cut_sizes p x c + nc_eps) / (volume n p x c + nc_eps ^ 2)).
(** normcut.py 61-71, penalty > 0. *)
Definition part_size (n : nat) (x : nat -> nat -> R) (c : nat) : R := rsum (seq 0 n) (fun i => x i c).
Definition relu (r : R) : R := Rmax r 0.
Definition normcut_objective_pen (quad : bool) (n C : nat) (penalty tolerance : R) (p : eparams) (x : nat -> nat -> R) : R :=
  let avg := INR n / INR C in
  let ncost := rsum (seq 0 C) (fun c =>
      if quad then (part_size n x c - avg) ^ 2
      else relu (part_size n x c - avg - INR n * tolerance) ^ 2 + relu (avg - INR n * tolerance - part_size n x c) ^ 2) in
  - (rsum (seq 0 C) (fun c => cut_sizes p x c) + penalty * ncost).
(** normcut.py 79-81. *)
Definition normcut_forward (obj : R) (temperature : R) : R := obj / temperature.

(** normcut.py 83-117 [logratio_in_neighborhood]: entry (i, c') = the score of moving node i to cluster c'.
    Entries of x are 0/1 integers, so [% 2] is the parity. *)
Definition parity (a b : nat) : R := INR ((a + b) mod 2).
Definition bit (x : nat -> nat) (i c : nat) : nat := if Nat.eqb (x i) c then 1%nat else 0%nat.
Definition lr_cur_cut (p : eparams) (x : nat -> nat) (c : nat) : R :=
  rsum (ep_bidir p) (fun e => parity (bit x (fst e) c) (bit x (snd e) c)) / 2.
Definition lr_new_cut (p : eparams) (x : nat -> nat) (i c' c : nat) : R :=
  lr_cur_cut p x c
  + rsum (filter (fun e => Nat.eqb (fst e) i) (ep_bidir p))
         (fun e => parity (if Nat.eqb c' c then 1 else 0) (bit x (snd e) c) - parity (bit x (fst e) c) (bit x (snd e) c)).
Definition lr_new_vol (n : nat) (p : eparams) (x : nat -> nat) (i c' c : nat) : R :=
  volume n p (onehot x) c + ((if Nat.eqb c' c then 1 else 0) - onehot x i c) * nth i (ep_degrees p) 0.
Definition normcut_logratio (n C : nat) (p : eparams) (temperature : R) (x : nat -> nat) (i c' : nat) : R :=
  - rsum (seq 0 C) (fun c => (lr_new_cut p x i c' c + nc_eps) / (lr_new_vol n p x i c' c + nc_eps ^ 2)) / temperature
  - (- rsum (seq 0 C) (fun c => (lr_cur_cut p x c + nc_eps) / (volume n p (onehot x) c + nc_eps ^ 2)) / temperature).

(** The multiplication x * node_degrees[:, None] of normcut.py 73 broadcasts an axis of n nodes against one of
    length(node_degrees); [None] is JAX's shape error. *)
Definition normcut_forward_checked (n C : nat) (p : eparams) (temperature : R) (x : nat -> nat) : option R :=
  let k := length (ep_degrees p) in
  if orb (Nat.eqb k n) (orb (Nat.eqb k 1) (Nat.eqb n 1)) then Some (normcut_forward (normcut_objective n C p (onehot x)) temperature) else None.

(** normcut.py 33-43 [get_init_samples], one chain: [more] are the random categories of the other nodes, [shuf] the shuffle;
    [None] when randint is asked for a negative number of values. *)
Definition normcut_init (n C : nat) (more : list nat) (shuf : list nat -> list nat) : option (list nat) :=
  if Nat.leb C n then if Nat.eqb (length more) (n - C) then Some (shuf (seq 0 C ++ more)) else None else None.
