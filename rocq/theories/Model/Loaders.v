(** Model of the graph data sets: discs/graph_loader/graph_gen.py 9-37 (which class), the constructors (sizes and number of
    instances) and [sample_gen] (instances with their reference value) of maxcut_loader.py, mis_loader.py, maxclique_loader.py and
    normcut_loader.py, discs/common/utils.py 195-198, and the reference values of discs/experiment/sampling.py 487-500.
    Pickles are given by what they contain; the order in which networkx lists edges is the order of insertion here. *)
From Coq Require Import String Ascii Reals ZArith List Arith Bool.
From Verif.Model Require Import CombOpt GraphGen.
Import ListNotations.

(** ** Names *)
(** str.startswith, str.endswith. *)
Definition starts_with (p s : string) : bool := String.prefix p s.
Definition ends_with (p s : string) : bool :=
  Nat.leb (String.length p) (String.length s) && String.eqb (String.substring (String.length s - String.length p) (String.length p) s) p.

(** sorted(...) of path strings (code points, then length), by insertion; the folder is the same for all. *)
Fixpoint name_leb (a b : string) : bool :=
  match a, b with
  | EmptyString, _ => true
  | String _ _, EmptyString => false
  | String x a', String y b' => if Nat.ltb (nat_of_ascii x) (nat_of_ascii y) then true else if Nat.eqb (nat_of_ascii x) (nat_of_ascii y) then name_leb a' b' else false
  end.
Fixpoint insert_file {A} (f : string * A) (l : list (string * A)) : list (string * A) :=
  match l with [] => [f] | g :: l' => if name_leb (fst f) (fst g) then f :: l else g :: insert_file f l' end.
Fixpoint sort_files {A} (l : list (string * A)) : list (string * A) := match l with [] => [] | f :: l' => insert_file f (sort_files l') end.
(** maxcut_loader.py 34-38, mis_loader.py 40-44, 145-149, maxclique_loader.py 36-40, 76-80, normcut_loader.py 69-73: os.listdir in
    any order, filtered by name, sorted. *)
Definition file_list {A} (keep : string -> bool) (dir : list (string * A)) : list (string * A) := sort_files (filter (fun f => keep (fst f)) dir).

(** ** networkx graphs by insertion of edges *)
Definition same_edge (a b : nat * nat) : bool :=
  (Nat.eqb (fst a) (fst b) && Nat.eqb (snd a) (snd b)) || (Nat.eqb (fst a) (snd b) && Nat.eqb (snd a) (fst b)).
Definition add_node (v : nat) (l : list nat) : list nat := if existsb (Nat.eqb v) l then l else l ++ [v].
(** Graph.add_edge(x, y, weight=w): an edge that is there gets the new weight. *)
Definition add_edge (g : graph) (e : nat * nat * R) : graph :=
  {| g_nodes := add_node (snd (ends e)) (add_node (fst (ends e)) (g_nodes g));
     g_edges := if existsb (fun f => same_edge (ends e) (ends f)) (g_edges g)
                then map (fun f => if same_edge (ends e) (ends f) then (ends f, snd e) else f) (g_edges g)
                else g_edges g ++ [e] |}.
Definition from_edges (es : list (nat * nat * R)) : graph := fold_left add_edge es {| g_nodes := []; g_edges := [] |}.

(** maxcut_loader.py 138-153: header "nodes edges", rows "x y w" numbered from 1; the two assertions. *)
Definition optsicom_graph (num_nodes num_edges : nat) (rows : list (nat * nat * R)) : option graph :=
  let g := from_edges (map (fun r => (fst (fst r) - 1, snd (fst r) - 1, snd r)%nat) rows) in
  if Nat.eqb (length (g_nodes g)) num_nodes && Nat.eqb (length (g_edges g)) num_edges then Some g else None.
(** maxcut_loader.py 160-177: [noise i w] is the new weight of the i-th edge when [rand_weight].  Line 166 adds range(len(g)) of the
    NEW, empty graph, i.e. nothing. *)
Definition gen_graph (rand_weight : bool) (noise : nat -> R -> R) (orig : graph) : graph :=
  from_edges (map (fun p : nat * (nat * nat * R) => (ends (snd p), if rand_weight then noise (fst p) (snd (snd p)) else snd (snd p)))
                  (combine (seq 0 (length (g_edges orig))) (g_edges orig))).

(** ** Data sets as stored *)
Inductive dataset :=
| DRand (dir : list (string * list (graph * list R)))      (* maxcut_loader.py 25-76: files of successive pickles (graph, solutions) *)
| DStatic (recs : list (graph * list R))                   (* maxcut_loader.py 79-108 *)
| DOptsicom (noise : nat -> R -> R) (gs : list graph)      (* maxcut_loader.py 111-186 *)
| DErTest (dir : list (string * (graph * list (option Z))))  (* mis_loader.py 34-78: graph with optional node attribute 'label' *)
| DDensity (gs : list graph)                               (* mis_loader.py 81-107 *)
| DSat (dir : list (string * (nat * list (list Z))))       (* mis_loader.py 110-177: CNF files *)
| DRB (dir : list (string * list (R * graph)))             (* maxclique_loader.py 30-67 *)
| DTwitter (dir : list (string * (list graph * list R)))   (* maxclique_loader.py 70-107 *)
| DNets (g : graph)                                        (* normcut_loader.py 37-58 *)
| DGap (dir : list (string * graph)).                      (* normcut_loader.py 61-90 *)

(** mis_loader.py 69-75: the sum of the labels, 1 if that is 0. *)
Definition er_reference (labels : list (option Z)) : Z :=
  let s := fold_right (fun l a => match l with Some z => z + a | None => a end)%Z 0%Z labels in if Z.eqb s 0 then 1%Z else s.
(** mis_loader.py 140, 173-175: networkx graph of the edge list; [None] raises. *)
Definition sat_graph (f : nat * list (list Z)) : option graph :=
  match cnf2graph (fst f) (snd f) with Some es => Some (from_edges (map (fun e => (e, 1%R)) es)) | None => None end.
Fixpoint opt_all {A} (l : list (option A)) : option (list A) :=
  match l with [] => Some [] | o :: l' => match o, opt_all l' with Some a, Some r => Some (a :: r) | _, _ => None end end.
(** data[1][0]: IndexError on an empty list of solutions. *)
Definition with_first (r : graph * list R) : option (graph * R) := match snd r with [] => None | s :: _ => Some (fst r, s) end.

(** One pass of sample_gen('test'); [None]: an exception on the way. *)
Definition sample_gen (d : dataset) : option (list (graph * R)) :=
  match d with
  | DRand dir => opt_all (map with_first (flat_map snd (file_list (starts_with "test-") dir)))
  | DStatic recs => opt_all (map with_first recs)
  | DOptsicom noise gs => Some (map (fun g => (gen_graph false noise g, 1%R)) gs)
  | DErTest dir => Some (map (fun f => (fst (snd f), IZR (er_reference (snd (snd f))))) (file_list (starts_with "ER") dir))
  | DDensity gs => Some (map (fun g => (g, 1%R)) gs)
  | DSat dir => opt_all (map (fun f => match sat_graph (snd f) with Some g => Some (g, 1%R) | None => None end) (file_list (ends_with ".cnf") dir))
  | DRB dir => Some (flat_map (fun f => map (fun r => (snd r, fst r)) (snd f)) (file_list (starts_with "RB") dir))
  | DTwitter dir => Some (flat_map (fun f => combine (fst (snd f)) (snd (snd f))) (file_list (starts_with "twitter") dir))
  | DNets g => Some [(g, 1%R)]
  | DGap dir => Some (map (fun f => (snd f, 1%R)) (file_list (ends_with "pkl") dir))
  end.

(** ** Sizes *)
Record sizes := { max_nodes : nat; max_edges : nat; instances : nat }.
Definition no_sizes : sizes := {| max_nodes := 0; max_edges := 0; instances := 0 |}.
(** The loops of the constructors. *)
Definition scan (gs : list graph) : sizes :=
  fold_left (fun s g => {| max_nodes := Nat.max (max_nodes s) (length (g_nodes g)); max_edges := Nat.max (max_edges s) (length (g_edges g));
                           instances := S (instances s) |}) gs no_sizes.
Definition all_given (c : sizes) : bool := Nat.ltb 0 (max_nodes c) && Nat.ltb 0 (max_edges c) && Nat.ltb 0 (instances c).
(** maxcut_loader.py 39-57, mis_loader.py 45-59, 150-164, maxclique_loader.py 41-53, 81-93: the configured sizes if all three are
    positive; otherwise all three are found by reading the files. *)
Definition given_or (c : sizes) (gs : list graph) : sizes := if all_given c then c else scan gs.
Definition loader_sizes (c : sizes) (d : dataset) : option sizes :=
  match d with
  | DRand dir => Some (given_or c (map fst (flat_map snd (file_list (starts_with "test-") dir))))
  | DStatic recs => match opt_all (map with_first recs) with Some l => Some (scan (map fst l)) | None => None end
  | DOptsicom _ gs => Some (scan gs)  (* 125-126, 155-158; num_nodes, num_edges equal the graph's by the assertions *)
  | DErTest dir => Some (given_or c (map (fun f => fst (snd f)) (file_list (starts_with "ER") dir)))
  | DDensity gs => Some (scan gs)
  | DSat dir => if all_given c then Some c
                else match opt_all (map (fun f => sat_graph (snd f)) (file_list (ends_with ".cnf") dir)) with Some gs => Some (scan gs) | None => None end
  | DRB dir => Some (given_or c (flat_map (fun f => map snd (snd f)) (file_list (starts_with "RB") dir)))
  | DTwitter dir => Some (given_or c (flat_map (fun f => fst (snd f)) (file_list (starts_with "twitter") dir)))
  | DNets g => Some {| max_nodes := length (g_nodes g); max_edges := length (g_edges g); instances := 1 |}
  | DGap _ => Some c  (* normcut_loader.py 74-76: no reading *)
  end.

(** ** Which class: graph_gen.py 9-37 *)
Inductive problem := Maxcut | Mis | Maxclique | Normcut.
Inductive loader := LStatic | LOptsicom | LRand | LErTest | LSat | LDensity | LRB | LTwitter | LNets | LGap.
Definition get_graphs (graph_type rand_type : string) : option loader :=
  if String.eqb graph_type "optsicom" then Some (if String.eqb rand_type "b" then LStatic else LOptsicom)
  else if starts_with "ba" graph_type then Some LRand
  else if starts_with "ertest" graph_type then Some LErTest
  else if starts_with "satlib" graph_type then Some LSat
  else if starts_with "er_density" graph_type then Some LDensity
  else if starts_with "er" graph_type then Some LRand
  else if String.eqb graph_type "rb" then Some LRB
  else if String.eqb graph_type "twitter" then Some LTwitter
  else if String.eqb graph_type "nets" then Some LNets
  else if String.eqb graph_type "gap_rand" then Some LGap
  else None.
(** The base class of each loader (its graph2edges and dummy). *)
Definition loader_problem (l : loader) : problem :=
  match l with LStatic | LOptsicom | LRand => Maxcut | LErTest | LSat | LDensity => Mis | LRB | LTwitter => Maxclique | LNets | LGap => Normcut end.

(** ** Shipped sizes: models/configs/maxcut/ba.py 11-25 and er.py 11-23 by the name of the data set *)
Definition by_range (e1024 e512 e256 : nat) (rand_type : string) : sizes :=
  if ends_with "1024-1100" rand_type then {| max_nodes := 1100; max_edges := e1024; instances := 1000 |}
  else if ends_with "512-600" rand_type then {| max_nodes := 600; max_edges := e512; instances := 1000 |}
  else if ends_with "256-300" rand_type then {| max_nodes := 300; max_edges := e256; instances := 1000 |}
  else {| max_nodes := 0; max_edges := 0; instances := 1000 |}.
Definition ba_sizes : string -> sizes := by_range 4384 2384 1184.

(** ** Reference values used for the reported ratio: sampling.py 487-500 (mis: ones) *)
Definition ref_obj (is_mis : bool) (refs : list R) : list R := if is_mis then map (fun _ => 1%R) refs else refs.
