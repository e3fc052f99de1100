(** Model of the graph generators: discs/graph_loader/mis_loader.py 113-140 [SatLibGraphGen.cnf2graph] and
    discs/graph_loader/common.py 9-75 [gen_connected]. *)
From Coq Require Import List Arith ZArith Reals Bool.
Import ListNotations.
Local Open Scope nat_scope.
Local Open Scope bool_scope.

(** ** cnf2graph *)
(** 116-118: a literal must be a key of the index. *)
Definition lit_ok (nv : nat) (l : Z) : bool := negb (Z.eqb l 0) && Z.leb (Z.abs l) (Z.of_nat nv).
(** 123-125: the first three literals of a clause; [None] is an IndexError or KeyError. *)
Definition first3 (nv : nat) (c : list Z) : option (list Z) :=
  match c with
  | a :: b :: d :: _ => if lit_ok nv a && lit_ok nv b && lit_ok nv d then Some [a; b; d] else None
  | _ => None
  end.
(** 122-131, the literals in the order of their node numbers (3 i + 0, 1, 2). *)
Fixpoint all3 (nv : nat) (cs : list (list Z)) : option (list Z) :=
  match cs with
  | [] => Some []
  | c :: cs' => match first3 nv c, all3 nv cs' with Some t, Some r => Some (t ++ r) | _, _ => None end
  end.
(** 126-134: one triangle per clause. *)
Definition triangle (i : nat) : list (nat * nat) := [(3 * i, 3 * i + 1); (3 * i, 3 * i + 2); (3 * i + 1, 3 * i + 2)].
(** 129-131: ind[l], the nodes carrying literal l. *)
Definition ind (lits : list Z) (l : Z) : list nat := filter (fun p => Z.eqb (nth p lits 0%Z) l) (seq 0 (length lits)).
(** 136-139. *)
Definition conflicts (nv : nat) (lits : list Z) : list (nat * nat) :=
  flat_map (fun i => list_prod (ind lits (Z.of_nat i)) (ind lits (- Z.of_nat i))) (seq 1 nv).
(** 113-140: the edge list given to networkx; empty clauses are dropped first (115). *)
Definition cnf2graph (nv : nat) (cnf : list (list Z)) : option (list (nat * nat)) :=
  let clauses := filter (fun c => match c with [] => false | _ => true end) cnf in
  match all3 nv clauses with
  | Some lits => Some (flat_map triangle (seq 0 (length clauses)) ++ conflicts nv lits)
  | None => None
  end.

(** ** gen_connected *)
Record ugraph := { nodes : list nat; edges : list (nat * nat) }.
(** 40-41: the induced subgraph on the nodes of a component (in the order networkx iterates over them). *)
Definition subgraph (comp : list nat) (es : list (nat * nat)) : ugraph :=
  {| nodes := comp; edges := filter (fun e => existsb (Nat.eqb (fst e)) comp && existsb (Nat.eqb (snd e)) comp) es |}.
(** 48-51: position in the iteration order. *)
Fixpoint index_of (v : nat) (l : list nat) : nat := match l with [] => 0 | a :: l' => if Nat.eqb a v then 0 else S (index_of v l') end.
(** 46-57. *)
Definition relabel (g : ugraph) : ugraph :=
  if Nat.eqb (fold_right Nat.max 0 (nodes g)) (length (nodes g) - 1) then g
  else {| nodes := seq 0 (length (nodes g)); edges := map (fun e => (index_of (fst e) (nodes g), index_of (snd e) (nodes g))) (edges g) |}.
(** One random draw: for 'erdos_renyi' the edges drawn by networkx and the nodes of a largest component as networkx reports them;
    for 'barabasi_albert' the graph. *)
Inductive draw := ER (es : list (nat * nat)) (comp : list nat) | BA (g : ugraph).
(** 34-64, one pass of the loop; [None] is a [continue]. *)
Definition attempt (min_n max_n : nat) (d : draw) : option ugraph :=
  match d with
  | ER es comp =>
      let gcc := subgraph comp es in
      if Nat.ltb (length (nodes gcc)) min_n then None
      else let gcc := relabel gcc in
           if Nat.ltb (length (nodes gcc)) min_n || Nat.ltb max_n (length (nodes gcc)) then None else Some gcc
  | BA g => Some g
  end.
(** 30-75: at most 20 passes; falling out of the loop returns Python's None. *)
Fixpoint first_success (min_n max_n : nat) (ds : list draw) : option ugraph :=
  match ds with [] => None | d :: ds' => match attempt min_n max_n d with Some g => Some g | None => first_success min_n max_n ds' end end.
Definition gen_connected (min_n max_n : nat) (ds : list draw) : option ugraph := first_success min_n max_n (firstn 20 ds).
(** 66-74: attaching weights keeps nodes (renumbered to range) and edges. *)
Definition weighted_graph (g : ugraph) (ws : list R) : list nat * list (nat * nat * R) := (seq 0 (length (nodes g)), combine (edges g) ws).
