(** Property theorems C41 and C42: graph generators. *)
From Coq Require Import List Arith ZArith Lia.
From Verif.Spec Require Import GraphSpec SatSpec.
From Verif.Model Require Import GraphGen.
From Verif.Proof Require Import GraphGenProof.
Import ListNotations.
Local Open Scope nat_scope.

(** ** C41 *)
(** On every 3-CNF formula the generator succeeds; the graph has an independent set with one node per clause iff the formula is
    satisfiable, no independent set is larger, and the graph is a simple-node graph on 3 nodes per clause. *)
Theorem C41_sat_iff_independent_set : forall nv cnf, three_cnf nv cnf -> exists es, cnf2graph nv cnf = Some es
  /\ loopless (3 * length cnf) es
  /\ (forall S, independent (3 * length cnf) es S -> length S <= length cnf)
  /\ ((exists S, independent (3 * length cnf) es S /\ length S = length cnf) <-> exists rho, satisfies rho cnf).
Proof.
  intros nv cnf H. exists (the_edges nv cnf). split; [apply cnf2graph_edges; auto|]. split; [apply edges_loopless; auto|].
  split; [apply sat_bound; auto|]. split.
  - intros (S & HS & Hl). eapply independent_sat; eauto.
  - intros (rho & Hr). eapply sat_independent; eauto.
Qed.
Print Assumptions C41_sat_iff_independent_set.
Example C41_ex : three_cnf 3 [[1; -2; 3]; [-1; 2; -3]]%Z
  /\ cnf2graph 3 [[1; -2; 3]; [-1; 2; -3]]%Z = Some [(0,1);(0,2);(1,2);(3,4);(3,5);(4,5);(0,3);(4,1);(2,5)]
  /\ satisfies (fun v => Nat.eqb v 1 || Nat.eqb v 2)%bool [[1; -2; 3]; [-1; 2; -3]]%Z
  /\ independent 6 [(0,1);(0,2);(1,2);(3,4);(3,5);(4,5);(0,3);(4,1);(2,5)] [0; 4].
Proof.
  split. { intros c [<-|[<-|[]]]; split; auto; intros l Hl; cbn in Hl; intuition lia. }
  split; [reflexivity|]. split. { intros c [<-|[<-|[]]]; [exists 1%Z|exists 2%Z]; cbn; auto. }
  split; [split; [repeat constructor; cbn; intuition lia|intros v Hv; cbn in Hv; intuition lia]|].
  intros u v [<-|[<-|[]]] [<-|[<-|[]]] [H|H]; cbn in H; intuition discriminate.
Qed.
(** Every node is on some edge, so building the graph from its edge list loses no node. *)
Theorem C41_no_node_lost : forall nv cnf es, three_cnf nv cnf -> cnf2graph nv cnf = Some es ->
  forall u, u < 3 * length cnf -> exists v, v <> u /\ adjacent es u v.
Proof. exact cnf2graph_covers. Qed.
Print Assumptions C41_no_node_lost.
(** Beyond three literals the reduction is wrong: only the first three are read. *)
Theorem C41_four_literals_refuted : exists nv cnf es, cnf2graph nv cnf = Some es
  /\ (exists rho, satisfies rho cnf) /\ forall S, independent (3 * length cnf) es S -> length S <> length cnf.
Proof. exact four_literals_wrong. Qed.
Print Assumptions C41_four_literals_refuted.
(** An empty clause (an unsatisfiable formula) is dropped: the graph looks satisfiable. *)
Theorem C41_empty_clause_refuted : exists nv cnf es S, cnf2graph nv cnf = Some es /\ (forall rho, ~ satisfies rho cnf) /\
  independent (3 * length (filter (fun c => match c with [] => false | _ => true end) cnf)) es S
  /\ length S = length (filter (fun c : list Z => match c with [] => false | _ => true end) cnf).
Proof. exact empty_clause_wrong. Qed.
Print Assumptions C41_empty_clause_refuted.
(** Clauses with one or two literals raise an exception. *)
Theorem C41_short_clause_fails : forall nv cnf c, In c cnf -> 1 <= length c <= 2 -> cnf2graph nv cnf = None.
Proof. exact cnf2graph_short. Qed.
Print Assumptions C41_short_clause_fails.

(** ** C42 *)
(** Whatever networkx draws (within its contract), a returned graph is connected, numbered 0, 1, ... and of legal size. *)
Theorem C42_connected : forall min_n max_n ds g, Forall (draw_ok min_n max_n) ds -> gen_connected min_n max_n ds = Some g ->
  good_graph min_n max_n (nodes g) (edges g).
Proof. exact gen_connected_good. Qed.
Print Assumptions C42_connected.
(** The returned graph is a renumbering of the component that was drawn. *)
Theorem C42_same_graph : forall comp es, NoDup comp -> exists phi, (forall u v, In u comp -> In v comp -> phi u = phi v -> u = v) /\
  (forall u v, In u comp -> In v comp -> (In (u, v) es <-> In (phi u, phi v) (edges (relabel (subgraph comp es))))).
Proof. exact relabel_iso. Qed.
Print Assumptions C42_same_graph.
(** Twenty bad draws in a row: the function falls through and returns None instead of a graph. *)
Theorem C42_always_a_graph_refuted : exists min_n max_n ds, 20 <= length ds /\ Forall (draw_ok min_n max_n) ds /\ gen_connected min_n max_n ds = None.
Proof. exact gen_connected_none. Qed.
Print Assumptions C42_always_a_graph_refuted.
(** Drawing more than twenty times never happens: draws after the twentieth do not matter. *)
Theorem C42_twenty_tries : forall min_n max_n ds ds', length ds = 20 -> gen_connected min_n max_n (ds ++ ds') = gen_connected min_n max_n ds.
Proof. exact gen_connected_twenty. Qed.
Print Assumptions C42_twenty_tries.
Example C42_ex : Forall (draw_ok 3 6) [ER [(0,1)] [0;1]; ER [(1,3);(3,4);(0,2)] [4;1;3]]
  /\ gen_connected 3 6 [ER [(0,1)] [0;1]; ER [(1,3);(3,4);(0,2)] [4;1;3]] = Some {| nodes := [0;1;2]; edges := [(1,2);(2,0)] |}.
Proof.
  split; [|reflexivity]. repeat constructor; try (cbn; intuition discriminate); try discriminate.
  - intros u v [<-|[<-|[]]] [<-|[<-|[]]]; try constructor 1; cbn; (eapply reach_step; [constructor 1|]); unfold adjacent; cbn; auto.
  - assert (K1 : adjacent (edges (subgraph [4;1;3] [(1,3);(3,4);(0,2)])) 1 3) by (left; cbn; auto).
    assert (K2 : adjacent (edges (subgraph [4;1;3] [(1,3);(3,4);(0,2)])) 3 1) by (right; cbn; auto).
    assert (K3 : adjacent (edges (subgraph [4;1;3] [(1,3);(3,4);(0,2)])) 3 4) by (left; cbn; auto).
    assert (K4 : adjacent (edges (subgraph [4;1;3] [(1,3);(3,4);(0,2)])) 4 3) by (right; cbn; auto).
    intros u v [<-|[<-|[<-|[]]]] [<-|[<-|[<-|[]]]]; eauto 6 using reach.
Qed.
