(** Proofs about the graph generators. *)
From Coq Require Import List Arith ZArith Lia Bool Reals.
From Verif.Spec Require Import GraphSpec SatSpec.
From Verif.Model Require Import GraphGen.
Import ListNotations.
Local Open Scope nat_scope.

(** ** Satisfiability and independent sets *)
Section Sat.
Variables (nv : nat) (cnf : list (list Z)).
Hypothesis H3 : three_cnf nv cnf.

Lemma filter_all : filter (fun c : list Z => match c with [] => false | _ => true end) cnf = cnf.
Proof.
  assert (K : forall cs, (forall c, In c cs -> length c = 3) -> filter (fun c : list Z => match c with [] => false | _ => true end) cs = cs).
  { induction cs as [|c cs IH]; intros H; [reflexivity|]. cbn [filter]. destruct c; [specialize (H [] (or_introl eq_refl)); discriminate|].
    f_equal. apply IH. intros; apply H; right; auto. }
  apply K. intros c Hc. apply H3; auto.
Qed.
Lemma all3_concat : all3 nv cnf = Some (concat cnf).
Proof.
  revert H3. unfold three_cnf. induction cnf as [|c cs IH]; intros H; [reflexivity|]. cbn [all3 concat]. rewrite IH by (intros; apply H; right; auto).
  destruct (H c (or_introl eq_refl)) as [Hl Hr]. destruct c as [|a [|b [|d [|e c]]]]; try discriminate. cbn [first3].
  assert (K : forall l, In l [a; b; d] -> lit_ok nv l = true).
  { intros l Hin. destruct (Hr l Hin) as [K1 K2]. unfold lit_ok. apply andb_true_intro. split; [apply negb_true_iff, Z.eqb_neq; auto|apply Z.leb_le; auto]. }
  rewrite !K by (cbn; auto). reflexivity.
Qed.
Let lits := concat cnf.
Let m := length cnf.
Lemma lits_length : length lits = 3 * m.
Proof.
  unfold lits, m. revert H3. unfold three_cnf. induction cnf as [|c cs IH]; intros H; [reflexivity|]. cbn [concat length]. rewrite app_length, IH by (intros; apply H; right; auto).
  rewrite (proj1 (H c (or_introl eq_refl))). lia.
Qed.
Lemma nth_lits i k c : nth_error cnf i = Some c -> k < 3 -> nth (3 * i + k) lits 0%Z = nth k c 0%Z.
Proof.
  unfold lits. revert H3 i. unfold three_cnf. induction cnf as [|c0 cs IH]; intros H i Hi Hk; [destruct i; discriminate|]. cbn [concat].
  assert (Hc0 : length c0 = 3) by (apply H; left; auto).
  destruct i as [|i]; cbn [nth_error] in Hi.
  - injection Hi as ->. rewrite Nat.mul_0_r, Nat.add_0_l. apply app_nth1. lia.
  - rewrite app_nth2 by lia. replace (3 * S i + k - length c0) with (3 * i + k) by lia. apply IH; auto. intros; apply H; right; auto.
Qed.
Definition the_edges : list (nat * nat) := flat_map triangle (seq 0 m) ++ conflicts nv lits.
Lemma cnf2graph_edges : cnf2graph nv cnf = Some the_edges.
Proof. unfold cnf2graph. rewrite filter_all, all3_concat. reflexivity. Qed.

Lemma triangle_edge i p q : i < m -> p < 3 -> q < 3 -> p < q -> In (3 * i + p, 3 * i + q) the_edges.
Proof.
  intros Hi Hp Hq Hpq. unfold the_edges. apply in_or_app. left. apply in_flat_map. exists i. split; [apply in_seq; lia|].
  unfold triangle. cbn [In]. destruct p as [|[|p]]; [| |lia]; (destruct q as [|[|[|q]]]; try lia); cbn [In]; rewrite ?Nat.add_0_r; auto.
Qed.
Lemma same_clause_adjacent u v : u < 3 * m -> v < 3 * m -> u <> v -> u / 3 = v / 3 -> adjacent the_edges u v.
Proof.
  intros Hu Hv Hne Hd. pose proof (Nat.div_mod u 3 ltac:(lia)) as Du. pose proof (Nat.div_mod v 3 ltac:(lia)) as Dv.
  pose proof (Nat.mod_upper_bound u 3 ltac:(lia)). pose proof (Nat.mod_upper_bound v 3 ltac:(lia)).
  rewrite Hd in Du. set (i := v / 3) in *. assert (Hi : i < m) by lia. destruct (Nat.lt_total (u mod 3) (v mod 3)) as [L|[L|L]].
  - left. rewrite Du, Dv. apply triangle_edge; auto.
  - lia.
  - right. rewrite Du, Dv. apply triangle_edge; auto.
Qed.
Lemma in_ind l p : In p (ind lits l) <-> p < 3 * m /\ nth p lits 0%Z = l.
Proof. unfold ind. rewrite filter_In, in_seq, lits_length, Z.eqb_eq. split; intros [K1 K2]; split; auto; lia. Qed.
Lemma conflict_edge u v x : 1 <= x <= nv -> u < 3 * m -> v < 3 * m -> nth u lits 0%Z = Z.of_nat x -> nth v lits 0%Z = (- Z.of_nat x)%Z -> In (u, v) the_edges.
Proof.
  intros Hx Hu Hv E1 E2. unfold the_edges. apply in_or_app. right. unfold conflicts. apply in_flat_map. exists x. split; [apply in_seq; lia|].
  apply in_prod; apply in_ind; auto.
Qed.
Lemma edge_inv u v : In (u, v) the_edges ->
  (u / 3 = v / 3 /\ u <> v /\ u < 3 * m /\ v < 3 * m)
  \/ exists x, 1 <= x <= nv /\ u < 3 * m /\ v < 3 * m /\ nth u lits 0%Z = Z.of_nat x /\ nth v lits 0%Z = (- Z.of_nat x)%Z.
Proof.
  unfold the_edges. intros H. apply in_app_or in H. destruct H as [H|H].
  - left. apply in_flat_map in H. destruct H as (i & Hi & H). apply in_seq in Hi.
    assert (K : forall k, k < 3 -> (3 * i + k) / 3 = i) by (intros k Hk; rewrite Nat.mul_comm, Nat.div_add_l by lia; rewrite Nat.div_small by auto; lia).
    assert (K0 : (3 * i) / 3 = i) by (rewrite <- (K 0) at 2 by lia; f_equal; lia).
    unfold triangle in H. cbn [In] in H. destruct H as [H|[H|[H|[]]]]; apply pair_equal_spec in H; destruct H as [<- <-]; rewrite ?K0, ?K by lia; repeat split; lia.
  - right. unfold conflicts in H. apply in_flat_map in H. destruct H as (x & Hx & H). apply in_seq in Hx. apply in_prod_iff in H. destruct H as [Hu Hv].
    apply in_ind in Hu, Hv. exists x. repeat split; try tauto; lia.
Qed.

(** No independent set is larger than the number of clauses. *)
Lemma div_inj_S S : independent (3 * m) the_edges S -> NoDup (map (fun p => p / 3) S).
Proof.
  intros [[Hnd Hlt] Hind].
  assert (K : forall T, incl T S -> NoDup T -> NoDup (map (fun p => p / 3) T)).
  { induction T as [|a T IH]; intros Hi Hn; cbn [map]; constructor.
    - intros Hin. apply in_map_iff in Hin. destruct Hin as (b & E & Hb). inversion Hn; subst.
      assert (a <> b) by (intros ->; contradiction). apply (Hind a b); [apply Hi; left; auto|apply Hi; right; auto|]. apply same_clause_adjacent; auto; apply Hlt, Hi; [left|right]; auto.
    - inversion Hn; subst. apply IH; auto. intros x Hx. apply Hi. right; auto. }
  apply K; auto. intros x Hx; auto.
Qed.
Lemma div_range S : independent (3 * m) the_edges S -> incl (map (fun p => p / 3) S) (seq 0 m).
Proof.
  intros [[_ Hlt] _] q Hq. apply in_map_iff in Hq. destruct Hq as (p & <- & Hp). apply Hlt in Hp. apply in_seq. pose proof (Nat.div_lt_upper_bound p 3 m ltac:(lia) ltac:(lia)). lia.
Qed.
Theorem sat_bound S : independent (3 * m) the_edges S -> length S <= m.
Proof.
  intros H. rewrite <- (map_length (fun p => p / 3) S), <- (seq_length m 0). apply NoDup_incl_length; [apply div_inj_S; auto|apply div_range; auto].
Qed.

Theorem independent_sat S : independent (3 * m) the_edges S -> length S = m -> exists rho, satisfies rho cnf.
Proof.
  intros HS Hlen. exists (fun v => existsb (fun p => Z.eqb (nth p lits 0%Z) (Z.of_nat v)) S).
  intros c Hc. apply In_nth_error in Hc. destruct Hc as (i & Hi). assert (Him : i < m) by (unfold m; apply nth_error_Some; congruence).
  assert (Hin : In i (map (fun p => p / 3) S)).
  { apply (NoDup_length_incl (l' := seq 0 m) (div_inj_S S HS)); [rewrite map_length, seq_length; lia|apply div_range; auto|apply in_seq; lia]. }
  apply in_map_iff in Hin. destruct Hin as (p & Hp & HpS). pose proof HS as [[_ Hlt] Hind]. pose proof (Hlt p HpS) as Hpl.
  pose proof (Nat.div_mod p 3 ltac:(lia)) as Dp. pose proof (Nat.mod_upper_bound p 3 ltac:(lia)) as Mp. rewrite Hp in Dp.
  assert (El : nth p lits 0%Z = nth (p mod 3) c 0%Z) by (rewrite Dp at 1; apply nth_lits; auto).
  destruct (H3 c ltac:(eapply nth_error_In; eauto)) as [Hc3 Hclit].
  assert (Hinc : In (nth (p mod 3) c 0%Z) c) by (apply nth_In; lia).
  exists (nth (p mod 3) c 0%Z). split; auto. rewrite <- El in *. destruct (Hclit _ Hinc) as [Hnz Habs]. set (l := nth p lits 0%Z) in *.
  unfold lit_true. destruct (Z.ltb_spec 0 l).
  - apply existsb_exists. exists p. split; auto. apply Z.eqb_eq. rewrite Z2Nat.id by lia. reflexivity.
  - apply negb_true_iff. apply not_true_is_false. intros Hex. apply existsb_exists in Hex. destruct Hex as (q & HqS & Hq). apply Z.eqb_eq in Hq. rewrite Z2Nat.id in Hq by lia.
    apply (Hind q p HqS HpS). left. apply (conflict_edge q p (Z.to_nat (- l))); auto; rewrite ?Z2Nat.id; try lia.
Qed.

(** A true literal of a clause. *)
Definition pick (rho : nat -> bool) (c : list Z) : nat :=
  if lit_true rho (nth 0 c 0%Z) then 0 else if lit_true rho (nth 1 c 0%Z) then 1 else 2.
Lemma pick_true rho c : length c = 3 -> (exists l, In l c /\ lit_true rho l = true) -> pick rho c < 3 /\ lit_true rho (nth (pick rho c) c 0%Z) = true.
Proof.
  intros Hl (l & Hin & Ht). destruct c as [|a [|b [|d [|e c]]]]; try discriminate. unfold pick. cbn [nth].
  destruct (lit_true rho a) eqn:Ea; [split; [lia|exact Ea]|]. destruct (lit_true rho b) eqn:Eb; [split; [lia|exact Eb]|].
  split; [lia|]. destruct Hin as [<-|[<-|[<-|[]]]]; congruence.
Qed.
Theorem sat_independent rho : satisfies rho cnf -> exists S, independent (3 * m) the_edges S /\ length S = m.
Proof.
  intros Hsat. set (f := fun i => 3 * i + pick rho (nth i cnf [])). exists (map f (seq 0 m)).
  assert (Hi : forall i, i < m -> pick rho (nth i cnf []) < 3 /\ lit_true rho (nth (f i) lits 0%Z) = true).
  { intros i Hi. assert (E : nth_error cnf i = Some (nth i cnf [])) by (apply nth_error_nth'; exact Hi).
    assert (Hin : In (nth i cnf []) cnf) by (apply nth_In; exact Hi).
    destruct (pick_true rho (nth i cnf []) (proj1 (H3 _ Hin)) (Hsat _ Hin)) as [P1 P2]. split; auto. unfold f. rewrite (nth_lits i _ _ E P1). exact P2. }
  assert (Hdiv : forall i, i < m -> f i / 3 = i) by (intros i Him; unfold f; rewrite Nat.mul_comm, Nat.div_add_l by lia; rewrite Nat.div_small by (apply Hi; auto); lia).
  split; [|rewrite map_length, seq_length; reflexivity]. split; [split|].
  - assert (K : forall l, (forall i, In i l -> i < m) -> NoDup l -> NoDup (map f l)).
    { induction l as [|a l IH]; intros Hlt Hn; cbn [map]; constructor; inversion Hn; subst.
      - intros Hin. apply in_map_iff in Hin. destruct Hin as (b & E & Hb). assert (a = b); [|subst; contradiction].
        rewrite <- (Hdiv a), <- (Hdiv b), E by (apply Hlt; cbn; auto). reflexivity.
      - apply IH; auto. intros; apply Hlt; right; auto. }
    apply K; [intros i Hin; apply in_seq in Hin; lia|apply seq_NoDup].
  - intros v Hv. apply in_map_iff in Hv. destruct Hv as (i & <- & Hin). apply in_seq in Hin. destruct (Hi i ltac:(lia)). unfold f. lia.
  - assert (Hno : forall i j, i < m -> j < m -> ~ In (f i, f j) the_edges).
    { intros i j Him Hjm He. destruct (edge_inv _ _ He) as [(E & Hne & _)|(x & Hx & _ & _ & E1 & E2)].
      - rewrite !Hdiv in E by auto. congruence.
      - destruct (Hi i Him) as [_ T1]. destruct (Hi j Hjm) as [_ T2]. rewrite E1 in T1. rewrite E2 in T2. unfold lit_true in T1, T2.
        destruct (Z.ltb_spec 0 (Z.of_nat x)); [|lia]. destruct (Z.ltb_spec 0 (- Z.of_nat x)); [lia|]. rewrite Nat2Z.id in T1.
        rewrite Z.opp_involutive, Nat2Z.id, T1 in T2. discriminate. }
    intros u v Hu Hv [He|He]; apply in_map_iff in Hu, Hv; destruct Hu as (i & <- & Hiu); destruct Hv as (j & <- & Hjv); apply in_seq in Hiu, Hjv; eapply Hno; try exact He; lia.
Qed.
Lemma edges_loopless : loopless (3 * m) the_edges.
Proof.
  intros u v H. destruct (edge_inv u v H) as [(E & Hne & Hu & Hv)|(x & Hx & Hu & Hv & E1 & E2)]; split; auto; split; auto.
  intros ->. rewrite E1 in E2. lia.
Qed.
End Sat.

Lemma four_literals_wrong : exists nv cnf es, cnf2graph nv cnf = Some es
  /\ (exists rho, satisfies rho cnf) /\ forall S, independent (3 * length cnf) es S -> length S <> length cnf.
Proof.
  (* (1 v 1 v 1 v 2) and (-1 v -1 v -1) : satisfied by 1 false, 2 true *)
  exists 2, [[1; 1; 1; 2]%Z; [-1; -1; -1]%Z]. eexists. split; [reflexivity|]. split.
  - exists (fun v => Nat.eqb v 2). intros c [<-|[<-|[]]]; [exists 2%Z|exists (-1)%Z]; (split; [cbn; auto 6|reflexivity]).
  - intros S HS Hlen. 
    assert (H' : forall c, In c [[1; 1; 1]%Z; [-1; -1; -1]%Z] -> length c = 3 /\ forall l, In l c -> (l <> 0 /\ Z.abs l <= Z.of_nat 2)%Z).
    { intros c [<-|[<-|[]]]; split; auto; intros l Hl; cbn in Hl; intuition lia. }
    destruct (independent_sat 2 [[1; 1; 1]%Z; [-1; -1; -1]%Z] H' S HS Hlen) as (rho & Hsat).
    destruct (Hsat [1; 1; 1]%Z ltac:(cbn; auto)) as (l1 & Hl1 & T1). destruct (Hsat [-1; -1; -1]%Z ltac:(cbn; auto)) as (l2 & Hl2 & T2).
    assert (l1 = 1%Z) as -> by (cbn in Hl1; intuition lia). assert (l2 = (-1)%Z) as -> by (cbn in Hl2; intuition lia).
    cbn in T1, T2. rewrite T1 in T2. discriminate.
Qed.
Lemma empty_clause_wrong : exists nv cnf es S, cnf2graph nv cnf = Some es /\ (forall rho, ~ satisfies rho cnf) /\
  independent (3 * length (filter (fun c => match c with [] => false | _ => true end) cnf)) es S /\ length S = length (filter (fun c : list Z => match c with [] => false | _ => true end) cnf).
Proof.
  exists 1, [[1; 1; 1]%Z; []], [(0, 1); (0, 2); (1, 2)], [0]. split; [reflexivity|]. split.
  - intros rho H. destruct (H [] ltac:(cbn; auto)) as (l & [] & _).
  - split; [|reflexivity]. split; [split; [repeat constructor; intros []|intros v [<-|[]]; cbn; lia]|].
    intros u v [<-|[]] [<-|[]] [H|H]; cbn in H; intuition discriminate.
Qed.

(** ** Connected graphs *)
Lemma index_of_spec v l : In v l -> index_of v l < length l /\ nth_error l (index_of v l) = Some v.
Proof.
  induction l as [|a l IH]; intros H; [destruct H|]. cbn [index_of length]. destruct (Nat.eqb_spec a v) as [->|Hne]; [split; [lia|reflexivity]|].
  destruct H as [H|H]; [contradiction|]. destruct (IH H). split; [lia|auto].
Qed.
Lemma index_of_nth l i v : NoDup l -> nth_error l i = Some v -> index_of v l = i.
Proof.
  intros Hn Hi. assert (Hin : In v l) by (eapply nth_error_In; eauto). destruct (index_of_spec v l Hin) as [Hlt He].
  apply (proj1 (NoDup_nth_error l) Hn); [exact Hlt|]. congruence.
Qed.
Lemma max_bound l v : In v l -> v <= fold_right Nat.max 0 l.
Proof. induction l as [|a l IH]; intros H; [destruct H|]. cbn [fold_right]. destruct H as [->|H]; [lia|]. apply IH in H. lia. Qed.

(** What networkx guarantees about a draw. *)
Definition draw_ok (min_n max_n : nat) (d : draw) : Prop :=
  match d with
  | ER es comp => NoDup comp /\ comp <> [] /\ forall u v, In u comp -> In v comp -> reach (edges (subgraph comp es)) u v
  | BA g => min_n <= length (nodes g) <= max_n /\ nodes g = seq 0 (length (nodes g))
      /\ (forall u v, In (u, v) (edges g) -> In u (nodes g) /\ In v (nodes g)) /\ forall u v, In u (nodes g) -> In v (nodes g) -> reach (edges g) u v
  end.
Lemma subgraph_edge comp es u v : In (u, v) (edges (subgraph comp es)) <-> In (u, v) es /\ In u comp /\ In v comp.
Proof.
  cbn [subgraph edges]. rewrite filter_In. cbn [fst snd]. rewrite andb_true_iff, !existsb_exists. split.
  - intros (H1 & (a & Ha & Ea) & (b & Hb & Eb)). apply Nat.eqb_eq in Ea, Eb. subst. auto.
  - intros (H1 & H2 & H3). split; auto. split; [exists u|exists v]; rewrite Nat.eqb_refl; auto.
Qed.

Lemma relabel_good comp es min_n max_n : NoDup comp -> comp <> [] -> (forall u v, In u comp -> In v comp -> reach (edges (subgraph comp es)) u v) ->
  min_n <= length (nodes (relabel (subgraph comp es))) <= max_n -> good_graph min_n max_n (nodes (relabel (subgraph comp es))) (edges (relabel (subgraph comp es))).
Proof.
  intros Hnd Hne Hc Hlen. unfold relabel in *. cbn [subgraph nodes] in *.
  destruct (Nat.eqb_spec (fold_right Nat.max 0 comp) (length comp - 1)) as [Hmax|Hmax].
  - assert (Hin : forall v, In v comp <-> v < length comp).
    { assert (Hpos : 0 < length comp) by (destruct comp; [congruence|cbn; lia]).
      assert (Hincl : incl comp (seq 0 (length comp))) by (intros v Hv; apply max_bound in Hv; apply in_seq; lia).
      intros v. split; [intros Hv; apply Hincl in Hv; apply in_seq in Hv; lia|].
      intros Hv. apply (NoDup_length_incl Hnd (l' := seq 0 (length comp))); [rewrite seq_length; auto|exact Hincl|apply in_seq; lia]. }
    unfold good_graph. cbn [nodes edges] in *. split; [exact Hlen|]. split; [exact Hnd|]. split; [exact Hin|]. split.
    + intros u v He. apply (subgraph_edge comp es u v) in He. split; apply Hin; tauto.
    + intros u v Hu Hv. apply Hc; apply Hin; auto.
  - unfold good_graph. cbn [nodes edges] in *. rewrite seq_length in *. split; [exact Hlen|]. split; [apply seq_NoDup|]. split; [intros v; rewrite in_seq; lia|]. split.
    + intros u v He. apply in_map_iff in He. destruct He as ([a b] & E & He). cbn [fst snd] in E. injection E as <- <-. apply (subgraph_edge comp es a b) in He.
      split; apply index_of_spec; tauto.
    + intros u v Hu Hv. destruct (nth_error comp u) as [a|] eqn:Ea; [|apply nth_error_None in Ea; lia]. destruct (nth_error comp v) as [b|] eqn:Eb; [|apply nth_error_None in Eb; lia].
      rewrite <- (index_of_nth comp u a Hnd Ea), <- (index_of_nth comp v b Hnd Eb).
      pose proof (Hc a b ltac:(eapply nth_error_In; eauto) ltac:(eapply nth_error_In; eauto)) as Hr. clear -Hr. induction Hr as [a|a b c Hr IH Hadj]; [constructor|].
      eapply reach_step; [exact IH|]. destruct Hadj as [H|H]; [left|right]; apply in_map_iff; [exists (b, c)|exists (c, b)]; auto.
Qed.
Lemma attempt_good min_n max_n d g : draw_ok min_n max_n d -> attempt min_n max_n d = Some g -> good_graph min_n max_n (nodes g) (edges g).
Proof.
  destruct d as [es comp|g0]; intros Hok H; cbn [attempt] in H.
  - destruct Hok as (Hnd & Hne & Hc). destruct (Nat.ltb_spec (length (nodes (subgraph comp es))) min_n); [discriminate|].
    destruct (Nat.ltb_spec (length (nodes (relabel (subgraph comp es)))) min_n); [discriminate|]. cbn [orb] in H.
    destruct (Nat.ltb_spec max_n (length (nodes (relabel (subgraph comp es))))); [discriminate|]. injection H as <-. apply relabel_good; auto.
  - injection H as <-. destruct Hok as (H1 & H2 & H3 & H4).
    assert (Hin : forall v, In v (nodes g0) <-> v < length (nodes g0)) by (intros v; rewrite H2 at 1; rewrite in_seq; lia).
    split; [exact H1|]. split; [rewrite H2; apply seq_NoDup|]. split; [exact Hin|]. split.
    + intros u v He. apply H3 in He. split; apply Hin; tauto.
    + intros u v Hu Hv. apply H4; apply Hin; auto.
Qed.
Theorem gen_connected_good min_n max_n ds g : Forall (draw_ok min_n max_n) ds -> gen_connected min_n max_n ds = Some g -> good_graph min_n max_n (nodes g) (edges g).
Proof.
  unfold gen_connected. intros HF. assert (HF' : Forall (draw_ok min_n max_n) (firstn 20 ds)) by (apply Forall_forall; intros d Hd; rewrite Forall_forall in HF; apply HF; rewrite <- (firstn_skipn 20 ds); apply in_or_app; left; auto).
  revert HF'. generalize (firstn 20 ds). intros l. induction l as [|d l IH]; intros HF' H; cbn [first_success] in H; [discriminate|]. inversion HF'; subst.
  destruct (attempt min_n max_n d) as [g'|] eqn:E; [injection H as <-; eapply attempt_good; eauto|auto].
Qed.
(** An edge of the component stays an edge under the renumbering, and conversely. *)
Lemma relabel_iso comp es : NoDup comp -> exists phi, (forall u v, In u comp -> In v comp -> phi u = phi v -> u = v) /\
  (forall u v, In u comp -> In v comp -> (In (u, v) es <-> In (phi u, phi v) (edges (relabel (subgraph comp es))))).
Proof.
  intros Hnd. unfold relabel. cbn [subgraph nodes]. destruct (Nat.eqb (fold_right Nat.max 0 comp) (length comp - 1)).
  - exists (fun v => v). split; [auto|]. intros u v Hu Hv. rewrite (subgraph_edge comp es u v). tauto.
  - exists (fun v => index_of v comp).
    assert (Hinj : forall u v, In u comp -> In v comp -> index_of u comp = index_of v comp -> u = v).
    { intros u v Hu Hv E. destruct (index_of_spec u comp Hu) as [_ H1]. destruct (index_of_spec v comp Hv) as [_ H2]. congruence. }
    split; [exact Hinj|]. intros u v Hu Hv. cbn [edges nodes]. rewrite in_map_iff. split.
    + intros He. exists (u, v). split; auto. apply (subgraph_edge comp es u v). auto.
    + intros ([a b] & E & He). cbn [fst snd] in E. injection E as E1 E2. apply (subgraph_edge comp es a b) in He. destruct He as (He & Ha & Hb).
      apply Hinj in E1, E2; auto. subst. auto.
Qed.
Lemma gen_connected_gives_up min_n max_n ds : (forall d, In d ds -> attempt min_n max_n d = None) -> gen_connected min_n max_n ds = None.
Proof.
  intros H. unfold gen_connected. assert (H' : forall d, In d (firstn 20 ds) -> attempt min_n max_n d = None) by (intros d Hd; apply H; rewrite <- (firstn_skipn 20 ds); apply in_or_app; left; auto).
  revert H'. generalize (firstn 20 ds). intros l. induction l as [|d l IH]; intros H'; [reflexivity|]. cbn [first_success]. rewrite (H' d) by (left; auto). apply IH. intros; apply H'; right; auto.
Qed.
Lemma cnf2graph_covers nv cnf es : three_cnf nv cnf -> cnf2graph nv cnf = Some es ->
  forall u, u < 3 * length cnf -> exists v, v <> u /\ adjacent es u v.
Proof.
  intros H3 Hc u Hu. rewrite (cnf2graph_edges nv cnf H3) in Hc. injection Hc as <-.
  pose proof (Nat.div_mod u 3 ltac:(lia)) as Du. pose proof (Nat.mod_upper_bound u 3 ltac:(lia)).
  set (i := u / 3) in *. set (k := u mod 3) in *. assert (Hi : i < length cnf) by lia.
  exists (if Nat.eqb k 0 then 3 * i + 1 else 3 * i). destruct (Nat.eqb_spec k 0) as [E|E].
  - split; [lia|]. left. rewrite Du, E. apply triangle_edge; lia.
  - split; [lia|]. right. rewrite Du. rewrite <- (Nat.add_0_r (3 * i)) at 1. apply triangle_edge; lia.
Qed.
Lemma cnf2graph_short nv cnf c : In c cnf -> 1 <= length c <= 2 -> cnf2graph nv cnf = None.
Proof.
  intros Hin Hl. unfold cnf2graph.
  assert (K : forall cs, In c cs -> all3 nv cs = None).
  { induction cs as [|d cs IH]; intros H; [destruct H|]. cbn [all3]. destruct H as [->|H].
    - destruct c as [|a [|b [|e c]]]; cbn in Hl; try lia; reflexivity.
    - rewrite (IH H). destruct (first3 nv d); reflexivity. }
  rewrite K; auto. apply filter_In. split; auto. destruct c; cbn in Hl; [lia|reflexivity].
Qed.
Lemma gen_connected_none : exists min_n max_n ds, 20 <= length ds /\ Forall (draw_ok min_n max_n) ds /\ gen_connected min_n max_n ds = None.
Proof.
  exists 2, 3, (repeat (ER [] [0]) 20). rewrite repeat_length. split; [lia|]. split; [|reflexivity].
  apply Forall_forall. intros d Hd. apply repeat_spec in Hd. subst. split; [repeat constructor; intros []|]. split; [discriminate|].
  intros u v [<-|[]] [<-|[]]. constructor.
Qed.
Lemma gen_connected_twenty min_n max_n ds ds' : length ds = 20 -> gen_connected min_n max_n (ds ++ ds') = gen_connected min_n max_n ds.
Proof. intros H. unfold gen_connected. rewrite firstn_app, H, Nat.sub_diag, firstn_O, app_nil_r. reflexivity. Qed.
