(** The graph data sets: order of the instances, sizes, reference values, dispatch. *)
From Coq Require Import String Ascii Reals ZArith List Arith Bool Permutation Lia Lra.
From Verif.Model Require Import CombOpt GraphGen Loaders.
From Verif.Spec Require Import GraphData.
Import ListNotations.

(** ** Sorting by name *)
Lemma name_leb_total a : forall b, name_leb a b = true \/ name_leb b a = true.
Proof.
  induction a as [|x a IH]; intros [|y b]; cbn [name_leb]; auto.
  destruct (Nat.ltb_spec (nat_of_ascii x) (nat_of_ascii y)); auto. destruct (Nat.ltb_spec (nat_of_ascii y) (nat_of_ascii x)); auto.
  destruct (Nat.eqb_spec (nat_of_ascii x) (nat_of_ascii y)); [|lia]. destruct (Nat.eqb_spec (nat_of_ascii y) (nat_of_ascii x)); [|lia]. apply IH.
Qed.

Lemma name_leb_antisym a : forall b, name_leb a b = true -> name_leb b a = true -> a = b.
Proof.
  induction a as [|x a IH]; intros [|y b]; cbn [name_leb]; auto; try discriminate.
  destruct (Nat.ltb_spec (nat_of_ascii x) (nat_of_ascii y)), (Nat.ltb_spec (nat_of_ascii y) (nat_of_ascii x)); try lia.
  - destruct (Nat.eqb_spec (nat_of_ascii y) (nat_of_ascii x)); [lia|discriminate].
  - destruct (Nat.eqb_spec (nat_of_ascii x) (nat_of_ascii y)); [lia|discriminate].
  - destruct (Nat.eqb_spec (nat_of_ascii x) (nat_of_ascii y)) as [E|E]; [|discriminate]. rewrite E, Nat.eqb_refl. intros H1 H2.
    rewrite (IH b H1 H2). f_equal. rewrite <- (ascii_nat_embedding x), <- (ascii_nat_embedding y), E. reflexivity.
Qed.

Lemma name_leb_trans a : forall b c, name_leb a b = true -> name_leb b c = true -> name_leb a c = true.
Proof.
  induction a as [|x a IH]; intros [|y b] [|z c]; cbn [name_leb]; auto; try discriminate.
  destruct (Nat.ltb_spec (nat_of_ascii x) (nat_of_ascii y)), (Nat.ltb_spec (nat_of_ascii y) (nat_of_ascii z)), (Nat.ltb_spec (nat_of_ascii x) (nat_of_ascii z)); auto; try lia.
  - destruct (Nat.eqb_spec (nat_of_ascii y) (nat_of_ascii z)); [lia|discriminate].
  - destruct (Nat.eqb_spec (nat_of_ascii x) (nat_of_ascii y)); [lia|discriminate].
  - destruct (Nat.eqb_spec (nat_of_ascii x) (nat_of_ascii y)) as [E1|]; [|discriminate]. destruct (Nat.eqb_spec (nat_of_ascii y) (nat_of_ascii z)) as [E2|]; [|discriminate].
    rewrite E1, E2, Nat.eqb_refl. apply IH.
Qed.

Lemma insert_perm {A} (f : string * A) l : Permutation (insert_file f l) (f :: l).
Proof.
  induction l as [|g l IH]; cbn; auto. destruct (name_leb (fst f) (fst g)); auto. rewrite IH. apply perm_swap.
Qed.
Lemma sort_perm {A} (l : list (string * A)) : Permutation (sort_files l) l.
Proof. induction l as [|f l IH]; cbn; auto. rewrite insert_perm, IH. auto. Qed.

Inductive ascending {A} : list (string * A) -> Prop :=
| asc_nil : ascending []
| asc_cons f l : (forall g, In g l -> name_leb (fst f) (fst g) = true) -> ascending l -> ascending (f :: l).

Lemma insert_asc {A} (f : string * A) l : ascending l -> ascending (insert_file f l).
Proof.
  induction 1 as [|g l Hg Hl IH]; cbn; [constructor; [intros ? []|constructor]|].
  destruct (name_leb (fst f) (fst g)) eqn:E.
  - constructor; [|constructor; auto]. intros h [<-|Hh]; auto. exact (name_leb_trans _ _ _ E (Hg h Hh)).
  - constructor; [|exact IH]. intros h Hh. apply (Permutation_in _ (insert_perm f l)) in Hh. destruct Hh as [<-|Hh]; auto.
    destruct (name_leb_total (fst f) (fst g)) as [H|H]; [congruence|exact H].
Qed.
Lemma sort_asc {A} (l : list (string * A)) : ascending (sort_files l).
Proof. induction l as [|f l IH]; cbn; [constructor|apply insert_asc; auto]. Qed.

Lemma in_names {A} (l : list (string * A)) a b : NoDup (map fst l) -> In a l -> In b l -> fst a = fst b -> a = b.
Proof.
  induction l as [|c l IH]; intros Hn Ha Hb E; [destruct Ha|]. cbn in Hn. inversion Hn; subst.
  destruct Ha as [<-|Ha], Hb as [<-|Hb]; auto.
  - exfalso. apply H1. rewrite E. apply in_map; auto.
  - exfalso. apply H1. rewrite <- E. apply in_map; auto.
Qed.

Lemma asc_unique {A} (l1 : list (string * A)) : forall l2, ascending l1 -> ascending l2 -> Permutation l1 l2 -> NoDup (map fst l1) -> l1 = l2.
Proof.
  induction l1 as [|a l1 IH]; intros l2 H1 H2 Hp Hn.
  - apply Permutation_nil in Hp. auto.
  - destruct l2 as [|b l2]; [symmetry in Hp; apply Permutation_nil in Hp; discriminate|].
    inversion H1; subst. inversion H2; subst.
    assert (Hab : a = b).
    { assert (Hb : In b (a :: l1)) by (apply (Permutation_in _ (Permutation_sym Hp)); left; auto).
      assert (Ha : In a (b :: l2)) by (apply (Permutation_in _ Hp); left; auto).
      destruct Hb as [Hb|Hb]; auto. destruct Ha as [Ha|Ha]; auto.
      apply (in_names (a :: l1)); [exact Hn|left; auto|right; auto|]. apply name_leb_antisym; auto. }
    subst b. f_equal. cbn in Hn. inversion Hn; subst. apply IH; auto. apply (Permutation_cons_inv Hp).
Qed.

Lemma filter_perm {A} (h : A -> bool) l1 l2 : Permutation l1 l2 -> Permutation (filter h l1) (filter h l2).
Proof.
  induction 1; cbn; auto.
  - destruct (h x); auto.
  - destruct (h x), (h y); auto. apply perm_swap.
  - eapply perm_trans; eauto.
Qed.
Lemma filter_names {A} (h : string * A -> bool) l : NoDup (map fst l) -> NoDup (map fst (filter h l)).
Proof.
  induction l as [|a l IH]; cbn; intros H; auto. inversion H; subst. destruct (h a); cbn; auto. constructor; auto.
  intros Hi. apply H2. apply in_map_iff in Hi. destruct Hi as (b & E & Hb). apply filter_In in Hb. rewrite <- E. apply in_map, Hb.
Qed.

Theorem file_list_relisted {A} keep (d1 d2 : list (string * A)) : relisted d1 d2 -> file_list keep d1 = file_list keep d2.
Proof.
  intros [Hp Hn]. unfold file_list. apply asc_unique; try apply sort_asc.
  - rewrite !sort_perm. apply filter_perm, Hp.
  - apply (Permutation_NoDup (l := map fst (filter (fun f => keep (fst f)) d1))); [|apply filter_names, Hn].
    apply Permutation_map. symmetry. apply sort_perm.
Qed.

Theorem same_instances d1 d2 c : same_data d1 d2 -> sample_gen d1 = sample_gen d2 /\ loader_sizes c d1 = loader_sizes c d2.
Proof. intros H. inversion H; subst; unfold sample_gen, loader_sizes; rewrite (file_list_relisted _ _ _ H0); auto. Qed.

Theorem file_list_once {A} keep (dir : list (string * A)) : Permutation (file_list keep dir) (filter (fun f => keep (fst f)) dir).
Proof. apply sort_perm. Qed.

(** ** networkx graphs by insertion *)
Definition nodes_step (ns : list nat) (e : nat * nat * R) : list nat := add_node (snd (ends e)) (add_node (fst (ends e)) ns).
Definition nodes_of (l : list (nat * nat * R)) : list nat := fold_left nodes_step l [].
Inductive distinct : list (nat * nat * R) -> Prop :=
| dis_nil : distinct []
| dis_snoc l e : distinct l -> (forall f, In f l -> same_edge (ends e) (ends f) = false) -> distinct (l ++ [e]).

Lemma same_edge_refl a : same_edge a a = true.
Proof. unfold same_edge. rewrite !Nat.eqb_refl. reflexivity. Qed.

Lemma from_distinct l : distinct l -> from_edges l = {| g_nodes := nodes_of l; g_edges := l |}.
Proof.
  induction 1 as [|l e Hl IH He]; [reflexivity|]. unfold from_edges, nodes_of in *. rewrite !fold_left_app, IH. cbn [fold_left].
  unfold add_edge. cbn [g_nodes g_edges]. replace (existsb (fun f => same_edge (ends e) (ends f)) l) with false; [reflexivity|].
  symmetry. apply not_true_is_false. intros Hx. apply existsb_exists in Hx. destruct Hx as (f & Hf & E). rewrite (He f Hf) in E. discriminate.
Qed.

Lemma nodes_ends l1 : forall l2 ns, map ends l1 = map ends l2 -> fold_left nodes_step l1 ns = fold_left nodes_step l2 ns.
Proof.
  induction l1 as [|a l1 IH]; intros [|b l2] ns E; try discriminate; auto. cbn in *. injection E as E1 E2.
  replace (nodes_step ns b) with (nodes_step ns a) by (unfold nodes_step; rewrite E1; reflexivity). apply IH, E2.
Qed.

Lemma distinct_ends l1 : forall l2, map ends l1 = map ends l2 -> distinct l1 -> distinct l2.
Proof.
  intros l2 E H. revert l2 E. induction H as [|l e Hl IH He]; intros l2 E.
  - destruct l2; [constructor|discriminate].
  - rewrite map_app in E. destruct (exists_last (l := l2)) as (l2' & e' & ->).
    { intros ->. destruct (map ends l); discriminate. }
    rewrite map_app in E. apply app_inj_tail in E. destruct E as [E1 E2]. constructor; [apply IH; auto|].
    intros f Hf. apply (in_map ends) in Hf. rewrite <- E1 in Hf. apply in_map_iff in Hf. destruct Hf as (f' & <- & Hf').
    cbn in E2. rewrite <- E2. apply He, Hf'.
Qed.

Lemma in_add_node v w l : In v (add_node w l) <-> v = w \/ In v l.
Proof.
  unfold add_node. destruct (existsb (Nat.eqb w) l) eqn:E.
  - apply existsb_exists in E. destruct E as (u & Hu & E). apply Nat.eqb_eq in E. subst. split; auto. intros [->|H]; auto.
  - rewrite in_app_iff. cbn. split; [intros [H|[H|[]]]; auto|intros [->|H]; auto].
Qed.
Lemma in_nodes_of v l : forall ns, In v (fold_left nodes_step l ns) <-> In v ns \/ exists e, In e l /\ (v = fst (ends e) \/ v = snd (ends e)).
Proof.
  induction l as [|e l IH]; intros ns; cbn [fold_left].
  - split; [auto|]. intros [H|(e & [] & _)]; auto.
  - rewrite IH. unfold nodes_step at 1. rewrite !in_add_node. split.
    + intros [[H|[H|H]]|(f & Hf & H)]; auto; right; [exists e|exists e|exists f]; cbn; auto.
    + intros [H|(f & [<-|Hf] & [H|H])]; auto; right; exists f; auto.
Qed.
Lemma add_node_in v l : In v l -> add_node v l = l.
Proof.
  intros H. unfold add_node. replace (existsb (Nat.eqb v) l) with true; auto. symmetry. apply existsb_exists. exists v. rewrite Nat.eqb_refl. auto.
Qed.

Definition built (g : graph) : Prop := distinct (g_edges g) /\ g_nodes g = nodes_of (g_edges g).

Lemma add_edge_built g e : built g -> built (add_edge g e).
Proof.
  intros [Hd Hn]. unfold add_edge, built. cbn [g_nodes g_edges].
  destruct (existsb (fun f => same_edge (ends e) (ends f)) (g_edges g)) eqn:E.
  - assert (Hm : map ends (map (fun f => if same_edge (ends e) (ends f) then (ends f, snd e) else f) (g_edges g)) = map ends (g_edges g)).
    { rewrite map_map. apply map_ext. intros f. destruct (same_edge (ends e) (ends f)); reflexivity. }
    split; [apply (distinct_ends (g_edges g)); auto|]. unfold nodes_of in *. rewrite (nodes_ends _ (g_edges g) [] Hm), <- Hn.
    apply existsb_exists in E. destruct E as (f & Hf & E).
    assert (Hin : In (fst (ends e)) (g_nodes g) /\ In (snd (ends e)) (g_nodes g)).
    { rewrite Hn. unfold same_edge in E. apply orb_true_iff in E. 
      destruct E as [E|E]; apply andb_true_iff in E; destruct E as [E1 E2]; apply Nat.eqb_eq in E1, E2; rewrite E1, E2;
        split; apply in_nodes_of; right; exists f; auto. }
    rewrite (add_node_in (fst (ends e))) by apply Hin. apply add_node_in, Hin.
  - split.
    + constructor; auto. intros f Hf. destruct (same_edge (ends e) (ends f)) eqn:E2; auto.
      assert (existsb (fun f => same_edge (ends e) (ends f)) (g_edges g) = true) by (apply existsb_exists; eauto). congruence.
    + unfold nodes_of in *. rewrite fold_left_app, <- Hn. reflexivity.
Qed.
Lemma from_edges_built es : built (from_edges es).
Proof.
  unfold from_edges. assert (H : built {| g_nodes := []; g_edges := [] |}) by (split; [constructor|reflexivity]). revert H. generalize ({| g_nodes := []; g_edges := [] |}).
  induction es as [|e es IH]; intros g Hg; auto. cbn. apply IH, add_edge_built, Hg.
Qed.

Lemma combine_seq_snd {A B} (h : A -> B) (l : list A) : forall k, map (fun p : nat * A => h (snd p)) (combine (seq k (length l)) l) = map h l.
Proof. induction l as [|a l IH]; intros k; cbn; auto. f_equal. apply IH. Qed.

Theorem gen_graph_same noise g n m rows : optsicom_graph n m rows = Some g -> gen_graph false noise g = g.
Proof.
  intros H. assert (Hb : built g).
  { unfold optsicom_graph in H. destruct (_ && _); [|discriminate]. inversion H. apply from_edges_built. }
  destruct Hb as [Hd Hn]. unfold gen_graph. rewrite (combine_seq_snd (fun e => (ends e, snd e))).
  assert (Hid : forall l : list (nat * nat * R), map (fun e => (ends e, snd e)) l = l) by (intros l; rewrite <- (map_id l) at 2; apply map_ext; intros [e w]; reflexivity).
  rewrite Hid. rewrite from_distinct by exact Hd. destruct g; cbn in *. subst. reflexivity.
Qed.

Theorem optsicom_counts n m rows g : optsicom_graph n m rows = Some g -> length (g_nodes g) = n /\ length (g_edges g) = m.
Proof.
  unfold optsicom_graph. destruct (Nat.eqb_spec (length (g_nodes (from_edges (map (fun r => (fst (fst r) - 1, snd (fst r) - 1, snd r)%nat) rows)))) n); [|discriminate].
  destruct (Nat.eqb_spec (length (g_edges (from_edges (map (fun r => (fst (fst r) - 1, snd (fst r) - 1, snd r)%nat) rows)))) m); [|discriminate].
  cbn. intros H. inversion H. auto.
Qed.

(** ** Sizes *)
Lemma scan_gen gs : forall s, let r := fold_left (fun s g => {| max_nodes := Nat.max (max_nodes s) (length (g_nodes g)); max_edges := Nat.max (max_edges s) (length (g_edges g));
                           instances := S (instances s) |}) gs s in
  instances r = (instances s + length gs)%nat /\ (max_nodes s <= max_nodes r)%nat /\ (max_edges s <= max_edges r)%nat /\ (forall g, In g gs -> fits r g)
  /\ (max_nodes r = max_nodes s \/ exists g, In g gs /\ length (g_nodes g) = max_nodes r)
  /\ (max_edges r = max_edges s \/ exists g, In g gs /\ length (g_edges g) = max_edges r).
Proof.
  induction gs as [|g gs IH]; intros s; cbn [fold_left].
  - cbv zeta. repeat split; auto; cbn; try lia; contradiction.
  - cbv zeta in *. specialize (IH {| max_nodes := Nat.max (max_nodes s) (length (g_nodes g)); max_edges := Nat.max (max_edges s) (length (g_edges g)); instances := S (instances s) |}).
    cbn [instances max_nodes max_edges] in IH. destruct IH as (A & B & D & F & G & H). cbn [length]. split; [lia|]. split; [lia|]. split; [lia|]. split; [|split].
    + intros h [<-|Hh]; [unfold fits; lia|apply F, Hh].
    + destruct G as [G|(h & Hh & G)]; [|right; exists h; split; [right; exact Hh|auto]]. destruct (Nat.max_spec (max_nodes s) (length (g_nodes g))) as [[_ E]|[_ E]]; [right; exists g; split; [left; reflexivity|lia]|left; lia].
    + destruct H as [H|(h & Hh & H)]; [|right; exists h; split; [right; exact Hh|auto]]. destruct (Nat.max_spec (max_edges s) (length (g_edges g))) as [[_ E]|[_ E]]; [right; exists g; split; [left; reflexivity|lia]|left; lia].
Qed.

Theorem scan_fits gs : (forall g, In g gs -> fits (scan gs) g) /\ instances (scan gs) = length gs.
Proof. destruct (scan_gen gs no_sizes) as (A & _ & _ & F & _). split; auto. Qed.
Theorem scan_tight gs : gs <> [] -> (exists g, In g gs /\ length (g_nodes g) = max_nodes (scan gs)) /\ (exists g, In g gs /\ length (g_edges g) = max_edges (scan gs)).
Proof.
  intros Hne. destruct (scan_gen gs no_sizes) as (_ & _ & _ & F & G & H). fold (scan gs) in *. destruct gs as [|g gs]; [congruence|].
  assert (Hg := F g (or_introl eq_refl)). unfold fits in Hg. cbn [max_nodes max_edges no_sizes] in G, H. split.
  - destruct G as [G|G]; auto. exists g. split; [left; auto|lia].
  - destruct H as [H|H]; auto. exists g. split; [left; auto|lia].
Qed.

Lemma opt_all_map {A B C} (f : A -> option B) (g : A -> C) (h : B -> C) l r : (forall a b, f a = Some b -> h b = g a) -> opt_all (map f l) = Some r -> map h r = map g l.
Proof.
  intros Hf. revert r. induction l as [|a l IH]; intros r H; cbn in *; [inversion H; reflexivity|].
  destruct (f a) eqn:E; [|discriminate]. destruct (opt_all (map f l)); [|discriminate]. inversion H; subst. cbn. f_equal; auto.
Qed.
Lemma combine_fst_in {A B} (l : list A) (m : list B) a : In a (map fst (combine l m)) -> In a l.
Proof. intros H. apply in_map_iff in H. destruct H as ([x y] & <- & H). apply in_combine_l in H. exact H. Qed.

Lemma sat_same {A B C} (h : A -> option B) (c : C) (fs : list A) : forall l gs,
  opt_all (map (fun f => match h f with Some g => Some (g, c) | None => None end) fs) = Some l -> opt_all (map h fs) = Some gs -> map fst l = gs.
Proof.
  induction fs as [|f fs IH]; intros l gs Hl Hg; cbn in *; [inversion Hl; inversion Hg; reflexivity|].
  destruct (h f) as [g|]; [|discriminate]. destruct (opt_all (map (fun f => match h f with Some g => Some (g, c) | None => None end) fs)) as [l'|]; [|discriminate].
  destruct (opt_all (map h fs)) as [gs'|]; [|discriminate]. inversion Hl; inversion Hg; subst. cbn. f_equal. apply IH; auto.
Qed.

Lemma graphs_delivered c d s l : all_given c = false -> readable d -> loader_sizes c d = Some s -> sample_gen d = Some l ->
  exists gs, s = scan gs /\ (forall g, In g (map fst l) -> In g gs) /\ (length l <= length gs)%nat /\ (paired d -> map fst l = gs).
Proof.
  intros Hc Hr Hs Hl. destruct d as [dir|recs|noise gs|dir|gs|dir|dir|dir|g|dir]; cbn [sample_gen loader_sizes readable paired] in *; unfold given_or in *; rewrite ?Hc in *; try contradiction.
  - inversion Hs; subst. exists (map fst (flat_map snd (file_list (starts_with "test-") dir))).
    assert (E : map fst l = map fst (flat_map snd (file_list (starts_with "test-") dir))).
    { apply (opt_all_map with_first); auto. intros [g sols] b. unfold with_first. cbn. destruct sols; [discriminate|]. intros H; inversion H; reflexivity. }
    rewrite E. repeat split; auto. rewrite <- E, map_length. auto.
  - rewrite Hl in Hs. inversion Hs; subst. exists (map fst l). repeat split; auto. rewrite map_length. auto.
  - inversion Hs; subst. inversion Hl; subst. exists gs. 
    assert (E : map fst (map (fun g => (gen_graph false noise g, 1%R)) gs) = gs).
    { rewrite map_map. cbn. clear Hs Hl. induction Hr as [|g gs (n & m & rows & Hg) Hr IH]; cbn; auto. f_equal; [exact (gen_graph_same noise g n m rows Hg)|exact IH]. }
    rewrite E. repeat split; auto. rewrite map_length. auto.
  - inversion Hs; subst. inversion Hl; subst. eexists. split; [reflexivity|]. rewrite !map_map, !map_length. cbn. repeat split; auto.
  - inversion Hs; subst. inversion Hl; subst. exists gs. rewrite map_map, map_id, map_length. repeat split; auto.
  - destruct (opt_all (map (fun f => sat_graph (snd f)) (file_list (ends_with ".cnf") dir))) as [gs|] eqn:Eg; [|discriminate]. inversion Hs; subst. exists gs.
    assert (E : map fst l = gs).
    { exact (sat_same (fun f : string * (nat * list (list Z)) => sat_graph (snd f)) 1%R _ l gs Hl Eg). }
    rewrite E. repeat split; auto. rewrite <- E, map_length. auto.
  - inversion Hs; subst. inversion Hl; subst. eexists. split; [reflexivity|].
    assert (E : map fst (flat_map (fun f : string * list (R * graph) => map (fun r => (snd r, fst r)) (snd f)) (file_list (starts_with "RB") dir))
       = flat_map (fun f => map snd (snd f)) (file_list (starts_with "RB") dir)).
    { clear Hs Hl. induction (file_list (starts_with "RB") dir) as [|f fs IH]; cbn; auto. rewrite map_app, map_map, IH. reflexivity. }
    rewrite E. repeat split; auto. rewrite <- E, map_length. auto.
  - inversion Hs; subst. inversion Hl; subst. eexists. split; [reflexivity|]. split; [|split].
    + intros g Hg. apply in_map_iff in Hg. destruct Hg as ([x y] & <- & H). apply in_flat_map in H. destruct H as (f & Hf & H). apply in_flat_map. exists f. split; auto.
      apply in_combine_l in H. exact H.
    + clear Hs Hl. induction (file_list (starts_with "twitter") dir) as [|f fs IH]; cbn; auto. rewrite !app_length. rewrite combine_length. lia.
    + intros Hp. assert (Hp' : Forall (fun f : string * (list graph * list R) => length (fst (snd f)) = length (snd (snd f))) (file_list (starts_with "twitter") dir)).
      { rewrite Forall_forall in *. intros f Hf. apply Hp. apply (Permutation_in _ (file_list_once _ _)) in Hf. apply filter_In in Hf. apply Hf. }
      clear Hs Hl Hp. induction Hp' as [|f fs Hf Hfs IH]; cbn; auto. rewrite map_app, IH. f_equal. clear IH.
      destruct f as [nm [gs rs]]. cbn in *. clear Hfs. revert rs Hf. induction gs as [|g gs IHg]; intros [|r rs] Hf; try discriminate; cbn; auto. f_equal. apply IHg. cbn in Hf. lia.
  - inversion Hs; subst. inversion Hl; subst. exists [g]. split; [reflexivity|]. cbn. repeat split; auto.
Qed.

Theorem sizes_fit c d s l : all_given c = false -> readable d -> loader_sizes c d = Some s -> sample_gen d = Some l ->
  (forall g r, In (g, r) l -> fits s g) /\ (length l <= instances s)%nat /\ (paired d -> instances s = length l).
Proof.
  intros Hc Hr Hs Hl. destruct (graphs_delivered c d s l Hc Hr Hs Hl) as (gs & -> & Hin & Hlen & Hp). destruct (scan_fits gs) as [F I]. rewrite I. split; [|split; auto].
  - intros g r Hg. apply F, Hin. apply (in_map fst) in Hg. exact Hg.
  - intros H. rewrite <- (Hp H), map_length. reflexivity.
Qed.

(** ** Arrays of the delivered graphs *)
Theorem fits_shape s pw g : fits s g -> length (ep_edges (graph2edges (max_edges s) pw g)) = max_edges s /\ length (ep_mask (graph2edges (max_edges s) pw g)) = max_edges s.
Proof.
  intros [_ H]. unfold graph2edges, padded_edges. cbn [ep_edges ep_mask]. rewrite !app_length, map_length, !repeat_length.
  destruct (Nat.ltb_spec 0 (max_edges s)), (Nat.ltb_spec (length (g_edges g)) (max_edges s)); cbn [andb]; lia.
Qed.
Theorem overflow_shape s pw g : (max_edges s < length (g_edges g))%nat -> length (ep_edges (graph2edges (max_edges s) pw g)) = length (g_edges g).
Proof.
  intros H. unfold graph2edges, padded_edges. cbn [ep_edges]. rewrite app_length, map_length, repeat_length.
  destruct (Nat.ltb_spec (length (g_edges g)) (max_edges s)); [lia|]. rewrite andb_false_r. lia.
Qed.

(** ** References *)
Lemma label_sum_fold labels : label_sum labels = fold_right (fun l a => match l with Some z => z + a | None => a end)%Z 0%Z labels.
Proof. induction labels as [|[z|] l IH]; cbn; rewrite ?IH; reflexivity. Qed.
Theorem er_reference_spec labels : er_reference labels <> 0%Z /\ (label_sum labels <> 0%Z -> er_reference labels = label_sum labels) /\ (label_sum labels = 0%Z -> er_reference labels = 1%Z).
Proof.
  unfold er_reference. rewrite <- label_sum_fold. destruct (Z.eqb_spec (label_sum labels) 0) as [E|E]; repeat split; auto; try lia.
Qed.

(** ** Dispatch *)
Lemma prefix_two a b t : starts_with (String a (String b "")) t = true -> exists r, t = String a (String b r).
Proof.
  unfold starts_with. destruct t as [|x t]; cbn; [discriminate|]. destruct (ascii_dec a x) as [->|]; [|discriminate].
  destruct t as [|y t]; cbn; [discriminate|]. destruct (ascii_dec b y) as [->|]; [|discriminate]. intros _. eauto.
Qed.
