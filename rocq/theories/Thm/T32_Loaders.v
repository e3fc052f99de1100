(** C90: the graph data sets: which files, in which order, with which sizes and reference values. *)
From Coq Require Import String Ascii Reals ZArith List Arith Bool Permutation Lia Lra.
From Verif.Model Require Import CombOpt GraphGen Loaders.
From Verif.Spec Require Import GraphData.
From Verif.Proof Require Import LoadersProof.
Import ListNotations.

(** The order in which the file system lists a folder has no effect on the instances, their order, or the sizes. *)
Theorem C90_order : forall d1 d2 c, same_data d1 d2 -> sample_gen d1 = sample_gen d2 /\ loader_sizes c d1 = loader_sizes c d2.
Proof. exact same_instances. Qed.
Example C90_order_case : let g := {| g_nodes := [0; 1]; g_edges := [((0, 1), 1%R)] |} in let h := {| g_nodes := [0; 1; 2]; g_edges := [] |} in
  sample_gen (DErTest [("ER_b"%string, (h, [])); ("notes.txt"%string, (g, [])); ("ER_a"%string, (g, [Some 1%Z; None]))]) = Some [(g, 1%R); (h, 1%R)]
  /\ same_data (DErTest [("ER_b"%string, (h, [])); ("ER_a"%string, (g, [Some 1%Z; None]))]) (DErTest [("ER_a"%string, (g, [Some 1%Z; None])); ("ER_b"%string, (h, []))]).
Proof. split; [reflexivity|]. constructor. split; [apply perm_swap|]. repeat constructor; cbn; intuition discriminate. Qed.
Print Assumptions C90_order.

(** Exactly the files whose name matches are read, each once. *)
Theorem C90_files : forall {A} keep (dir : list (string * A)),
  Permutation (file_list keep dir) (filter (fun f => keep (fst f)) dir) /\ forall f, In f (file_list keep dir) <-> In f dir /\ keep (fst f) = true.
Proof.
  intros A keep dir. split; [apply file_list_once|]. intros f. rewrite <- (filter_In (fun f => keep (fst f))). split; apply Permutation_in; [|symmetry]; apply file_list_once.
Qed.
Example C90_files_case : map fst (file_list (starts_with "test-") [("test-2"%string, 0); ("train-1"%string, 1); ("test-10"%string, 2)]) = ["test-10"%string; "test-2"%string].
Proof. reflexivity. Qed.
Print Assumptions C90_files.

(** Sizes found by reading: every delivered instance fits; the reported number of instances is the number delivered. *)
Theorem C90_sizes : forall c d s l, all_given c = false -> readable d -> loader_sizes c d = Some s -> sample_gen d = Some l ->
  (forall g r, In (g, r) l -> fits s g) /\ length l <= instances s /\ (paired d -> instances s = length l).
Proof. exact sizes_fit. Qed.
Example C90_sizes_case : let g := {| g_nodes := [0; 1; 2]; g_edges := [((0, 1), 3%R); ((1, 2), 4%R)] |} in
  optsicom_graph 3 2 [((1, 2), 3%R); ((2, 3), 4%R)] = Some g /\ readable (DOptsicom (fun _ w => w) [g])
  /\ loader_sizes {| max_nodes := 7; max_edges := 0; instances := 9 |} (DOptsicom (fun _ w => w) [g]) = Some {| max_nodes := 3; max_edges := 2; instances := 1 |}
  /\ sample_gen (DOptsicom (fun _ w => w) [g]) = Some [(g, 1%R)].
Proof. cbn. repeat split. constructor; [|constructor]. exists 3, 2, [((1, 2), 3%R); ((2, 3), 4%R)]. reflexivity. Qed.
Print Assumptions C90_sizes.

(** They are no larger than needed. *)
Theorem C90_sizes_tight : forall gs, gs <> [] ->
  (exists g, In g gs /\ length (g_nodes g) = max_nodes (scan gs)) /\ (exists g, In g gs /\ length (g_edges g) = max_edges (scan gs)).
Proof. exact scan_tight. Qed.
Example C90_sizes_tight_case : scan [{| g_nodes := [0; 1]; g_edges := [((0, 1), 1%R)] |}; {| g_nodes := [0; 1; 2]; g_edges := [] |}] = {| max_nodes := 3; max_edges := 1; instances := 2 |}.
Proof. reflexivity. Qed.
Print Assumptions C90_sizes_tight.

(** Configured sizes are used when all three are positive, whatever the files contain; given in part they are ignored. *)
Theorem C90_configured : forall c d s, loader_sizes c d = Some s -> readable d ->
  match d with
  | DStatic _ | DOptsicom _ _ | DDensity _ | DNets _ => forall c', loader_sizes c' d = Some s
  | _ => let given := fun c => 0 < max_nodes c /\ 0 < max_edges c /\ 0 < instances c in
         (given c -> s = c) /\ (~ given c -> forall c', ~ given c' -> loader_sizes c' d = Some s)
  end.
Proof.
  intros c d s H Hr. assert (G : forall c, all_given c = true <-> 0 < max_nodes c /\ 0 < max_edges c /\ 0 < instances c).
  { intros c'. unfold all_given. rewrite !andb_true_iff, !Nat.ltb_lt. tauto. }
  destruct d; cbn [loader_sizes readable] in *; unfold given_or in *; try (intros c'; exact H); try contradiction; cbv zeta; rewrite <- G;
    (split; [intros E; rewrite E in H; inversion H; reflexivity|]; intros E c'; rewrite <- G; intros E'; apply not_true_is_false in E, E'; rewrite E in H; rewrite E'; exact H).
Qed.
Example C90_configured_case : all_given {| max_nodes := 800; max_edges := 0; instances := 128 |} = false /\ all_given {| max_nodes := 800; max_edges := 47885; instances := 128 |} = true.
Proof. split; reflexivity. Qed.
Print Assumptions C90_configured.

(** The reference of a random or static max-cut instance is the first of its solutions; without one the pass raises. *)
Theorem C90_first_solution : forall rs : list (graph * (R * list R)),
  sample_gen (DStatic (map (fun r => (fst r, fst (snd r) :: snd (snd r))) rs)) = Some (map (fun r => (fst r, fst (snd r))) rs) /\
  sample_gen (DRand [("test-0"%string, map (fun r => (fst r, fst (snd r) :: snd (snd r))) rs)]) = Some (map (fun r => (fst r, fst (snd r))) rs) /\
  forall before g after, sample_gen (DStatic (before ++ (g, []) :: after)) = None.
Proof.
  assert (A : forall rs : list (graph * (R * list R)), opt_all (map with_first (map (fun r => (fst r, fst (snd r) :: snd (snd r))) rs)) = Some (map (fun r => (fst r, fst (snd r))) rs)).
  { induction rs as [|r rs IH]; [reflexivity|]. cbn [map opt_all with_first snd fst]. rewrite IH. reflexivity. }
  intros rs. split; [apply A|]. split; [cbn; rewrite app_nil_r; apply A|].
  intros before g after. cbn [sample_gen]. induction before as [|b before IH]; [reflexivity|]. cbn [app map opt_all]. rewrite IH. destruct (with_first b); reflexivity.
Qed.
Example C90_first_solution_case : let g := {| g_nodes := [0; 1]; g_edges := [((0, 1), 1%R)] |} in sample_gen (DStatic [(g, [5%R; 7%R])]) = Some [(g, 5%R)].
Proof. reflexivity. Qed.
Print Assumptions C90_first_solution.

(** Configured sizes are not checked against the files: an instance may have more edges than reported, and then its arrays have another
    length than those of its neighbours, which cannot be stacked. *)
Theorem C90_configured_refuted : exists c d s l g r h q, all_given c = true /\ readable d /\ loader_sizes c d = Some s /\ sample_gen d = Some l
  /\ In (g, r) l /\ In (h, q) l /\ ~ fits s g /\ fits s h
  /\ length (ep_edges (graph2edges (max_edges s) 0 g)) <> length (ep_edges (graph2edges (max_edges s) 0 h)).
Proof.
  set (h := {| g_nodes := [0; 1]; g_edges := [((0, 1), 1%R)] |}). set (g := {| g_nodes := [0; 1]; g_edges := [((0, 1), 1%R); ((0, 0), 1%R)] |}).
  exists {| max_nodes := 2; max_edges := 1; instances := 2 |}, (DErTest [("ER_0"%string, (h, [])); ("ER_1"%string, (g, []))]). do 2 eexists. exists g, 1%R, h, 1%R.
  split; [reflexivity|]. split; [exact I|]. split; [reflexivity|]. split; [reflexivity|]. split; [right; left; reflexivity|]. split; [left; reflexivity|].
  split; [intros [_ H]; cbn in H; lia|]. split; [split; cbn; lia|]. cbn. lia.
Qed.
Print Assumptions C90_configured_refuted.

(** The random partitioning graphs take the configured sizes without reading anything (0 when not configured). *)
Theorem C90_gap_refuted : exists dir s l g r, loader_sizes no_sizes (DGap dir) = Some s /\ sample_gen (DGap dir) = Some l /\ In (g, r) l /\ ~ fits s g /\ instances s <> length l.
Proof.
  exists [("a.pkl"%string, {| g_nodes := [0; 1]; g_edges := [((0, 1), 1%R)] |})]. do 2 eexists. exists {| g_nodes := [0; 1]; g_edges := [((0, 1), 1%R)] |}, 1%R.
  split; [reflexivity|]. split; [reflexivity|]. split; [left; reflexivity|]. split; [intros [H _]; cbn in H; lia|]. cbn. lia.
Qed.
Print Assumptions C90_gap_refuted.

(** Clique data: graphs and solutions are paired up to the shorter list, while the number of instances is that of the graphs. *)
Theorem C90_twitter_refuted : exists dir s l, loader_sizes no_sizes (DTwitter dir) = Some s /\ sample_gen (DTwitter dir) = Some l /\ length l < instances s.
Proof.
  exists [("twitter_0"%string, ([{| g_nodes := [0; 1]; g_edges := [((0, 1), 1%R)] |}; {| g_nodes := [0]; g_edges := [] |}], [2%R]))]. do 2 eexists.
  split; [reflexivity|]. split; [reflexivity|]. cbn. lia.
Qed.
Print Assumptions C90_twitter_refuted.

(** Graphs that fit give edge arrays of one length, so that they can be stacked. *)
Theorem C90_stackable : forall s pw g, fits s g ->
  length (ep_edges (graph2edges (max_edges s) pw g)) = max_edges s /\ length (ep_mask (graph2edges (max_edges s) pw g)) = max_edges s.
Proof. exact fits_shape. Qed.
Example C90_stackable_case : let s := {| max_nodes := 3; max_edges := 4; instances := 1 |} in let g := {| g_nodes := [0; 1]; g_edges := [((0, 1), 1%R)] |} in
  fits s g /\ length (ep_edges (graph2edges (max_edges s) 0 g)) = 4 /\ fits no_sizes {| g_nodes := []; g_edges := [] |}.
Proof. cbn. unfold fits. cbn. repeat split; lia. Qed.
Print Assumptions C90_stackable.
(** One that does not fit is never cut short. *)
Theorem C90_never_cut : forall s pw g, max_edges s < length (g_edges g) -> length (ep_edges (graph2edges (max_edges s) pw g)) = length (g_edges g).
Proof. exact overflow_shape. Qed.
Example C90_never_cut_case : length (ep_edges (graph2edges (max_edges no_sizes) 0 {| g_nodes := [0; 1]; g_edges := [((0, 1), 1%R)] |})) = 1.
Proof. reflexivity. Qed.
Print Assumptions C90_never_cut.

(** The benchmark max-cut instances are delivered unchanged, with the node and edge counts of the header, and the noise has no effect. *)
Theorem C90_optsicom : forall noise n m rows g, optsicom_graph n m rows = Some g ->
  gen_graph false noise g = g /\ length (g_nodes g) = n /\ length (g_edges g) = m /\ sample_gen (DOptsicom noise [g]) = Some [(g, 1%R)].
Proof.
  intros noise n m rows g H. assert (E := gen_graph_same noise g n m rows H). destruct (optsicom_counts n m rows g H). cbn. rewrite E. repeat split; auto.
Qed.
Example C90_optsicom_case : optsicom_graph 3 2 [((2, 1), 3%R); ((3, 2), 4%R); ((1, 2), 5%R)] = Some {| g_nodes := [1; 0; 2]; g_edges := [((1, 0), 5%R); ((2, 1), 4%R)] |}
  /\ optsicom_graph 4 2 [((2, 1), 3%R); ((3, 2), 4%R)] = None.
Proof. split; reflexivity. Qed.
Print Assumptions C90_optsicom.
(** The option for random weights is thus without effect on what is delivered, though it would change the weights. *)
Theorem C90_random_weights_refuted : exists noise g, gen_graph true noise g <> g /\ sample_gen (DOptsicom noise [g]) = Some [(g, 1%R)].
Proof.
  exists (fun _ w => (w + 1)%R), {| g_nodes := [0; 1]; g_edges := [((0, 1), 1%R)] |}. split; [|reflexivity].
  cbn. intros H. apply (f_equal g_edges) in H. cbn in H. injection H as H. lra.
Qed.
Print Assumptions C90_random_weights_refuted.

(** Reference value of an independent-set instance: the number of labelled nodes, never 0; the reported ratio does not use it. *)
Theorem C90_reference : forall labels, er_reference labels <> 0%Z
  /\ (label_sum labels <> 0%Z -> er_reference labels = label_sum labels) /\ (label_sum labels = 0%Z -> er_reference labels = 1%Z).
Proof. exact er_reference_spec. Qed.
Example C90_reference_case : er_reference [Some 1%Z; None; Some 0%Z; Some 1%Z] = 2%Z /\ er_reference [None; None] = 1%Z.
Proof. split; reflexivity. Qed.
Print Assumptions C90_reference.
Theorem C90_mis_ratio : forall refs, ref_obj false refs = refs /\ forall r, In r (ref_obj true refs) -> r = 1%R.
Proof. intros refs. split; auto. intros r H. apply in_map_iff in H. destruct H as (x & <- & _). reflexivity. Qed.
Example C90_mis_ratio_case : ref_obj true [5%R; 7%R] = [1%R; 1%R].
Proof. reflexivity. Qed.
Print Assumptions C90_mis_ratio.

(** The shipped settings name data sets of their own problem, and the longer prefixes win. *)
Theorem C90_dispatch : forall p t r l, In (p, t) [(Maxcut, "ba"); (Maxcut, "er"); (Maxcut, "optsicom"); (Mis, "er_density"); (Mis, "ertest"); (Mis, "satlib");
    (Maxclique, "rb"); (Maxclique, "twitter"); (Normcut, "gap_rand"); (Normcut, "nets")]%string -> get_graphs t r = Some l -> loader_problem l = p.
Proof. intros p t r l H. cbn in H. intuition; match goal with E : _ = (p, t) |- _ => injection E as <- <- end; cbn in *; try (destruct (String.eqb r "b")); inversion H0; reflexivity. Qed.
Example C90_dispatch_case : get_graphs "optsicom" "b" = Some LStatic /\ get_graphs "optsicom" "c" = Some LOptsicom /\ get_graphs "clique" "" = None.
Proof. repeat split; reflexivity. Qed.
Print Assumptions C90_dispatch.
Theorem C90_prefixes : forall x r, get_graphs ("ertest" ++ x) r = Some LErTest /\ get_graphs ("er_density" ++ x) r = Some LDensity
  /\ get_graphs ("satlib" ++ x) r = Some LSat /\ get_graphs ("ba" ++ x) r = Some LRand /\ get_graphs ("er-" ++ x) r = Some LRand.
Proof. intros x r. repeat split; destruct x; reflexivity. Qed.
Example C90_prefixes_case : get_graphs "ertest-800" "" = Some LErTest /\ get_graphs "er-0.15" "" = Some LRand.
Proof. split; reflexivity. Qed.
Print Assumptions C90_prefixes.

(** The shipped sizes of the preferential-attachment graphs: [n] nodes with four edges per added node always fit; by name alone, other
    attachment numbers are given the same sizes, which are then too small. *)
Theorem C90_ba_sizes : forall t n, 0 < max_nodes (ba_sizes t) -> n <= max_nodes (ba_sizes t) -> 4 * (n - 4) <= max_edges (ba_sizes t).
Proof.
  intros t n. unfold ba_sizes, by_range. destruct (ends_with "1024-1100" t); [|destruct (ends_with "512-600" t); [|destruct (ends_with "256-300" t)]]; cbn [max_nodes max_edges]; intros; lia.
Qed.
Example C90_ba_sizes_case : max_nodes (ba_sizes "ba-4-n-256-300") = 300 /\ max_edges (ba_sizes "ba-4-n-256-300") = 4 * (300 - 4) /\ max_nodes (ba_sizes "ba-4-n-16-20") = 0.
Proof. repeat split; reflexivity. Qed.
Print Assumptions C90_ba_sizes.
Theorem C90_ba_density_refuted : exists m t n, t = "ba-8-n-256-300"%string /\ n <= max_nodes (ba_sizes t) /\ max_edges (ba_sizes t) < m * (n - m).
Proof. exists 8, "ba-8-n-256-300"%string, 300. split; [reflexivity|]. split; apply Nat.leb_le; vm_compute; reflexivity. Qed.
Print Assumptions C90_ba_density_refuted.
