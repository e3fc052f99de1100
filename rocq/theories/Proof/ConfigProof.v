From Coq Require Import String List Bool ZArith Lia.
From Verif.Spec Require Import ConfigSpec.
From Verif.Model Require Import Config.
Import ListNotations.
Local Open Scope string_scope.

Lemma get_set k k' v s : get k (set k' v s) = if String.eqb k k' then Some v else get k s.
Proof.
  induction s as [| [k2 v2] s IH]; simpl.
  - reflexivity.
  - destruct (String.eqb_spec k' k2) as [-> | N]; simpl.
    + destruct (String.eqb_spec k k2) as [-> | N2]; reflexivity.
    + rewrite IH. destruct (String.eqb_spec k k2) as [-> | N2].
      * destruct (String.eqb_spec k2 k') as [-> | N3]; [congruence | reflexivity].
      * reflexivity.
Qed.

Lemma get_none k s : ~ In k (map fst s) -> get k s = None.
Proof.
  induction s as [| [k2 v2] s IH]; simpl; intros H; [reflexivity |].
  destruct (String.eqb_spec k k2) as [-> | N]; [tauto | apply IH; tauto].
Qed.

Lemma get_update k o : dict o -> forall s, get k (update s o) = first_of [get k o; get k s].
Proof.
  unfold dict. induction o as [| [k2 v2] o IH]; simpl; intros Ho s.
  - destruct (get k s); reflexivity.
  - inversion Ho as [| ? ? Hni Ho' ]; subst. change (update s ((k2, v2) :: o)) with (update (set k2 v2 s) o).
    rewrite (IH Ho'). cbn [first_of]. rewrite get_set.
    destruct (String.eqb_spec k k2) as [-> | N].
    + rewrite (get_none _ _ Hni). reflexivity.
    + reflexivity.
Qed.

Lemma dict_co : dict co_default.
Proof. unfold dict. simpl. repeat constructor; simpl; intuition discriminate. Qed.

Lemma first_of_app {V} (l1 l2 : list (option V)) : first_of (l1 ++ l2) = first_of [first_of l1; first_of l2].
Proof. induction l1 as [| [v |] l1 IH]; simpl; [destruct (first_of l2); reflexivity | reflexivity | rewrite IH; reflexivity]. Qed.

Lemma first_of_last {V} (a : option V) b : first_of [a; first_of b] = first_of (a :: b).
Proof. simpl. destruct a; [reflexivity |]. destruct (first_of b); reflexivity. Qed.

Definition dict_config (c : config) : Prop := dict (c_model c) /\ dict (c_sampler c) /\ dict (c_exp c).

Lemma get_merge_model k c o : dict_config o -> get k (c_model (merge c o)) = first_of [get k (c_model o); get k (c_model c)].
Proof. intros (H & _ & _). apply get_update, H. Qed.
Lemma get_merge_sampler k c o : dict_config o -> get k (c_sampler (merge c o)) = first_of [get k (c_sampler o); get k (c_sampler c)].
Proof. intros (_ & H & _). apply get_update, H. Qed.
Lemma get_merge_exp k c o : dict_config o -> get k (c_exp (merge c o)) = first_of [get k (c_exp o); get k (c_exp c)].
Proof. intros (_ & _ & H). apply get_update, H. Qed.

(** *** The classical path *)

Section CLASSICAL.
Variables (gc : graph_configs) (ef : config) (mf sf : section).
Hypotheses (He : dict_config ef) (Hm : dict mf) (Hs : dict sf).

Lemma classical_main :
  get "graph_type" mf = None -> get "bert_model" mf = None ->
  get "graph_type" (c_model ef) = None -> get "bert_model" (c_model ef) = None ->
  exists c, get_main_config gc ef mf sf = Some c /\
    (forall k, get k (c_exp c) = first_of [get k (c_exp ef); get k (c_exp common_config)]) /\
    (forall k, get k (c_model c) = first_of [get k mf; get k (c_model ef); get k (c_model common_config)]) /\
    (forall k, get k (c_sampler c) = first_of [get k sf; get k (c_sampler ef); get k (c_sampler common_config)]).
Proof.
  intros Hg Hb Hg' Hb'. unfold get_main_config, has, get_true. rewrite Hg, Hb.
  cbn [negb andb]. cbn [c_model c_sampler c_exp].
  rewrite (get_update _ _ Hm), Hg, (get_merge_model "graph_type" _ _ He), Hg'. cbn [first_of get common_config c_model String.eqb Ascii.eqb Bool.eqb].
  cbn [c_model]. rewrite (get_update _ _ Hm), Hb, (get_merge_model "bert_model" _ _ He), Hb'. cbn [first_of get common_config c_model String.eqb Ascii.eqb Bool.eqb].
  eexists; split; [reflexivity |]. cbn [c_model c_sampler c_exp].
  split; [| split]; intros k.
  - rewrite (get_merge_exp _ _ _ He). reflexivity.
  - rewrite (get_update _ _ Hm), (get_merge_model _ _ _ He). (etransitivity; [apply first_of_last | reflexivity]).
  - rewrite (get_update _ _ Hs), (get_merge_sampler _ _ _ He). (etransitivity; [apply first_of_last | reflexivity]).
Qed.

(** *** The graph path *)

Lemma graph_main g n s gm :
  get "graph_type" mf = Some g -> truthy g = true -> get "name" mf = Some n -> get "cfg_str" mf = Some s ->
  gc n g s = Some gm -> dict gm -> get "bert_model" mf = None -> get "bert_model" gm = None -> get "bert_model" (c_model ef) = None ->
  forall c, get_main_config gc ef mf sf = Some c ->
    (forall k, get k (c_model c) = first_of [get k (c_model ef); get k gm; get k mf; get k (c_model common_config)]) /\
    (forall k, get k (c_sampler c) = first_of [get k (c_sampler ef); get k sf; get k (c_sampler common_config)]) /\
    (forall k, get k (c_exp c) = if String.eqb k "num_models" then get k (c_model c)
       else first_of [get k (c_exp ef); get k co_default; get k (c_exp common_config)]).
Proof.
  intros Hg Ht Hn Hc Hgc Hgm Hb Hb1 Hb2 c. unfold get_main_config, has, get_true. rewrite Hg.
  cbn [negb andb]. cbn [c_model c_sampler c_exp].
  rewrite (get_update "graph_type" _ Hm), Hg. cbn [first_of]. rewrite Ht.
  unfold graph_part. cbn [c_model c_sampler c_exp].
  rewrite (get_update "name" _ Hm), Hn. cbn [first_of]. rewrite (get_update "graph_type" _ Hm), Hg. cbn [first_of].
  rewrite (get_update "cfg_str" _ Hm), Hc. cbn [first_of]. rewrite Hgc.
  set (c3 := merge _ ef).
  assert (EM : forall k, get k (c_model c3) = first_of [get k (c_model ef); get k gm; get k mf; get k (c_model common_config)]).
  { intros k. unfold c3. rewrite (get_merge_model _ _ _ He). cbn [c_model]. rewrite (get_update _ _ Hgm), (get_update _ _ Hm).
    cbn [first_of]. destruct (get k (c_model ef)); [reflexivity |]. destruct (get k gm); [reflexivity |]. destruct (get k mf); [reflexivity |]. destruct (get k (c_model common_config)); reflexivity. }
  assert (ES : forall k, get k (c_sampler c3) = first_of [get k (c_sampler ef); get k sf; get k (c_sampler common_config)]).
  { intros k. unfold c3. rewrite (get_merge_sampler _ _ _ He). cbn [c_sampler]. rewrite (get_update _ _ Hs). (etransitivity; [apply first_of_last | reflexivity]). }
  assert (EE : forall k, get k (c_exp c3) = first_of [get k (c_exp ef); get k co_default; get k (c_exp common_config)]).
  { intros k. unfold c3. rewrite (get_merge_exp _ _ _ He). cbn [c_exp]. rewrite (get_update _ _ dict_co). (etransitivity; [apply first_of_last | reflexivity]). }
  destruct (get "num_models" (c_model c3)) as [m |] eqn:Em; [| discriminate].
  cbn [c_model c_sampler c_exp]. rewrite (EM "bert_model"), Hb2, Hb1, Hb. cbn [first_of get common_config c_model String.eqb Ascii.eqb Bool.eqb].
  intros [= <-]. cbn [c_model c_sampler c_exp].
  split; [exact EM | split; [exact ES |]].
  intros k. rewrite get_set. destruct (String.eqb_spec k "num_models") as [-> | N]; [symmetry; exact Em | apply EE].
Qed.

Lemma infill_main b :
  get "graph_type" mf = None -> get "bert_model" mf = Some b -> truthy b = true ->
  exists c, get_main_config gc ef mf sf = Some c /\
    (forall k, get k (c_model c) = first_of [get k (c_model ef); get k mf; get k (c_model common_config)]) /\
    (forall k, get k (c_sampler c) = first_of [get k (c_sampler ef); get k sf; get k (c_sampler common_config)]) /\
    (forall k, get k (c_exp c) = first_of [get k (c_exp ef); get k (c_exp common_config)]).
Proof.
  intros Hg Hb Ht. unfold get_main_config, has, get_true. rewrite Hg, Hb. cbn [negb andb]. cbn [c_model c_sampler c_exp].
  rewrite (get_update "graph_type" _ Hm), Hg. cbn [first_of get common_config c_model String.eqb Ascii.eqb Bool.eqb].
  cbn [c_model]. rewrite (get_update "bert_model" _ Hm), Hb. cbn [first_of]. rewrite Ht.
  eexists; split; [reflexivity |]. split; [| split]; intros k.
  - rewrite (get_merge_model _ _ _ He). cbn [c_model]. rewrite (get_update _ _ Hm). (etransitivity; [apply first_of_last | reflexivity]).
  - rewrite (get_merge_sampler _ _ _ He). cbn [c_sampler]. rewrite (get_update _ _ Hs). (etransitivity; [apply first_of_last | reflexivity]).
  - rewrite (get_merge_exp _ _ _ He). reflexivity.
Qed.
End CLASSICAL.

(** *** Save directory *)
Lemma save_dir_main c c' : update_save_dir true c = Some c' ->
  exists folder, first_of [get "save_dir_name" (c_model c); get "name" (c_model c)] = Some (VStr folder) /\
    get "save_root" (c_exp c') = Some (VStr ("./discs/results/" ++ folder)) /\
    c_model c' = c_model c /\ c_sampler c' = c_sampler c /\ (forall k, k <> "save_root" -> get k (c_exp c') = get k (c_exp c)).
Proof.
  unfold update_save_dir. intros H.
  destruct (get "save_dir_name" (c_model c)) as [[f | | |] |] eqn:E1; try discriminate;
    [| destruct (get "name" (c_model c)) as [[f | | |] |] eqn:E2; try discriminate];
    injection H as <-; exists f; cbn [first_of c_model c_sampler c_exp]; (split; [reflexivity |]);
    rewrite get_set, String.eqb_refl; (split; [reflexivity | split; [reflexivity | split; [reflexivity |]]]);
    intros k Hk; rewrite get_set; destruct (String.eqb_spec k "save_root"); congruence.
Qed.

(** *** Labels *)

Lemma label_depends s s' : get "name" s = get "name" s' -> get "solver" s = get "solver" s' ->
  get "balancing_fn_type" s = get "balancing_fn_type" s' -> (get "adaptive" s = None <-> get "adaptive" s' = None) ->
  sampler_label s = sampler_label s'.
Proof.
  intros E1 E2 E3 E4. unfold sampler_label, has. rewrite <- E1, <- E2, <- E3.
  destruct (get "adaptive" s), (get "adaptive" s'); try reflexivity; exfalso; intuition discriminate.
Qed.

(** The variants that can occur: optional adaptive, solver and balancing keys. *)
Definition solver_of (s : option bool) : section :=
  match s with None => [] | Some true => [("solver", VStr "euler_forward")] | Some false => [("solver", VStr "interpolate")] end.
Definition bal_names : list string := ["RATIO"; "MAX"; "MIN"; "SQRT"].
Definition variants : list (string * bool * option bool * option string) :=
  list_prod (list_prod (list_prod shipped_samplers [true; false]) [None; Some true; Some false]) (None :: map Some bal_names).
Definition vlabel (v : string * bool * option bool * option string) : option string :=
  match v with (n, a, s, b) =>
    sampler_label (("name", VStr n) :: (if a then [("adaptive", VBool true)] else []) ++ solver_of s ++
       match b with None => [] | Some f => [("balancing_fn_type", VStr f)] end)
  end.
Definition is_forward (s : option bool) : bool := match s with Some true => true | _ => false end.
Definition same_variant (v v' : string * bool * option bool * option string) : bool :=
  match v, v' with (n, a, s, b), (n', a', s', b') =>
    String.eqb n n' && Bool.eqb a a' && Bool.eqb (is_forward s) (is_forward s') &&
    match b, b' with None, None => true | Some f, Some f' => String.eqb f f' | _, _ => false end
  end.
Definition ostring_eqb (a b : option string) : bool :=
  match a, b with Some x, Some y => String.eqb x y | None, None => true | _, _ => false end.

Lemma variants_checked : forallb (fun p => forallb (fun q => if ostring_eqb (snd p) (snd q) then same_variant (fst p) (fst q) else true)
   (map (fun v => (v, vlabel v)) variants)) (map (fun v => (v, vlabel v)) variants) = true.
Proof. vm_compute. reflexivity. Qed.

Lemma variants_distinct v v' : In v variants -> In v' variants -> vlabel v = vlabel v' -> same_variant v v' = true.
Proof.
  intros Hv Hv' E. pose proof variants_checked as H. rewrite forallb_forall in H.
  specialize (H (v, vlabel v) (in_map (fun v => (v, vlabel v)) _ _ Hv)). rewrite forallb_forall in H.
  specialize (H (v', vlabel v') (in_map (fun v => (v, vlabel v)) _ _ Hv')). cbn [fst snd] in H. rewrite E in H.
  destruct (vlabel v') as [t |]; cbn [ostring_eqb] in H; [rewrite String.eqb_refl in H |]; exact H.
Qed.

Lemma in_variants n a s b : In n shipped_samplers -> (b = None \/ exists f, b = Some f /\ In f bal_names) -> In (n, a, s, b) variants.
Proof.
  intros Hn Hb. unfold variants. apply in_prod; [apply in_prod; [apply in_prod; [exact Hn | destruct a; simpl; tauto] | destruct s as [[] |]; simpl; tauto] |].
  destruct Hb as [-> | (f & -> & Hf)]; [left; reflexivity | right; apply in_map, Hf].
Qed.

(** The label of any section is the label of its variant. *)
Lemma label_variant s n a so bo : get "name" s = Some (VStr n) ->
  (a = has "adaptive" s) -> get "solver" s = option_map (fun b : bool => VStr (if b then "euler_forward" else "interpolate")) so ->
  get "balancing_fn_type" s = option_map VStr bo -> sampler_label s = vlabel (n, a, so, bo).
Proof.
  intros Hn -> Hs Hb. unfold vlabel. apply label_depends.
  - rewrite Hn. reflexivity.
  - rewrite Hs. destruct (has "adaptive" s), so as [[] |], bo; reflexivity.
  - rewrite Hb. destruct (has "adaptive" s), so as [[] |], bo; reflexivity.
  - unfold has. destruct (get "adaptive" s); destruct so as [[] |], bo; simpl; split; congruence.
Qed.

Lemma labels_distinct s s' n n' so so' bo bo' l :
  In n shipped_samplers -> In n' shipped_samplers ->
  get "name" s = Some (VStr n) -> get "name" s' = Some (VStr n') ->
  get "solver" s = option_map (fun b : bool => VStr (if b then "euler_forward" else "interpolate")) so ->
  get "solver" s' = option_map (fun b : bool => VStr (if b then "euler_forward" else "interpolate")) so' ->
  get "balancing_fn_type" s = option_map VStr bo -> get "balancing_fn_type" s' = option_map VStr bo' ->
  (bo = None \/ exists f, bo = Some f /\ In f bal_names) -> (bo' = None \/ exists f, bo' = Some f /\ In f bal_names) ->
  sampler_label s = Some l -> sampler_label s' = Some l ->
  n = n' /\ (get "adaptive" s = None <-> get "adaptive" s' = None) /\ (so = Some true <-> so' = Some true) /\ bo = bo'.
Proof.
  intros Hn Hn' En En' Es Es' Eb Eb' Hb Hb' L L'.
  rewrite (label_variant s n (has "adaptive" s) so bo En eq_refl Es Eb) in L.
  rewrite (label_variant s' n' (has "adaptive" s') so' bo' En' eq_refl Es' Eb') in L'.
  pose proof (variants_distinct _ _ (in_variants n (has "adaptive" s) so bo Hn Hb) (in_variants n' (has "adaptive" s') so' bo' Hn' Hb')
    (eq_trans L (eq_sym L'))) as V.
  cbn [same_variant] in V. rewrite !andb_true_iff in V. destruct V as (((V1 & V2) & V3) & V4).
  apply String.eqb_eq in V1. apply Bool.eqb_prop in V2. apply Bool.eqb_prop in V3.
  split; [exact V1 | split; [| split]].
  - unfold has in V2. destruct (get "adaptive" s), (get "adaptive" s'); split; congruence.
  - destruct so as [[] |], so' as [[] |]; simpl in V3; try discriminate; split; congruence.
  - destruct bo, bo'; try discriminate; [apply String.eqb_eq in V4; congruence | reflexivity].
Qed.
