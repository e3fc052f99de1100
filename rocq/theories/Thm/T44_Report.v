(** The report tool: what it reads from the folders of finished runs, its tables and its bars. *)
From Coq Require Import String Ascii List Bool ZArith Arith Lia Permutation Sorted.
From Verif.Spec Require Import ConfigSpec LaunchSpec ReportSpec.
From Verif.Model Require Import Utils Tools Launch Report RunConfigs.
From Verif.Proof Require Import UtilsProof LaunchProof ReportText ReportNames ReportSheets ReportRun ReportMore ReportShipped.
Import ListNotations.
Local Open Scope string_scope.
Local Open Scope list_scope.

(** * C102: the name of a folder tells the settings of the run *)
(** Plain settings are read back one by one. *)
Theorem C102_read repr i kw t : kw <> [] ->
  (forall k v, In (k, v) kw -> exists v', short_value v = Some v' /\ plain repr k v') -> NoDup (map (fun kv => short_key (fst kv)) kw) ->
  sweep_str repr kw = Some t -> ~ occurs "cfg_str" t ->
  exists d, get_experiment_config (id_text i ++ "_" ++ t)%string = Some d /\ Forall2 (read_as repr) kw d.
Proof. exact (folder_read repr i kw t). Qed.
Example C102_read_case : exists kw t, kw = [("config.experiment.chain_length", LInt 10000); ("model_config.lambdaa", LFloat 4407 4); ("sampler_config.name", LStr "dmala"); ("sampler_config.adaptive", LBool false)] /\
  (forall k v, In (k, v) kw -> exists v', short_value v = Some v' /\ plain py_repr k v') /\ NoDup (map (fun kv => short_key (fst kv)) kw) /\ sweep_str py_repr kw = Some t /\
  get_experiment_config (id_text 12 ++ "_" ++ t)%string = Some [("chain_length", "10000"); ("lambdaa", "0.4407"); ("name", "dmala"); ("adaptive", "False")].
Proof.
  eexists. eexists. split; [reflexivity|]. split; [|split; [|split; [vm_compute; reflexivity|vm_compute; reflexivity]]].
  - intros k v Hin. cbn in Hin. decompose [or] Hin; try contradiction; match goal with E : (_, _) = (_, _) |- _ => injection E as <- <- end; (eexists; split; [reflexivity|]); vm_compute; repeat split; try discriminate; try (intros c Hc K; decompose [or] Hc; try contradiction; subst c; decompose [or] K; try contradiction; discriminate).
  - vm_compute. repeat constructor; cbn; intuition discriminate.
Qed.
(** Numbers as Python prints them, also small ones. *)
Example C102_repr_case : map py_repr [LFloat 1 5; LFloat 25 6; LFloat 1 4; LFloat 5 1; LFloat 10 1; LFloat (-25) 1; LInt (-3); LBool true; LStr "a"] = ["1e-05"; "2.5e-05"; "0.0001"; "0.5"; "1.0"; "-2.5"; "-3"; "True"; "'a'"].
Proof. reflexivity. Qed.
(** The names of graph settings. *)
Theorem C102_cfg i a x b d : ~ occurs "cfg_str" a -> (a = ""%string \/ exists a', a = (a' ++ ",")%string) -> free [","%char; "'"%char] x ->
  get_experiment_config (id_text i ++ "_" ++ a ++ "cfg_str='r-" ++ x ++ "'" ++ b)%string = Some d -> look "cfg_str" d = Some x.
Proof. exact (cfg_read i a x b d). Qed.
Example C102_cfg_case : get_experiment_config (id_text 3 ++ "_" ++ "" ++ "cfg_str='r-" ++ "800" ++ "'" ++ ",name='gwg'")%string = Some [("name", "gwg"); ("cfg_str", "800")].
Proof. reflexivity. Qed.
(** All settings of all shipped sweeps: of the text of a tuple its first number. *)
Theorem C102_shipped nm j extra root jobs fs : In (nm, j) shipped_sweeps -> ConfigSpec.dict extra -> launch py_repr j extra root = Some jobs -> job_folders root jobs fs ->
  exists l, all_sweeps (j_sweep j) = Some l /\
  Forall2 (fun kw f => exists d, get_experiment_config f = Some d /\
    (forall k v, In (k, v) kw -> k <> "config.experiment.name" -> exists x, look (short_key k) d = Some x /\ read_shipped py_repr (k, v) (short_key k, x)) /\
    (forall k x, look k d = Some x -> exists k' v, In (k', v) kw /\ short_key k' = k)) l fs.
Proof.
  intros Hj He HL HF. pose proof shipped_keys as SK. rewrite forallb_forall in SK. pose proof shipped_ok as SO. rewrite forallb_forall in SO. specialize (SK _ Hj). specialize (SO _ Hj). cbn [snd] in *.
  destruct (folders_launch j extra root jobs fs SK He HL HF) as (L & EL & Ef & Ea). unfold sweep_ok in SO. rewrite EL in SO. do 3 (apply andb_prop in SO; destruct SO as (SO & _)). exists (map fst L). split; [exact Ea|]. subst fs.
  clear - SO. induction L as [|kf L IH]; cbn in *; constructor; apply andb_prop in SO; destruct SO as (S1 & S2); [apply folder_ok_sound, S1|apply IH, S2].
Qed.
Example C102_shipped_case : exists jobs fs, In ("co/mis/er_800_015_penalty", mis_er_800_015_penalty) shipped_sweeps /\ launch py_repr mis_er_800_015_penalty [] "/results" = Some jobs /\ job_folders "/results" jobs fs /\
  exists f d, nth_error fs 5 = Some f /\ get_experiment_config f = Some d /\ 3 <= List.length d /\ look "cfg_str" d = Some "800".
Proof.
  exists (match launch py_repr mis_er_800_015_penalty [] "/results" with Some l => l | None => [] end), (match sweep_folders mis_er_800_015_penalty with Some l => map snd l | None => [] end). split; [apply (nth_error_In _ 28); reflexivity|]. split; [vm_compute; reflexivity|]. split.
  - apply check_folders_sound. vm_compute. reflexivity.
  - eexists. eexists. split; [vm_compute; reflexivity|]. split; [vm_compute; reflexivity|]. split; [cbn; lia|vm_compute; reflexivity].
Qed.
(** In a sweep over lists of shapes the runs of two shapes can be read the same. *)
Theorem C102_tuple_refuted : exists kw kw' t t', kw <> kw' /\ map fst kw = map fst kw' /\ sweep_str py_repr kw = Some t /\ sweep_str py_repr kw' = Some t' /\
  forall i, get_experiment_config (id_text i ++ "_" ++ t)%string = get_experiment_config (id_text i ++ "_" ++ t')%string.
Proof.
  exists [("model_config.shape", LStr "(200, 50)"); ("sampler_config.name", LStr "gwg")], [("model_config.shape", LStr "(200, 10)"); ("sampler_config.name", LStr "gwg")].
  eexists. eexists. split; [discriminate|]. split; [reflexivity|]. split; [vm_compute; reflexivity|]. split; [vm_compute; reflexivity|].
  intros i. unfold get_experiment_config. cbn [append]. rewrite !past_app by (apply not_numeral; reflexivity). vm_compute. reflexivity.
Qed.
(** A swept name of the experiment hides the sampler when it is listed after it. *)
Theorem C102_name_refuted : exists kw t, look "sampler_config.name" kw = Some (LStr "gwg") /\ sweep_str py_repr kw = Some t /\
  forall i, exists d, get_experiment_config (id_text i ++ "_" ++ t)%string = Some d /\ forall k v, look k d = Some v -> v <> "gwg".
Proof.
  exists [("sampler_config.name", LStr "gwg"); ("config.experiment.name", LStr "EBM_Experiment")]. eexists. split; [reflexivity|]. split; [vm_compute; reflexivity|].
  intros i. eexists. split.
  - unfold get_experiment_config. cbn [append]. rewrite !past_app by (apply not_numeral; reflexivity). vm_compute. reflexivity.
  - intros k v. cbn. destruct (String.eqb k "name"); [|discriminate]. intros H. injection H as <-. discriminate.
Qed.

(** * C103: every result stands under the sampler that produced it *)
(** The name given to a run, and the settings that stay. *)
Theorem C103_name d d' : process_keys d = Some d' ->
  look "name" d <> None /\ look "name" d' = Some (sampler_text d) /\
  (forall k, into_name d k -> look k d' = None) /\ (forall k, k <> "name" -> ~ into_name d k -> look k d' = look k d).
Proof. exact (processed d d'). Qed.
Example C103_name_case : process_keys [("chain_length", "100"); ("name", "dlmc"); ("solver", "euler_forward"); ("adaptive", "False"); ("step_size", "0.2"); ("balancing_fn_type", "SQRT")]
  = Some [("chain_length", "100"); ("name", "dlmcf-nA0.2(s)")].
Proof. reflexivity. Qed.
(** The tables: all finished runs that have the key, each in one table, with the runs that agree on the other settings; in the table a row per
    name and in a row the results of the runs of that name. *)
Theorem C103_tables (X : Type) (load : string -> option (option (table X))) to_int key listing shs ticks :
  (forall f, In f listing -> is_figure f = false) -> (forall f r, load f = Some (Some r) -> NoDup (map fst r)) ->
  report to_int key load listing = Some (shs, ticks) ->
  exists gs es, Forall2 (shows key) gs shs /\ runs_with load (group_key key) listing es /\ Permutation (concat gs) es /\ forall g, In g gs -> g <> [] /\ alike (group_key key) g.
Proof. exact (report_tables X load to_int key listing shs ticks). Qed.
(** The rows are in the order of the families of samplers. *)
Theorem C103_order (X : Type) (load : string -> option (option (table X))) to_int key listing shs ticks : report to_int key load listing = Some (shs, ticks) ->
  forall sh, In sh shs -> StronglySorted (fun a b => family a <= family b) (map fst (sh_rows sh)) /\ forall n, In n (map fst (sh_rows sh)) -> known n.
Proof.
  unfold report. destruct (get_ticks _ _ _) as [[folders tk]|]; [|discriminate]. destruct (all_or_none _) as [ess|]; [|discriminate]. cbv zeta. destruct (organize _ _ _) as [[|s0 ss]|]; [discriminate| |discriminate].
  intros H. assert (E : shs = map sort_sheet (s0 :: ss)) by congruence. rewrite E. intros sh Hs. apply in_map_iff in Hs. destruct Hs as (sh0 & <- & _). split; [apply rows_ordered|].
  intros n Hn. apply (Permutation_in _ (Permutation_map fst (sort_sheet_perm X sh0))) in Hn. apply in_map_iff in Hn. destruct Hn as (nr & <- & Hf). apply filter_In in Hf. apply place_known. destruct Hf as (_ & Hf). destruct (place (fst nr)); [discriminate|discriminate Hf].
Qed.
Example C103_tables_case : exists listing shs ticks, (forall f, In f listing -> is_figure f = false) /\ (forall f r, signed f = Some (Some r) -> NoDup (map fst r)) /\ report py_int "name" signed listing = Some (shs, ticks) /\
  map (fun sh => (sh_title sh, sh_rows sh)) shs =
  [("shape=20,name=gwg(s),", [("rwm", [("ess_ee", ["2_shape='(20, 20)',name='randomwalk'"])]); ("gwg(s)", [("ess_ee", ["1_shape='(20, 20)',name='gwg',balancing_fn_type='SQRT'"])])]);
   ("shape=30,name=rwm,", [("rwm", [("ess_ee", ["3_shape='(30, 30)',name='randomwalk'"])])])].
Proof.
  exists ["1_shape='(20, 20)',name='gwg',balancing_fn_type='SQRT'"; "2_shape='(20, 20)',name='randomwalk'"; "3_shape='(30, 30)',name='randomwalk'"]. eexists. eexists. split; [|split; [|split; [vm_compute; reflexivity|reflexivity]]].
  - intros f Hf. cbn in Hf. decompose [or] Hf; subst; try contradiction; reflexivity.
  - intros f r Hr. injection Hr as <-. repeat constructor; cbn; tauto.
Qed.
(** Different tables are written to different files, when keys and values have no separators. *)
Theorem C103_files (X : Type) (load : string -> option (option (table X))) to_int key listing shs ticks : (forall f, In f listing -> is_figure f = false) ->
  (forall f e k v, In f listing -> read_run load f e -> In (k, v) (fst e) -> free_of "="%char k /\ free_of ","%char v) ->
  report to_int key load listing = Some (shs, ticks) -> NoDup (map sh_title shs).
Proof. intros Hf Hc. apply (report_files X load to_int key listing shs ticks Hf). intros f e H1 H2 k v H3. exact (Hc f e k v H1 H2 H3). Qed.
Example C103_files_case : forall f e k v, In f ["1_shape='(20, 20)',name='gwg'"; "3_shape='(30, 30)',name='randomwalk'"] -> read_run signed f e -> In (k, v) (fst e) -> free_of "="%char k /\ free_of ","%char v.
Proof.
  intros f e k v [<-|[<-|[]]] (d & d' & H1 & H2 & -> & _); vm_compute in H1; injection H1 as <-; vm_compute in H2; injection H2 as <-; vm_compute; intuition (try congruence);
    repeat match goal with H : (_, _) = (_, _) |- _ => injection H as <- <- end; repeat match goal with H : _ \/ _ |- _ => destruct H as [H|H] end; try discriminate; try contradiction.
Qed.
(** The csv file of a table: its rows in order, a column for every result, in the cells the values of the table. *)
Theorem C103_csv (X : Type) (sh : sheet X) head rows : csv_rows sh = Some (head, rows) ->
  map fst rows = map fst (sh_rows sh) /\ exists cols, head = "sampler" :: cols /\
  (forall n row k, In (n, row) (sh_rows sh) -> In k (map fst row) -> In k cols) /\
  Forall2 (fun nc nr => fst nc = fst nr /\ snd nc = map (fun k => look k (snd nr)) cols) rows (sh_rows sh).
Proof. exact (csv_cells X sh head rows). Qed.
Example C103_csv_case : csv_rows {| sh_title := ""; sh_rows := [("gwg", [("a", [1]); ("b", [2])]); ("pas", [("b", [4]); ("a", [3])])] |}
  = Some (["sampler"; "a"; "b"], [("gwg", [Some [1]; Some [2]]); ("pas", [Some [3]; Some [4]])]).
Proof. reflexivity. Qed.
(** With the key 'name', every run of every shipped sweep has a row of its own, under the name of its sampler. *)
Theorem C103_shipped (X : Type) (load : string -> option (option (table X))) nm j extra root jobs fs listing to_int shs ticks :
  In (nm, j) shipped_sweeps -> ConfigSpec.dict extra -> launch py_repr j extra root = Some jobs -> job_folders root jobs fs -> Permutation listing fs ->
  (forall f, In f fs -> exists r, load f = Some (Some r)) -> (forall f r, load f = Some (Some r) -> NoDup (map fst r)) ->
  report to_int "name" load listing = Some (shs, ticks) ->
  (forall f r k x, In f fs -> load f = Some (Some r) -> look k r = Some x ->
     exists d sh row, get_experiment_config f = Some d /\ In sh shs /\ look (sampler_text d) (sh_rows sh) = Some row /\ look k row = Some [x]) /\
  (forall sh n row k l, In sh shs -> look n (sh_rows sh) = Some row -> look k row = Some l ->
     exists f r d x, In f fs /\ load f = Some (Some r) /\ get_experiment_config f = Some d /\ n = sampler_text d /\ look k r = Some x /\ l = [x]).
Proof. exact (shipped_rows X load nm j extra root jobs fs listing to_int shs ticks). Qed.
Example C103_shipped_case : exists jobs fs shs ticks, In ("co/mis/er_800_015_penalty", mis_er_800_015_penalty) shipped_sweeps /\ launch py_repr mis_er_800_015_penalty [] "/results" = Some jobs /\ job_folders "/results" jobs fs /\
  (forall f, In f fs -> exists r, signed f = Some (Some r)) /\ report py_int "name" signed fs = Some (shs, ticks) /\ List.length fs = 32 /\ List.length (flat_map sh_rows shs) = 32.
Proof.
  exists (match launch py_repr mis_er_800_015_penalty [] "/results" with Some l => l | None => [] end), (match sweep_folders mis_er_800_015_penalty with Some l => map snd l | None => [] end), (match report py_int "name" signed (match sweep_folders mis_er_800_015_penalty with Some l => map snd l | None => [] end) with Some (shs, _) => shs | None => [] end), (match report py_int "name" signed (match sweep_folders mis_er_800_015_penalty with Some l => map snd l | None => [] end) with Some (_, t) => t | None => [] end). split; [apply (nth_error_In _ 28); reflexivity|]. split; [vm_compute; reflexivity|]. split.
  - apply check_folders_sound. vm_compute. reflexivity.
  - split; [intros f _; eexists; reflexivity|]. split; [vm_compute; reflexivity|]. split; vm_compute; reflexivity.
Qed.
(** The colour of a sampler. *)
Theorem C103_colour d n : look "name" d = Some n -> In n ["hammingball"; "blockgibbs"; "randomwalk"; "path_auxiliary"; "gwg"; "dmala"] ->
  get_color (sampler_text d) = look n [("hammingball", "blue"); ("blockgibbs", "orange"); ("randomwalk", "green"); ("path_auxiliary", "saddlebrown"); ("gwg", "red"); ("dmala", "purple")].
Proof. intros H Hn. unfold sampler_text. rewrite H. cbn [or_empty]. cbn in Hn. match goal with |- context [(short_sampler n ++ ?r)%string] => generalize r end. intros r. decompose [or] Hn; try contradiction; subst n; destruct r; reflexivity. Qed.
Theorem C103_colour_dlmc d : look "name" d = Some "dlmc" -> look "adaptive" d = None ->
  get_color (sampler_text d) = Some (if String.eqb (or_empty (look "solver" d)) "euler_forward" then "gray" else "pink").
Proof.
  intros H Ha. unfold sampler_text. rewrite H, Ha. cbn [or_empty]. destruct (String.eqb (or_empty (look "solver" d)) "euler_forward"); [match goal with |- context [(short_sampler "dlmc" ++ "f" ++ ?r)%string] => generalize r end; intros [|c r]; reflexivity|]. change (short_sampler "dlmc") with "dlmc". cbn [append].
  destruct (look "balancing_fn_type" d) as [b|]; [|reflexivity]. unfold lbf_text. cbn [look]. destruct (String.eqb b "SQRT"); [reflexivity|]. destruct (String.eqb b "RATIO"); [reflexivity|]. destruct (String.eqb b "MIN"); [reflexivity|]. destruct (String.eqb b "MAX"); reflexivity.
Qed.
Example C103_colour_case : get_color (sampler_text [("name", "dlmc"); ("solver", "euler_forward"); ("balancing_fn_type", "RATIO")]) = Some "gray" /\ get_color (sampler_text [("name", "dmala"); ("adaptive", "False"); ("step_size", "0.1")]) = Some "purple".
Proof. split; reflexivity. Qed.
(** Samplers the tool does not know are left out without notice. *)
Theorem C103_unknown_refuted : exists listing shs ticks f, In f listing /\ report py_int "name" signed listing = Some (shs, ticks) /\
  get_experiment_config f = Some [("name", "gibbs")] /\ forall sh n row k l, In sh shs -> In (n, row) (sh_rows sh) -> In (k, l) row -> ~ In f l.
Proof.
  exists ["1_name='gibbs'"; "2_name='gwg'"]. eexists. eexists. exists "1_name='gibbs'". split; [left; reflexivity|]. split; [vm_compute; reflexivity|]. split; [reflexivity|].
  intros sh n row k l [<-|[]] [E|[]]. injection E as <- <-. intros [E|[]]. injection E as <- <-. intros [K|[]]. discriminate.
Qed.
(** A saved figure in the directory of the results stops the tool, unless its name comes last. *)
Theorem C103_figure_refuted : exists listing figure, is_figure figure = true /\ (exists r, report py_int "name" signed listing = Some r) /\ report py_int "name" signed (figure :: listing) = None.
Proof. exists ["1_name='gwg'"], "0_fig.png". split; [reflexivity|]. split; [eexists; vm_compute; reflexivity|vm_compute; reflexivity]. Qed.
(** Two runs that differ only in the gradient approximation share a cell. *)
Theorem C103_approx_refuted : exists f f' shs ticks sh row d d', report py_int "name" signed [f; f'] = Some (shs, ticks) /\ get_experiment_config f = Some d /\ get_experiment_config f' = Some d' /\ d <> d' /\
  In sh shs /\ look "gwg" (sh_rows sh) = Some row /\ look "ess_ee" row = Some [f; f'].
Proof.
  exists "1_name='gwg',approx_with_grad=True", "2_name='gwg',approx_with_grad=False". do 6 eexists. split; [vm_compute; reflexivity|]. split; [vm_compute; reflexivity|]. split; [vm_compute; reflexivity|]. split; [discriminate|].
  split; [left; reflexivity|]. split; reflexivity.
Qed.
(** With the key 'balancing_fn_type' a sampler without one loses the last letter of its name, and then has no colour. *)
Theorem C103_balancing_refuted : exists listing shs ticks sh, report py_int "balancing_fn_type" signed listing = Some (shs, ticks) /\ In sh shs /\ In "3_name='randomwalk'" listing /\
  look "rw" (sh_rows sh) = Some [("ess_ee", ["3_name='randomwalk'"])] /\ sampler_text [("name", "randomwalk")] = "rwm" /\ get_color "rw" = None.
Proof.
  exists ["1_name='gwg',balancing_fn_type='SQRT'"; "2_name='gwg',balancing_fn_type='RATIO'"; "3_name='randomwalk'"]. do 3 eexists. split; [vm_compute; reflexivity|]. split; [left; reflexivity|]. split; [right; right; left; reflexivity|].
  split; [reflexivity|]. split; reflexivity.
Qed.

(** * C104: the bars stand over the value of the swept key *)
(** The tick of a run: the value its folder name gives to the key; of a list of numbers written as text the first. *)
Theorem C104_tick to_int key a v rest folder : folder = (a ++ key ++ "=" ++ rest)%string -> first_after a key folder -> free_of ","%char v -> free_of "("%char v ->
  rest = v \/ (exists b, rest = (v ++ "," ++ b)%string) -> tick_of to_int key folder = match to_int v with Some z => TInt z | None => TStr v end.
Proof. intros E F Hv Hp R. rewrite (tick_text to_int key a v rest folder E F Hv R). rewrite contains_not by exact Hp. reflexivity. Qed.
Theorem C104_tick_tuple to_int key a w u rest folder : folder = (a ++ key ++ "=" ++ rest)%string -> first_after a key folder -> free_of ","%char (w ++ "(" ++ u)%string -> free_of "("%char w ->
  rest = (w ++ "(" ++ u)%string \/ (exists b, rest = ((w ++ "(" ++ u) ++ "," ++ b)%string) -> tick_of to_int key folder = match to_int u with Some z => TInt z | None => TStr u end.
Proof.
  intros E F Hv Hp R. rewrite (tick_text to_int key a _ rest folder E F Hv R). cbn [append]. unfold contains. rewrite (index_char "(" w u Hp), (past_app "(" w u Hp). reflexivity.
Qed.
Example C104_tick_case : first_after "7_" "shape" "7_shape='(64, 64)',name='gwg'" /\ tick_of py_int "shape" "7_shape='(64, 64)',name='gwg'" = TInt 64 /\ tick_of py_int "chain_length" "7_name='gwg',chain_length=100" = TInt 100.
Proof.
  split; [|split; reflexivity]. split; [eexists; reflexivity|]. intros x y H. destruct x as [|c [|d x]]; [discriminate|discriminate|cbn; lia].
Qed.
(** The values of a row are those of runs with its name, in the order of their values of the key; with one run per tick they are those of the ticks. *)
Theorem C104_values (X : Type) (load : string -> option (option (table X))) to_int key listing shs ticks : NoDup listing -> (forall f, In f listing -> is_figure f = false) -> (forall f r, load f = Some (Some r) -> NoDup (map fst r)) ->
  report to_int key load listing = Some (shs, ticks) ->
  forall sh n row k vals, In sh shs -> look n (sh_rows sh) = Some row -> look k row = Some vals ->
  exists fs, NoDup fs /\ incl fs listing /\ StronglySorted (fun f f' => tick_le (tick_of to_int key f) (tick_of to_int key f') = true) fs /\
    Forall2 (fun f x => exists e, read_run load f e /\ row_name key (fst e) = Some n /\ look k (snd e) = Some x) fs vals /\
    (NoDup (map (tick_of to_int key) fs) -> List.length vals = List.length ticks -> ticks = map (tick_of to_int key) fs).
Proof. exact (report_order X load to_int key listing shs ticks). Qed.
(** A bar for every row; over a tick stands the result of the run with that value, if there is one run for every tick. *)
Theorem C104_bars (X : Type) (load : string -> option (option (table X))) to_int key listing shs ticks zero k : key <> "name" -> NoDup listing -> (forall f, In f listing -> is_figure f = false) -> (forall f r, load f = Some (Some r) -> NoDup (map fst r)) ->
  report to_int key load listing = Some (shs, ticks) ->
  forall sh bs, In sh shs -> bars zero ticks k sh = Some bs -> map fst bs = map fst (sh_rows sh) /\
  forall n b, In (n, b) bs -> exists fs, NoDup fs /\ incl fs listing /\ List.length fs <= List.length ticks /\
    Forall (fun f => exists e x, read_run load f e /\ row_name key (fst e) = Some n /\ look k (snd e) = Some x /\ In x (map snd b)) fs /\
    (NoDup (map (tick_of to_int key) fs) -> List.length fs = List.length ticks ->
     Forall2 (fun f tx => exists e, read_run load f e /\ row_name key (fst e) = Some n /\ tick_of to_int key f = fst tx /\ look k (snd e) = Some (snd tx)) fs b).
Proof. intros _. exact (report_bars X load to_int key listing shs ticks zero k). Qed.
Example C104_bars_case : exists listing shs ticks sh, NoDup listing /\ (forall f, In f listing -> is_figure f = false) /\ report py_int "chain_length" signed listing = Some (shs, ticks) /\ In sh shs /\
  bars "0" ticks "ess_ee" sh = Some [("gwg", [(TInt 90, "2_chain_length=90,name='gwg'"); (TInt 100, "1_chain_length=100,name='gwg'")]); ("pas", [(TInt 90, "4_chain_length=90,name='path_auxiliary'"); (TInt 100, "3_chain_length=100,name='path_auxiliary'")])].
Proof.
  exists ["1_chain_length=100,name='gwg'"; "2_chain_length=90,name='gwg'"; "3_chain_length=100,name='path_auxiliary'"; "4_chain_length=90,name='path_auxiliary'"]. do 3 eexists. split; [repeat constructor; cbn; intuition discriminate|]. split.
  - intros f Hf. cbn in Hf. decompose [or] Hf; subst; try contradiction; reflexivity.
  - split; [vm_compute; reflexivity|]. split; [left; reflexivity|vm_compute; reflexivity].
Qed.
(** The labels of the four balancing functions: one each, all different. *)
Theorem C104_labels ticks : NoDup ticks -> (forall t, In t ticks -> In t (map TStr ["'SQRT'"; "'RATIO'"; "'MIN'"; "'MAX'"])) -> List.length (process_ticks ticks) = List.length ticks /\ NoDup (process_ticks ticks).
Proof.
  set (lab := fun t => match t with TStr s => if String.eqb s "'SQRT'" then "sqrt t" else if String.eqb s "'RATIO'" then "t/(t+1)" else if String.eqb s "'MIN'" then "min 1 t" else "max 1 t" | TInt _ => "" end).
  intros N H. assert (E : process_ticks ticks = map lab ticks).
  { clear N. induction ticks as [|t ticks IH]; [reflexivity|]. unfold process_ticks in *. cbn [flat_map map]. rewrite IH by (intros u Hu; apply H; right; exact Hu). pose proof (H t (or_introl eq_refl)) as Ht. cbn in Ht. decompose [or] Ht; try contradiction; subst t; reflexivity. }
  rewrite E, map_length. split; [reflexivity|]. clear E. induction N as [|t ticks Ht N IH]; cbn [map]; constructor; [|apply IH; intros u Hu; apply H; right; exact Hu].
  intros K. apply in_map_iff in K. destruct K as (u & Eu & Hu). apply Ht. assert (u = t); [|subst; exact Hu]. pose proof (H t (or_introl eq_refl)) as A. pose proof (H u (or_intror Hu)) as B. cbn in A, B.
  decompose [or] A; try contradiction; decompose [or] B; try contradiction; subst; try reflexivity; discriminate.
Qed.
Example C104_labels_case : process_ticks [TStr "'RATIO'"; TStr "'SQRT'"] = ["t/(t+1)"; "sqrt t"] /\ process_ticks [TStr "'SQRT'"; TStr "k'"] = ["sqrt t"].
Proof. split; reflexivity. Qed.
(** Without the run of one value, the result of another value stands in its place and the place of that one shows zero. *)
Theorem C104_missing_refuted : exists listing missing shs ticks sh bs b, report py_int "chain_length" (unfinished [missing]) listing = Some (shs, ticks) /\ In sh shs /\ bars "0" ticks "ess_ee" sh = Some bs /\
  look "dmala" bs = Some b /\ In (TInt 200, "6_chain_length=300,name='dmala'") b /\ tick_of py_int "chain_length" "6_chain_length=300,name='dmala'" = TInt 300 /\ In (TInt 300, "0") b.
Proof.
  exists ["1_chain_length=100,name='gwg'"; "2_chain_length=200,name='gwg'"; "3_chain_length=300,name='gwg'"; "4_chain_length=100,name='dmala'"; "5_chain_length=200,name='dmala'"; "6_chain_length=300,name='dmala'"], "5_chain_length=200,name='dmala'".
  do 5 eexists. split; [vm_compute; reflexivity|]. split; [left; reflexivity|]. split; [vm_compute; reflexivity|]. split; [reflexivity|]. split; [right; left; reflexivity|]. split; [reflexivity|right; right; left; reflexivity].
Qed.
(** Values are cut to whole numbers: the sweep of the coupling strength of the Ising model has one tick and no figure. *)
Theorem C104_fraction_refuted : exists jobs fs shs, launch py_repr ising_lamdasweep_small [] "/results" = Some jobs /\ job_folders "/results" jobs fs /\ report py_int "lambdaa" signed fs = Some (shs, [TInt 0]) /\
  shs <> [] /\ forall sh, In sh shs -> bars "0" [TInt 0] "ess_ee" sh = None.
Proof.
  exists (match launch py_repr ising_lamdasweep_small [] "/results" with Some l => l | None => [] end), (match sweep_folders ising_lamdasweep_small with Some l => map snd l | None => [] end),
    (match report py_int "lambdaa" signed (match sweep_folders ising_lamdasweep_small with Some l => map snd l | None => [] end) with Some (shs, _) => shs | None => [] end).
  split; [vm_compute; reflexivity|]. split; [apply check_folders_sound; vm_compute; reflexivity|]. split; [vm_compute; reflexivity|]. split.
  - apply not_empty. vm_compute. reflexivity.
  - apply no_bars. vm_compute. reflexivity.
Qed.

Print Assumptions C102_read.
Print Assumptions C102_cfg.
Print Assumptions C102_shipped.
Print Assumptions C102_tuple_refuted.
Print Assumptions C102_name_refuted.
Print Assumptions C103_name.
Print Assumptions C103_tables.
Print Assumptions C103_order.
Print Assumptions C103_files.
Print Assumptions C103_csv.
Print Assumptions C103_shipped.
Print Assumptions C103_colour.
Print Assumptions C103_colour_dlmc.
Print Assumptions C103_unknown_refuted.
Print Assumptions C103_figure_refuted.
Print Assumptions C103_approx_refuted.
Print Assumptions C103_balancing_refuted.
Print Assumptions C104_tick.
Print Assumptions C104_tick_tuple.
Print Assumptions C104_values.
Print Assumptions C104_bars.
Print Assumptions C104_labels.
Print Assumptions C104_missing_refuted.
Print Assumptions C104_fraction_refuted.
