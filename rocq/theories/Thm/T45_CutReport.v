(** The table of normalised-cut runs. *)
From Coq Require Import Reals String Ascii List Bool ZArith Arith Lia Lra Permutation Sorted.
From Verif.Base Require Import RSum.
From Verif.Spec Require Import ConfigSpec LaunchSpec GraphSpec ToolSpec ReportSpec CutSpec.
From Verif.Model Require Import Utils Tools Launch Report CutReport RunConfigs.
From Verif.Proof Require Import UtilsProof LaunchProof ToolsProof2 ReportText ReportNames ReportSheets ReportRun ReportMore ReportShipped CutReportProof.
Import ListNotations.
Local Open Scope string_scope.
Local Open Scope list_scope.

(** * C105: one row per run, with the name of its sampler, the fraction of cut edges and the balance of the groups *)
(** The settings of a run are read back from the name of its folder. *)
Theorem C105_read repr i kw t : kw <> [] ->
  (forall k v, In (k, v) kw -> exists v', short_value v = Some v' /\ plain repr k v') -> NoDup (map (fun kv => short_key (fst kv)) kw) ->
  sweep_str repr kw = Some t -> exists d, cut_settings (id_text i ++ "_" ++ t)%string = Some d /\ Forall2 (read_as repr) kw d.
Proof. exact (cut_read repr i kw t). Qed.
Example C105_read_case : exists kw t, kw = [("config.experiment.chain_length", LInt 800000); ("model_config.cfg_str", LStr "r-VGG"); ("sampler_config.name", LStr "dlmc"); ("sampler_config.n", LInt 500)] /\
  (forall k v, In (k, v) kw -> exists v', short_value v = Some v' /\ plain py_repr k v') /\ NoDup (map (fun kv => short_key (fst kv)) kw) /\ sweep_str py_repr kw = Some t /\
  cut_settings (id_text 12 ++ "_" ++ t)%string = Some [("chain_length", "800000"); ("cfg_str", "r-VGG"); ("name", "dlmc"); ("n", "500")].
Proof.
  eexists. eexists. split; [reflexivity|]. split; [|split; [|split; [vm_compute; reflexivity|vm_compute; reflexivity]]].
  - intros k v Hin. cbn in Hin. decompose [or] Hin; try contradiction; match goal with E : (_, _) = (_, _) |- _ => injection E as <- <- end; (eexists; split; [reflexivity|]); vm_compute; repeat split; try discriminate; try (intros c Hc K; decompose [or] Hc; try contradiction; subst c; decompose [or] K; try contradiction; discriminate).
  - vm_compute. repeat constructor; cbn; intuition discriminate.
Qed.
(** A value that contains commas: what follows the first comma is passed over, the other settings are read as before. *)
Theorem C105_comma i pre k v p rest : free_of "_" i -> (forall q, In q (pre ++ (k ++ "=" ++ v)%string :: p :: rest) -> free_of "," q) -> free_of "=" k -> free_of "=" v -> free_of "=" p ->
  cut_settings (i ++ "_" ++ String.concat "," (pre ++ (k ++ "=" ++ v)%string :: p :: rest))%string = cut_settings (i ++ "_" ++ String.concat "," (pre ++ (k ++ "=" ++ v)%string :: rest))%string.
Proof. exact (cut_comma i pre k v p rest). Qed.
Example C105_comma_case : cut_settings "7_n=5,shape=(100, 50),name='gwg'" = Some [("n", "5"); ("shape", "(100"); ("name", "gwg")].
Proof. reflexivity. Qed.
(** Whenever the tool writes a table: the header, and per folder, in the order of the names, one row. *)
Theorem C105_table n es load listing hd rows : simple n es -> (forall f x, In f listing -> load f = Some x -> List.length x = n) ->
  cut_report (seq 0 n) (unit_weights es) load listing = Some (hd, rows) ->
  exists fs, Permutation fs listing /\ StronglySorted (fun a b => String.leb a b = true) fs /\ hd = ["sampler"; "cut ratio"; "balanceness"] /\
  Forall2 (fun f row => exists d x, cut_settings f = Some d /\ load f = Some x /\ fst row = cut_text d /\
    snd row = (INR (cut_edges (part_of x) es) / INR (List.length es), 1 - imbalance x n 3)%R) fs rows.
Proof. exact (cut_table n es load listing hd rows). Qed.
Example C105_table_case : let es := [(0, 1); (1, 2)] in let load := fun f => Some (if String.eqb f "1_name='gwg'" then [0; 1; 2] else [0; 0; 1]) in
  simple 3 es /\ cut_report (seq 0 3) (unit_weights es) load ["2_name='randomwalk'"; "1_name='gwg'"] = Some (["sampler"; "cut ratio"; "balanceness"],
    [("gwg", (INR 2 / INR 2, 1 - imbalance [0; 1; 2]%nat 3 3)%R); ("rmw", (INR 1 / INR 2, 1 - imbalance [0; 0; 1]%nat 3 3)%R)]).
Proof.
  cbv zeta. assert (S3 : simple 3 [(0, 1); (1, 2)]).
  { split; [intros u v [E|[E|[]]]; injection E as <- <-; repeat split; lia|]. cbn. repeat constructor; cbn; intuition discriminate. }
  split; [exact S3|]. unfold cut_report. change (sort_by String.leb ["2_name='randomwalk'"; "1_name='gwg'"]) with ["1_name='gwg'"; "2_name='randomwalk'"]. cbn [map]. unfold cut_row.
  change (cut_settings "1_name='gwg'") with (Some [("name", "gwg")]). change (cut_settings "2_name='randomwalk'") with (Some [("name", "randomwalk")]). cbv iota.
  change (cut_process [("name", "gwg")]) with (Some [("name", "gwg")]). change (cut_process [("name", "randomwalk")]) with (Some [("name", "rmw")]). cbv iota.
  change (String.eqb "1_name='gwg'" "1_name='gwg'") with true. change (String.eqb "2_name='randomwalk'" "1_name='gwg'") with false. cbv iota.
  rewrite !(cut_scores 3 [(0, 1); (1, 2)]) by (try exact S3; try discriminate; try reflexivity; repeat constructor). reflexivity.
Qed.
(** Which runs the tool can read: then there is a table. *)
Theorem C105_total n es load listing : simple n es -> es <> [] ->
  (forall f, In f listing -> exists d x, cut_settings f = Some d /\ look "name" d <> None /\ load f = Some x /\ List.length x = n /\ Forall (fun g => g < 3) x) ->
  exists rows, cut_report (seq 0 n) (unit_weights es) load listing = Some (["sampler"; "cut ratio"; "balanceness"], rows).
Proof. exact (cut_total n es load listing). Qed.
Example C105_total_case : forall f, In f ["2_name='randomwalk'"; "1_n=500,name='dlmc',adaptive=False"] -> exists d x, cut_settings f = Some d /\ look "name" d <> None /\ (fun _ : string => Some [0; 1; 2]) f = Some x /\ List.length x = 3 /\ Forall (fun g => g < 3) x.
Proof. intros f [<-|[<-|[]]]; eexists; eexists; (split; [reflexivity|]); (split; [discriminate|]); (split; [reflexivity|]); (split; [reflexivity|]); repeat constructor. Qed.
(** The two scores lie between 0 and 1; balance 1 means groups of equal size. *)
Theorem C105_scores n es x r : simple n es -> List.length x = n -> cut_evaluate 3 (seq 0 n) (unit_weights es) x = Some r ->
  (0 <= fst r <= 1 /\ (fst r = 0 <-> forall u v, In (u, v) es -> part_of x u = part_of x v) /\
   0 <= snd r <= 1 /\ (snd r = 1 <-> forall g, (g < 3)%nat -> (3 * group_size (part_of x) n g = n)%nat))%R.
Proof. exact (score_bounds n es x r). Qed.
Example C105_scores_case : let es := [(0, 1); (1, 2)] in simple 3 es /\ cut_evaluate 3 (seq 0 3) (unit_weights es) [0; 1; 2] = Some (INR 2 / INR 2, 1 - imbalance [0; 1; 2]%nat 3 3)%R.
Proof.
  cbv zeta. assert (S3 : simple 3 [(0, 1); (1, 2)]).
  { split; [intros u v [E|[E|[]]]; injection E as <- <-; repeat split; lia|]. cbn. repeat constructor; cbn; intuition discriminate. }
  split; [exact S3|]. apply (cut_scores 3 [(0, 1); (1, 2)]); [exact S3|discriminate|reflexivity|repeat constructor].
Qed.
(** The five shipped sweeps over computation graphs: all runs finished, one row for each, no two with the same name. *)
Theorem C105_shipped nm j extra root jobs fs n es load : In (nm, j) shipped_sweeps ->
  In nm ["co/normcut/alexnet"; "co/normcut/inception"; "co/normcut/mnist"; "co/normcut/resnet"; "co/normcut/vgg"] ->
  ConfigSpec.dict extra -> launch py_repr j extra root = Some jobs -> job_folders root jobs fs ->
  simple n es -> es <> [] -> (forall f, In f fs -> exists x, load f = Some x /\ List.length x = n /\ Forall (fun g => g < 3) x) ->
  exists l rows, all_sweeps (j_sweep j) = Some l /\ cut_report (seq 0 n) (unit_weights es) load fs = Some (["sampler"; "cut ratio"; "balanceness"], rows) /\
    List.length rows = List.length jobs /\ NoDup (map fst rows) /\
    Forall2 (fun kw f => exists d x row, Forall2 (read_as py_repr) kw d /\ load f = Some x /\ In row rows /\ fst row = cut_text d /\
      snd row = (INR (cut_edges (part_of x) es) / INR (List.length es), 1 - imbalance x n 3)%R) l fs.
Proof.
  intros H1 H2 H3 H4 H5 H6 H7 H8. destruct (nets_table nm j extra root jobs fs n es load H1 H2 H3 H4 H5 H6 H7 H8) as (l & rows & A & B & C & D & E). exists l, rows. repeat (split; [assumption|]).
  eapply Forall2_impl2; [|exact E]. intros kw f (d & row & X1 & X2 & X3 & (_ & x & _ & X4 & _ & X5)). exists d, x, row. auto.
Qed.
Example C105_shipped_case : exists jobs fs, In ("co/normcut/vgg", normcut_vgg) shipped_sweeps /\ launch py_repr normcut_vgg [] "/results" = Some jobs /\ job_folders "/results" jobs fs /\ List.length jobs = 12 /\
  option_map cut_text (cut_settings (nth 9 fs "")) = Some "dlmcf-nA-10000" /\ option_map cut_text (cut_settings (nth 5 fs "")) = Some "pafs".
Proof.
  exists (match launch py_repr normcut_vgg [] "/results" with Some l => l | None => [] end), (match sweep_folders normcut_vgg with Some l => map snd l | None => [] end). split; [apply (nth_error_In _ 38); reflexivity|]. split; [vm_compute; reflexivity|]. split.
  - apply check_folders_sound. vm_compute. reflexivity.
  - split; [vm_compute; reflexivity|]. split; vm_compute; reflexivity.
Qed.
(** Except for two samplers a run has the name the other reports give it. *)
Theorem C105_same d : look "name" d <> Some "randomwalk" -> look "name" d <> Some "path_auxiliary" -> cut_text d = sampler_text d.
Proof. exact (cut_same d). Qed.
Example C105_same_case : cut_text [("name", "dmala"); ("adaptive", "False"); ("balancing_fn_type", "SQRT")] = "dmala-nA(s)".
Proof. reflexivity. Qed.
(** Random walk and path auxiliary are called differently. *)
Theorem C105_name_refuted : exists f d d', cut_settings f = Some d /\ get_experiment_config f = Some d' /\ d = d' /\ cut_text d <> sampler_text d' /\ get_color (cut_text d) = None /\ get_color (sampler_text d') <> None.
Proof. exists "3_name='randomwalk'", [("name", "randomwalk")], [("name", "randomwalk")]. repeat split; try reflexivity; vm_compute; discriminate. Qed.
(** One run without results, and no table is written for any of the others. *)
Theorem C105_missing_refuted : exists n es load f g, simple n es /\ (exists row, cut_report (seq 0 n) (unit_weights es) load [f] = Some (["sampler"; "cut ratio"; "balanceness"], [row])) /\
  load g = None /\ cut_report (seq 0 n) (unit_weights es) load [f; g] = None.
Proof.
  exists 3, [(0, 1); (1, 2)], (fun f => if String.eqb f "1_name='gwg'" then Some [0; 1; 2] else None), "1_name='gwg'", "2_name='dmala'". assert (S3 : simple 3 [(0, 1); (1, 2)]).
  { split; [intros u v [E|[E|[]]]; injection E as <- <-; repeat split; lia|]. cbn. repeat constructor; cbn; intuition discriminate. }
  split; [exact S3|]. split; [|split; [reflexivity|]].
  - eexists. unfold cut_report. cbn [sort_by fold_right insert_by map]. unfold cut_row. change (cut_settings "1_name='gwg'") with (Some [("name", "gwg")]). cbv iota.
    change (cut_process [("name", "gwg")]) with (Some [("name", "gwg")]). cbv iota. change (String.eqb "1_name='gwg'" "1_name='gwg'") with true. cbv iota.
    rewrite (cut_scores 3 [(0, 1); (1, 2)]) by (try exact S3; try discriminate; try reflexivity; repeat constructor). reflexivity.
  - unfold cut_report. change (sort_by String.leb ["1_name='gwg'"; "2_name='dmala'"]) with ["1_name='gwg'"; "2_name='dmala'"]. cbn [map].
    assert (E : cut_row 3 (seq 0 3) (unit_weights [(0, 1); (1, 2)]) (fun f => if String.eqb f "1_name='gwg'" then Some [0; 1; 2] else None) "2_name='dmala'" = None) by reflexivity.
    rewrite E. cbn [all_or_none]. destruct (cut_row _ _ _ _ _); reflexivity.
Qed.
(** The partition is saved by node label, the matrix follows the order in which the graph lists its nodes: in a graph that lists them
    differently the wrong edges are counted. *)
Theorem C105_order_refuted : exists order es x r, Permutation order (seq 0 3) /\ simple 3 es /\ List.length x = 3 /\ cut_edges (part_of x) es = 0 /\
  cut_evaluate 3 order (unit_weights es) x = Some r /\ fst r = 1%R.
Proof.
  exists [0; 2; 1], [(0, 1)], [0; 0; 1]. eexists. split; [|split; [|split; [reflexivity|split; [reflexivity|split; [reflexivity|]]]]].
  - cbn. constructor. apply perm_swap.
  - split; [intros u v [E|[]]; injection E as <- <-; repeat split; lia|]. repeat constructor. intros [].
  - cbn [fst]. unfold cut_ratio, num_cut_adj_mat, matrix, adj_matrix, unit_weights. cbn. destruct (Req_EM_T 1 1); [|congruence]. destruct (Req_EM_T 0 1); [lra|]. cbn. lra.
Qed.
(** Results in different folders are written to different files; unless the path is given with a slash at the end. *)
Theorem C105_csv a b a' b' : free ["/"%char] b -> free ["/"%char] b' -> cut_csv (a ++ "/" ++ b)%string = cut_csv (a' ++ "/" ++ b')%string -> b = b'.
Proof.
  intros H H'. rewrite (csv_of a b), (csv_of a' b') by (try apply H; try apply H'; left; reflexivity). intros E. apply append_cancel in E. apply (f_equal list_ascii_of_string) in E. rewrite !chars_app in E. apply app_inv_tail in E. apply chars_inj, E.
Qed.
Example C105_csv_case : cut_csv "./discs/common/discs-normcut-vgg_57805067" = "./discs/common/normcut_csv/discs-normcut-vgg_57805067/res.csv".
Proof. reflexivity. Qed.
Theorem C105_slash_refuted : exists a b b', b <> b' /\ free ["/"%char] b /\ free ["/"%char] b' /\ cut_csv (a ++ "/" ++ b ++ "/")%string = cut_csv (a ++ "/" ++ b' ++ "/")%string.
Proof.
  exists "results", "vgg", "mnist". split; [discriminate|]. split; [|split; [|reflexivity]]; intros c [<-|[]] K; cbn in K; intuition discriminate.
Qed.
(** Keys written with their section are read by their last part, by the report as well. *)
Theorem C102_dotted ps v : ps <> [] -> (forall p, In p ps -> free [","; "="; "."]%char p) -> ps <> ["cfg_str"] -> v <> "" -> free [","; "="; "'"; "("]%char v ->
  read_part (String.concat "." ps ++ "=" ++ v)%string = Some [(List.last ps "", v)].
Proof. exact (dotted_part ps v). Qed.
Example C102_dotted_case : get_experiment_config "4_sampler_config.step_size=0.2,sampler_config.name='dmala'" = Some [("step_size", "0.2"); ("name", "dmala")].
Proof. reflexivity. Qed.

Print Assumptions C105_read.
Print Assumptions C105_comma.
Print Assumptions C105_table.
Print Assumptions C105_total.
Print Assumptions C105_scores.
Print Assumptions C105_shipped.
Print Assumptions C105_same.
Print Assumptions C105_name_refuted.
Print Assumptions C105_missing_refuted.
Print Assumptions C105_order_refuted.
Print Assumptions C105_csv.
Print Assumptions C105_slash_refuted.
Print Assumptions C102_dotted.
