(** What the report reads from the folders of the shipped sweeps. *)
From Coq Require Import String Ascii List Bool ZArith NArith Arith Lia Permutation Sorted.
From Verif.Spec Require Import ConfigSpec LaunchSpec ReportSpec.
From Verif.Model Require Import Utils Tools Launch Report RunConfigs.
From Verif.Proof Require Import UtilsProof LaunchProof ToolsProof2 ReportText ReportNames ReportSheets ReportRun ReportMore.
Import ListNotations.
Local Open Scope string_scope.
Local Open Scope list_scope.

(** ** The folders of a sweep file *)
Definition sweep_folders (j : job_config) : option (list (table lit * string)) :=
  match all_sweeps (j_sweep j) with
  | None => None
  | Some l => all_or_none (map (fun ik => option_map (fun t => (snd ik, (id_text (fst ik) ++ "_" ++ t)%string)) (sweep_str py_repr (snd ik))) (combine (seq 1 (List.length l)) l))
  end.
Fixpoint distinct (l : list string) : bool := match l with [] => true | a :: l' => negb (existsb (String.eqb a) l') && distinct l' end.
Lemma absent a l : negb (existsb (String.eqb a) l) = true -> ~ In a l.
Proof. intros H K. apply negb_true_iff in H. assert (existsb (String.eqb a) l = true); [|congruence]. apply existsb_exists. exists a. split; [exact K|apply String.eqb_refl]. Qed.
Lemma distinct_sound l : distinct l = true -> NoDup l.
Proof. induction l as [|a l IH]; cbn; intros H; constructor; apply andb_prop in H; destruct H as (H1 & H2); [apply absent, H1|apply IH, H2]. Qed.
Definition keys_ok (j : job_config) : bool :=
  forallb (fun s => distinct (map fst s) && negb (existsb (String.eqb "config.experiment.save_root") (map fst s))) (j_sweep j).
Lemma shipped_keys : forallb (fun nj => keys_ok (snd nj)) shipped_sweeps = true.
Proof. vm_compute. reflexivity. Qed.
Lemma append_cancel a b c : (a ++ b = a ++ c)%string -> b = c.
Proof. intros H. apply (f_equal list_ascii_of_string) in H. rewrite !chars_app in H. apply app_inv_head in H. apply chars_inj, H. Qed.
Lemma folders_launch j extra root jobs fs : keys_ok j = true -> ConfigSpec.dict extra -> launch py_repr j extra root = Some jobs -> job_folders root jobs fs ->
  exists l, sweep_folders j = Some l /\ fs = map snd l /\ all_sweeps (j_sweep j) = Some (map fst l).
Proof.
  intros Hk He H F. unfold launch in H. unfold sweep_folders. destruct (all_sweeps (j_sweep j)) as [l|] eqn:El; [|discriminate].
  assert (P : forall q, In q l -> ConfigSpec.dict q /\ look "config.experiment.save_root" q = None).
  { intros q Hq. apply (all_sweeps_in _ _ _ El) in Hq. destruct Hq as (s & Hi & Hf & _). unfold keys_ok in Hk. rewrite forallb_forall in Hk. specialize (Hk s Hi). apply andb_prop in Hk. destruct Hk as (K1 & K2).
    rewrite <- Hf in K1, K2. split; [apply distinct_sound, K1|apply look_none, absent, K2]. }
  clear El. assert (P' : forall ik, In ik (combine (seq 1 (List.length l)) l) -> ConfigSpec.dict (snd ik) /\ look "config.experiment.save_root" (snd ik) = None) by (intros [i q] Hq; apply P, (in_combine_r _ _ _ _ Hq)).
  assert (Ec : map snd (combine (seq 1 (List.length l)) l) = l).
  { clear. generalize 1 as s. induction l as [|a l IH]; intros s; cbn; [reflexivity|]. f_equal. apply IH. }
  cut (exists l0, all_or_none (map (fun ik => option_map (fun t => (snd ik, (id_text (fst ik) ++ "_" ++ t)%string)) (sweep_str py_repr (snd ik))) (combine (seq 1 (List.length l)) l)) = Some l0 /\ fs = map snd l0 /\ map snd (combine (seq 1 (List.length l)) l) = map fst l0).
  { intros (l0 & A & B & C). exists l0. split; [exact A|]. split; [exact B|]. congruence. }
  clear Ec P. revert jobs fs H F. generalize dependent (combine (seq 1 (List.length l)) l). clear l. intros c P jobs fs H F. apply all_or_none_some in H. revert jobs fs H F.
  induction c as [|[i q] c IH]; intros jobs fs H F.
  - destruct jobs; [|discriminate]. inversion F; subst. exists []. auto.
  - destruct jobs as [|a jobs]; [discriminate|]. cbn in H. injection H as H1 H2. inversion F as [|? f ? fs' Ha F']; subst. destruct (P (i, q) (or_introl eq_refl)) as (D & R). cbn [snd] in *.
    destruct (make_job_args _ _ _ _ _ _ _ D He H1) as (_ & _ & _ & root' & t & E1 & E2 & E3). rewrite R in E1. injection E1 as <-. rewrite E3 in Ha. injection Ha as Ha. apply append_cancel in Ha. cbn [append] in Ha. injection Ha as Ha.
    destruct (IH (fun ik Hik => P ik (or_intror Hik)) jobs fs' H2 F') as (l & L1 & L2 & L3). exists ((q, (id_text i ++ "_" ++ t)%string) :: l). cbn [map all_or_none fst snd]. rewrite E2. cbn [option_map]. rewrite L1. cbn [option_map].
    split; [reflexivity|]. split; [subst; reflexivity|]. rewrite L3. reflexivity.
Qed.

Fixpoint check_folders (root : string) (jobs : list (table lit)) (fs : list string) : bool :=
  match jobs, fs with
  | [], [] => true
  | a :: jobs', f :: fs' => match look "config.experiment.save_root" a with Some (LStr s) => String.eqb s (root ++ "/" ++ f)%string && check_folders root jobs' fs' | _ => false end
  | _, _ => false
  end.
Lemma check_folders_sound root jobs : forall fs, check_folders root jobs fs = true -> job_folders root jobs fs.
Proof.
  induction jobs as [|a jobs IH]; intros [|f fs] H; try discriminate; [constructor|]. cbn in H. destruct (look "config.experiment.save_root" a) as [[s| | | |]|] eqn:E; try discriminate. apply andb_prop in H. destruct H as (H1 & H2).
  apply String.eqb_eq in H1. constructor; [rewrite E, H1; reflexivity|apply IH, H2].
Qed.

Lemma no_bars {X} (zero : X) ticks k l : forallb (fun sh => match bars zero ticks k sh with None => true | Some _ => false end) l = true -> forall sh, In sh l -> bars zero ticks k sh = None.
Proof. intros F sh Hs. rewrite forallb_forall in F. specialize (F sh Hs). cbn beta in F. destruct (bars zero ticks k sh); [discriminate|reflexivity]. Qed.
Lemma not_empty {A} (l : list A) : (List.length l =? 0)%nat = false -> l <> [].
Proof. intros N K. rewrite K in N. discriminate N. Qed.

(** ** Settings read back *)
Definition reads (kv : string * lit) (x : string) : bool :=
  match snd kv with
  | LStr s => match s with
              | String "(" r => match index 0 "," r with
                                | Some n => String.eqb r (substring 0 n r ++ "," ++ from (1 + n) r) && negb (existsb (Ascii.eqb ",") (list_ascii_of_string (substring 0 n r))) && String.eqb x (substring 0 n r)
                                | None => false
                                end
              | String "r" (String "-" r) => if String.eqb (short_key (fst kv)) "cfg_str" then String.eqb x r else String.eqb x (dashes s)
              | _ => match short_value (LStr s) with Some v => String.eqb x (told py_repr v) | None => false end
              end
  | v => String.eqb x (py_repr v)
  end.
Lemma reads_sound kv x : reads kv x = true -> read_shipped py_repr kv (short_key (fst kv), x).
Proof.
  destruct kv as [k v]. unfold reads, read_shipped. cbn [fst snd]. intros H. split; [reflexivity|]. destruct v as [s|z|z q|b|l]; try (apply String.eqb_eq, H).
  assert (D : (match short_value (LStr s) with Some v => String.eqb x (told py_repr v) | None => false end) = true -> exists v, short_value (LStr s) = Some v /\ x = told py_repr v).
  { destruct (short_value (LStr s)) as [v|]; [|discriminate]. intros E. apply String.eqb_eq in E. exists v. auto. }
  destruct s as [|c s']; [apply D, H|].
  assert (PAR : match index 0 "," s' with
      | Some n => String.eqb s' (substring 0 n s' ++ "," ++ from (1 + n) s') && negb (existsb (Ascii.eqb ",") (list_ascii_of_string (substring 0 n s'))) && String.eqb x (substring 0 n s')
      | None => false end = true -> exists a b, s' = (a ++ "," ++ b)%string /\ free [","%char] a /\ x = a).
  { destruct (index 0 "," s') as [n|]; [|discriminate]. intros E. apply andb_prop in E. destruct E as (E & E3). apply andb_prop in E. destruct E as (E1 & E2). apply String.eqb_eq in E1, E3.
    exists (substring 0 n s'), (from (1 + n) s'). split; [exact E1|]. split; [|exact E3]. intros c' [<-|[]] K. apply negb_true_iff in E2. assert (existsb (Ascii.eqb ",") (list_ascii_of_string (substring 0 n s')) = true); [|congruence].
    apply existsb_exists. exists ","%char. split; [exact K|reflexivity]. }
  destruct s' as [|c2 s2].
  - destruct c as [[] [] [] [] [] [] [] []]; try (apply D, H); try (apply PAR, H).
  - destruct c as [[] [] [] [] [] [] [] []]; try (apply D, H); try (apply PAR, H).
    destruct c2 as [[] [] [] [] [] [] [] []]; try (apply D, H). destruct (String.eqb (short_key k) "cfg_str"); apply String.eqb_eq, H.
Qed.
Definition folder_ok (kf : table lit * string) : bool :=
  match get_experiment_config (snd kf) with
  | Some d => forallb (fun kv => String.eqb (fst kv) "config.experiment.name" || match look (short_key (fst kv)) d with Some x => reads kv x | None => false end) (fst kf)
              && forallb (fun kx => existsb (fun kv => String.eqb (short_key (fst kv)) (fst kx)) (fst kf)) d
  | None => false
  end.
Lemma folder_ok_sound kf : folder_ok kf = true -> exists d, get_experiment_config (snd kf) = Some d /\
  (forall k v, In (k, v) (fst kf) -> k <> "config.experiment.name" -> exists x, look (short_key k) d = Some x /\ read_shipped py_repr (k, v) (short_key k, x)) /\
  (forall k x, look k d = Some x -> exists k' v, In (k', v) (fst kf) /\ short_key k' = k).
Proof.
  unfold folder_ok. destruct (get_experiment_config (snd kf)) as [d|]; [|discriminate]. intros H. apply andb_prop in H. destruct H as (H1 & H2). rewrite forallb_forall in H1, H2. exists d. split; [reflexivity|]. split.
  - intros k v Hk Nk. specialize (H1 _ Hk). cbn [fst] in H1. destruct (String.eqb_spec k "config.experiment.name") as [|_]; [contradiction|]. cbn [orb] in H1. destruct (look (short_key k) d) as [x|]; [|discriminate]. exists x. split; [reflexivity|]. exact (reads_sound (k, v) x H1).
  - intros k x Hk. apply look_in in Hk. specialize (H2 _ Hk). apply existsb_exists in H2. destruct H2 as ([k' v] & Hi & E). apply String.eqb_eq in E. exists k', v. auto.
Qed.

(** ** One row per run *)
Definition settings (f : string) : option (table string) :=
  match get_experiment_config f with Some d => option_map (del "save_samples") (process_keys d) | None => None end.
(** [h] could be the first run of a group with [d]. *)
Definition below (h d : table string) : bool :=
  forallb (fun kv => String.eqb (fst kv) "name" || String.eqb (fst kv) "results" || match look (fst kv) d with Some v => String.eqb v (snd kv) | None => false end) h.
Definition same_name (d d' : table string) : bool := match look "name" d, look "name" d' with Some a, Some b => String.eqb a b | _, _ => true end.
(** Settings that all runs have. *)
Definition common_keys (SS : list (table string)) : list string :=
  filter (fun k => negb (String.eqb k "name") && negb (String.eqb k "results") && forallb (has_key k) SS) (map fst (List.hd [] SS)).
Definition same_at (d d' : table string) (k : string) : bool := match look k d, look k d' with Some a, Some b => String.eqb a b | _, _ => true end.
Definition apart (ks : list string) (d d' : table string) : bool := negb (same_name d d') || negb (forallb (same_at d d') ks).
Fixpoint all_apart (ks : list string) (l : list (table string)) : bool := match l with [] => true | d :: l' => forallb (apart ks d) l' && all_apart ks l' end.
Definition sweep_ok (j : job_config) : bool :=
  match sweep_folders j with
  | None => false
  | Some l => forallb folder_ok l && forallb (fun kf => negb (is_figure (snd kf))) l && distinct (map snd l)
      && match all_or_none (map (fun kf => settings (snd kf)) l) with
         | None => false
         | Some SS => all_apart (common_keys SS) SS && forallb (fun d => match look "name" d with Some n => match place n with Some _ => true | None => false end | None => false end) SS
         end
  end.
Lemma shipped_ok : forallb (fun nj => sweep_ok (snd nj)) shipped_sweeps = true.
Proof. vm_compute. reflexivity. Qed.
Lemma same_name_sym d d' : same_name d d' = same_name d' d.
Proof. unfold same_name. destruct (look "name" d), (look "name" d'); try reflexivity. apply String.eqb_sym. Qed.
Lemma apart_sym ks d d' : apart ks d d' = apart ks d' d.
Proof.
  unfold apart. rewrite same_name_sym. do 2 f_equal. induction ks as [|k ks IH]; cbn; [reflexivity|]. rewrite IH. f_equal. unfold same_at. destruct (look k d), (look k d'); try reflexivity. apply String.eqb_sym.
Qed.
Lemma apart_pairs ks l : all_apart ks l = true -> ForallOrdPairs (fun d d' => apart ks d d' = true) l.
Proof. induction l as [|d l IH]; cbn; intros H; constructor; apply andb_prop in H; destruct H as (H1 & H2); [apply Forall_forall, forallb_forall, H1|apply IH, H2]. Qed.
Lemma apart_below SS h d d' : In h SS -> apart (common_keys SS) d d' = true -> below h d = true -> below h d' = true -> same_name d d' = false.
Proof.
  intros Hh HA Hd Hd'. unfold apart in HA. apply orb_prop in HA. destruct HA as [HA|HA]; [apply negb_true_iff, HA|]. exfalso. apply negb_true_iff in HA.
  assert (forallb (same_at d d') (common_keys SS) = true); [|congruence]. apply forallb_forall. intros k Hk. unfold common_keys in Hk. apply filter_In in Hk. destruct Hk as (_ & Hk). apply andb_prop in Hk. destruct Hk as (Hk & K3). apply andb_prop in Hk. destruct Hk as (K1 & K2).
  apply negb_true_iff in K1, K2. rewrite forallb_forall in K3. specialize (K3 h Hh). unfold has_key in K3. destruct (look k h) as [v|] eqn:E; [|discriminate]. apply look_in in E.
  unfold below in Hd, Hd'. rewrite forallb_forall in Hd, Hd'. specialize (Hd _ E). specialize (Hd' _ E). cbn [fst snd] in Hd, Hd'. rewrite K1, K2 in Hd, Hd'. cbn [orb] in Hd, Hd'.
  unfold same_at. destruct (look k d) as [x|]; [|discriminate]. destruct (look k d') as [y|]; [|discriminate]. apply String.eqb_eq in Hd, Hd'. subst. apply String.eqb_refl.
Qed.
Lemma pairs_perm {A} (R : A -> A -> Prop) l l' : (forall a b, R a b -> R b a) -> Permutation l l' -> ForallOrdPairs R l -> ForallOrdPairs R l'.
Proof.
  intros Sy. induction 1 as [|a l l' P IH|a b l|l l' l'' _ IH1 _ IH2]; intros F; [exact F| | |apply IH2, IH1, F].
  - inversion F as [|? ? F1 F2]; subst. constructor; [apply (Permutation_Forall P), F1|apply IH, F2].
  - inversion F as [|? ? F1 F2]; subst. inversion F2 as [|? ? F3 F4]; subst. inversion F1 as [|? ? F5 F6]; subst. constructor; [constructor; [apply Sy, F5|exact F3]|constructor; assumption].
Qed.
Lemma pairs_app {A} (R : A -> A -> Prop) l l' : ForallOrdPairs R (l ++ l') -> ForallOrdPairs R l /\ ForallOrdPairs R l'.
Proof.
  induction l as [|a l IH]; cbn; intros F; [split; [constructor|exact F]|]. inversion F as [|? ? F1 F2]; subst. destruct (IH F2) as (A1 & A2). apply Forall_app in F1. split; [constructor; [apply F1|exact A1]|exact A2].
Qed.
Lemma pairs_filter {A} (R : A -> A -> Prop) f l : ForallOrdPairs R l -> ForallOrdPairs R (filter f l).
Proof.
  induction 1 as [|a l F1 F2 IH]; cbn; [constructor|]. destruct (f a); [|exact IH]. constructor; [|exact IH]. rewrite Forall_forall in *. intros x Hx. apply filter_In in Hx. apply F1, Hx.
Qed.
Lemma pairs_map {A B} (f : A -> B) (R : B -> B -> Prop) l : ForallOrdPairs R (map f l) -> ForallOrdPairs (fun a b => R (f a) (f b)) l.
Proof.
  induction l as [|a l IH]; cbn; intros F; constructor; inversion F as [|? ? F1 F2]; subst; [|apply IH, F2]. rewrite Forall_forall in *. intros x Hx. apply F1, in_map, Hx.
Qed.
Section Rows.
Variable X : Type.
Variable load : string -> option (option (table X)).
Notation run := (table string * table X)%type.
Lemma read_settings f (e : run) : read_run load f e -> settings f = Some (fst e).
Proof. intros (d & d' & H1 & H2 & H3 & _). unfold settings. rewrite H1, H2, H3. reflexivity. Qed.
Lemma column_single n k (g : list run) x : column "name" n k g = [x] -> exists e, In e g /\ row_name "name" (fst e) = Some n /\ look k (snd e) = Some x.
Proof.
  induction g as [|e g IH]; unfold column; cbn [flat_map]; [discriminate|]. destruct (row_name "name" (fst e)) as [m|] eqn:E1; [|intros H; destruct (IH H) as (e' & A & B); exists e'; split; [right; exact A|exact B]].
  destruct (look k (snd e)) as [y|] eqn:E2; [|intros H; destruct (IH H) as (e' & A & B); exists e'; split; [right; exact A|exact B]].
  destruct (String.eqb_spec m n) as [->|]; [intros H; injection H as -> _; exists e; split; [left; reflexivity|auto]|intros H; destruct (IH H) as (e' & A & B); exists e'; split; [right; exact A|exact B]].
Qed.
Lemma column_none n k (g : list run) : (forall e, In e g -> row_name "name" (fst e) <> Some n) -> column "name" n k g = [].
Proof.
  induction g as [|e g IH]; intros H; [reflexivity|]. unfold column. cbn [flat_map]. fold (column "name" n k g). rewrite IH by (intros e' He'; apply H; right; exact He'). rewrite app_nil_r.
  pose proof (H e (or_introl eq_refl)) as N. destruct (row_name "name" (fst e)) as [m|]; [|reflexivity]. destruct (look k (snd e)); [|reflexivity]. destruct (String.eqb_spec m n) as [->|]; [congruence|reflexivity].
Qed.
Lemma column_own (g : list run) : ForallOrdPairs (fun e e' : run => same_name (fst e) (fst e') = false) g ->
  forall e n k x, In e g -> row_name "name" (fst e) = Some n -> look k (snd e) = Some x -> column "name" n k g = [x].
Proof.
  induction 1 as [|a g F1 F2 IH]; intros e n k x He Hn Hx; [destruct He|].
  assert (RN : forall d : table string, row_name "name" d = look "name" d) by (intros d; unfold row_name; destruct (look "name" d); reflexivity).
  rewrite Forall_forall in F1. destruct He as [<-|He].
  - unfold column. cbn [flat_map]. fold (column "name" n k g). rewrite Hn, Hx, String.eqb_refl. rewrite column_none; [reflexivity|]. intros e He K. specialize (F1 e He). unfold same_name in F1. rewrite <- !RN, Hn, K, String.eqb_refl in F1. discriminate.
  - unfold column. cbn [flat_map]. fold (column "name" n k g). rewrite (IH e n k x He Hn Hx). specialize (F1 e He). unfold same_name in F1. rewrite <- !RN, Hn in F1.
    destruct (row_name "name" (fst a)) as [m|]; [|discriminate]. rewrite F1. destruct (look k (snd a)); reflexivity.
Qed.
Lemma shipped_rows nm j extra root jobs fs listing to_int shs ticks : In (nm, j) shipped_sweeps -> ConfigSpec.dict extra -> launch py_repr j extra root = Some jobs -> job_folders root jobs fs -> Permutation listing fs ->
  (forall f, In f fs -> exists r, load f = Some (Some r)) -> (forall f r, load f = Some (Some r) -> NoDup (map fst r)) ->
  report to_int "name" load listing = Some (shs, ticks) ->
  (forall f r k x, In f fs -> load f = Some (Some r) -> look k r = Some x ->
     exists d sh row, get_experiment_config f = Some d /\ In sh shs /\ look (sampler_text d) (sh_rows sh) = Some row /\ look k row = Some [x]) /\
  (forall sh n row k l, In sh shs -> look n (sh_rows sh) = Some row -> look k row = Some l ->
     exists f r d x, In f fs /\ load f = Some (Some r) /\ get_experiment_config f = Some d /\ n = sampler_text d /\ look k r = Some x /\ l = [x]).
Proof.
  intros Hj He HL HF HP Hall Hd H. pose proof shipped_keys as SK. rewrite forallb_forall in SK. pose proof shipped_ok as SO. rewrite forallb_forall in SO. specialize (SK _ Hj). specialize (SO _ Hj). cbn [snd] in *.
  destruct (folders_launch j extra root jobs fs SK He HL HF) as (L & EL & Ef & _). unfold sweep_ok in SO. rewrite EL in SO. apply andb_prop in SO. destruct SO as (SO & SO4). apply andb_prop in SO. destruct SO as (SO & SO3).
  apply andb_prop in SO. destruct SO as (_ & SO2). rewrite forallb_forall in SO2. destruct (all_or_none (map (fun kf => settings (snd kf)) L)) as [SS|] eqn:ES; [|discriminate].
  apply andb_prop in SO4. destruct SO4 as (SA & SN). rewrite forallb_forall in SN. apply apart_pairs in SA.
  assert (ES' : map settings fs = map Some SS) by (apply all_or_none_some in ES; subst fs; rewrite map_map; exact ES).
  assert (Fig : forall f, In f listing -> is_figure f = false).
  { intros f Hf. apply (Permutation_in _ HP) in Hf. subst fs. apply in_map_iff in Hf. destruct Hf as (kf & <- & Hkf). apply negb_true_iff, SO2, Hkf. }
  destruct (report_tables X load _ _ _ _ _ Fig Hd H) as (gs & es & G1 & (fs' & P1 & all & F2 & Ees) & P2 & G2). change (group_key "name") with "name" in *.
  assert (Pall : Permutation fs' fs).
  { rewrite P1. rewrite filter_all; [exact HP|]. intros f Hf. apply (Permutation_in _ HP) in Hf. destruct (Hall f Hf) as (r & ->). reflexivity. }
  assert (Eall : map settings fs' = map Some (map fst all)).
  { clear - F2. induction F2 as [|f e fs' all R F2 IH]; cbn; [reflexivity|]. rewrite (read_settings f e R), IH. reflexivity. }
  assert (PS : Permutation (map fst all) SS).
  { assert (Q : Permutation (map settings fs') (map settings fs)) by (apply Permutation_map, Pall). rewrite Eall, ES' in Q. apply Permutation_map_inv in Q. destruct Q as (l3 & Q1 & Q2).
    assert (E : map fst all = l3); [|rewrite E; apply Permutation_sym, Q2]. clear - Q1. revert l3 Q1. generalize (map fst all) as m. induction m as [|a m IH]; intros [|b l3] E; try discriminate; [reflexivity|]. injection E as -> E. f_equal. apply IH, E. }
  assert (RA : forall e, In e all -> exists f, In f fs /\ read_run load f e).
  { assert (F2' : forall e, In e all -> exists f, In f fs' /\ read_run load f e).
    { clear - F2. induction F2 as [|f e fs' all R F2 IH]; intros e' K; [destruct K|]. destruct K as [<-|K]; [exists f; split; [left; reflexivity|exact R]|]. destruct (IH e' K) as (f' & A & B). exists f'. split; [right; exact A|exact B]. }
    intros e K. destruct (F2' e K) as (f & A & B). exists f. split; [apply (Permutation_in _ Pall), A|exact B]. }
  assert (NA : forall e, In e all -> exists n, look "name" (fst e) = Some n /\ place n <> None).
  { intros e K. assert (K' : In (fst e) SS) by (apply (Permutation_in _ PS), in_map, K). specialize (SN _ K'). destruct (look "name" (fst e)) as [n|]; [|discriminate]. exists n. split; [reflexivity|]. destruct (place n); [discriminate|discriminate SN]. }
  assert (Ees' : es = all).
  { rewrite Ees. apply filter_all. intros e K. destruct (NA e K) as (n & E & _). unfold has_key. rewrite E. reflexivity. }
  clear Ees. subst es.
  assert (GA : forall g e, In g gs -> In e g -> In e all) by (intros g e A B; apply (Permutation_in _ P2), in_concat; exists g; auto).
  assert (OWN : forall g, In g gs -> ForallOrdPairs (fun e e' : run => same_name (fst e) (fst e') = false) g).
  { assert (FA : ForallOrdPairs (fun e e' : run => apart (common_keys SS) (fst e) (fst e') = true) (concat gs)).
    { apply (pairs_map fst (fun d d' => apart (common_keys SS) d d' = true)). apply (pairs_perm _ SS); [intros a b; rewrite apart_sym; auto| |exact SA]. rewrite <- PS. apply Permutation_map, Permutation_sym, P2. }
    intros g Hg. destruct (G2 g Hg) as (Ng & Ag). assert (FG : ForallOrdPairs (fun e e' : run => apart (common_keys SS) (fst e) (fst e') = true) g).
    { clear - FA Hg. induction gs as [|g0 gs IH]; [destruct Hg|]. cbn in FA. apply pairs_app in FA. destruct Hg as [<-|Hg]; [apply FA|apply IH; [apply FA|exact Hg]]. }
    assert (HB : forall e, In e g -> below (fst (hd ([], []) g)) (fst e) = true).
    { intros e K. unfold below. apply forallb_forall. intros [k v] Hkv. cbn [fst snd]. destruct (String.eqb_spec k "name") as [|N1]; [reflexivity|]. destruct (String.eqb_spec k "results") as [|N2]; [reflexivity|]. cbn [orb].
      assert (HI : In (hd ([], []) g) g) by (destruct g; [congruence|left; reflexivity]). destruct (RA _ (GA g _ Hg HI)) as (f & _ & Rf).
      rewrite (Ag e K k v); [apply String.eqb_refl| |exact N1|exact N1|exact N2]. apply in_look; [apply (read_dict X load f), Rf|exact Hkv]. }
    assert (HS : In (fst (hd ([], []) g)) SS).
    { apply (Permutation_in _ PS), in_map, (GA g); [exact Hg|]. destruct g; [congruence|left; reflexivity]. }
    revert HB HS. generalize (fst (hd ([], []) g)) as h. intros h HB HS. clear - FG HB HS. induction FG as [|e g F1 F2 IH]; constructor; [|apply IH; intros e' K; apply HB; right; exact K].
    rewrite Forall_forall in *. intros e' K. apply (apart_below SS h); [exact HS|apply F1, K|apply HB; left; reflexivity|apply HB; right; exact K]. }
  assert (RN : forall d : table string, row_name "name" d = look "name" d) by (intros d; unfold row_name; destruct (look "name" d); reflexivity).
  assert (NAME : forall f (e : run), read_run load f e -> exists d, get_experiment_config f = Some d /\ look "name" (fst e) = Some (sampler_text d)).
  { intros f e (d & d' & A & B & C & _). exists d. split; [exact A|]. rewrite C, look_del. cbn. apply (processed d d' B). }
  split.
  - intros f r k x Hf Hr Hx. assert (HE : exists e, In e all /\ read_run load f e).
    { apply (Permutation_in _ (Permutation_sym Pall)) in Hf. clear - F2 Hf. induction F2 as [|f' e fs' all R F2 IH]; [destruct Hf|]. destruct Hf as [->|Hf]; [exists e; split; [left; reflexivity|exact R]|]. destruct (IH Hf) as (e' & A & B). exists e'. split; [right; exact A|exact B]. }
    destruct HE as (e & Ha & Hre). destruct (NAME f e Hre) as (d & Hd1 & Hn). assert (Er : snd e = r) by (destruct Hre as (? & ? & _ & _ & _ & Q); congruence).
    apply (Permutation_in _ (Permutation_sym P2)) in Ha. apply in_concat in Ha. destruct Ha as (g & Hg & Heg).
    assert (HS : exists sh, In sh shs /\ shows "name" g sh).
    { clear - G1 Hg. induction G1 as [|g' sh gs shs A G1 IH]; [destruct Hg|]. destruct Hg as [->|Hg]; [exists sh; split; [left; reflexivity|exact A]|]. destruct (IH Hg) as (sh' & B & C). exists sh'. split; [right; exact B|exact C]. }
    destruct HS as (sh & Hsh & _ & S2 & S3 & S4).
    assert (Hk : In (sampler_text d) (map fst (sh_rows sh))).
    { apply S3. split; [|exists e; split; [exact Heg|rewrite RN; exact Hn]]. apply place_known. destruct (NA e (GA g e Hg Heg)) as (n & E & Pn). congruence. }
    apply look_key in Hk. destruct Hk as (row & Hrow). exists d, sh, row. split; [exact Hd1|]. split; [exact Hsh|]. split; [exact Hrow|]. apply (S4 _ _ _ _ Hrow). split; [|discriminate].
    apply (column_own g (OWN g Hg) e); [exact Heg|rewrite RN; exact Hn|rewrite Er; exact Hx].
  - intros sh n row k l Hs Hrow Hl. assert (HG : exists g, In g gs /\ shows "name" g sh).
    { clear - G1 Hs. induction G1 as [|g' sh' gs shs A G1 IH]; [destruct Hs|]. destruct Hs as [->|Hs]; [exists g'; split; [left; reflexivity|exact A]|]. destruct (IH Hs) as (g & B & C). exists g. split; [right; exact B|exact C]. }
    destruct HG as (g & Hg & _ & _ & _ & S4). apply (S4 _ _ _ _ Hrow) in Hl. destruct Hl as (Hc & Hne).
    assert (HE : exists e x, In e g /\ row_name "name" (fst e) = Some n /\ look k (snd e) = Some x).
    { clear - Hc Hne. destruct l as [|x l]; [congruence|]. clear Hne. revert Hc. unfold column. induction g as [|e g IH]; cbn [flat_map]; [discriminate|]. intros H.
      assert (IH' : flat_map (fun e => match row_name "name" (fst e), look k (snd e) with Some n', Some x => if String.eqb n' n then [x] else [] | _, _ => [] end) g = x :: l -> exists (e0 : run) x0, In e0 (e :: g) /\ row_name "name" (fst e0) = Some n /\ look k (snd e0) = Some x0).
      { intros K. destruct (IH K) as (e' & y & A & B). exists e', y. split; [right; exact A|exact B]. }
      destruct (row_name "name" (fst e)) as [m|] eqn:E1; [|apply IH', H]. destruct (look k (snd e)) as [y|] eqn:E2; [|apply IH', H]. destruct (String.eqb_spec m n) as [->|]; [|apply IH', H]. exists e, y. split; [left; reflexivity|auto]. }
    destruct HE as (e & x & A & B & C). rewrite (column_own g (OWN g Hg) e n k x A B C) in Hc. destruct (RA e (GA g e Hg A)) as (f & Hf & Rf). destruct (NAME f e Rf) as (d & Hd1 & Hn).
    assert (Lf : load f = Some (Some (snd e))) by (destruct Rf as (? & ? & _ & _ & _ & Q); exact Q). exists f, (snd e), d, x. repeat split; try assumption; [rewrite RN, Hn in B; congruence|congruence].
Qed.
End Rows.
