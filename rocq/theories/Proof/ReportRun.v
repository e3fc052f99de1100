(** Whole reports: tables, file names, and the order of the values. *)
From Coq Require Import String Ascii List Bool ZArith NArith Arith Lia Permutation Sorted.
From Verif.Spec Require Import ConfigSpec LaunchSpec ReportSpec.
From Verif.Model Require Import Utils Tools Launch Report.
From Verif.Proof Require Import UtilsProof LaunchProof ToolsProof2 ReportText ReportNames ReportSheets.
Import ListNotations.
Local Open Scope string_scope.
Local Open Scope list_scope.

(** ** Orders *)
Lemma leb_cons c a d b : String.leb (String c a) (String d b) = match Ascii.compare c d with Lt => true | Eq => String.leb a b | Gt => false end.
Proof. unfold String.leb. cbn [String.compare]. destruct (Ascii.compare c d); reflexivity. Qed.
Lemma leb_trans : forall a b c, String.leb a b = true -> String.leb b c = true -> String.leb a c = true.
Proof.
  induction a as [|x a IH]; intros b c H1 H2; [destruct c; reflexivity|]. destruct b as [|y b]; [discriminate|]. destruct c as [|z c]; [destruct b; discriminate|].
  rewrite leb_cons in *. unfold Ascii.compare in *. destruct (N.compare_spec (N_of_ascii x) (N_of_ascii y)) as [E1|L1|]; [| |discriminate];
    destruct (N.compare_spec (N_of_ascii y) (N_of_ascii z)) as [E2|L2|]; try discriminate.
  - rewrite E1, E2, N.compare_refl. eauto.
  - rewrite E1. destruct (N.compare_spec (N_of_ascii y) (N_of_ascii z)); [lia|reflexivity|lia].
  - rewrite <- E2. destruct (N.compare_spec (N_of_ascii x) (N_of_ascii y)); [lia|reflexivity|lia].
  - destruct (N.compare_spec (N_of_ascii x) (N_of_ascii z)); [lia|reflexivity|lia].
Qed.
Lemma tick_total a b : tick_le a b = true \/ tick_le b a = true.
Proof. destruct a, b; cbn; auto; [rewrite !Z.leb_le; lia|apply String.leb_total]. Qed.
Lemma tick_trans a b c : tick_le a b = true -> tick_le b c = true -> tick_le a c = true.
Proof. destruct a, b, c; cbn; try discriminate; auto; [rewrite !Z.leb_le; lia|apply leb_trans]. Qed.
Lemma tick_antisym a b : tick_le a b = true -> tick_le b a = true -> a = b.
Proof. destruct a, b; cbn; try discriminate; [rewrite !Z.leb_le; intros; f_equal; lia|intros; f_equal; apply String.leb_antisym; assumption]. Qed.
Lemma tick_eqb_eq a b : tick_eqb a b = true <-> a = b.
Proof. destruct a, b; cbn; try (split; discriminate); [rewrite Z.eqb_eq|rewrite String.eqb_eq]; split; congruence. Qed.
Notation tsorted := (StronglySorted (fun x y => tick_le x y = true)).
Lemma unique_in l : forall t, In t (unique l) <-> In t l.
Proof.
  induction l as [|a l IH]; intros t; [tauto|]. destruct l as [|b l]; [tauto|]. change (unique (a :: b :: l)) with (if tick_eqb a b then unique (b :: l) else a :: unique (b :: l)).
  destruct (tick_eqb a b) eqn:E; [|cbn [In]; rewrite IH; reflexivity]. apply tick_eqb_eq in E. subst b. rewrite IH. cbn. tauto.
Qed.
Lemma unique_sorted l : tsorted l -> tsorted (unique l) /\ NoDup (unique l).
Proof.
  induction l as [|a l IH]; intros H; [split; constructor|]. inversion H as [|? ? Hl Ha]; subst. destruct l as [|b l]; [split; [constructor; auto|repeat constructor; auto]|].
  destruct (IH Hl) as (I1 & I2). change (unique (a :: b :: l)) with (if tick_eqb a b then unique (b :: l) else a :: unique (b :: l)).
  destruct (tick_eqb a b) eqn:E; [split; assumption|]. rewrite Forall_forall in Ha. split.
  - constructor; [exact I1|]. apply Forall_forall. intros t Ht. apply Ha, unique_in, Ht.
  - constructor; [|exact I2]. intros K. apply (proj1 (unique_in (b :: l) a)) in K. assert (a = b); [|subst; rewrite (proj2 (tick_eqb_eq b b) eq_refl) in E; discriminate].
    apply tick_antisym; [apply Ha; left; reflexivity|]. inversion Hl as [|? ? _ Hb]; subst. destruct K as [E0|K]; [rewrite E0; rewrite E0 in Ha; apply Ha; left; reflexivity|]. rewrite Forall_forall in Hb. apply Hb, K.
Qed.
Lemma sorted_unique : forall l l', tsorted l -> tsorted l' -> Permutation l l' -> l = l'.
Proof.
  induction l as [|a l IH]; intros l' H H' P; [apply Permutation_nil in P; congruence|]. destruct l' as [|b l']; [apply Permutation_sym, Permutation_nil in P; discriminate|].
  inversion H as [|? ? Hl Ha]; subst. inversion H' as [|? ? Hl' Hb]; subst. rewrite Forall_forall in *.
  assert (a = b).
  { assert (In a (b :: l')) by (apply (Permutation_in _ P); left; reflexivity). assert (In b (a :: l)) by (apply (Permutation_in _ (Permutation_sym P)); left; reflexivity).
    cbn in *. destruct H0 as [|H0]; [congruence|]. destruct H1 as [|H1]; [congruence|]. apply tick_antisym; auto. }
  subst b. f_equal. apply IH; auto. apply Permutation_cons_inv in P. exact P.
Qed.

(** ** Loading *)
Section Load.
Variable X : Type.
Variable load : string -> option (option (table X)).
Notation run := (table string * table X)%type.
Lemma put_all_keys {V} (o : table V) : NoDup (map fst (put_all [] o)).
Proof. apply put_all_dict. constructor. Qed.
Lemma name_add_keys s d : NoDup (map fst d) -> NoDup (map fst (name_add s d)).
Proof. intros H. unfold name_add. destruct (look "name" d); [apply put_dict|]; exact H. Qed.
Lemma name_setting_keys k g d : NoDup (map fst d) -> NoDup (map fst (name_setting k g d)).
Proof. intros H. unfold name_setting. destruct (look k d); [apply del_dict, name_add_keys|]; exact H. Qed.
Lemma process_dict d d' : NoDup (map fst d) -> process_keys d = Some d' -> NoDup (map fst d').
Proof.
  intros N. unfold process_keys. destruct (look "name" d) as [n|]; [|discriminate]. intros H. injection H as <-.
  assert (N0 : NoDup (map fst (put "name" (base_name n) d))) by (apply put_dict, N). revert N0. generalize (put "name" (base_name n) d). clear. intros d N.
  assert (N1 : NoDup (map fst (name_solver d))) by (unfold name_solver; destruct (look "solver" d) as [s|]; [apply del_dict; destruct (String.eqb s "euler_forward"); [apply name_add_keys|]|]; exact N).
  apply (del_dict "approx_with_grad") in N1. revert N1. generalize (del "approx_with_grad" (name_solver d)). clear. intros d N.
  assert (N1 : NoDup (map fst (name_adaptive d))).
  { unfold name_adaptive. destruct (look "adaptive" d) as [a|]; [|exact N]. do 3 apply name_setting_keys. apply del_dict. destruct (String.eqb a "False"); [apply name_add_keys|]; exact N. }
  unfold name_balancing. destruct (look "balancing_fn_type" (name_adaptive d)); [apply del_dict, name_add_keys|]; exact N1.
Qed.
Lemma config_dict f d : get_experiment_config f = Some d -> NoDup (map fst d).
Proof.
  unfold get_experiment_config. destruct (all_or_none (map read_part (split "," (past "_" f)))) as [ps|]; [|discriminate]. intros H. injection H as <-. apply put_all_keys.
Qed.
Lemma read_dict f (e : run) : read_run load f e -> NoDup (map fst (fst e)).
Proof. intros (d & d' & H1 & H2 & -> & _). apply del_dict, (process_dict d d' (config_dict f d H1) H2). Qed.
Lemma load_run_cases f l : load_run load f = Some l -> match load f with
  | Some (Some _) => exists e, l = [e] /\ read_run load f e | Some None => l = [] | None => False end.
Proof.
  unfold load_run. destruct (get_experiment_config f) as [d|] eqn:E1; [|discriminate]. destruct (process_keys d) as [d'|] eqn:E2; [|discriminate].
  destruct (load f) as [[r|]|] eqn:E3; [| |discriminate]; intros H; injection H as <-; [|reflexivity]. exists (del "save_samples" d', r). split; [reflexivity|]. exists d, d'. auto.
Qed.
Definition tagged (fs : list string) : list (string * run) := flat_map (fun f => match load_run load f with Some l => map (pair f) l | None => [] end) fs.
Lemma tagged_loaded fs ess : all_or_none (map (load_run load) fs) = Some ess -> concat ess = map snd (tagged fs).
Proof.
  intros H. apply all_or_none_some in H. revert ess H. induction fs as [|f fs IH]; intros [|l ess] H; cbn in *; try discriminate; [reflexivity|]. injection H as H1 H2.
  unfold tagged in *. cbn [flat_map]. rewrite H1, map_app, map_map. cbn. rewrite map_id, (IH ess H2). reflexivity.
Qed.
Lemma tagged_read fs ess : all_or_none (map (load_run load) fs) = Some ess ->
  Forall (fun fe => In (fst fe) fs /\ read_run load (fst fe) (snd fe)) (tagged fs) /\ map fst (tagged fs) = filter (fun f => match load f with Some (Some _) => true | _ => false end) fs.
Proof.
  intros H. apply all_or_none_some in H. revert ess H. induction fs as [|f fs IH]; intros [|l ess] H; cbn in *; try discriminate; [split; constructor|]. injection H as H1 H2.
  destruct (IH ess H2) as (I1 & I2). unfold tagged in *. cbn [flat_map filter]. rewrite H1. pose proof (load_run_cases f l H1) as C. rewrite map_app.
  assert (I1' : Forall (fun fe : string * run => (f = fst fe \/ In (fst fe) fs) /\ read_run load (fst fe) (snd fe)) (flat_map (fun f => match load_run load f with Some l => map (pair f) l | None => [] end) fs)).
  { eapply Forall_impl; [|exact I1]. cbn. tauto. }
  destruct (load f) as [[r|]|]; [| |destruct C].
  - destruct C as (e & -> & C). cbn [map app fst]. split; [constructor; [cbn; auto|exact I1']|]. f_equal. exact I2.
  - subst l. cbn [map app]. split; [exact I1'|exact I2].
Qed.

(** ** The order of the folders *)
Lemma combine_map {A B} (f : A -> B) l : combine l (map f l) = map (fun a => (a, f a)) l.
Proof. induction l; cbn; congruence. Qed.
Lemma filter_all {A} (f : A -> bool) l : (forall a, In a l -> f a = true) -> filter f l = l.
Proof. induction l as [|a l IH]; cbn; intros H; [reflexivity|]. rewrite (H a) by auto. f_equal. apply IH. auto. Qed.
Lemma sorted_map {A B} (f : A -> B) (R : B -> B -> Prop) l : StronglySorted (fun x y => R (f x) (f y)) l -> StronglySorted R (map f l).
Proof. induction 1 as [|a l _ IH Ha]; cbn; constructor; auto. rewrite Forall_forall in *. intros b Hb. apply in_map_iff in Hb. destruct Hb as (x & <- & Hx). auto. Qed.
Lemma sorted_map_inv {A B} (f : A -> B) (R : B -> B -> Prop) l : StronglySorted R (map f l) -> StronglySorted (fun x y => R (f x) (f y)) l.
Proof.
  induction l as [|a l IH]; cbn; intros H; [constructor|]. inversion H as [|? ? Hl Ha]; subst. constructor; auto. rewrite Forall_forall in *. intros x Hx. apply Ha, in_map, Hx.
Qed.
Lemma ticks_sorted to_int key folders fs ticks : (forall f, In f folders -> is_figure f = false) -> get_ticks to_int key folders = Some (fs, ticks) ->
  Permutation fs folders /\ StronglySorted (fun f f' => tick_le (tick_of to_int key f) (tick_of to_int key f') = true) fs /\
  ticks = unique (sort_by tick_le (map (tick_of to_int key) folders)).
Proof.
  intros Hf. unfold get_ticks. rewrite filter_all by (intros f H; rewrite (Hf f H); reflexivity). set (T := tick_of to_int key). destruct (mixed (map T folders)); [discriminate|].
  intros H. injection H as <- <-. rewrite combine_map. set (L := sort_by (fun a b => tick_le (snd a) (snd b)) (map (fun a => (a, T a)) folders)).
  assert (P : Permutation L (map (fun a => (a, T a)) folders)) by apply sort_perm.
  assert (S : StronglySorted (fun a b : string * tick => tick_le (snd a) (snd b) = true) L).
  { apply (sort_sorted _ (fun a b : string * tick => tick_le (snd a) (snd b))); [intros a b; apply tick_total|intros a b c; apply tick_trans]. }
  assert (E : L = map (fun a => (a, T a)) (map fst L)).
  { rewrite map_map. assert (G : forall x, In x L -> x = (fst x, T (fst x))).
    { intros x Hx. apply (Permutation_in _ P) in Hx. apply in_map_iff in Hx. destruct Hx as (a & <- & _). reflexivity. }
    clear - G. induction L as [|x L IH]; [reflexivity|]. cbn. f_equal; [apply G; left; reflexivity|apply IH; intros y Hy; apply G; right; exact Hy]. }
  split; [|split; [|reflexivity]].
  - transitivity (map fst (map (fun a => (a, T a)) folders)); [apply Permutation_map, P|]. rewrite map_map. cbn. rewrite map_id. reflexivity.
  - rewrite E in S. apply (sorted_map_inv (fun a => (a, T a))) in S. exact S.
Qed.

(** ** Clusters list the runs in order *)
Lemma sorted_app {A} (R : A -> A -> Prop) l a : StronglySorted R l -> (forall x, In x l -> R x a) -> StronglySorted R (l ++ [a]).
Proof.
  induction 1 as [|b l _ IH Hb]; intros H; cbn; [repeat constructor|]. constructor; [apply IH; intros x Hx; apply H; right; exact Hx|].
  apply Forall_app. split; [exact Hb|]. constructor; [apply H; left; reflexivity|constructor].
Qed.
Lemma clusters_increase key (ds : list (Tools.dict string)) c : In c (get_clusters String.eqb key ds) -> StronglySorted lt c.
Proof.
  unfold get_clusters.
  assert (G : forall n s cs, (forall c, In c cs -> StronglySorted lt c /\ forall x, In x c -> x < s) ->
    forall c, In c (fold_left (cluster_step String.eqb key ds) (seq s n) cs) -> StronglySorted lt c).
  { induction n as [|n IH]; intros s cs H c' Hc; [apply H, Hc|]. cbn [seq fold_left] in Hc. apply (IH (Datatypes.S s) (cluster_step String.eqb key ds cs s)); [|exact Hc]. clear Hc.
    assert (Old : forall c, In c cs -> StronglySorted lt c /\ forall x, In x c -> x < Datatypes.S s) by (intros c1 H1; destruct (H c1 H1) as (A & B); split; [exact A|intros x Hx; specialize (B x Hx); lia]).
    assert (New : StronglySorted lt [s] /\ forall x, In x [s] -> x < Datatypes.S s) by (split; [repeat constructor|intros x [<-|[]]; lia]).
    intros c1. unfold cluster_step. destruct (negb (has key (nth s ds []))); [apply Old|]. destruct cs as [|c0 cs0] eqn:Ecs; [intros [<-|[]]; exact New|]. rewrite <- Ecs in *. clear Ecs.
    destruct (add_to String.eqb key ds (nth s ds []) s cs) as [cs'|] eqn:A.
    - destruct (add_to_some _ _ _ _ _ _ _ A) as (pre & c2 & post & E & _ & _ & ->). intros K. apply in_app_iff in K. destruct K as [K|[K|K]].
      + apply Old. rewrite E. apply in_app_iff. auto.
      + subst c1. destruct (H c2) as (S2 & B2); [rewrite E; apply in_app_iff; right; left; reflexivity|]. split; [apply sorted_app; assumption|].
        intros x Hx. apply in_app_iff in Hx. destruct Hx as [Hx|[<-|[]]]; [specialize (B2 x Hx)|]; lia.
      + apply Old. rewrite E. apply in_app_iff. right. right. exact K.
    - intros K. apply in_app_iff in K. destruct K as [K|[<-|[]]]; [apply Old, K|exact New]. }
  intros H. apply (G (List.length ds) 0 [] ltac:(intros ? []) c H).
Qed.
Lemma pick_sorted {A} (R : A -> A -> Prop) (l : list A) d c : StronglySorted R l -> StronglySorted lt c -> (forall i, In i c -> i < List.length l) -> StronglySorted R (map (fun i => nth i l d) c).
Proof.
  intros Hl Hc Hb. assert (G : forall i j, i < j < List.length l -> R (nth i l d) (nth j l d)).
  { clear c Hc Hb. induction Hl as [|a l Hl IH Ha]; intros i j H; cbn in H; [lia|]. destruct j as [|j]; [lia|]. destruct i as [|i]; cbn [nth]; [rewrite Forall_forall in Ha; apply Ha, nth_In; lia|apply IH; lia]. }
  induction Hc as [|i c Hc IH Hi]; cbn; constructor; [apply IH; intros j Hj; apply Hb; right; exact Hj|]. rewrite Forall_forall in *. intros x Hx. apply in_map_iff in Hx. destruct Hx as (j & <- & Hj).
  apply G. split; [apply Hi, Hj|apply Hb; right; exact Hj].
Qed.
Lemma filter_sorted {A} (R : A -> A -> Prop) (f : A -> bool) l : StronglySorted R l -> StronglySorted R (filter f l).
Proof.
  induction 1 as [|a l _ IH Ha]; cbn; [constructor|]. destruct (f a); [|exact IH]. constructor; [exact IH|]. rewrite Forall_forall in *. intros x Hx. apply filter_In in Hx. apply Ha, Hx.
Qed.

(** ** Whole reports *)
Lemma report_parts to_int key listing shs ticks : (forall f, In f listing -> is_figure f = false) -> report to_int key load listing = Some (shs, ticks) ->
  exists fs ess shs0, Permutation fs listing /\ StronglySorted (fun f f' => tick_le (tick_of to_int key f) (tick_of to_int key f') = true) fs /\
  ticks = unique (sort_by tick_le (map (tick_of to_int key) (sort_by String.leb listing))) /\
  all_or_none (map (load_run load) fs) = Some ess /\ shs = map sort_sheet shs0 /\
  Forall2 (fun g sh => make_sheet key g = Some sh) (map (fun c => map (fun i => nth i (map snd (tagged fs)) ([], [])) c) (get_clusters String.eqb (group_key key) (map fst (map snd (tagged fs))))) shs0.
Proof.
  intros Hf. unfold report. destruct (get_ticks to_int key (sort_by String.leb listing)) as [[fs tk]|] eqn:Et; [|discriminate].
  apply ticks_sorted in Et; [|intros f H; apply Hf, (Permutation_in _ (sort_perm String.leb listing)), H]. destruct Et as (P & S & T).
  destruct (all_or_none (map (load_run load) fs)) as [ess|] eqn:El; [|discriminate]. cbv zeta. rewrite (tagged_loaded fs ess El).
  destruct (organize key _ (map snd (tagged fs))) as [shs0|] eqn:Eo; [|discriminate]. intros H. exists fs, ess, shs0.
  split; [rewrite P; apply sort_perm|]. split; [exact S|]. destruct shs0 as [|s0 ss]; [discriminate|]. injection H as <- <-. split; [exact T|]. split; [exact El|]. split; [reflexivity|].
  apply sheets_organize, Eo.
Qed.
Lemma Forall2_same {A B} (R : A -> B -> Prop) l l' : Forall2 R l l' -> List.length l = List.length l'.
Proof. induction 1; cbn; congruence. Qed.
Lemma report_tables to_int key listing shs ticks : (forall f, In f listing -> is_figure f = false) -> (forall f r, load f = Some (Some r) -> NoDup (map fst r)) ->
  report to_int key load listing = Some (shs, ticks) ->
  exists gs es, Forall2 (shows key) gs shs /\ runs_with load (group_key key) listing es /\ Permutation (concat gs) es /\ forall g, In g gs -> g <> [] /\ alike (group_key key) g.
Proof.
  intros Hf Hr H. destruct (report_parts _ _ _ _ _ Hf H) as (fs & ess & shs0 & P & _ & _ & El & -> & F2). clear H. destruct (tagged_read fs ess El) as (R1 & R2).
  set (es := map snd (tagged fs)) in *.
  set (gs := map (fun c => map (fun i => nth i es ([], [])) c) (get_clusters String.eqb (group_key key) (map fst es))) in *.
  assert (Ne : forall e, In e es -> NoDup (map fst (fst e)) /\ NoDup (map fst (snd e))).
  { intros e He. apply in_map_iff in He. destruct He as ([f e'] & <- & He). rewrite Forall_forall in R1. destruct (R1 _ He) as (_ & R). cbn [fst snd] in *. split; [apply (read_dict f), R|].
    destruct R as (? & ? & _ & _ & _ & R). apply (Hr f), R. }
  exists gs, (filter (fun e => has_key (group_key key) (fst e)) es). split; [|split; [|split]].
  - assert (Ng : forall g, In g gs -> forall e, In e g -> NoDup (map fst (snd e))).
    { intros g Hg e He. apply in_map_iff in Hg. destruct Hg as (c & <- & Hc). apply in_map_iff in He. destruct He as (i & <- & Hi). apply Ne, nth_In.
      destruct (member_has string String.eqb _ _ c i Hc Hi) as (L & _). rewrite map_length in L. exact L. }
    clear - F2 Ng. induction F2 as [|g sh gs shs Hm F2 IH]; cbn; constructor; [apply sheet_shows; [apply Ng; left; reflexivity|exact Hm]|apply IH; intros g' Hg'; apply Ng; right; exact Hg'].
  - exists (map fst (tagged fs)). split.
    + rewrite R2. clear - P. induction P as [|a l l' _ IH|a b l|l l' l'' _ IH1 _ IH2]; cbn; [constructor| | |etransitivity; eassumption].
      * destruct (match load a with Some (Some _) => true | _ => false end); [constructor|]; exact IH.
      * destruct (match load a with Some (Some _) => true | _ => false end), (match load b with Some (Some _) => true | _ => false end); try reflexivity. apply perm_swap.
    + exists es. split; [|reflexivity]. unfold es. clear - R1. induction R1 as [|[f e] l (_ & R) R1 IH]; cbn; constructor; auto.
  - apply groups_perm.
  - intros g Hg. apply (groups_alike X (group_key key) es g); [intros e He; apply Ne, He|exact Hg].
Qed.

(** ** File names *)
Lemma concat_cons s ss : String.concat "" (s :: ss) = (s ++ String.concat "" ss)%string.
Proof. destruct ss; cbn; [rewrite app_nil_s|]; reflexivity. Qed.
Lemma title_cons kv d : title (kv :: d) = (fst kv ++ "=" ++ snd kv ++ "," ++ title d)%string.
Proof. unfold title. cbn [map]. rewrite concat_cons, !app_assoc_s. reflexivity. Qed.
Definition clear_text (d : table string) : Prop := forall k v, In (k, v) d -> free_of "=" k /\ free_of "," v.
Lemma title_inj : forall d d', clear_text d -> clear_text d' -> title d = title d' -> d = d'.
Proof.
  induction d as [|[k v] d IH]; intros d' Hd Hd' H.
  - destruct d' as [|[k' v'] d']; [reflexivity|]. rewrite title_cons in H. destruct k'; discriminate.
  - destruct d' as [|[k' v'] d']; [rewrite title_cons in H; destruct k; discriminate|]. rewrite !title_cons in H. cbn [fst snd] in H.
    destruct (Hd k v (or_introl eq_refl)) as (A1 & A2). destruct (Hd' k' v' (or_introl eq_refl)) as (B1 & B2).
    apply (f_equal list_ascii_of_string) in H. rewrite !chars_app in H. apply split_first in H; [|exact A1|exact B1]. destruct H as (E1 & H). cbn [app] in H.
    apply split_first in H; [|exact A2|exact B2]. destruct H as (E2 & H). apply chars_inj in E1, E2, H. subst. f_equal. apply IH; [| |exact H]; intros a b Hab; [apply Hd|apply Hd']; right; exact Hab.
Qed.
Lemma diff_self k (d : table string) : NoDup (map fst d) -> get_diff_key String.eqb k d d = true.
Proof. intros N. unfold get_diff_key. apply (diff_from_spec String.eqb k d d String.eqb_eq N). intros a v H _. exists v. auto. Qed.
Lemma report_files to_int key listing shs ticks : (forall f, In f listing -> is_figure f = false) ->
  (forall f e, In f listing -> read_run load f e -> clear_text (fst e)) ->
  report to_int key load listing = Some (shs, ticks) -> NoDup (map sh_title shs).
Proof.
  intros Hf Hc H. destruct (report_parts _ _ _ _ _ Hf H) as (fs & ess & shs0 & P & _ & _ & El & -> & F2). clear H. destruct (tagged_read fs ess El) as (R1 & _).
  set (es := map snd (tagged fs)) in *. rewrite map_map. cbn [sort_sheet sh_title].
  assert (Ne : forall e, In e es -> NoDup (map fst (fst e)) /\ clear_text (fst e)).
  { intros e He. apply in_map_iff in He. destruct He as ([f e'] & <- & He). rewrite Forall_forall in R1. destruct (R1 _ He) as (Hi & R). cbn [fst snd] in *. split; [apply (read_dict f), R|].
    apply (Hc f); [apply (Permutation_in _ P), Hi|exact R]. }
  destruct (clusters_inv string String.eqb (group_key key) (map fst es)) as (_ & Q1 & Q2). pose proof (member_has string String.eqb (group_key key) (map fst es)) as M.
  set (cs := get_clusters String.eqb (group_key key) (map fst es)) in *.
  assert (ET : map sh_title shs0 = map (fun c => title (fst (nth (hd 0 c) es ([], [])))) cs).
  { assert (Hc' : forall c, In c cs -> c <> []) by (intros c H; rewrite Forall_forall in Q1; apply (Q1 c H)). clear - F2 Hc'. revert shs0 F2. induction cs as [|c cs IH]; intros shs F2; inversion F2; subst; [reflexivity|].
    cbn [map]. f_equal; [|apply IH; [intros c' H'; apply Hc'; right; exact H'|assumption]]. unfold make_sheet in H1. destruct (add_runs key _ []); [|discriminate]. injection H1 as <-. cbn [sh_title].
    rewrite (hd_map _ c 0) by (apply Hc'; left; reflexivity). reflexivity. }
  change (fun x : sheet X => sh_title x) with (@sh_title X). rewrite ET. clear ET F2.
  assert (L : forall c i, In c cs -> In i c -> i < List.length es) by (intros c i A B; destruct (M c i A B) as (L & _); rewrite map_length in L; exact L).
  clear M. revert Q1 L. induction Q2 as [|c cs' Q3 Q2 IH]; intros Q1 L; cbn [map]; constructor.
  - intros K. apply in_map_iff in K. destruct K as (c' & E & Hc'). rewrite Forall_forall in Q3. specialize (Q3 c' Hc'). inversion Q1 as [|? ? (N0 & _) Q1']; subst. rewrite Forall_forall in Q1'. destruct (Q1' c' Hc') as (N' & _).
    assert (I0 : In (hd 0 c) c) by (destruct c; [congruence|left; reflexivity]). assert (I' : In (hd 0 c') c') by (destruct c'; [congruence|left; reflexivity]).
    specialize (Q3 (hd 0 c') I'). rewrite !nth_fst in Q3. destruct (Ne (nth (hd 0 c) es ([], []))) as (D1 & T1); [apply nth_In, (L c); [left; reflexivity|exact I0]|].
    destruct (Ne (nth (hd 0 c') es ([], []))) as (D2 & T2); [apply nth_In, (L c'); [right; exact Hc'|exact I']|]. apply title_inj in E; [|exact T2|exact T1]. rewrite E, (diff_self _ _ D1) in Q3. discriminate.
  - apply IH; [inversion Q1; assumption|]. intros c' i A B. apply (L c' i); [right; exact A|exact B].
Qed.

(** ** The order of the values of a row *)
Lemma column_tags key n k (g : list (string * run)) : (forall fe, In fe g -> read_run load (fst fe) (snd fe)) ->
  exists fs : list string, (exists f', fs = map fst (filter f' g)) /\
    Forall2 (fun f x => exists e, read_run load f e /\ row_name key (fst e) = Some n /\ look k (snd e) = Some x) fs (column key n k (map snd g)).
Proof.
  intros H. set (t := fun fe : string * run => match row_name key (fst (snd fe)), look k (snd (snd fe)) with Some n', Some _ => String.eqb n' n | _, _ => false end).
  exists (map fst (filter t g)). split; [exists t; reflexivity|]. induction g as [|[f e] g IH]; [constructor|]. cbn [filter map]. unfold column in *. cbn [flat_map].
  assert (IH' := IH (fun fe Hfe => H fe (or_intror Hfe))). clear IH. unfold t at 1. cbn [fst snd]. destruct (row_name key (fst e)) as [n'|] eqn:En; [|exact IH']. destruct (look k (snd e)) as [x|] eqn:Ex; [|exact IH'].
  destruct (String.eqb_spec n' n) as [->|]; [|exact IH']. cbn [map app fst]. constructor; [|exact IH']. exists e. split; [apply (H (f, e)); left; reflexivity|auto].
Qed.
Lemma nodup_filter_map {A B} (f : A -> B) (p : A -> bool) l : NoDup (map f l) -> NoDup (map f (filter p l)).
Proof.
  induction l as [|a l IH]; cbn; intros N; [constructor|]. inversion N as [|? ? Na Nl]; subst. destruct (p a); [|apply IH, Nl]. cbn. constructor; [|apply IH, Nl].
  intros K. apply Na. apply in_map_iff in K. destruct K as (x & Ex & Hx). apply filter_In in Hx. rewrite <- Ex. apply in_map, Hx.
Qed.
Lemma report_order to_int key listing shs ticks : NoDup listing -> (forall f, In f listing -> is_figure f = false) -> (forall f r, load f = Some (Some r) -> NoDup (map fst r)) ->
  report to_int key load listing = Some (shs, ticks) ->
  forall sh n row k vals, In sh shs -> look n (sh_rows sh) = Some row -> look k row = Some vals ->
  exists fs, NoDup fs /\ incl fs listing /\ StronglySorted (fun f f' => tick_le (tick_of to_int key f) (tick_of to_int key f') = true) fs /\
    Forall2 (fun f x => exists e, read_run load f e /\ row_name key (fst e) = Some n /\ look k (snd e) = Some x) fs vals /\
    (NoDup (map (tick_of to_int key) fs) -> List.length vals = List.length ticks -> ticks = map (tick_of to_int key) fs).
Proof.
  intros Nl Hf Hr H sh n row k vals Hs Hn Hk. destruct (report_parts _ _ _ _ _ Hf H) as (fs & ess & shs0 & P & S & T & El & -> & F2). clear H. destruct (tagged_read fs ess El) as (R1 & R2).
  set (pe := tagged fs) in *. set (es := map snd pe) in *. apply in_map_iff in Hs. destruct Hs as (sh0 & <- & Hs).
  set (cs := get_clusters String.eqb (group_key key) (map fst es)) in *.
  assert (HC : exists c, In c cs /\ make_sheet key (map (fun i => nth i es ([], [])) c) = Some sh0).
  { clear - F2 Hs. revert shs0 F2 Hs. induction cs as [|c cs IH]; intros shs F2 Hs; inversion F2; subst; [destruct Hs|]. destruct Hs as [<-|Hs]; [exists c; split; [left; reflexivity|assumption]|].
    destruct (IH _ H3 Hs) as (c' & A & B). exists c'. split; [right|]; assumption. }
  destruct HC as (c & Hc & Hm). assert (Lc : forall i, In i c -> i < List.length pe).
  { intros i Hi. destruct (member_has string String.eqb _ _ c i Hc Hi) as (L & _). unfold es in L. rewrite !map_length in L. exact L. }
  set (d0 := (""%string, ([], [])) : string * run). set (g := map (fun i => nth i pe d0) c).
  assert (Eg : map (fun i => nth i es ([], [])) c = map snd g).
  { unfold g. rewrite map_map. apply map_ext. intros i. unfold es. change ([], []) with (snd d0) at 1. apply map_nth. }
  rewrite Eg in Hm. assert (Hg : forall fe, In fe g -> In (fst fe) fs /\ read_run load (fst fe) (snd fe)).
  { intros fe Hfe. apply in_map_iff in Hfe. destruct Hfe as (i & <- & Hi). rewrite Forall_forall in R1. apply R1, nth_In, Lc, Hi. }
  assert (SH : shows key (map snd g) (sort_sheet sh0)).
  { apply sheet_shows; [|exact Hm]. intros e He. apply in_map_iff in He. destruct He as (fe & <- & Hfe). destruct (Hg fe Hfe) as (_ & ? & ? & _ & _ & _ & R). apply (Hr _ _ R). }
  destruct SH as (_ & _ & _ & SH). apply (SH n row k vals Hn) in Hk. destruct Hk as (Hv & _).
  destruct (column_tags key n k g (fun fe Hfe => proj2 (Hg fe Hfe))) as (fs' & (p & Ep) & FF). rewrite Hv in FF.
  assert (Sp : StronglySorted (fun a b : string * run => tick_le (tick_of to_int key (fst a)) (tick_of to_int key (fst b)) = true) pe).
  { apply (sorted_map_inv fst (fun f f' => tick_le (tick_of to_int key f) (tick_of to_int key f') = true)). rewrite R2. apply filter_sorted, S. }
  assert (Sg : StronglySorted (fun a b : string * run => tick_le (tick_of to_int key (fst a)) (tick_of to_int key (fst b)) = true) g).
  { apply pick_sorted; [exact Sp|apply (clusters_increase (group_key key) (map fst es)), Hc|exact Lc]. }
  assert (Nf : NoDup fs) by (apply (Permutation_NoDup (Permutation_sym P)), Nl).
  assert (Np : NoDup (map fst pe)) by (rewrite R2; apply NoDup_filter, Nf).
  assert (Ng : NoDup (map fst g)).
  { unfold g. rewrite map_map. assert (G : forall l, NoDup l -> (forall i, In i l -> i < List.length pe) -> NoDup (map (fun i => fst (nth i pe d0)) l)).
    { induction 1 as [|i l Hi Hl IH]; intros B; cbn; constructor; [|apply IH; intros j Hj; apply B; right; exact Hj]. intros K. apply in_map_iff in K. destruct K as (j & E & Hj).
      assert (i = j); [|subst; contradiction]. assert (Q : forall i, nth i (map fst pe) (fst d0) = fst (nth i pe d0)) by (intros; apply map_nth). rewrite <- !Q in E.
      symmetry. apply (proj1 (NoDup_nth (map fst pe) (fst d0)) Np); [rewrite map_length; apply B; right; exact Hj|rewrite map_length; apply B; left; reflexivity|exact E]. }
    apply G; [|exact Lc]. assert (In' := clusters_increase (group_key key) (map fst es) c Hc). clear - In'. induction In' as [|i c _ IH Hi]; constructor; [|exact IH]. rewrite Forall_forall in Hi. intros K. specialize (Hi i K). lia. }
  assert (Hincl : incl fs' listing).
  { intros f Hin. rewrite Ep in Hin. apply in_map_iff in Hin. destruct Hin as (fe & <- & Hfe). apply filter_In in Hfe. apply (Permutation_in _ P), (Hg fe), Hfe. }
  assert (Ss : StronglySorted (fun f f' => tick_le (tick_of to_int key f) (tick_of to_int key f') = true) fs') by (rewrite Ep; apply sorted_map, filter_sorted, Sg).
  exists fs'. split; [rewrite Ep; apply nodup_filter_map, Ng|]. split; [exact Hincl|]. split; [exact Ss|]. split; [exact FF|].
  intros Nt Lv. apply Forall2_same in FF.
  destruct (unique_sorted (sort_by tick_le (map (tick_of to_int key) (sort_by String.leb listing)))) as (U1 & U2); [apply (sort_sorted _ tick_le tick_total tick_trans)|].
  rewrite T. rewrite T in Lv. apply sorted_unique; [exact U1|apply sorted_map, Ss|]. apply Permutation_sym. apply NoDup_Permutation_bis; [exact Nt|rewrite map_length; lia|].
  intros t Ht. apply in_map_iff in Ht. destruct Ht as (f & <- & Hin). apply unique_in. apply (Permutation_in _ (Permutation_sym (sort_perm tick_le _))). apply in_map.
  apply (Permutation_in _ (Permutation_sym (sort_perm String.leb listing))), Hincl, Hin.
Qed.
End Load.
