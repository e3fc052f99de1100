(** The tables of a report: every loaded run appears, once, in the row of its name in the table of its group. *)
From Coq Require Import String Ascii List Bool ZArith Arith Lia Permutation Sorted.
From Verif.Spec Require Import ConfigSpec LaunchSpec ReportSpec.
From Verif.Model Require Import Utils Tools Launch Report.
From Verif.Proof Require Import UtilsProof LaunchProof ToolsProof2 ReportText ReportNames.
Import ListNotations.
Local Open Scope string_scope.
Local Open Scope list_scope.

(** ** Sorting *)
Lemma insert_perm {A} le (a : A) l : Permutation (insert_by le a l) (a :: l).
Proof. induction l as [|b l IH]; cbn; [reflexivity|]. destruct (le a b); [reflexivity|]. rewrite IH. apply perm_swap. Qed.
Lemma sort_perm {A} le (l : list A) : Permutation (sort_by le l) l.
Proof. induction l as [|a l IH]; cbn; [constructor|]. rewrite insert_perm, IH. reflexivity. Qed.
Section Sorting.
Variable A : Type.
Variable le : A -> A -> bool.
Hypothesis total : forall a b, le a b = true \/ le b a = true.
Hypothesis trans : forall a b c, le a b = true -> le b c = true -> le a c = true.
Lemma insert_sorted a l : StronglySorted (fun x y => le x y = true) l -> StronglySorted (fun x y => le x y = true) (insert_by le a l).
Proof.
  induction 1 as [|b l Hl IH Hb]; cbn [insert_by]; [repeat constructor|]. destruct (le a b) eqn:E.
  - constructor; [constructor; assumption|]. constructor; [exact E|]. rewrite Forall_forall in *. intros x Hx. apply (trans a b x E), Hb, Hx.
  - constructor; [exact IH|]. rewrite Forall_forall in *. intros x Hx. apply (Permutation_in _ (insert_perm le a l)) in Hx. destruct Hx as [<-|Hx]; [|apply Hb, Hx].
    destruct (total a b); congruence.
Qed.
Lemma sort_sorted l : StronglySorted (fun x y => le x y = true) (sort_by le l).
Proof. induction l as [|a l IH]; cbn; [constructor|]. apply insert_sorted, IH. Qed.
End Sorting.

(** ** Dictionaries *)
Lemma look_in {V} k (v : V) d : look k d = Some v -> In (k, v) d.
Proof. induction d as [|[a w] d IH]; cbn; [discriminate|]. destruct (String.eqb_spec k a) as [->|]; intros H; [inversion H; auto|auto]. Qed.
Lemma in_look {V} k (v : V) d : NoDup (map fst d) -> In (k, v) d -> look k d = Some v.
Proof.
  induction d as [|[a w] d IH]; cbn; intros N H; [destruct H|]. inversion N as [|? ? Na Nd]; subst. destruct H as [E|H].
  - inversion E. rewrite String.eqb_refl. reflexivity.
  - destruct (String.eqb_spec k a) as [->|]; [|auto]. exfalso. apply Na. apply in_map_iff. exists (a, v). auto.
Qed.
Lemma look_key {V} k (d : table V) : (exists v, look k d = Some v) <-> In k (map fst d).
Proof.
  split.
  - intros (v & H). apply look_in in H. apply in_map_iff. exists (k, v). auto.
  - induction d as [|[a w] d IH]; cbn; [tauto|]. intros [<-|H]; [rewrite String.eqb_refl; eauto|]. destruct (String.eqb k a); eauto.
Qed.
Lemma get_look {V} k (d : table V) : Tools.get k d = look k d.
Proof. induction d as [|[a w] d IH]; cbn; [reflexivity|]. rewrite String.eqb_sym. destruct (String.eqb k a); [reflexivity|exact IH]. Qed.
Lemma has_look {V} k (d : table V) : Tools.has k d = has_key k d.
Proof. unfold Tools.has, has_key. rewrite get_look. reflexivity. Qed.
Lemma del_dict {V} k (d : table V) : NoDup (map fst d) -> NoDup (map fst (del k d)).
Proof.
  unfold del. induction d as [|[a w] d IH]; cbn; intros N; [constructor|]. inversion N as [|? ? Na Nd]; subst. destruct (String.eqb a k); cbn [negb]; [apply IH, Nd|].
  cbn [map fst]. constructor; [|apply IH, Nd]. intros K. apply Na. apply in_map_iff in K. destruct K as (x & Ex & Hx). apply filter_In in Hx. apply in_map_iff. exists x. tauto.
Qed.

(** ** Rows *)
Section Rows.
Variable X : Type.
Lemma append_look (res : table X) : NoDup (map fst res) -> forall row row', append_all res row = Some row' ->
  map fst row' = map fst row /\
  (forall k, In k (map fst res) -> In k (map fst row)) /\
  forall k, look k row' = match look k res with Some x => option_map (fun l => l ++ [x]) (look k row) | None => look k row end.
Proof.
  induction res as [|[a x] res IH]; cbn [append_all map fst look]; intros N row row' H; [inversion H; repeat split; auto; intros k []|].
  inversion N as [|? ? Na Nr]; subst. destruct (look a row) as [l|] eqn:E; [|discriminate]. destruct (IH Nr _ _ H) as (I1 & I2 & I3).
  assert (Ha : In a (map fst row)) by (apply look_key; eauto). rewrite put_keys in I1, I2 by exact Ha. split; [exact I1|]. split.
  - intros k [<-|K]; auto.
  - intros k. rewrite I3, look_put. destruct (String.eqb_spec k a) as [->|]; [|reflexivity]. rewrite (look_none a res Na), E. reflexivity.
Qed.
Lemma look_empty (res : table X) k : look k (map (fun kx => (fst kx, @nil X)) res) = match look k res with Some _ => Some [] | None => None end.
Proof. induction res as [|[a x] res IH]; cbn; [reflexivity|]. destruct (String.eqb k a); [reflexivity|exact IH]. Qed.
Variable key : string.
Notation run := (table string * table X)%type.
Lemma column_app n k (g h : list run) : column key n k (g ++ h) = column key n k g ++ column key n k h.
Proof. unfold column. apply flat_map_app. Qed.
Lemma column_one n k (e : run) m : row_name key (fst e) = Some m ->
  column key n k [e] = if String.eqb m n then match look k (snd e) with Some x => [x] | None => [] end else [].
Proof. intros H. unfold column. cbn [flat_map]. rewrite H, app_nil_r. destruct (look k (snd e)); [reflexivity|]. destruct (String.eqb m n); reflexivity. Qed.
Lemma column_other n k (g : list run) : (forall e, In e g -> row_name key (fst e) <> Some n) -> column key n k g = [].
Proof.
  induction g as [|e g IH]; intros H; [reflexivity|]. change (e :: g) with ([e] ++ g). rewrite column_app, IH by (intros x Hx; apply H; right; exact Hx). rewrite app_nil_r.
  unfold column. cbn [flat_map]. rewrite app_nil_r. pose proof (H e (or_introl eq_refl)) as N. destruct (row_name key (fst e)) as [m|]; [|reflexivity].
  destruct (look k (snd e)); [|reflexivity]. destruct (String.eqb_spec m n) as [->|]; [congruence|reflexivity].
Qed.
Definition good (g : list run) (rows : table (table (list X))) : Prop :=
  NoDup (map fst rows) /\ (forall n, In n (map fst rows) <-> exists e, In e g /\ row_name key (fst e) = Some n) /\
  (forall n row k l, look n rows = Some row -> (look k row = Some l <-> column key n k g = l /\ l <> [])).
Lemma add_run_good g (e : run) rows rows' : NoDup (map fst (snd e)) -> good g rows -> add_run key e rows = Some rows' -> good (g ++ [e]) rows'.
Proof.
  intros Nr (G1 & G2 & G3). intros H. unfold add_run in H. destruct (row_name key (fst e)) as [n|] eqn:En; [|discriminate H].
  destruct (String.eqb n "save_title" || String.eqb n "model"); [discriminate H|].
  set (row := match look n rows with Some r => r | None => put_all [] (map (fun kx => (fst kx, [])) (snd e)) end) in H.
  destruct (append_all (snd e) row) as [row'|] eqn:Ea; [|discriminate H]. cbn [option_map] in H. injection H as <-.
  destruct (append_look _ Nr _ _ Ea) as (A1 & A2 & A3).
  assert (Hrow : forall k l, look k row' = Some l <-> column key n k (g ++ [e]) = l /\ l <> []).
  { intros k l. rewrite A3, column_app, (column_one n k e n En), String.eqb_refl. subst row. destruct (look n rows) as [r|] eqn:Er.
    - specialize (G3 n r k). destruct (look k (snd e)) as [x|] eqn:Ex; [|rewrite app_nil_r; apply G3, Er].
      assert (Kr : exists v, look k r = Some v) by (apply look_key, A2; apply look_key; eauto). destruct Kr as (v & Ev). rewrite Ev. cbn [option_map].
      destruct (proj1 (G3 v Er) Ev) as (<- & _). split; [intros K; injection K as <-; split; [reflexivity|intros Z; apply app_eq_nil in Z; destruct Z; discriminate]|intros (<- & _); reflexivity].
    - rewrite column_other.
      + assert (Ep : put_all [] (map (fun kx : string * X => (fst kx, @nil X)) (snd e)) = map (fun kx => (fst kx, [])) (snd e)) by (apply put_all_new; cbn [map app]; rewrite map_map; exact Nr).
        rewrite Ep, look_empty. destruct (look k (snd e)) as [x|]; cbn [option_map app].
        * split; [intros K; injection K as <-; split; [reflexivity|discriminate]|intros (<- & _); reflexivity].
        * split; [discriminate|intros (<- & K); congruence].
      + intros x Hx K. assert (J : In n (map fst rows)) by (apply G2; eauto). apply look_key in J. destruct J as (v & J). congruence. }
  split; [|split].
  - apply put_dict, G1.
  - intros m. rewrite <- look_key, look_put. destruct (String.eqb_spec m n) as [->|N].
    + split; [intros _; exists e; split; [apply in_app_iff; right; left; reflexivity|exact En]|intros _; eauto].
    + rewrite look_key, G2. split; intros (x & Hx & Ex).
      * exists x. split; [apply in_app_iff; left; exact Hx|exact Ex].
      * apply in_app_iff in Hx. destruct Hx as [Hx|[<-|[]]]; [eauto|congruence].
  - intros m r k l. rewrite look_put. destruct (String.eqb_spec m n) as [->|N].
    + intros K. inversion K; subst r. apply Hrow.
    + intros K. rewrite (G3 m r k l K). rewrite column_app, (column_one m k e n En). destruct (String.eqb_spec n m); [congruence|]. rewrite app_nil_r. reflexivity.
Qed.
Lemma add_runs_good (es : list run) : forall g rows rows', (forall e, In e es -> NoDup (map fst (snd e))) -> good g rows -> add_runs key es rows = Some rows' -> good (g ++ es) rows'.
Proof.
  induction es as [|e es IH]; cbn [add_runs]; intros g rows rows' N G H; [inversion H; rewrite app_nil_r; subst; exact G|].
  destruct (add_run key e rows) as [r|] eqn:E; [|discriminate]. change (e :: es) with ([e] ++ es). rewrite (app_assoc g [e] es). apply (IH (g ++ [e]) r rows'); [intros x Hx; apply N; right; exact Hx| |exact H].
  apply (add_run_good g e rows r); [apply N; left; reflexivity|exact G|exact E].
Qed.
Lemma good_nil : good [] [].
Proof. repeat split; try constructor; try (intros []; fail); try (intros (e & [] & _); fail); discriminate. Qed.

(** ** Order of the rows *)
Lemma place_known n : place n <> None <-> known n.
Proof.
  unfold place, known, sampler_list, families. cbn [place_from In].
  split.
  - intros H.
    destruct (prefix "h" n) eqn:E1; [exists "h"; auto|]. destruct (prefix "b" n) eqn:E2; [exists "b"; auto|]. destruct (prefix "r" n) eqn:E3; [exists "r"; auto|].
    assert (P : forall p q, prefix (p ++ q)%string n = true -> prefix p n = true).
    { intros p q K. apply prefix_split in K. destruct K as (r & ->). rewrite app_assoc_s. apply prefix_app. }
    destruct (prefix "gwg(s" n) eqn:E4; [exists "gwg"; split; [tauto|apply (P "gwg" "(s"), E4]|]. destruct (prefix "gwg(r" n) eqn:E5; [exists "gwg"; split; [tauto|apply (P "gwg" "(r"), E5]|].
    destruct (prefix "gwg" n) eqn:E6; [exists "gwg"; tauto|].
    destruct (prefix "dmala-" n) eqn:E7; [exists "dmala"; split; [tauto|apply (P "dmala" "-"), E7]|]. destruct (prefix "dmala(s" n) eqn:E8; [exists "dmala"; split; [tauto|apply (P "dmala" "(s"), E8]|].
    destruct (prefix "dmala(r" n) eqn:E9; [exists "dmala"; split; [tauto|apply (P "dmala" "(r"), E9]|]. destruct (prefix "dmala" n) eqn:E10; [exists "dmala"; tauto|].
    destruct (prefix "pas-" n) eqn:E11; [exists "pas"; split; [tauto|apply (P "pas" "-"), E11]|]. destruct (prefix "pas(s" n) eqn:E12; [exists "pas"; split; [tauto|apply (P "pas" "(s"), E12]|].
    destruct (prefix "pas(r" n) eqn:E13; [exists "pas"; split; [tauto|apply (P "pas" "(r"), E13]|]. destruct (prefix "pas" n) eqn:E14; [exists "pas"; tauto|].
    destruct (prefix "dlmcf-" n) eqn:E15; [exists "dlmcf"; split; [tauto|apply (P "dlmcf" "-"), E15]|]. destruct (prefix "dlmcf(s" n) eqn:E16; [exists "dlmcf"; split; [tauto|apply (P "dlmcf" "(s"), E16]|].
    destruct (prefix "dlmcf(r" n) eqn:E17; [exists "dlmcf"; split; [tauto|apply (P "dlmcf" "(r"), E17]|]. destruct (prefix "dlmcf" n) eqn:E18; [exists "dlmcf"; tauto|].
    destruct (prefix "dlmc-" n) eqn:E19; [exists "dlmc"; split; [tauto|apply (P "dlmc" "-"), E19]|]. destruct (prefix "dlmc(s" n) eqn:E20; [exists "dlmc"; split; [tauto|apply (P "dlmc" "(s"), E20]|].
    destruct (prefix "dlmc(r" n) eqn:E21; [exists "dlmc"; split; [tauto|apply (P "dlmc" "(r"), E21]|]. destruct (prefix "dlmc" n) eqn:E22; [exists "dlmc"; tauto|].
    contradiction.
  - intros (p & Hp & Ep).
    repeat (match goal with |- context [if prefix ?q n then _ else _] => destruct (prefix q n) eqn:?; [discriminate|] end).
    destruct Hp as [<-|[<-|[<-|[<-|[<-|[<-|[<-|[<-|[]]]]]]]]]; congruence.
Qed.
Definition named (rows : table (table (list X))) : list (nat * (string * table (list X))) :=
  flat_map (fun nr => match place (fst nr) with Some i => [(i, nr)] | None => [] end) rows.
Lemma named_filter rows : map snd (named rows) = filter (fun nr => match place (fst nr) with Some _ => true | None => false end) rows.
Proof. unfold named. induction rows as [|nr rows IH]; cbn [flat_map filter]; [reflexivity|]. rewrite map_app, IH. destruct (place (fst nr)); reflexivity. Qed.
Lemma sort_sheet_perm (sh : sheet X) : Permutation (sh_rows (sort_sheet sh)) (filter (fun nr => match place (fst nr) with Some _ => true | None => false end) (sh_rows sh)).
Proof. unfold sort_sheet. cbn [sh_rows]. rewrite <- named_filter. apply Permutation_map, sort_perm. Qed.
Lemma nodup_filter_keys (f : string * table (list X) -> bool) rows : NoDup (map fst rows) -> NoDup (map fst (filter f rows)).
Proof.
  induction rows as [|[a w] d IH]; cbn; intros N; [constructor|]. inversion N as [|? ? Na Nd]; subst. destruct (f (a, w)); [|apply IH, Nd].
  cbn [map fst]. constructor; [|apply IH, Nd]. intros K. apply Na. apply in_map_iff in K. destruct K as (x & Ex & Hx). apply filter_In in Hx. apply in_map_iff. exists x. tauto.
Qed.
Lemma sheet_shows (g : list run) sh : (forall e, In e g -> NoDup (map fst (snd e))) -> make_sheet key g = Some sh -> shows key g (sort_sheet sh).
Proof.
  intros N. unfold make_sheet. destruct (add_runs key g []) as [rows|] eqn:E; [|discriminate]. cbn [option_map]. intros H. inversion H; subst sh. clear H.
  pose proof (add_runs_good g [] [] rows N good_nil E) as (G1 & G2 & G3). cbn [app] in *.
  set (sh := {| sh_title := title (fst (hd ([], []) g)); sh_rows := rows |}). pose proof (sort_sheet_perm sh) as P. change (sh_rows sh) with rows in P.
  assert (Nd : NoDup (map fst (sh_rows (sort_sheet sh)))).
  { apply (Permutation_NoDup (Permutation_sym (Permutation_map fst P))). apply nodup_filter_keys, G1. }
  assert (In' : forall n r, In (n, r) (sh_rows (sort_sheet sh)) <-> In (n, r) rows /\ known n).
  { intros n r. rewrite <- place_known. split.
    - intros H. apply (Permutation_in _ P) in H. apply filter_In in H. cbn [fst] in H. destruct (place n); [split; [tauto|discriminate]|destruct H; discriminate].
    - intros (H & K). apply (Permutation_in _ (Permutation_sym P)). apply filter_In. cbn [fst]. destruct (place n); [auto|congruence]. }
  split; [reflexivity|]. split; [exact Nd|]. split.
  - intros n. rewrite <- G2. split.
    + intros H. apply in_map_iff in H. destruct H as ([m r] & <- & H). apply In' in H. split; [apply H|]. apply in_map_iff. exists (m, r). tauto.
    + intros (K & H). apply in_map_iff in H. destruct H as ([m r] & <- & H). apply in_map_iff. exists (m, r). split; [reflexivity|]. apply In'. auto.
  - intros n row k l H. apply look_in, In' in H. destruct H as (H & _). apply (G3 n row k l). apply in_look; assumption.
Qed.

(** ** Groups *)
Lemma sheets_organize clusters (es : list run) shs : organize key clusters es = Some shs ->
  Forall2 (fun g sh => make_sheet key g = Some sh) (map (fun c => map (fun i => nth i es ([], [])) c) clusters) shs.
Proof.
  unfold organize. intros H. apply all_or_none_some in H. revert shs H. induction clusters as [|c cs IH]; intros [|sh shs] H; cbn in *; try discriminate; [constructor|]. injection H as H1 H2. constructor; [exact H1|apply IH, H2].
Qed.
Lemma map_nth_seq {A} (l : list A) d : map (fun i => nth i l d) (seq 0 (List.length l)) = l.
Proof. induction l as [|a l IH]; [reflexivity|]. cbn [List.length seq map nth]. rewrite <- seq_shift, map_map. cbn. f_equal. exact IH. Qed.
Lemma filter_nth {A} (f : A -> bool) (l : list A) d : map (fun i => nth i l d) (filter (fun i => f (nth i l d)) (seq 0 (List.length l))) = filter f l.
Proof.
  transitivity (filter f (map (fun i => nth i l d) (seq 0 (List.length l)))); [|rewrite map_nth_seq; reflexivity]. generalize (seq 0 (List.length l)) as s. induction s as [|i s IH]; cbn; [reflexivity|]. destruct (f (nth i l d)); cbn; [f_equal|]; exact IH.
Qed.
Lemma nth_fst (es : list run) i : nth i (map fst es) [] = fst (nth i es ([], [])).
Proof. change (@nil (string * string)) with (fst (@nil (string * string), @nil (string * X))) at 1. apply map_nth. Qed.
Lemma groups_perm k (es : list run) :
  Permutation (concat (map (fun c => map (fun i => nth i es ([], [])) c) (get_clusters String.eqb k (map fst es)))) (filter (fun e => has_key k (fst e)) es).
Proof.
  rewrite <- concat_map. destruct (clusters_partition string String.eqb k (map fst es)) as (P & _). rewrite P. rewrite map_length.
  rewrite <- (filter_nth (fun e : run => has_key k (fst e)) es ([], [])). erewrite filter_ext; [reflexivity|]. intros i. cbv beta. rewrite has_look, nth_fst. reflexivity.
Qed.
Lemma hd_map {A B} (f : A -> B) l d d' : l <> [] -> hd d' (map f l) = f (hd d l).
Proof. destruct l; [congruence|reflexivity]. Qed.
Lemma groups_alike k (es : list run) g : (forall e, In e es -> NoDup (map fst (fst e))) ->
  In g (map (fun c => map (fun i => nth i es ([], [])) c) (get_clusters String.eqb k (map fst es))) -> g <> [] /\ alike k g.
Proof.
  intros N H. apply in_map_iff in H. destruct H as (c & <- & Hc). destruct (clusters_partition string String.eqb k (map fst es)) as (_ & F). rewrite Forall_forall in F. pose proof (F c Hc) as Nc.
  split; [destruct c; [congruence|discriminate]|]. intros e He k' v Hl K1 K2 K3. apply in_map_iff in He. destruct He as (i & <- & Hi). rewrite (hd_map _ c 0) in Hl by exact Nc. cbv beta in Hl.
  assert (N' : forall d, In d (map fst es) -> NoDup (map fst d)) by (intros d Hd; apply in_map_iff in Hd; destruct Hd as (e & <- & He); apply N, He).
  destruct (member_has string String.eqb k (map fst es) c i Hc Hi) as (Li & _). rewrite map_length in Li.
  apply in_look; [apply N, nth_In, Li|]. rewrite <- nth_fst. apply (clusters_first string String.eqb String.eqb_eq k (map fst es) N' c i Hc Hi k' v); try assumption.
  rewrite nth_fst. apply look_in, Hl.
Qed.
End Rows.
