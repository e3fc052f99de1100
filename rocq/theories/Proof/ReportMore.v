(** Order of the rows, files, bars, and the shipped sweeps. *)
From Coq Require Import String Ascii List Bool ZArith NArith Arith Lia Permutation Sorted.
From Verif.Spec Require Import ConfigSpec LaunchSpec ReportSpec.
From Verif.Model Require Import Utils Tools Launch Report RunConfigs.
From Verif.Proof Require Import UtilsProof LaunchProof ToolsProof2 ReportText ReportNames ReportSheets ReportRun.
Import ListNotations.
Local Open Scope string_scope.
Local Open Scope list_scope.

(** ** Rows are in the order of the families *)
Definition family_at : list nat := [0; 1; 2; 3; 3; 3; 4; 4; 4; 4; 5; 5; 5; 5; 6; 6; 6; 6; 7; 7; 7; 7].
Lemma prefix_part p q n : prefix (p ++ q)%string n = true -> prefix p n = true.
Proof. intros K. apply prefix_split in K. destruct K as (r & ->). rewrite app_assoc_s. apply prefix_app. Qed.
Lemma place_family n i : place n = Some i -> i < 22 /\ family n = nth i family_at 0.
Proof.
  unfold place, family, sampler_list, families. cbn [place_from family_from].
  pose proof (prefix_part "gwg" "(s" n) as G1. pose proof (prefix_part "gwg" "(r" n) as G2.
  pose proof (prefix_part "dmala" "-" n) as D0. pose proof (prefix_part "dmala" "(s" n) as D1. pose proof (prefix_part "dmala" "(r" n) as D2.
  pose proof (prefix_part "pas" "-" n) as P0. pose proof (prefix_part "pas" "(s" n) as P1. pose proof (prefix_part "pas" "(r" n) as P2.
  pose proof (prefix_part "dlmcf" "-" n) as F0. pose proof (prefix_part "dlmcf" "(s" n) as F1. pose proof (prefix_part "dlmcf" "(r" n) as F2.
  pose proof (prefix_part "dlmc" "-" n) as C0. pose proof (prefix_part "dlmc" "(s" n) as C1. pose proof (prefix_part "dlmc" "(r" n) as C2. cbn [append] in *.
  repeat (match goal with |- (if prefix ?q n then _ else _) = _ -> _ => destruct (prefix q n) eqn:?;
    [intros K; injection K as <-; split; [lia|]; cbn [family_at nth];
     repeat match goal with H : true = true -> prefix _ n = true |- _ => rewrite (H eq_refl) | H : prefix _ n = false |- _ => rewrite H end; try reflexivity; congruence|] end).
  discriminate.
Qed.
Lemma family_mono i j : i <= j -> j < 22 -> nth i family_at 0 <= nth j family_at 0.
Proof.
  intros H1 H2. do 22 (destruct j as [|j]; [do 23 (destruct i as [|i]; [cbn; lia|]); lia|]). lia.
Qed.
Section Rows.
Variable X : Type.
Lemma rows_ordered (sh : sheet X) : StronglySorted (fun a b => family a <= family b) (map fst (sh_rows (sort_sheet sh))).
Proof.
  unfold sort_sheet. cbn [sh_rows]. set (L := sort_by _ _).
  assert (S : StronglySorted (fun a b : nat * (string * table (list X)) => (fst a <=? fst b)%nat = true) L).
  { apply sort_sorted; [intros a b; rewrite !Nat.leb_le; lia|intros a b c; rewrite !Nat.leb_le; lia]. }
  assert (K : forall x, In x L -> place (fst (snd x)) = Some (fst x)).
  { intros x Hx. apply (Permutation_in _ (sort_perm _ _)) in Hx. apply in_flat_map in Hx. destruct Hx as (nr & _ & Hx). destruct (place (fst nr)) as [i|] eqn:E; [|destruct Hx]. destruct Hx as [<-|[]]. exact E. }
  rewrite map_map. clearbody L. apply sorted_map. induction S as [|a l Hl IH Ha]; constructor; [apply IH; intros x Hx; apply K; right; exact Hx|].
  rewrite Forall_forall in *. intros b Hb. specialize (Ha b Hb). apply Nat.leb_le in Ha. destruct (place_family _ _ (K a (or_introl eq_refl))) as (A1 & A2). destruct (place_family _ _ (K b (or_intror Hb))) as (B1 & B2).
  rewrite A2, B2. apply family_mono; lia.
Qed.

(** ** csv files *)
Lemma csv_cells (sh : sheet X) head rows : csv_rows sh = Some (head, rows) ->
  map fst rows = map fst (sh_rows sh) /\ exists cols, head = "sampler" :: cols /\
  (forall n row k, In (n, row) (sh_rows sh) -> In k (map fst row) -> In k cols) /\
  Forall2 (fun nc nr => fst nc = fst nr /\ snd nc = map (fun k => look k (snd nr)) cols) rows (sh_rows sh).
Proof.
  unfold csv_rows. destruct (sh_rows sh) as [|[n0 r0] rest] eqn:E; [discriminate|]. rewrite <- E. clear E rest. cbv zeta. match goal with |- (if ?b then _ else _) = _ -> _ => destruct b eqn:F; [|discriminate] end. intros H. injection H as <- <-.
  split; [rewrite map_map; cbn; reflexivity|]. exists (map fst r0). split; [reflexivity|]. split.
  - intros n row k H1 H2. rewrite forallb_forall in F. specialize (F _ H1). cbn in F. rewrite forallb_forall in F. specialize (F _ H2). apply existsb_exists in F. destruct F as (x & Hx & Ex). apply String.eqb_eq in Ex. subst. exact Hx.
  - generalize (sh_rows sh) as l. induction l as [|nr l IH]; cbn; constructor; [split; reflexivity|exact IH].
Qed.

(** ** Bars *)
Lemma all_or_none_in {A} (l : list (option A)) r a : all_or_none l = Some r -> In a r -> In (Some a) l.
Proof. intros H Ha. apply all_or_none_some in H. subst l. apply in_map, Ha. Qed.
Lemma combine_map_l {A B C} (f : A -> B) (l : list A) (l' : list C) : combine (map f l) l' = map (fun p => (f (fst p), snd p)) (combine l l').
Proof. revert l'. induction l as [|a l IH]; intros [|c l']; cbn; [reflexivity..|]. rewrite IH. reflexivity. Qed.
Lemma bars_rows zero ticks k (sh : sheet X) bs : bars zero ticks k sh = Some bs ->
  map fst bs = map fst (sh_rows sh) /\ bs <> [] /\
  (forall n row, In (n, row) (sh_rows sh) -> exists l, look k row = Some l /\ List.length l <= List.length ticks /\
     In (n, combine ticks (l ++ repeat zero (List.length ticks - List.length l))) bs) /\
  forall n b, In (n, b) bs -> exists row l, In (n, row) (sh_rows sh) /\ look k row = Some l /\ List.length l <= List.length ticks /\ b = combine ticks (l ++ repeat zero (List.length ticks - List.length l)).
Proof.
  unfold bars. destruct (all_or_none _) as [[|[n0 l0] rows]|] eqn:E; [discriminate| |discriminate].
  destruct ((List.length l0 =? List.length ticks)%nat && forallb _ rows) eqn:F; [|discriminate]. set (L := map _ _). intros H. assert (Hb : bs = L) by congruence. rewrite Hb. unfold L. clear L H Hb.
  apply andb_prop in F. destruct F as (F1 & F2). apply Nat.eqb_eq in F1. rewrite forallb_forall in F2.
  assert (FL : forall n l, In (n, l) ((n0, l0) :: rows) -> List.length l <= List.length ticks).
  { intros n l [K|K]; [injection K as <- <-; lia|]. specialize (F2 _ K). apply Nat.leb_le in F2. exact F2. }
  apply all_or_none_some in E.
  assert (M : forall l r, map (fun nr : string * table (list X) => option_map (fun l => (fst nr, l)) (look k (snd nr))) r = map Some l ->
     map fst l = map fst r /\ (forall n row, In (n, row) r -> exists v, look k row = Some v /\ In (n, v) l) /\ (forall n v, In (n, v) l -> exists row, In (n, row) r /\ look k row = Some v)).
  { intros l r. revert l. induction r as [|[n row] r IH]; intros [|[n' v] l] H; cbn in *; try discriminate; [repeat split; intros; contradiction|]. injection H as H1 H2. destruct (IH l H2) as (I1 & I2 & I3).
    destruct (look k row) as [w|] eqn:Ew; [|discriminate]. cbn in H1. injection H1 as <- <-. split; [f_equal; exact I1|]. split.
    - intros m q [K|K]; [injection K as <- <-; exists w; auto|destruct (I2 m q K) as (u & A & B); exists u; auto].
    - intros m q [K|K]; [injection K as <- <-; exists row; auto|destruct (I3 m q K) as (u & A & B); exists u; auto]. }
  destruct (M _ _ E) as (M1 & M2 & M3). split; [rewrite map_map; exact M1|]. split; [discriminate|]. split.
  - intros n row Hn. destruct (M2 n row Hn) as (v & A & B). exists v. split; [exact A|]. split; [apply (FL n), B|]. exact (in_map (fun nl : string * list X => (fst nl, combine ticks (snd nl ++ repeat zero (List.length ticks - List.length (snd nl))))) _ _ B).
  - intros n b Hb. apply in_map_iff in Hb. destruct Hb as ([n' v] & Eb & Hv). cbn [fst snd] in Eb. injection Eb as <- <-. destruct (M3 n' v Hv) as (row & A & B). exists row, v. split; [exact A|]. split; [exact B|]. split; [apply (FL n'), Hv|reflexivity].
Qed.
Lemma report_bars (load : string -> option (option (table X))) to_int key listing shs ticks zero k : NoDup listing -> (forall f, In f listing -> is_figure f = false) -> (forall f r, load f = Some (Some r) -> NoDup (map fst r)) ->
  report to_int key load listing = Some (shs, ticks) ->
  forall sh bs, In sh shs -> bars zero ticks k sh = Some bs -> map fst bs = map fst (sh_rows sh) /\
  forall n b, In (n, b) bs -> exists fs, NoDup fs /\ incl fs listing /\ List.length fs <= List.length ticks /\
    Forall (fun f => exists e x, read_run load f e /\ row_name key (fst e) = Some n /\ look k (snd e) = Some x /\ In x (map snd b)) fs /\
    (NoDup (map (tick_of to_int key) fs) -> List.length fs = List.length ticks ->
     Forall2 (fun f tx => exists e, read_run load f e /\ row_name key (fst e) = Some n /\ tick_of to_int key f = fst tx /\ look k (snd e) = Some (snd tx)) fs b).
Proof.
  intros Nl Hf Hr H sh bs Hs Hb. assert (ND : NoDup (map fst (sh_rows sh))).
  { destruct (report_tables X load _ _ _ _ _ Hf Hr H) as (gs & es & F2 & _). clear - F2 Hs. induction F2 as [|g s gs ss Hg F2 IH]; [destruct Hs|]. destruct Hs as [<-|Hs]; [apply Hg|apply IH, Hs]. }
  destruct (bars_rows _ _ _ _ _ Hb) as (B1 & _ & _ & B2). split; [exact B1|]. intros n b Hn. destruct (B2 n b Hn) as (row & l & R1 & R2 & R3 & ->).
  destruct (report_order X load _ _ _ _ _ Nl Hf Hr H sh n row k l Hs (in_look n row _ ND R1) R2) as (fs & F1 & F2 & _ & F4 & F5). exists fs. pose proof (Forall2_same _ _ _ F4) as FL.
  split; [exact F1|]. split; [exact F2|]. split; [lia|]. split.
  - assert (Q : forall x, In x l -> In x (map snd (combine ticks (l ++ repeat zero (List.length ticks - List.length l))))).
    { intros x Hx. assert (E : map snd (combine ticks (l ++ repeat zero (List.length ticks - List.length l))) = l ++ repeat zero (List.length ticks - List.length l)).
      { assert (EL : List.length ticks = List.length (l ++ repeat zero (List.length ticks - List.length l))) by (rewrite app_length, repeat_length; lia). revert EL. generalize (l ++ repeat zero (List.length ticks - List.length l)) as m. clear. induction ticks as [|t ticks IH]; intros [|y m] E; cbn in *; try discriminate; [reflexivity|]. f_equal. apply IH. lia. }
      rewrite E. apply in_app_iff. auto. }
    clear - F4 Q. revert Q. generalize (map snd (combine ticks (l ++ repeat zero (List.length ticks - List.length l)))) as m. intros m Q. induction F4 as [|f x fs l (e & A & B & C) F4 IH]; constructor; [exists e, x; repeat split; try assumption; apply Q; left; reflexivity|apply IH; intros y Hy; apply Q; right; exact Hy].
  - intros Nt Lf. assert (Lv : List.length l = List.length ticks) by lia. rewrite (F5 Nt Lv) at 1. rewrite Lv, Nat.sub_diag. cbn [repeat]. rewrite app_nil_r. clear - F4.
    induction F4 as [|f x fs l (e & A & B & C) F4 IH]; cbn; constructor; [exists e; auto|exact IH].
Qed.
End Rows.

(** ** Ticks *)
Lemma index_first a p s : first_after a p s -> index 0 p s = Some (String.length a).
Proof.
  intros ((r & ->) & H). rewrite index_skip; [rewrite index_here; cbn; f_equal; lia|]. intros a1 a2 -> N. destruct (prefix p (a2 ++ p ++ r)%string) eqn:E; [|reflexivity]. exfalso.
  apply prefix_split in E. destruct E as (q & E). specialize (H a1 q). rewrite app_assoc_s, E in H. specialize (H eq_refl). rewrite length_app_s in H. destruct a2; [congruence|cbn in H; lia].
Qed.
Lemma contains_not c v : free_of c v -> contains (String c "") v = false.
Proof.
  intros H. unfold contains. rewrite index_absent; [reflexivity|]. intros (x & y & ->). apply H. rewrite !chars_app. apply in_app_iff. right. left. reflexivity.
Qed.
Lemma tick_text to_int key a v rest folder : folder = (a ++ key ++ "=" ++ rest)%string -> first_after a key folder -> free_of "," v -> (rest = v \/ exists b, rest = (v ++ "," ++ b)%string) ->
  tick_of to_int key folder = let u := if contains "(" v then past "(" v else v in match to_int u with Some z => TInt z | None => TStr u end.
Proof.
  intros E F Hv R. unfold tick_of. rewrite (index_first a key folder F).
  assert (E1 : from (1 + String.length a + String.length key) folder = rest).
  { rewrite E. replace (1 + String.length a + String.length key) with (String.length (a ++ key ++ "=")%string) by (rewrite !length_app_s; cbn; lia).
    replace (a ++ key ++ "=" ++ rest)%string with ((a ++ key ++ "=") ++ rest)%string by (rewrite !app_assoc_s; reflexivity). apply from_app. }
  rewrite E1. assert (E2 : (if contains "," rest then upto "," rest else rest) = v); [|rewrite E2; reflexivity].
  destruct R as [->|(b & ->)]; [rewrite contains_not by exact Hv; reflexivity|]. cbn [append]. unfold contains, upto. rewrite (index_char "," v b Hv). apply substring_first.
Qed.
