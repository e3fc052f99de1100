(** Proofs about the temperature figure. *)
From Coq Require Import Reals String Ascii List Bool ZArith Arith Lia Lra Permutation Sorted.
From Verif.Model Require Import Utils Tools Launch Report EssReport CutReport TempReport RunConfigs.
From Verif.Spec Require Import ConfigSpec LaunchSpec ReportSpec EssReportSpec TempSpec.
From Verif.Proof Require Import ReportText ReportSheets ReportRun ReportMore ReportShipped EssReportProof.
Import ListNotations.
Local Open Scope string_scope.

(** ** Numbers *)
Lemma temp_read to_num a p b r : solid a -> solid b -> spaces p -> spaces r ->
  temp_pair to_num (metric_text true (a ++ " " ++ p ++ b ++ r)) = match to_num a, to_num b with Some u, Some v => Some (u, v) | _, _ => None end.
Proof.
  intros Ha Hb Hp Hr. unfold temp_pair, metric_text.
  assert (E : "[[" ++ (a ++ " " ++ p ++ b ++ r) ++ "]]" = ("[[" ++ a) ++ String " " ((p ++ b ++ r) ++ "]]")).
  { rewrite ?EssReportProof.app_assoc_s. cbn [append]. rewrite ?EssReportProof.app_assoc_s. reflexivity. }
  rewrite E. assert (F : free_of " "%char ("[[" ++ a)).
  { unfold free_of. cbn. intros [K|[K|K]]; try discriminate. exact (solid_free a Ha K). }
  change " " with (String " " ""). unfold upto. rewrite (index_char " "%char _ _ F), (past_app " "%char _ _ F), substring_head. cbv zeta.
  change (from 2 ("[[" ++ a)) with (from (String.length "[[") ("[[" ++ a)). rewrite from_app.
  rewrite (EssReportProof.app_length_s (p ++ b ++ r) "]]"). change (String.length "]]") with 2. rewrite Nat.add_sub, substring_head.
  unfold py_float. pose proof (strip_solid "" a no_spaces Ha) as Sa. cbn [append] in Sa. rewrite Sa, (strip_mid p b r b b Hp Hr Hb Hb); [reflexivity| |]; exists ""; [symmetry; apply EssReportProof.app_nil_s|reflexivity].
Qed.
Lemma temp_padded to_num t : to_num "" = None -> temp_pair to_num (metric_text true (" " ++ t)) = None.
Proof. intros H. unfold temp_pair, metric_text. change ("[[" ++ (" " ++ t) ++ "]]") with ("[[" ++ String " " (t ++ "]]")). unfold upto. change " " with (String " " "") at 1. rewrite (index_char " "%char "[[" (t ++ "]]")) by (cbn; intros [K|[K|[]]]; discriminate). rewrite substring_head. change (from 2 "[[") with "". unfold py_float at 1. change (strip "") with "". rewrite H. reflexivity. Qed.

(** ** Titles *)
Lemma title_concat d : title d = String.concat "," (map (fun kv => (fst kv ++ "=" ++ snd kv)%string) d ++ [""])%list.
Proof.
  unfold title. induction d as [|kv d IH]; [reflexivity|]. cbn [map app]. 
  assert (S1 : forall x l, String.concat "" (x :: l) = x ++ String.concat "" l) by (intros x [|y l]; cbn; [symmetry; apply EssReportProof.app_nil_s|reflexivity]). rewrite S1, IH.
  assert (S2 : forall x l, l <> [] -> String.concat "," (x :: l) = x ++ "," ++ String.concat "," l) by (intros x [|y l] N; [congruence|reflexivity]). rewrite S2 by (destruct d; discriminate).
  rewrite !EssReportProof.app_assoc_s. reflexivity.
Qed.
Lemma free_eq_comma k v : free_of "," k -> free_of "," v -> free_of "," (k ++ "=" ++ v).
Proof. unfold free_of. intros Hk Hv K. rewrite !list_app_s in K. apply in_app_or in K. destruct K as [K|K]; [auto|]. apply in_app_or in K. destruct K as [[K|[]]|K]; [discriminate|auto]. Qed.
Lemma temp_title v t : ends_with v t -> temp_text t = Some v.
Proof.
  intros (d & k & -> & Hk & Hv & Hc). unfold temp_text. rewrite title_concat, (split_concat ","%char).
  - rewrite map_app, !app_length, map_length. cbn [map List.length fst snd]. destruct (Nat.ltb_spec (List.length d + 1 + 1) 2); [lia|].
    replace (List.length d + 1 + 1 - 2)%nat with (List.length d) by lia. rewrite <- app_assoc, app_nth2 by (rewrite map_length; lia). rewrite map_length, Nat.sub_diag. cbn [nth app].
    change (k ++ "=" ++ v) with (k ++ String "=" v). rewrite (split_two "="%char k v Hk Hv). reflexivity.
  - destruct (map _ _); discriminate.
  - intros p Hp. apply in_app_or in Hp. destruct Hp as [Hp|[<-|[]]]; [|intros []]. apply in_map_iff in Hp. destruct Hp as ([k' v'] & <- & Hin). apply free_eq_comma; apply (Hc k' v' Hin).
Qed.

(** ** Points *)
Lemma values_quad X n (sh : sheet X) row r : look n (sh_rows sh) = Some row -> begins row r -> temp_values X n sh = Some (quad r).
Proof.
  intros E B. unfold temp_values, first_entry. rewrite E.
  assert (B1 := B "ess_ee" ltac:(cbn; tauto)). assert (B2 := B "ess_ee_std" ltac:(cbn; tauto)). assert (B3 := B "ess_clock" ltac:(cbn; tauto)). assert (B4 := B "ess_clock_std" ltac:(cbn; tauto)).
  destruct B1 as (l1 & E1), B2 as (l2 & E2), B3 as (l3 & E3), B4 as (l4 & E4). unfold first_entry. rewrite E1, E2, E3, E4. reflexivity.
Qed.
Lemma all_map {A B} (f : A -> option B) g l : (forall a, In a l -> f a = Some (g a)) -> all_or_none (map f l) = Some (map g l).
Proof. induction l as [|a l IH]; intros H; [reflexivity|]. cbn. rewrite (H a (or_introl eq_refl)), IH by (intros; apply H; right; assumption). reflexivity. Qed.
Lemma temp_figure X (sh : sheet X) shs t ts : fst t = "0.1607" ->
  Forall2 (fun sh' (t' : string * (string -> string -> X)) => ends_with (fst t') (sh_title sh') /\
    forall n, In n (map fst (sh_rows sh)) -> exists row, look n (sh_rows sh') = Some row /\ begins row (snd t' n)) (sh :: shs) (t :: ts) ->
  temp_prepare X (sh :: shs) = Some (map (fun nr => (fst nr, map (fun t' => (fst t', quad (snd t' (fst nr)))) (t :: ts))) (sh_rows sh)).
Proof.
  intros E0 F. inversion F as [|? ? ? ? (_ & H0) F']; subst. unfold temp_prepare. apply all_map. intros [n row0] Hn. cbn [fst].
  assert (Hin : In n (map fst (sh_rows sh))) by (apply in_map_iff; exists (n, row0); auto).
  destruct (H0 n Hin) as (row & L & B). rewrite (values_quad X n sh row _ L B). 
  assert (R : all_or_none (map (temp_point X n) shs) = Some (map (fun t' => (fst t', quad (snd t' n))) ts)).
  { clear - F' Hin. induction F' as [|s t' shs ts (A & H) F IH]; [reflexivity|]. cbn [map all_or_none]. unfold temp_point at 1. rewrite (temp_title _ _ A). destruct (H n Hin) as (row & L & B). rewrite (values_quad X n s row _ L B). cbn. rewrite IH. reflexivity. }
  rewrite R. cbn [map]. rewrite E0. reflexivity.
Qed.
Lemma all_none {A B} (f : A -> option B) l a : In a l -> f a = None -> all_or_none (map f l) = None.
Proof. induction l as [|b l IH]; intros [] E; [subst; cbn; rewrite E; reflexivity|]. cbn. destruct (f b); [rewrite (IH H E)|]; reflexivity. Qed.
Lemma temp_missing X (sh : sheet X) shs sh' n : In n (map fst (sh_rows sh)) -> In sh' (sh :: shs) ->
  (forall row, look n (sh_rows sh') = Some row -> exists k, In k result_keys /\ look k row = None) -> temp_prepare X (sh :: shs) = None.
Proof.
  intros Hn Hs H. assert (V : temp_values X n sh' = None).
  { unfold temp_values. destruct (look n (sh_rows sh')) as [row|]; [|reflexivity]. destruct (H row eq_refl) as (k & Hk & E). unfold first_entry.
    cbn in Hk. decompose [or] Hk; try contradiction; subst k; rewrite E;
      destruct (look "ess_ee" row) as [[|]|]; try reflexivity; destruct (look "ess_ee_std" row) as [[|]|]; try reflexivity; destruct (look "ess_clock" row) as [[|]|]; reflexivity. }
  apply in_map_iff in Hn. destruct Hn as ([n' row0] & <- & Hin). unfold temp_prepare. apply (all_none _ _ (n', row0) Hin). cbn [fst] in *.
  destruct Hs as [<-|Hs]; [rewrite V; reflexivity|]. rewrite (all_none (temp_point X n') shs sh' Hs); [destruct (temp_values X n' sh); reflexivity|]. unfold temp_point. rewrite V. destruct (temp_text _); reflexivity.
Qed.

(** ** The shipped sweeps *)
Lemma leb_antisym_s a b : String.leb a b = true -> String.leb b a = true -> a = b.
Proof. intros H K. apply String.leb_antisym; assumption. Qed.
Lemma sorted_unique (l l' : list string) : StronglySorted (fun a b => String.leb a b = true) l -> StronglySorted (fun a b => String.leb a b = true) l' -> Permutation l l' -> l = l'.
Proof.
  revert l'. induction l as [|a l IH]; intros l' S S' P; [apply Permutation_nil in P; auto|]. destruct l' as [|b l']; [symmetry in P; apply Permutation_nil in P; discriminate|].
  inversion S as [|? ? S1 F1]; subst. inversion S' as [|? ? S2 F2]; subst. assert (a = b).
  { rewrite Forall_forall in F1, F2. assert (A : In a (b :: l')) by (apply (Permutation_in a P); left; reflexivity). assert (B : In b (a :: l)) by (apply (Permutation_in b (Permutation_sym P)); left; reflexivity).
    destruct A as [A|A]; [auto|]. destruct B as [B|B]; [auto|]. apply leb_antisym_s; [apply F1, B|apply F2, A]. }
  subst b. f_equal. apply IH; [exact S1|exact S2|]. apply Permutation_cons_inv in P. exact P.
Qed.
Lemma sort_listing l l' : Permutation l l' -> sort_by String.leb l = sort_by String.leb l'.
Proof. intros P. apply sorted_unique; try apply (sort_sorted _ String.leb String.leb_total leb_trans). rewrite (sort_perm String.leb l), (sort_perm String.leb l'). exact P. Qed.

Definition temp_sweeps : list string := ["classical_models/ising/lamdasweep_bigger"; "classical_models/ising/lamdasweep_small"].
Definition sweep_names (j : job_config) : list string := match sweep_folders j with Some l => map snd l | None => [] end.
(** The lines with the names of the folders in place of their results. *)
Definition skeleton (j : job_config) : list (string * list (string * string)) :=
  match temp_lines string millionths (fun f => Some (four (fun _ => f))) (sweep_names j) with
  | Some ls => map (fun l => (fst l, map (fun p => (fst p, fst (fst (snd p)))) (snd l))) ls
  | None => []
  end.
Definition fill {X} (g : string -> string -> X) (l : string * list (string * string)) : string * list (string * (X * X * (X * X))) :=
  (fst l, map (fun p => (fst p, quad (g (snd p)))) (snd l)).
Definition lambdas : list (option Z) := map (fun i => Some (160700 + 40000 * Z.of_nat i)%Z) (seq 0 16).
Definition on_line (n : string) (p : string * string) : bool :=
  match cut_settings (snd p) with
  | Some d => match look "adaptive" d with None => true | Some _ => false end && String.eqb (temp_name d) n && match look "lambdaa" d with Some v => String.eqb v (fst p) | None => false end
  | None => false
  end.
Lemma on_line_sound n p : on_line n p = true -> exists d, cut_settings (snd p) = Some d /\ look "adaptive" d = None /\ temp_name d = n /\ look "lambdaa" d = Some (fst p).
Proof.
  unfold on_line. destruct (cut_settings (snd p)) as [d|]; [|discriminate]. intros H. apply andb_prop in H. destruct H as (H & C). apply andb_prop in H. destruct H as (A & B). exists d. split; [reflexivity|].
  split; [destruct (look "adaptive" d); [discriminate|reflexivity]|]. split; [apply String.eqb_eq, B|]. destruct (look "lambdaa" d); [|discriminate]. apply String.eqb_eq in C. congruence.
Qed.
Definition skeleton_ok (j : job_config) : bool :=
  forallb (fun l => forallb (on_line (fst l)) (snd l)) (skeleton j) &&
  forallb (fun l => if list_eq_dec (fun a b : option Z => ltac:(decide equality; apply Z.eq_dec)) (map (fun p => millionths (fst p)) (snd l)) lambdas then true else false) (skeleton j) &&
  distinct (map fst (skeleton j)) &&
  if list_eq_dec string_dec (sort_by String.leb (List.concat (map (fun l => map snd (snd l)) (skeleton j)))) (sort_by String.leb (sweep_names j)) then true else false.
Lemma bigger_ok : skeleton_ok ising_lamdasweep_bigger = true.
Proof. vm_compute. reflexivity. Qed.
Lemma small_ok : skeleton_ok ising_lamdasweep_small = true.
Proof. vm_compute. reflexivity. Qed.
Lemma bigger_lines X (g : string -> string -> X) : temp_lines X millionths (fun f => Some (four (g f))) (sweep_names ising_lamdasweep_bigger) = Some (map (fill g) (skeleton ising_lamdasweep_bigger)).
Proof. vm_compute. reflexivity. Qed.
Lemma small_lines X (g : string -> string -> X) : temp_lines X millionths (fun f => Some (four (g f))) (sweep_names ising_lamdasweep_small) = Some (map (fill g) (skeleton ising_lamdasweep_small)).
Proof. vm_compute. reflexivity. Qed.
Lemma temp_sweep_is nm j : In (nm, j) shipped_sweeps -> In nm temp_sweeps -> j = ising_lamdasweep_bigger \/ j = ising_lamdasweep_small.
Proof.
  intros Hj Hn. assert (K : Forall (fun x => In (fst x) temp_sweeps -> snd x = ising_lamdasweep_bigger \/ snd x = ising_lamdasweep_small) shipped_sweeps).
  { unfold shipped_sweeps. repeat (constructor; [cbn [fst snd]; intros T; first [left; reflexivity|right; reflexivity|exfalso; cbn in T; decompose [or] T; try contradiction; discriminate]|]). constructor. }
  rewrite Forall_forall in K. exact (K _ Hj Hn).
Qed.
Lemma temp_shipped nm j extra root jobs fs listing X (g : string -> string -> X) :
  In (nm, j) shipped_sweeps -> In nm temp_sweeps -> ConfigSpec.dict extra -> launch py_repr j extra root = Some jobs -> job_folders root jobs fs -> Permutation listing fs ->
  exists lines runs, temp_lines X millionths (fun f => Some (four (g f))) listing = Some lines /\ NoDup (map fst lines) /\ Permutation (List.concat runs) fs /\
    Forall2 (fun l r => is_line g (fst l) r (snd l) /\ map (fun p => millionths (fst p)) (snd l) = map (fun i => Some (160700 + 40000 * Z.of_nat i)%Z) (seq 0 16)) lines runs.
Proof.
  intros Hj Hn He HL HF P. pose proof shipped_keys as SK. rewrite forallb_forall in SK. specialize (SK _ Hj). cbn [snd] in SK.
  destruct (folders_launch j extra root jobs fs SK He HL HF) as (L & EL & Ef & _). assert (En : sweep_names j = fs) by (unfold sweep_names; rewrite EL; auto).
  assert (OK : skeleton_ok j = true) by (destruct (temp_sweep_is nm j Hj Hn) as [-> | ->]; [apply bigger_ok|apply small_ok]).
  assert (LN : temp_lines X millionths (fun f => Some (four (g f))) (sweep_names j) = Some (map (fill g) (skeleton j))) by (destruct (temp_sweep_is nm j Hj Hn) as [-> | ->]; [apply bigger_lines|apply small_lines]).
  exists (map (fill g) (skeleton j)), (map (fun l => map snd (snd l)) (skeleton j)).
  unfold skeleton_ok in OK. apply andb_prop in OK. destruct OK as (OK & O4). apply andb_prop in OK. destruct OK as (OK & O3). apply andb_prop in OK. destruct OK as (O1 & O2). rewrite forallb_forall in O1, O2.
  split; [|split; [|split]].
  - refine (eq_trans _ LN). rewrite En. unfold temp_lines. rewrite (sort_listing _ _ P). reflexivity.
  - rewrite map_map. cbn [fill fst]. apply distinct_sound, O3.
  - match type of O4 with context [list_eq_dec ?a ?b ?c] => destruct (list_eq_dec a b c) as [E|N] end; [|discriminate]. rewrite <- (sort_perm String.leb (List.concat _)), E, (sort_perm String.leb (sweep_names j)), En. reflexivity.
  - revert O1 O2. clear. induction (skeleton j) as [|l sk IH]; intros O1 O2; cbn [map]; constructor.
    + split.
      * specialize (O1 l (or_introl eq_refl)). rewrite forallb_forall in O1. unfold is_line, fill. cbn [fst snd]. destruct l as [n ps]. cbn [fst snd] in *. clear - O1. induction ps as [|p ps IH]; cbn [map]; constructor.
        -- destruct (on_line_sound _ _ (O1 p (or_introl eq_refl))) as (d & A & B & C & D). exists d. repeat split; assumption.
        -- apply IH. intros q Hq. apply O1. right. exact Hq.
      * specialize (O2 l (or_introl eq_refl)). cbn beta in O2. match type of O2 with context [list_eq_dec ?a ?b ?c] => destruct (list_eq_dec a b c) as [E|N] end; [|discriminate]. unfold fill. cbn [snd]. rewrite map_map. exact E.
    + apply IH; intros x Hx; [apply O1|apply O2]; right; exact Hx.
Qed.

(** ** One row of results *)
Lemma temp_loaded to_num d t1 t2 e c k : temp_pair to_num t1 = Some e -> temp_pair to_num t2 = Some c -> ess_scale to_num d = Some k ->
  temp_results to_num d (Some [(t1, t2)]) = Some [("ess_ee", fst e * k); ("ess_ee_std", snd e * k / 10); ("ess_clock", fst c); ("ess_clock_std", snd c)]%R /\
  (extract_floats to_num t1 = Some e -> extract_floats to_num t2 = Some c ->
   ess_results to_num d [(t1, t2)] = Some [("ess_ee", fst e * k); ("ess_ee_std", snd e * k); ("ess_clock", fst c); ("ess_clock_std", snd c)]%R).
Proof.
  intros H1 H2 Hk. split; [|intros K1 K2].
  - unfold temp_results. cbn [fold_left]. unfold temp_row. cbn [fst snd]. rewrite H1, H2, Hk. cbn. replace (snd e / 10 * k)%R with (snd e * k / 10)%R by (unfold Rdiv; ring). reflexivity.
  - unfold ess_results. cbn [fold_left]. unfold ess_row. cbn [fst snd]. rewrite K1, K2, Hk. reflexivity.
Qed.
