(** The table of normalised-cut runs. *)
From Coq Require Import Reals String Ascii List Bool ZArith Arith Lia Lra Permutation Sorted.
From Verif.Base Require Import RSum.
From Verif.Spec Require Import ConfigSpec LaunchSpec GraphSpec ToolSpec ReportSpec CutSpec.
From Verif.Model Require Import Utils Tools Launch Report CutReport RunConfigs.
From Verif.Proof Require Import UtilsProof LaunchProof ToolsProof ToolsProof2 ReportText ReportNames ReportSheets ReportRun ReportMore ReportShipped.
Import ListNotations.
Local Open Scope string_scope.

(** ** Names *)
Lemma cut_base_short n : cut_base n = cut_short n.
Proof. unfold cut_base, cut_short. cbn [look]. destruct (String.eqb n "hammingball"); [reflexivity|]. destruct (String.eqb n "blockgibbs"); [reflexivity|]. destruct (String.eqb n "randomwalk"); [reflexivity|]. destruct (String.eqb n "path_auxiliary"); reflexivity. Qed.
Lemma adaptive_name d : look "name" (name_adaptive d) = option_map (fun x => x ++ match look "adaptive" d with
      | Some a => (if String.eqb a "False" then "-nA" else "") ++ or_empty (look "step_size" d) ++ or_empty (option_map (append "-") (look "n" d)) ++ or_empty (option_map (append "-") (look "num_flips" d))
      | None => "" end) (look "name" d) /\ look "balancing_fn_type" (name_adaptive d) = look "balancing_fn_type" d.
Proof.
  unfold name_adaptive. destruct (look "adaptive" d) as [a|] eqn:Ea.
  - set (e0 := del "adaptive" (if String.eqb a "False" then name_add "-nA" d else d)). destruct (name_if_step d (String.eqb a "False") "-nA" "adaptive" ltac:(discriminate)) as (X0 & Y0 & Z0). fold e0 in X0, Y0, Z0.
    set (e1 := name_setting "step_size" "" e0). destruct (name_setting_step "step_size" "" e0 ltac:(discriminate)) as (X1 & Y1 & Z1). fold e1 in X1, Y1, Z1.
    set (e2 := name_setting "n" "-" e1). destruct (name_setting_step "n" "-" e1 ltac:(discriminate)) as (X2 & Y2 & Z2). fold e2 in X2, Y2, Z2.
    set (e3 := name_setting "num_flips" "-" e2). destruct (name_setting_step "num_flips" "-" e2 ltac:(discriminate)) as (X3 & Y3 & Z3). fold e3 in X3, Y3, Z3.
    split.
    + rewrite X3, X2, X1, X0. rewrite (Z2 "num_flips"), (Z1 "num_flips"), (Z0 "num_flips"), (Z1 "n"), (Z0 "n"), (Z0 "step_size") by discriminate.
      destruct (look "name" d); cbn [option_map]; [|reflexivity]. f_equal. rewrite !app_assoc_s. destruct (look "step_size" d); reflexivity.
    + rewrite Z3, Z2, Z1, Z0 by discriminate. reflexivity.
  - split; [|reflexivity]. destruct (look "name" d); cbn [option_map]; [rewrite app_nil_s|]; reflexivity.
Qed.
Lemma cut_named d d' : cut_process d = Some d' -> look "name" d' = Some (cut_text d).
Proof.
  unfold cut_process. destruct (look "name" d) as [n|] eqn:En; [|discriminate]. intros H. apply (f_equal (fun o => match o with Some x => x | None => [] end)) in H. cbn iota beta in H.
  set (d0 := put "name" (cut_base n) d) in *.
  assert (L0 : forall k, look k d0 = if String.eqb k "name" then Some (cut_base n) else look k d) by (intros k; apply look_put).
  set (d1 := name_solver d0) in *. destruct (solver_step d0) as (A1 & B1 & C1). fold d1 in A1, B1, C1.
  destruct (adaptive_name d1) as (A2 & B2). set (d2 := name_adaptive d1) in *. destruct (balancing_step d2) as (A3 & _ & _). rewrite H in A3.
  rewrite A3, A2, B2, A1, (C1 "balancing_fn_type"), (C1 "adaptive"), (C1 "step_size"), (C1 "n"), (C1 "num_flips"), !L0 by discriminate. cbn [String.eqb Ascii.eqb Bool.eqb option_map].
  unfold cut_text. rewrite En. cbn [or_empty]. rewrite cut_base_short. rewrite !app_assoc_s. destruct (look "balancing_fn_type" d); [rewrite suffix_text|]; reflexivity.
Qed.
Lemma cut_process_some d : look "name" d <> None -> exists d', cut_process d = Some d' /\ look "name" d' = Some (cut_text d).
Proof. intros H. destruct (cut_process d) as [d'|] eqn:E; [exists d'; split; [reflexivity|apply cut_named, E]|]. unfold cut_process in E. destruct (look "name" d); [discriminate|contradiction]. Qed.
Lemma cut_same d : look "name" d <> Some "randomwalk" -> look "name" d <> Some "path_auxiliary" -> cut_text d = sampler_text d.
Proof.
  intros H1 H2. unfold cut_text, sampler_text. f_equal. destruct (look "name" d) as [n|]; cbn [or_empty]; [|reflexivity]. unfold cut_short, short_sampler. cbn [look].
  destruct (String.eqb n "hammingball"); [reflexivity|]. destruct (String.eqb n "blockgibbs"); [reflexivity|]. destruct (String.eqb_spec n "randomwalk"); [congruence|]. destruct (String.eqb_spec n "path_auxiliary"); [congruence|reflexivity].
Qed.

(** ** Settings *)
Lemma cut_part_read repr k v prev rest : plain repr k v ->
  cut_parts prev (dashes (short_key k ++ "=" ++ repr v) :: rest) = option_map (cons (short_key k, told repr v)) (cut_parts (Some (short_key k, told repr v)) rest).
Proof.
  intros (Hk & Hr & Hv). rewrite !dashes_app. rewrite (dashes_id (short_key k)) by (apply Hk; cbn; auto). change (dashes "=") with "=". cbn [append].
  assert (Hd : forall c, In c [","; "="]%char -> free_of c (dashes (repr v))) by (intros c Hc; apply dashes_keeps; [destruct Hc as [<-|[<-|[]]]; discriminate|apply Hr, Hc]).
  cbn [cut_parts]. change (String "=" (dashes (repr v))) with (String "="%char (dashes (repr v))).
  rewrite split_two by (try apply Hk; try apply Hd; cbn; auto).
  assert (E : unquote (dashes (repr v)) = Some (told repr v)).
  { unfold told. destruct v as [s|z|z n|b|l]; cbn iota in *; [rewrite Hv, !dashes_app; apply unquote_text|..];
    (destruct Hv as (Hv & Hn); apply unquote_plain; [apply dashes_nonempty, Hn|]; intros c Hc; apply dashes_keeps; [destruct Hc as [<-|[<-|[]]]; discriminate|apply Hv, Hc]). }
  rewrite E. cbn [fst snd]. rewrite split_one by (apply Hk; cbn; auto). reflexivity.
Qed.
Lemma cut_read repr i kw t : kw <> [] ->
  (forall k v, In (k, v) kw -> exists v', short_value v = Some v' /\ plain repr k v') -> NoDup (map (fun kv => short_key (fst kv)) kw) ->
  sweep_str repr kw = Some t -> exists d, cut_settings (id_text i ++ "_" ++ t) = Some d /\ Forall2 (read_as repr) kw d.
Proof.
  intros Ne Hp Hn Ht. unfold sweep_str in Ht. destruct (sweep_parts repr kw) as [ps|] eqn:Es; [|discriminate]. cbn in Ht. inversion Ht as [Et]. clear Ht. rewrite Et.
  apply parts_in in Es. unfold cut_settings. cbn [append]. rewrite past_app by (apply not_numeral; reflexivity).
  assert (HS : split "," t = map dashes ps).
  { rewrite <- Et, dashes_concat by discriminate. apply split_concat.
    - destruct Es; [contradiction|discriminate].
    - intros p H. apply in_map_iff in H. destruct H as (q & <- & Hq). clear - Es Hq Hp. induction Es as [|[k v] p kw ps (v' & E1 & E2) Es IH]; [destruct Hq|].
      destruct Hq as [<-|Hq]; [|apply IH; [intros k0 v0 H0; apply Hp; right; exact H0|exact Hq]].
      destruct (Hp k v (or_introl eq_refl)) as (w & Ew & Hk & Hr & _). cbn [fst snd] in *. rewrite E1 in Ew. inversion Ew; subst w. subst p.
      apply dashes_keeps; [discriminate|]. unfold free_of. rewrite !chars_app, !in_app_iff. intros [K|[K|K]]; [apply (Hk ","%char) in K; cbn; auto|destruct K as [K|[]]; discriminate|apply (Hr ","%char) in K; cbn; auto]. }
  rewrite HS. assert (HA : forall prev, exists d, cut_parts prev (map dashes ps) = Some d /\ Forall2 (read_as repr) kw d /\ map fst d = map (fun kv => short_key (fst kv)) kw).
  { clear HS Et Hn Ne. induction Es as [|[k v] p kw ps (v' & E1 & E2) Es IH]; intros prev; [exists []; repeat split; constructor|]. cbn [fst snd] in *.
    destruct (Hp k v (or_introl eq_refl)) as (w & Ew & Hpl). rewrite E1 in Ew. inversion Ew; subst w.
    destruct (IH (fun k0 v0 H0 => Hp k0 v0 (or_intror H0)) (Some (short_key k, told repr v'))) as (d & D1 & D2 & D3).
    exists ((short_key k, told repr v') :: d). split; [|split].
    - cbn [map]. rewrite E2, cut_part_read by exact Hpl. rewrite D1. reflexivity.
    - constructor; [|exact D2]. split; [reflexivity|]. exists v'. auto.
    - cbn [map fst]. congruence. }
  destruct (HA None) as (d & D1 & D2 & D3). rewrite D1. cbn [option_map]. exists d. split; [|exact D2]. f_equal.
  rewrite put_all_new; [reflexivity|]. cbn [map app]. rewrite D3. exact Hn.
Qed.
(** Keys with dots. *)
Lemma dotted_part ps v : ps <> [] -> (forall p, In p ps -> free [","; "="; "."]%char p) -> ps <> ["cfg_str"] -> v <> "" -> free [","; "="; "'"; "("]%char v ->
  read_part (String.concat "." ps ++ "=" ++ v) = Some [(List.last ps "", v)].
Proof.
  intros N Hp Hc Nv Hv. unfold read_part. cbn [append]. assert (E : forall c, c <> "."%char -> (forall p, In p ps -> free_of c p) -> free_of c (String.concat "." ps)).
  { intros c Nc H K. rewrite chars_concat in K. clear - K H Nc. induction ps as [|p ps IH]; [destruct K|]. destruct ps as [|q ps]; [apply (H p (or_introl eq_refl) K)|].
    cbn [map join] in K. apply in_app_or in K. destruct K as [K|[K|K]]; [apply (H p (or_introl eq_refl) K)|congruence|]. apply IH; [intros r Hr; apply H; right; exact Hr|exact K]. }
  rewrite split_two; [|apply E; [discriminate|intros p Hq; apply (Hp p Hq); cbn; auto]|apply Hv; cbn; auto].
  rewrite unquote_plain by (try exact Nv; intros c Hin; apply Hv; cbn in *; tauto).
  rewrite split_concat by (try exact N; intros p Hq; apply (Hp p Hq); cbn; auto).
  destruct (String.eqb_spec (String.concat "." ps) "cfg_str") as [K|_]; [|reflexivity]. exfalso. apply Hc.
  assert (K' : split "." (String.concat "." ps) = ps) by (apply split_concat; [exact N|intros p Hq; apply (Hp p Hq); cbn; auto]). rewrite <- K', K. reflexivity.
Qed.

(** ** Scores *)
Local Open Scope R_scope.
Lemma count_above (x : list nat) g : (list_max x < g)%nat -> filter (Nat.eqb g) x = [].
Proof.
  intros H. destruct (filter (Nat.eqb g) x) as [|a l] eqn:E; [reflexivity|]. exfalso. assert (K : In a (filter (Nat.eqb g) x)) by (rewrite E; left; reflexivity). apply filter_In in K. destruct K as (K1 & K2).
  apply Nat.eqb_eq in K2. subst a. pose proof (proj1 (list_max_le x (list_max x)) (le_n _)) as F. rewrite Forall_forall in F. specialize (F _ K1). lia.
Qed.
Lemma bins_sum (x : list nat) k (f : nat -> R) : x <> [] -> Forall (fun g => (g < k)%nat) x -> f 0%nat = 0 ->
  rsum (bins x) f = rsum (seq 0 k) (fun g => f (List.length (filter (Nat.eqb g) x))).
Proof.
  intros N F E. assert (L : (S (list_max x) <= k)%nat).
  { destruct k; [destruct x; [contradiction|inversion F; lia]|]. apply le_n_S. apply list_max_le. eapply Forall_impl; [|exact F]. cbn. intros; lia. }
  unfold bins. rewrite (rsum_nonzero _ f) by exact E. rewrite rsum_map. replace k with (S (list_max x) + (k - S (list_max x)))%nat at 1 by lia. rewrite seq_app, rsum_app.
  rewrite (rsum_ext (seq (0 + S (list_max x)) (k - S (list_max x))) _ (fun _ => 0)); [rewrite rsum_const; lra|].
  intros g Hg. apply in_seq in Hg. rewrite count_above by lia. exact E.
Qed.
Lemma count_size x g : List.length (filter (Nat.eqb g) x) = group_size (part_of x) (List.length x) g.
Proof.
  unfold group_size, part_of. induction x as [|a x IH] using rev_ind; [reflexivity|]. rewrite app_length, Nat.add_1_r, seq_S, !filter_app, !app_length, IH. f_equal.
  - f_equal. apply filter_ext_in. intros i Hi. apply in_seq in Hi. rewrite app_nth1 by lia. reflexivity.
  - cbn. rewrite nth_middle, Nat.eqb_sym. destruct (a =? g)%nat; reflexivity.
Qed.
Lemma part_lt (x : list nat) k : Forall (fun g => (g < k)%nat) x -> forall i, (i < List.length x)%nat -> (part_of x i < k)%nat.
Proof. intros F i Hi. rewrite Forall_forall in F. apply F, nth_In, Hi. Qed.
Lemma balance_list (x : list nat) k : (2 <= k)%nat -> x <> [] -> Forall (fun g => (g < k)%nat) x -> balance x (List.length x) k = 1 - imbalance x (List.length x) k.
Proof.
  intros Hk N F. assert (Hn : (0 < List.length x)%nat) by (destruct x; [contradiction|cbn; lia]).
  unfold imbalance. rewrite <- balance_value by (try assumption; apply part_lt, F).
  unfold balance, balanceness. rewrite !off_diagonal. do 3 f_equal.
  - rewrite (bins_sum x k INR) by (try assumption; reflexivity). unfold bin_sizes. rewrite (rsum_nonzero _ INR) by reflexivity. rewrite rsum_map. f_equal. apply rsum_ext. intros g _. rewrite count_size. reflexivity.
  - rewrite (bins_sum x k (fun c => INR c ^ 2)) by (try assumption; cbn; ring). unfold bin_sizes. rewrite (rsum_nonzero _ (fun c => INR c ^ 2)) by (cbn; ring). rewrite rsum_map. apply rsum_ext. intros g _. rewrite count_size. reflexivity.
Qed.
Lemma cut_listed x n es : simple n es -> es <> [] -> cut_ratio (part_of x) n (2 * INR (List.length es)) (matrix (seq 0 n) (unit_weights es)) = INR (cut_edges (part_of x) es) / INR (List.length es).
Proof.
  intros Hs Ne. assert (L : (0 < List.length es)%nat) by (destruct es; [congruence|cbn; lia]).
  unfold cut_ratio. replace (num_cut_adj_mat (part_of x) n (matrix (seq 0 n) (unit_weights es))) with (num_cut_adj_mat (part_of x) n (adj_matrix (unit_weights es))).
  - rewrite cut_mat_unit by exact Hs. field. apply not_0_INR. lia.
  - unfold num_cut_adj_mat. apply rsum_ext. intros i Hi. apply in_seq in Hi. apply rsum_ext. intros j Hj. apply in_seq in Hj. unfold matrix. rewrite !seq_nth by lia. reflexivity.
Qed.
Lemma cut_scores n es x : simple n es -> es <> [] -> List.length x = n -> Forall (fun g => (g < 3)%nat) x ->
  cut_evaluate 3 (seq 0 n) (unit_weights es) x = Some (INR (cut_edges (part_of x) es) / INR (List.length es), 1 - imbalance x n 3).
Proof.
  intros Hs Ne Hx F. unfold cut_evaluate. rewrite seq_length. destruct (Nat.ltb_spec (List.length x) n); [lia|].
  assert (E : existsb (fun g => (3 <=? g)%nat) (firstn n x) = false).
  { rewrite firstn_all2 by lia. clear - F. induction F as [|a l H F IH]; [reflexivity|]. cbn [existsb]. rewrite IH. destruct (Nat.leb_spec 3 a); [lia|reflexivity]. }
  rewrite E. assert (Nx : x <> []). { intros ->. cbn in Hx. subst n. destruct es as [|[u v] es]; [contradiction|]. destruct Hs as (Hl & _). destruct (Hl u v (or_introl eq_refl)) as (K & _). lia. }
  assert (U : unit_weights es <> []) by (destruct es; [contradiction|discriminate]). destruct (unit_weights es) as [|e0 l0] eqn:EU; [contradiction|]. rewrite <- EU.
  change (fun i => nth i x 0%nat) with (part_of x). f_equal. f_equal.
  - unfold unit_weights at 1. rewrite map_length. apply cut_listed; assumption.
  - rewrite <- Hx. apply balance_list; [lia|exact Nx|exact F].
Qed.
Lemma cut_scores_inv n es x r : simple n es -> List.length x = n -> cut_evaluate 3 (seq 0 n) (unit_weights es) x = Some r ->
  es <> [] /\ Forall (fun g => (g < 3)%nat) x /\ r = (INR (cut_edges (part_of x) es) / INR (List.length es), 1 - imbalance x n 3).
Proof.
  intros Hs Hx H. assert (Ne : es <> []). { intros ->. unfold cut_evaluate in H. cbn [unit_weights map] in H. destruct (_ <? _)%nat; [discriminate|]. destruct (existsb _ _); discriminate. }
  assert (F : Forall (fun g => (g < 3)%nat) x).
  { unfold cut_evaluate in H. rewrite seq_length, firstn_all2 in H by lia. destruct (_ <? _)%nat; [discriminate|]. destruct (existsb _ x) eqn:E; [discriminate|].
    rewrite Forall_forall. intros g Hg. destruct (Nat.leb_spec 3 g) as [K|K]; [|exact K]. assert (existsb (fun g => (3 <=? g)%nat) x = true); [|congruence]. apply existsb_exists. exists g. split; [exact Hg|apply Nat.leb_le, K]. }
  split; [exact Ne|]. split; [exact F|]. rewrite (cut_scores n es x Hs Ne Hx F) in H. congruence.
Qed.

(** ** The table *)
Lemma forall2_map_some {A B} (f : A -> option B) l r : map f l = map Some r -> Forall2 (fun a b => f a = Some b) l r.
Proof. revert r. induction l as [|a l IH]; intros [|b r] H; cbn in H; try discriminate; [constructor|]. injection H as H1 H2. constructor; [exact H1|apply IH, H2]. Qed.
Lemma map_some_forall2 {A B} (f : A -> option B) l r : Forall2 (fun a b => f a = Some b) l r -> map f l = map Some r.
Proof. induction 1; cbn; congruence. Qed.
Definition row_of (n : nat) (es : list (nat * nat)) (load : string -> option (list nat)) (f : string) (row : string * (R * R)) : Prop :=
  exists d x, cut_settings f = Some d /\ load f = Some x /\ fst row = cut_text d /\
    snd row = (INR (cut_edges (part_of x) es) / INR (List.length es), 1 - imbalance x n 3).
Lemma cut_row_inv n es load f row : simple n es -> (forall x, load f = Some x -> List.length x = n) -> cut_row 3 (seq 0 n) (unit_weights es) load f = Some row -> row_of n es load f row.
Proof.
  intros Hs Hl H. unfold cut_row in H. destruct (cut_settings f) as [d|] eqn:Ed; [|discriminate]. destruct (cut_process d) as [d'|] eqn:Ed'; [|discriminate]. destruct (load f) as [x|] eqn:Ex; [|discriminate].
  destruct (cut_evaluate 3 (seq 0 n) (unit_weights es) x) as [r|] eqn:Er; [|discriminate]. rewrite (cut_named _ _ Ed') in H. injection H as <-.
  destruct (cut_scores_inv n es x r Hs (Hl x eq_refl) Er) as (_ & _ & ->). exists d, x. auto.
Qed.
Lemma cut_table n es load listing hd rows : simple n es -> (forall f x, In f listing -> load f = Some x -> List.length x = n) ->
  cut_report (seq 0 n) (unit_weights es) load listing = Some (hd, rows) ->
  exists fs, Permutation fs listing /\ StronglySorted (fun a b => String.leb a b = true) fs /\ hd = ["sampler"; "cut ratio"; "balanceness"]%string /\ Forall2 (row_of n es load) fs rows.
Proof.
  intros Hs Hl H. unfold cut_report in H. destruct (all_or_none _) as [l|] eqn:E; [|discriminate]. cbn [option_map] in H. injection H as <- <-. exists (sort_by String.leb listing).
  pose proof (sort_perm String.leb listing) as P. split; [exact P|]. split; [apply (sort_sorted _ String.leb String.leb_total leb_trans)|]. split; [reflexivity|].
  apply all_or_none_some, forall2_map_some in E. clear - E P Hs Hl. assert (HI : forall f, In f (sort_by String.leb listing) -> In f listing) by (intros f Hf; apply (Permutation_in f P Hf)).
  clear P. induction E as [|f r fs rs Hr E IH]; constructor; [|apply IH; intros g Hg; apply HI; right; exact Hg]. apply cut_row_inv; [exact Hs|intros x Hx; apply (Hl f x); [apply HI; left; reflexivity|exact Hx]|exact Hr].
Qed.
Lemma cut_row_ok n es load f d x : simple n es -> es <> [] -> cut_settings f = Some d -> look "name" d <> None -> load f = Some x -> List.length x = n -> Forall (fun g => (g < 3)%nat) x ->
  exists row, cut_row 3 (seq 0 n) (unit_weights es) load f = Some row /\ fst row = cut_text d.
Proof.
  intros Hs Ne Ed Nd Ex Lx Fx. unfold cut_row. rewrite Ed. destruct (cut_process_some d Nd) as (d' & -> & E'). rewrite Ex, (cut_scores n es x Hs Ne Lx Fx), E'. eexists. split; reflexivity.
Qed.
Lemma cut_total n es load listing : simple n es -> es <> [] ->
  (forall f, In f listing -> exists d x, cut_settings f = Some d /\ look "name" d <> None /\ load f = Some x /\ List.length x = n /\ Forall (fun g => (g < 3)%nat) x) ->
  exists rows, cut_report (seq 0 n) (unit_weights es) load listing = Some (["sampler"; "cut ratio"; "balanceness"]%string, rows).
Proof.
  intros Hs Ne H. unfold cut_report. assert (E : exists rows, map (cut_row 3 (seq 0 n) (unit_weights es) load) (sort_by String.leb listing) = map Some rows).
  { assert (HI : forall f, In f (sort_by String.leb listing) -> In f listing) by (intros f Hf; apply (Permutation_in f (sort_perm String.leb listing) Hf)).
    induction (sort_by String.leb listing) as [|f l IH]; [exists []; reflexivity|]. destruct IH as (rows & E); [intros g Hg; apply HI; right; exact Hg|].
    destruct (H f (HI f (or_introl eq_refl))) as (d & x & A1 & A2 & A3 & A4 & A5). destruct (cut_row_ok n es load f d x Hs Ne A1 A2 A3 A4 A5) as (row & Er & _).
    exists (row :: rows). cbn [map]. rewrite Er, E. reflexivity. }
  destruct E as (rows & ->). rewrite all_or_none_map. exists rows. reflexivity.
Qed.

(** ** The shipped sweeps *)
Local Open Scope list_scope.
Local Close Scope R_scope.
Definition reads_told (kv : string * lit) (kd : string * string) : bool :=
  String.eqb (fst kd) (short_key (fst kv)) && match short_value (snd kv) with Some v => String.eqb (snd kd) (told py_repr v) | None => false end.
Fixpoint all_told (kw : table lit) (d : table string) : bool :=
  match kw, d with [], [] => true | kv :: kw', kd :: d' => reads_told kv kd && all_told kw' d' | _, _ => false end.
Lemma all_told_sound kw : forall d, all_told kw d = true -> Forall2 (read_as py_repr) kw d.
Proof.
  induction kw as [|kv kw IH]; intros [|kd d] H; try discriminate; constructor; cbn in H; apply andb_prop in H; destruct H as (H1 & H2); [|apply IH, H2].
  unfold reads_told in H1. apply andb_prop in H1. destruct H1 as (A & B). apply String.eqb_eq in A. split; [exact A|]. destruct (short_value (snd kv)) as [v|]; [|discriminate]. apply String.eqb_eq in B. exists v. auto.
Qed.
Definition cut_told (f : string) : string := match cut_settings f with Some d => cut_text d | None => "" end.
Definition cut_ok (j : job_config) : bool :=
  match sweep_folders j with
  | Some l => forallb (fun kf => match cut_settings (snd kf) with Some d => all_told (fst kf) d && has_key "name" d | None => false end) l && distinct (map (fun kf => cut_told (snd kf)) l)
  | None => false
  end.
Definition nets_sweeps : list string := ["co/normcut/alexnet"; "co/normcut/inception"; "co/normcut/mnist"; "co/normcut/resnet"; "co/normcut/vgg"].
Lemma nets_ok : forallb (fun nj => implb (existsb (String.eqb (fst nj)) nets_sweeps) (cut_ok (snd nj))) shipped_sweeps = true.
Proof. vm_compute. reflexivity. Qed.
Lemma loaded_len (fs : list string) (load : string -> option (list nat)) n : (forall f, In f fs -> exists x, load f = Some x /\ List.length x = n /\ Forall (fun g => g < 3) x) ->
  forall f x, In f fs -> load f = Some x -> List.length x = n.
Proof. intros H f x Hf E. destruct (H f Hf) as (y & Ey & Ly & _). congruence. Qed.
Lemma two_len {A B} (R : A -> B -> Prop) l l' : Forall2 R l l' -> List.length l = List.length l'.
Proof. induction 1; cbn; congruence. Qed.
Lemma nets_table nm j extra root jobs fs n es load : In (nm, j) shipped_sweeps -> In nm nets_sweeps -> ConfigSpec.dict extra -> launch py_repr j extra root = Some jobs -> job_folders root jobs fs ->
  simple n es -> es <> [] -> (forall f, In f fs -> exists x, load f = Some x /\ List.length x = n /\ Forall (fun g => g < 3) x) ->
  exists l rows, all_sweeps (j_sweep j) = Some l /\ cut_report (seq 0 n) (unit_weights es) load fs = Some (["sampler"; "cut ratio"; "balanceness"], rows) /\
    List.length rows = List.length jobs /\ NoDup (map fst rows) /\
    Forall2 (fun kw f => exists d row, Forall2 (read_as py_repr) kw d /\ In row rows /\ fst row = cut_text d /\ row_of n es load f row) l fs.
Proof.
  intros Hj Hn He HL HF Hs Ne Hx. pose proof shipped_keys as SK. rewrite forallb_forall in SK. pose proof nets_ok as SO. rewrite forallb_forall in SO. specialize (SK _ Hj). specialize (SO _ Hj). cbn [fst snd] in *.
  assert (X : existsb (String.eqb nm) nets_sweeps = true) by (apply existsb_exists; exists nm; split; [exact Hn|apply String.eqb_refl]). rewrite X in SO. cbn [implb] in SO.
  destruct (folders_launch j extra root jobs fs SK He HL HF) as (L & EL & Ef & Ea). unfold cut_ok in SO. rewrite EL in SO. apply andb_prop in SO. destruct SO as (SO & SD). rewrite forallb_forall in SO.
  assert (D : forall kf, In kf L -> exists d, cut_settings (snd kf) = Some d /\ Forall2 (read_as py_repr) (fst kf) d /\ look "name" d <> None).
  { intros kf Hk. specialize (SO kf Hk). destruct (cut_settings (snd kf)) as [d|]; [|discriminate]. apply andb_prop in SO. destruct SO as (A & B). exists d. split; [reflexivity|]. split; [apply all_told_sound, A|]. unfold has_key in B. destruct (look "name" d); [discriminate|discriminate]. }
  destruct (cut_total n es load fs Hs Ne) as (rows & ER).
  { intros f Hf. destruct (Hx f Hf) as (x & X1 & X2 & X3). subst fs. apply in_map_iff in Hf. destruct Hf as (kf & <- & Hk). destruct (D kf Hk) as (d & D1 & _ & D3). exists d, x. auto. }
  exists (map fst L), rows. split; [exact Ea|]. split; [exact ER|].
  destruct (cut_table n es load fs _ rows Hs (loaded_len fs load n Hx) ER) as (ss & P & _ & _ & F).
  assert (EN : map fst rows = map cut_told ss).
  { clear - F. induction F as [|f r ss rs (d & x & A & _ & B & _) F IH]; [reflexivity|]. cbn [map]. rewrite IH, B. unfold cut_told at 2. rewrite A. reflexivity. }
  split; [|split].
  - transitivity (List.length ss); [symmetry; apply (two_len _ _ _ F)|]. rewrite (Permutation_length P). symmetry. apply (two_len _ _ _ HF).
  - rewrite EN. apply (Permutation_NoDup (l := map cut_told fs)); [apply Permutation_map, Permutation_sym, P|]. subst fs. rewrite map_map. apply distinct_sound, SD.
  - assert (G : forall f, In f fs -> exists row, In row rows /\ row_of n es load f row).
    { intros f Hf. apply (Permutation_in f (Permutation_sym P)) in Hf. clear - F Hf. induction F as [|g r ss rs Hr F IH]; [destruct Hf|]. destruct Hf as [->|Hf]; [exists r; split; [left; reflexivity|exact Hr]|]. destruct (IH Hf) as (row & A & B). exists row. split; [right; exact A|exact B]. }
    clear F P EN. subst fs. clear - D G. induction L as [|kf L IH]; cbn [map]; constructor.
    + destruct (D kf (or_introl eq_refl)) as (d & D1 & D2 & _). destruct (G (snd kf) (or_introl eq_refl)) as (row & G1 & G2). exists d, row. split; [exact D2|]. split; [exact G1|]. split; [|exact G2].
      destruct G2 as (d' & x & A & _ & B & _). rewrite B. congruence.
    + apply IH; [intros k Hk; apply D; right; exact Hk|intros f Hf; apply G; right; exact Hf].
Qed.

(** ** Where the table is written *)
Lemma split_on_ne c s : split_on c s <> [].
Proof. destruct s as [|d s]; cbn; [discriminate|]. destruct (Ascii.eqb d c); [discriminate|]. destruct (split_on c s); discriminate. Qed.
Lemma csv_of a b : free_of "/" b -> cut_csv (a ++ "/" ++ b)%string = ("./discs/common/normcut_csv/" ++ b ++ "/res.csv")%string.
Proof.
  intros H. unfold cut_csv. do 2 f_equal. cbn [append]. unfold split. rewrite chars_app. cbn [list_ascii_of_string].
  assert (G : forall l, map string_of_list_ascii (split_on "/" (l ++ "/"%char :: chars b)) <> [] /\ last (map string_of_list_ascii (split_on "/" (l ++ "/"%char :: chars b))) "" = b).
  { induction l as [|c l IH].
    - change (@nil ascii ++ "/"%char :: chars b) with (chars "" ++ "/"%char :: chars b). rewrite (split_on_app "/" (chars "") (chars b)) by (intros []).
      assert (E : split_on "/" (chars b) = [chars b]) by (rewrite <- (split_join "/" [chars b]) by (try discriminate; intros w [<-|[]]; exact H); reflexivity).
      rewrite E. cbn [map last]. split; [discriminate|apply text_chars].
    - destruct IH as (N & E). cbn [app split_on]. destruct (split_on "/" (l ++ "/"%char :: chars b)) as [|w ws] eqn:Es; [contradiction N; reflexivity|].
      destruct (Ascii.eqb c "/"); (split; [discriminate|]); cbn [map last] in *.
      + exact E.
      + destruct ws as [|w' ws]; [|exact E]. exfalso. assert (L : List.length (split_on "/" (l ++ "/"%char :: chars b)) >= 2); [|rewrite Es in L; cbn in L; lia].
        clear. induction l as [|d l IH]; cbn [app split_on]; [cbn; pose proof (split_on_ne "/" (chars b)) as Nb; destruct (split_on "/" (chars b)); [contradiction|cbn; lia]|]. destruct (split_on "/" (l ++ "/"%char :: chars b)); cbn in *; [lia|]. destruct (Ascii.eqb d "/"); cbn; lia. }
  apply (proj2 (G (chars a))).
Qed.

Local Open Scope R_scope.
Lemma score_bounds n es x r : simple n es -> List.length x = n -> cut_evaluate 3 (seq 0 n) (unit_weights es) x = Some r ->
  0 <= fst r <= 1 /\ (fst r = 0 <-> forall u v, In (u, v) es -> part_of x u = part_of x v) /\
  0 <= snd r <= 1 /\ (snd r = 1 <-> forall g, (g < 3)%nat -> (3 * group_size (part_of x) n g = n)%nat).
Proof.
  intros Hs Hx H. destruct (cut_scores_inv n es x r Hs Hx H) as (Ne & F & ->). cbn [fst snd].
  assert (L : (0 < List.length es)%nat) by (destruct es; [congruence|cbn; lia]). pose proof (lt_0_INR _ L) as L'.
  assert (Hn : (0 < n)%nat). { destruct es as [|[u v] es']; [contradiction|]. destruct Hs as (Hl & _). destruct (Hl u v (or_introl eq_refl)) as (K & _). lia. }
  assert (P : forall i, (i < n)%nat -> (part_of x i < 3)%nat) by (intros i Hi; apply part_lt; [exact F|lia]).
  pose proof (balance_value (part_of x) n 3 ltac:(lia) Hn P) as B. pose proof (balance_facts (part_of x) n 3 ltac:(lia) Hn P) as (B1 & B2). fold (imbalance x n 3) in B. rewrite B in B1, B2.
  split; [apply frac_facts; [apply cut_le|exact L]|]. split; [|split; [exact B1|exact B2]].
  assert (Z : INR (cut_edges (part_of x) es) / INR (List.length es) = 0 <-> cut_edges (part_of x) es = 0%nat).
  { split; intros E; [|rewrite E; cbn; unfold Rdiv; ring]. apply INR_eq. cbn. apply (Rmult_eq_reg_r (/ INR (List.length es))); [|apply Rinv_neq_0_compat; lra]. unfold Rdiv in E. rewrite E. ring. }
  rewrite Z. unfold cut_edges. split.
  - intros E u v Hin. destruct (Nat.eq_dec (part_of x u) (part_of x v)) as [K|K]; [exact K|]. exfalso. apply length_zero_iff_nil in E.
    assert (In (u, v) (filter (fun e => negb (Nat.eqb (part_of x (fst e)) (part_of x (snd e)))) es)); [|rewrite E in *; contradiction]. apply filter_In. split; [exact Hin|]. cbn [fst snd]. destruct (Nat.eqb_spec (part_of x u) (part_of x v)); [contradiction|reflexivity].
  - intros E. apply length_zero_iff_nil. clear - E. induction es as [|[u v] es IH]; [reflexivity|]. cbn [filter fst snd]. rewrite (E u v (or_introl eq_refl)), Nat.eqb_refl. cbn. apply IH. intros a b Hab. apply E. right. exact Hab.
Qed.
Lemma Forall2_impl2 {A B} (R Q : A -> B -> Prop) l l' : (forall a b, R a b -> Q a b) -> Forall2 R l l' -> Forall2 Q l l'.
Proof. intros H F. induction F; constructor; auto. Qed.

(** ** Values with commas *)
Lemma put_twice {V} k (v : V) d : put k v (put k v d) = put k v d.
Proof. induction d as [|[k' v'] d IH]; cbn; [rewrite String.eqb_refl; reflexivity|]. destruct (String.eqb k k') eqn:E; cbn; [rewrite String.eqb_refl; reflexivity|]. rewrite E, IH. reflexivity. Qed.
Lemma put_all_twice {V} (l1 : table V) : forall d x l2, put_all d (l1 ++ x :: x :: l2)%list = put_all d (l1 ++ x :: l2)%list.
Proof. unfold put_all. intros d x l2. rewrite !fold_left_app. cbn [fold_left]. rewrite put_twice. reflexivity. Qed.
Lemma cut_parts_comma k v p rest : free_of "=" k -> free_of "=" v -> free_of "=" p -> forall pre prev,
  (cut_parts prev (pre ++ (k ++ String "=" v)%string :: p :: rest)%list = None /\ cut_parts prev (pre ++ (k ++ String "=" v)%string :: rest)%list = None) \/
  exists l1 x l2, cut_parts prev (pre ++ (k ++ String "=" v)%string :: p :: rest)%list = Some (l1 ++ x :: x :: l2)%list /\ cut_parts prev (pre ++ (k ++ String "=" v)%string :: rest)%list = Some (l1 ++ x :: l2)%list.
Proof.
  intros Hk Hv Hp. induction pre as [|q pre IH]; intros prev.
  - cbn [app cut_parts]. rewrite (split_two "=" k v Hk Hv), (split_one "=" p Hp). destruct (unquote v) as [v'|]; [|left; split; reflexivity]. cbn [fst snd]. destruct (cut_parts (Some (k, v')) rest) as [l|]; cbn [option_map]; [|left; split; reflexivity].
    right. exists [], (List.last (split "." k) ""%string, v'), l. split; reflexivity.
  - cbn [app cut_parts]. match goal with |- context [match ?t with Some kv => option_map _ _ | None => None end] => destruct t as [kv|]; [|left; split; reflexivity] end.
    destruct (IH (Some kv)) as [(E1 & E2)|(l1 & x & l2 & E1 & E2)]; rewrite E1, E2; cbn [option_map]; [left; split; reflexivity|]. right. exists ((List.last (split "." (fst kv)) ""%string, snd kv) :: l1), x, l2. split; reflexivity.
Qed.
Lemma cut_comma i pre k v p rest : free_of "_" i -> (forall q, In q (pre ++ (k ++ "=" ++ v)%string :: p :: rest)%list -> free_of "," q) -> free_of "=" k -> free_of "=" v -> free_of "=" p ->
  cut_settings (i ++ "_" ++ String.concat "," (pre ++ (k ++ "=" ++ v)%string :: p :: rest)%list)%string = cut_settings (i ++ "_" ++ String.concat "," (pre ++ (k ++ "=" ++ v)%string :: rest)%list)%string.
Proof.
  intros Hi Hq Hk Hv Hp. unfold cut_settings. cbn [append]. change "_"%string with (String "_" "")%string. change ","%string with (String "," "")%string. rewrite !(past_app "_"%char i _ Hi).
  rewrite !split_concat; try (destruct pre; discriminate); [|intros q Kq; apply Hq; apply in_app_or in Kq; apply in_or_app; destruct Kq as [Kq|[Kq|Kq]]; [left; exact Kq|right; left; exact Kq|right; right; right; exact Kq]|exact Hq].
  destruct (cut_parts_comma k v p rest Hk Hv Hp pre None) as [(E1 & E2)|(l1 & x & l2 & E1 & E2)]; rewrite E1, E2; cbn [option_map]; [reflexivity|]. rewrite put_all_twice. reflexivity.
Qed.
