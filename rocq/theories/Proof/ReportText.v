(** Reading the settings of a run back from the name of its folder. *)
From Coq Require Import String Ascii List Bool ZArith Arith Lia.
From Verif.Spec Require Import ConfigSpec LaunchSpec ReportSpec.
From Verif.Model Require Import Utils Launch Report.
From Verif.Proof Require Import UtilsProof LaunchProof.
Import ListNotations.
Local Open Scope string_scope.

Notation chars := list_ascii_of_string.
Lemma text_chars s : string_of_list_ascii (chars s) = s.
Proof. apply string_of_list_ascii_of_string. Qed.
Lemma app_assoc_s (a b c : string) : (a ++ b) ++ c = a ++ b ++ c.
Proof. induction a; cbn; congruence. Qed.
Lemma app_nil_s (a : string) : a ++ "" = a.
Proof. induction a; cbn; congruence. Qed.
Lemma length_app_s (a b : string) : String.length (a ++ b) = String.length a + String.length b.
Proof. induction a; cbn; congruence. Qed.

(** ** index, slices *)
Lemma from_app a b : from (String.length a) (a ++ b) = b.
Proof. unfold from. rewrite <- (substring_app a b) at 3. reflexivity. Qed.
Lemma substring_first a b : substring 0 (String.length a) (a ++ b) = a.
Proof. induction a; cbn [String.length append]; [destruct b; reflexivity|]. cbn [substring]. congruence. Qed.
Lemma prefix_two p : forall x y, prefix p (x ++ y) = true -> prefix p x = true \/ exists r, p = x ++ r.
Proof.
  induction p as [|c p IH]; intros x y H; [left; destruct x; reflexivity|]. destruct x as [|d x]; [right; exists (String c p); reflexivity|].
  cbn [append prefix] in *. destruct (ascii_dec c d) as [<-|]; [|discriminate]. destruct (IH x y H) as [E|(r & E)]; [left; exact E|right; exists r; cbn; congruence].
Qed.
Lemma index_skip p a s : (forall a1 a2, a = a1 ++ a2 -> a2 <> "" -> prefix p (a2 ++ s) = false) ->
  index 0 p (a ++ s) = option_map (fun n => String.length a + n) (index 0 p s).
Proof.
  induction a as [|c a IH]; intros H; [cbn; destruct (index 0 p s); reflexivity|]. cbn [append].
  assert (E : index 0 p (String c (a ++ s)) = option_map Datatypes.S (index 0 p (a ++ s))).
  { pose proof (H "" (String c a) eq_refl ltac:(discriminate)) as E. cbn [append] in E. cbn [index]. rewrite E. destruct (index 0 p (a ++ s)); reflexivity. }
  rewrite E, IH by (intros a1 a2 Ea Ha; apply (H (String c a1) a2); [cbn; congruence|exact Ha]). destruct (index 0 p s); reflexivity.
Qed.
Lemma index_here p r : index 0 p (p ++ r) = Some 0.
Proof. destruct p as [|c p]; [destruct r; reflexivity|]. cbn [append index]. change (String c (p ++ r)) with (String c p ++ r). rewrite prefix_app. reflexivity. Qed.
Lemma index_found p : forall s n, index 0 p s = Some n -> exists a b, s = a ++ p ++ b /\ String.length a = n.
Proof.
  induction s as [|c s IH]; intros n H.
  - cbn in H. destruct p; [|discriminate]. inversion H. exists "", "". auto.
  - cbn [index] in H. destruct (prefix p (String c s)) eqn:E.
    + inversion H. destruct (prefix_split _ _ E) as (r & Er). exists "", r. auto.
    + destruct (index 0 p s) as [m|] eqn:Em; [|discriminate]. inversion H. destruct (IH m eq_refl) as (a & b & E1 & E2). exists (String c a), b. cbn. split; congruence.
Qed.
Lemma index_absent p s : ~ occurs p s -> index 0 p s = None.
Proof. intros H. destruct (index 0 p s) as [n|] eqn:E; [|reflexivity]. destruct (index_found _ _ _ E) as (a & b & Es & _). exfalso. apply H. exists a, b. exact Es. Qed.
Lemma index_char c a b : free_of c a -> index 0 (String c "") (a ++ String c b) = Some (String.length a).
Proof.
  intros H. rewrite index_skip.
  - change (String c b) with (String c "" ++ b). rewrite index_here. cbn. f_equal. lia.
  - intros a1 a2 E N. destruct a2 as [|d a2]; [contradiction|]. cbn [append prefix]. destruct (ascii_dec c d) as [<-|]; [|reflexivity].
    exfalso. apply H. rewrite E, chars_app, in_app_iff. right. left. reflexivity.
Qed.
Lemma past_app c a b : free_of c a -> past (String c "") (a ++ String c b) = b.
Proof.
  intros H. unfold past. rewrite (index_char c a b H). change (a ++ String c b) with (a ++ (String c "" ++ b)). rewrite <- app_assoc_s.
  replace (Datatypes.S (String.length a)) with (String.length (a ++ String c "")) by (rewrite length_app_s; cbn; lia). apply from_app.
Qed.

(** ** split *)
Lemma chars_concat c ps : chars (String.concat (String c "") ps) = join c (map chars ps).
Proof.
  induction ps as [|p ps IH]; [reflexivity|]. destruct ps as [|q ps]; [reflexivity|]. cbn [String.concat map join] in *. rewrite !chars_app, IH. reflexivity.
Qed.
Lemma split_concat c ps : ps <> [] -> (forall p, In p ps -> free_of c p) -> split c (String.concat (String c "") ps) = ps.
Proof.
  intros N H. unfold split. rewrite chars_concat, split_join.
  - rewrite map_map. rewrite (map_ext _ (fun p => p)) by apply text_chars. apply map_id.
  - destruct ps; [contradiction|discriminate].
  - intros w Hw. apply in_map_iff in Hw. destruct Hw as (p & <- & Hp). apply (H p Hp).
Qed.
Lemma split_two c a b : free_of c a -> free_of c b -> split c (a ++ String c b) = [a; b].
Proof.
  intros Ha Hb. change (a ++ String c b) with (String.concat (String c "") [a; b]). apply split_concat; [discriminate|].
  intros p [<-|[<-|[]]]; assumption.
Qed.
Lemma split_one c a : free_of c a -> split c a = [a].
Proof. intros Ha. change a with (String.concat (String c "") [a]) at 1. apply split_concat; [discriminate|]. intros p [<-|[]]; assumption. Qed.
Lemma split_hd c a b : free_of c a -> List.hd "" (split c (a ++ String c b)) = a.
Proof.
  intros Ha. unfold split. rewrite chars_app. cbn [list_ascii_of_string]. rewrite split_on_app by exact Ha. cbn. apply text_chars.
Qed.

(** ** dashes *)
Lemma dashes_app a b : dashes (a ++ b) = dashes a ++ dashes b.
Proof. unfold dashes. rewrite chars_app, map_app. induction (chars a) as [|c l IH]; cbn; [|rewrite <- IH]; reflexivity. Qed.
Lemma dashes_id s : free_of "/" s -> dashes s = s.
Proof.
  unfold free_of, dashes. induction s as [|c s IH]; intros H; cbn; [reflexivity|]. destruct (Ascii.eqb_spec c "/") as [->|]; [exfalso; apply H; left; reflexivity|].
  f_equal. apply IH. intros K. apply H. right. exact K.
Qed.
Lemma dashes_keeps c s : c <> "-"%char -> free_of c s -> free_of c (dashes s).
Proof.
  unfold free_of, dashes. intros N H K. rewrite list_ascii_of_string_of_list_ascii in K. apply in_map_iff in K. destruct K as (d & E & Hd).
  destruct (Ascii.eqb d "/"); [congruence|]. subst d. contradiction.
Qed.
Lemma dashes_concat c ps : c <> "/"%char -> dashes (String.concat (String c "") ps) = String.concat (String c "") (map dashes ps).
Proof.
  intros N. assert (E1 : dashes (String c "") = String c "") by (apply dashes_id; intros [K|[]]; congruence).
  induction ps as [|p ps IH]; [reflexivity|]. destruct ps as [|q ps]; [reflexivity|].
  change (String.concat (String c "") (p :: q :: ps)) with (p ++ String c "" ++ String.concat (String c "") (q :: ps)).
  change (map dashes (p :: q :: ps)) with (dashes p :: dashes q :: map dashes ps).
  change (String.concat (String c "") (dashes p :: dashes q :: map dashes ps)) with (dashes p ++ String c "" ++ String.concat (String c "") (map dashes (q :: ps))).
  rewrite <- IH, !dashes_app, E1. reflexivity.
Qed.
Lemma dashes_nonempty s : s <> "" -> dashes s <> "".
Proof. destruct s; [congruence|]. intros _. discriminate. Qed.

(** ** Values *)
Lemma last_app s c : last_char (s ++ String c "") = Some c.
Proof. induction s as [|d s IH]; [reflexivity|]. cbn [append last_char]. destruct (s ++ String c "") eqn:E; [destruct s; discriminate|exact IH]. Qed.
Lemma unquote_text s : unquote ("'" ++ s ++ "'") = Some s.
Proof.
  unfold unquote. cbn [append]. change (String "'" (s ++ "'")) with (("'" ++ s) ++ "'"). rewrite last_app. cbn [Ascii.eqb andb Bool.eqb].
  f_equal. cbn [append String.length]. rewrite length_app_s. cbn [String.length substring].
  replace (Datatypes.S (String.length s + 1) - 2) with (String.length s) by lia. apply substring_first.
Qed.
Lemma unquote_plain w : w <> "" -> free ["'"; "("]%char w -> unquote w = Some w.
Proof.
  intros N H. destruct w as [|a r]; [contradiction|]. unfold unquote. destruct (Ascii.eqb_spec a "'") as [->|_]; [exfalso; apply (H "'"%char); left; reflexivity|].
  cbn [andb]. destruct r as [|b r]; [reflexivity|]. destruct (Ascii.eqb_spec b "(") as [->|_]; [exfalso; apply (H "("%char); [right; left; reflexivity|right; left; reflexivity]|reflexivity].
Qed.
Lemma part_read repr k v : plain repr k v -> short_key k <> "cfg_str" ->
  read_part (dashes (short_key k ++ "=" ++ repr v)) = Some [(short_key k, told repr v)].
Proof.
  intros (Hk & Hr & Hv) N. rewrite !dashes_app. rewrite (dashes_id (short_key k)) by (apply Hk; cbn; auto). change (dashes "=") with "=". cbn [append].
  assert (Hd : forall c, In c [","; "="]%char -> free_of c (dashes (repr v))) by (intros c Hc; apply dashes_keeps; [destruct Hc as [<-|[<-|[]]]; discriminate|apply Hr, Hc]).
  unfold read_part. change (String "=" (dashes (repr v))) with (String "="%char (dashes (repr v))).
  rewrite split_two by (try apply Hk; try apply Hd; cbn; auto).
  assert (E : unquote (dashes (repr v)) = Some (told repr v)).
  { unfold told. destruct v as [s|z|z n|b|l]; cbn iota in *.
    - rewrite Hv, !dashes_app. apply unquote_text.
    - destruct Hv as (Hv & Hn). apply unquote_plain; [apply dashes_nonempty, Hn|]. intros c Hc. apply dashes_keeps; [destruct Hc as [<-|[<-|[]]]; discriminate|apply Hv, Hc].
    - destruct Hv as (Hv & Hn). apply unquote_plain; [apply dashes_nonempty, Hn|]. intros c Hc. apply dashes_keeps; [destruct Hc as [<-|[<-|[]]]; discriminate|apply Hv, Hc].
    - destruct Hv as (Hv & Hn). apply unquote_plain; [apply dashes_nonempty, Hn|]. intros c Hc. apply dashes_keeps; [destruct Hc as [<-|[<-|[]]]; discriminate|apply Hv, Hc].
    - destruct Hv as (Hv & Hn). apply unquote_plain; [apply dashes_nonempty, Hn|]. intros c Hc. apply dashes_keeps; [destruct Hc as [<-|[<-|[]]]; discriminate|apply Hv, Hc]. }
  rewrite E. destruct (String.eqb_spec (short_key k) "cfg_str"); [contradiction|]. rewrite split_one by (apply Hk; cbn; auto). reflexivity.
Qed.

(** ** Whole names *)
Lemma put_new {V} k (v : V) d : ~ In k (map fst d) -> put k v d = (d ++ [(k, v)])%list.
Proof.
  induction d as [|[k' v'] d IH]; intros H; cbn [put app]; [reflexivity|]. destruct (String.eqb_spec k k') as [->|]; [exfalso; apply H; left; reflexivity|].
  rewrite IH by (intros K; apply H; right; exact K). reflexivity.
Qed.
Lemma put_all_new {V} (o : table V) : forall d, NoDup (map fst d ++ map fst o)%list -> put_all d o = (d ++ o)%list.
Proof.
  induction o as [|[k v] o IH]; intros d H; unfold put_all in *; cbn [fold_left]; [rewrite app_nil_r; reflexivity|]. cbn [fst snd].
  cbn [map fst] in H. assert (N : ~ In k (map fst d)) by (apply NoDup_remove_2 in H; rewrite in_app_iff in H; tauto).
  rewrite (put_new k v d N), IH.
  - rewrite <- app_assoc. reflexivity.
  - rewrite map_app. cbn [map fst]. rewrite <- app_assoc. exact H.
Qed.
Lemma parts_in repr kw : forall ps, sweep_parts repr kw = Some ps ->
  Forall2 (fun kv p => exists v, short_value (snd kv) = Some v /\ p = short_key (fst kv) ++ "=" ++ repr v) kw ps.
Proof.
  induction kw as [|[k v] kw IH]; cbn; intros ps H; [inversion H; constructor|]. destruct (short_value v) as [v'|] eqn:E; [|discriminate].
  destruct (sweep_parts repr kw) as [ps'|]; [|discriminate]. inversion H. constructor; [exists v'; auto|apply IH; reflexivity].
Qed.
Lemma concat_occurs ps p : In p ps -> occurs p (String.concat "," ps).
Proof.
  induction ps as [|q ps IH]; [intros []|]. intros [<-|H].
  - destruct ps as [|r ps]; [exists "", ""; cbn; rewrite app_nil_s; reflexivity|]. exists "", ("," ++ String.concat "," (r :: ps)). reflexivity.
  - destruct ps as [|r ps]; [destruct H|]. destruct (IH H) as (a & b & E). change (String.concat "," (q :: r :: ps)) with (q ++ "," ++ String.concat "," (r :: ps)).
    rewrite E. exists (q ++ "," ++ a), b. rewrite !app_assoc_s. reflexivity.
Qed.
Lemma occurs_trans p q s : occurs p q -> occurs q s -> occurs p s.
Proof. intros (a & b & ->) (c & d & ->). exists (c ++ a), (b ++ d). rewrite !app_assoc_s. reflexivity. Qed.
Lemma folder_read repr i kw t : kw <> [] ->
  (forall k v, In (k, v) kw -> exists v', short_value v = Some v' /\ plain repr k v') -> NoDup (map (fun kv => short_key (fst kv)) kw) ->
  sweep_str repr kw = Some t -> ~ occurs "cfg_str" t ->
  exists d, get_experiment_config (id_text i ++ "_" ++ t) = Some d /\ Forall2 (read_as repr) kw d.
Proof.
  intros Ne Hp Hn Ht Hc. unfold sweep_str in Ht. destruct (sweep_parts repr kw) as [ps|] eqn:Es; [|discriminate]. cbn in Ht. inversion Ht as [Et]. clear Ht. rewrite Et.
  apply parts_in in Es. unfold get_experiment_config. cbn [append]. rewrite past_app by (apply not_numeral; reflexivity).
  assert (HS : split "," t = map dashes ps).
  { rewrite <- Et, dashes_concat by discriminate. apply split_concat.
    - destruct Es; [contradiction|discriminate].
    - intros p H. apply in_map_iff in H. destruct H as (q & <- & Hq). clear - Es Hq Hp. induction Es as [|[k v] p kw ps (v' & E1 & E2) Es IH]; [destruct Hq|].
      destruct Hq as [<-|Hq]; [|apply IH; [intros k0 v0 H0; apply Hp; right; exact H0|exact Hq]].
      destruct (Hp k v (or_introl eq_refl)) as (w & Ew & Hk & Hr & _). cbn [fst snd] in *. rewrite E1 in Ew. inversion Ew; subst w. subst p.
      apply dashes_keeps; [discriminate|]. unfold free_of. rewrite !chars_app, !in_app_iff. intros [K|[K|K]]; [apply (Hk ","%char) in K; cbn; auto|destruct K as [K|[]]; discriminate|apply (Hr ","%char) in K; cbn; auto]. }
  rewrite HS. assert (HA : exists d, map read_part (map dashes ps) = map (fun kd => Some [kd]) d /\ Forall2 (read_as repr) kw d /\ map fst d = map (fun kv => short_key (fst kv)) kw).
  { assert (Hall : forall p, In p ps -> ~ occurs "cfg_str" (dashes p)).
    { intros p Hp' K. apply Hc. apply (occurs_trans _ _ _ K). rewrite <- Et, dashes_concat by discriminate. apply concat_occurs, in_map, Hp'. }
    clear HS Et Hn Ne Hc. induction Es as [|[k v] p kw ps (v' & E1 & E2) Es IH]; [exists []; repeat split; constructor|]. cbn [fst snd] in *.
    destruct IH as (d & D1 & D2 & D3); [intros k0 v0 H0; apply Hp; right; exact H0|intros q Hq; apply Hall; right; exact Hq|].
    destruct (Hp k v (or_introl eq_refl)) as (w & Ew & Hpl). rewrite E1 in Ew. inversion Ew; subst w. exists ((short_key k, told repr v') :: d). split; [|split].
    - cbn [map]. rewrite D1, E2, part_read; [reflexivity|exact Hpl|]. intros K. apply (Hall p (or_introl eq_refl)). rewrite E2, K. exists "", (dashes ("=" ++ repr v')). rewrite dashes_app. reflexivity.
    - constructor; [|exact D2]. split; [reflexivity|]. exists v'. auto.
    - cbn [map fst]. congruence. }
  destruct HA as (d & D1 & D2 & D3). rewrite D1. replace (map (fun kd => Some [kd]) d) with (map Some (map (fun kd => [kd]) d)) by (rewrite map_map; reflexivity).
  rewrite all_or_none_map. unfold read_cfg. rewrite (index_absent _ _ Hc), app_nil_r. exists d. split; [|exact D2]. f_equal.
  replace (concat (map (fun kd : string * string => [kd]) d)) with d by (clear; induction d; cbn; congruence).
  rewrite put_all_new; [reflexivity|]. cbn [map app]. rewrite D3. exact Hn.
Qed.

(** ** Graph configurations *)
Lemma look_put_all_last {V} k (v : V) l : look k (put_all [] (l ++ [(k, v)])%list) = Some v.
Proof. unfold put_all. rewrite fold_left_app. cbn [fold_left fst snd]. rewrite look_put, String.eqb_refl. reflexivity. Qed.
Lemma cfg_read i a x b d : ~ occurs "cfg_str" a -> (a = "" \/ exists a', a = a' ++ ",") -> free [","; "'"]%char x ->
  get_experiment_config (id_text i ++ "_" ++ a ++ "cfg_str='r-" ++ x ++ "'" ++ b) = Some d -> look "cfg_str" d = Some x.
Proof.
  intros Ha He Hx. unfold get_experiment_config. cbn [append]. rewrite past_app by (apply not_numeral; reflexivity).
  set (s := a ++ String "c" (String "f" (String "g" (String "_" (String "s" (String "t" (String "r" (String "=" (String "'" (String "r" (String "-" (x ++ String "'" b)))))))))))).
  destruct (all_or_none (map read_part (split "," s))) as [ps|]; [|discriminate]. intros H. inversion H. clear H.
  assert (E : read_cfg s = [("cfg_str", x)]).
  { unfold read_cfg. assert (Ei : index 0 "cfg_str" s = Some (String.length a)).
    { unfold s. rewrite index_skip.
      - change (index 0 "cfg_str" _) with (index 0 "cfg_str" ("cfg_str" ++ String "=" (String "'" (String "r" (String "-" (x ++ String "'" b)))))). rewrite index_here. cbn. f_equal. lia.
      - intros a1 a2 Ea N. match goal with |- prefix ?p (a2 ++ ?r) = false => destruct (prefix p (a2 ++ r)) eqn:E; [exfalso|reflexivity]; apply prefix_two in E end.
        destruct E as [E|(r & E)].
        + apply Ha. destruct (prefix_split _ _ E) as (r & Er). exists a1, r. rewrite Ea, Er. reflexivity.
        + destruct He as [->|(a' & He)]; [destruct a1; [cbn in Ea; subst; contradiction|discriminate]|].
          assert (K : In ","%char (chars a2)).
          { apply (f_equal chars) in Ea. rewrite He, !chars_app in Ea. assert (L : last (chars a2) "0"%char = ","%char).
            { assert (G : chars a2 <> []) by (destruct a2; [contradiction|discriminate]). apply (f_equal (fun l => last l "0"%char)) in Ea. cbn [list_ascii_of_string] in Ea. rewrite last_last in Ea.
              destruct (exists_last G) as (u & z & Eu). rewrite Eu in Ea |- *. rewrite app_assoc, last_last in Ea. rewrite last_last. congruence. }
            rewrite <- L. destruct (exists_last (l := chars a2)) as (u & z & Eu); [destruct a2; [contradiction|discriminate]|]. rewrite Eu, last_last. apply in_app_iff. right. left. reflexivity. }
          assert (K' : In ","%char (chars "cfg_str")) by (rewrite E, chars_app, in_app_iff; left; exact K). cbn in K'. repeat destruct K' as [K'|K']; try discriminate. destruct K'. }
    rewrite Ei. f_equal. f_equal.
    assert (Es : from (7 + String.length a + 4) s = x ++ String "'" b).
    { replace (7 + String.length a + 4) with (String.length (a ++ "cfg_str='r-")) by (rewrite length_app_s; cbn; lia).
      replace s with ((a ++ "cfg_str='r-") ++ (x ++ String "'" b)) by (rewrite app_assoc_s; reflexivity). apply from_app. }
    rewrite Es, split_hd by (apply Hx; cbn; auto). rewrite split_one by (apply Hx; cbn; auto). reflexivity. }
  rewrite E. apply look_put_all_last.
Qed.
