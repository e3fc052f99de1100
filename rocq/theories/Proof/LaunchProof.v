From Coq Require Import String Ascii List Bool ZArith Lia Arith.
From Coq Require DecimalString DecimalNat DecimalFacts.
From Verif.Spec Require Import ConfigSpec LaunchSpec.
From Verif.Model Require Tools.
From Verif.Model Require Import Config Utils Loaders Launch.
From Verif.Proof Require ToolsProof UtilsProof.
From Verif.Proof Require Import ConfigProof.
Import ListNotations.
Local Open Scope string_scope.

(** ** Tables *)
Lemma look_put {V} k k' (v : V) s : look k (put k' v s) = if String.eqb k k' then Some v else look k s.
Proof.
  induction s as [| [k2 v2] s IH]; simpl.
  - reflexivity.
  - destruct (String.eqb_spec k' k2) as [-> | N]; simpl.
    + destruct (String.eqb_spec k k2) as [-> | N2]; reflexivity.
    + rewrite IH. destruct (String.eqb_spec k k2) as [-> | N2].
      * destruct (String.eqb_spec k2 k') as [-> | N3]; [congruence | reflexivity].
      * reflexivity.
Qed.
Lemma look_none {V} k (s : table V) : ~ In k (map fst s) -> look k s = None.
Proof.
  induction s as [| [k2 v2] s IH]; simpl; intros H; [reflexivity |].
  destruct (String.eqb_spec k k2) as [-> | N]; [tauto | apply IH; tauto].
Qed.
Lemma look_some_in {V} k (v : V) s : look k s = Some v -> In k (map fst s).
Proof.
  induction s as [| [k2 v2] s IH]; simpl; intros H; [discriminate |].
  destruct (String.eqb_spec k k2) as [-> | N]; [left; reflexivity | right; apply IH, H].
Qed.
Lemma put_keys {V} k (v : V) s : In k (map fst s) -> map fst (put k v s) = map fst s.
Proof.
  induction s as [| [k2 v2] s IH]; simpl; intros H; [contradiction |].
  destruct (String.eqb_spec k k2) as [-> | N]; simpl; [reflexivity|]. f_equal. apply IH. destruct H; [congruence|assumption].
Qed.
Lemma put_in {V} k (v : V) s x : In x (map fst (put k v s)) -> x = k \/ In x (map fst s).
Proof.
  induction s as [| [k2 v2] s IH]; simpl; intros H.
  - destruct H as [H|[]]; auto.
  - destruct (String.eqb_spec k k2) as [-> | N]; simpl in H; destruct H as [H|H]; auto. destruct (IH H); auto.
Qed.
Lemma put_dict {V} k (v : V) s : dict s -> dict (put k v s).
Proof.
  unfold dict. induction s as [| [k2 v2] s IH]; simpl; intros H; [repeat constructor; intros []|].
  inversion H as [| ? ? Hn Hs]; subst. destruct (String.eqb_spec k k2) as [-> | N]; simpl; constructor; auto.
  intros Hi. apply put_in in Hi. destruct Hi; [congruence | contradiction].
Qed.
Lemma put_all_dict {V} (o s : table V) : dict s -> dict (put_all s o).
Proof. revert s. induction o as [|[k v] o IH]; intros s H; [exact H|]. unfold put_all. cbn. apply IH, put_dict, H. Qed.
Lemma look_put_all {V} k (o : table V) : dict o -> forall s, look k (put_all s o) = first_of [look k o; look k s].
Proof.
  unfold dict. induction o as [| [k2 v2] o IH]; simpl; intros Ho s.
  - destruct (look k s); reflexivity.
  - inversion Ho as [| ? ? Hni Ho' ]; subst. change (put_all s ((k2, v2) :: o)) with (put_all (put k2 v2 s) o).
    rewrite (IH Ho'). cbn [first_of]. rewrite look_put.
    destruct (String.eqb_spec k k2) as [-> | N].
    + rewrite (look_none _ _ Hni). reflexivity.
    + reflexivity.
Qed.

(** ** Erasing the types *)
Definition erase (s : table lit) : section := map (fun kv => (fst kv, to_val (snd kv))) s.
Definition erasec (c : lconfig) : config := mk (erase (l_model c)) (erase (l_sampler c)) (erase (l_exp c)).
Lemma get_erase k s : Config.get k (erase s) = option_map to_val (look k s).
Proof. induction s as [|[k2 v2] s IH]; simpl; [reflexivity|]. destruct (String.eqb k k2); [reflexivity|exact IH]. Qed.
Lemma set_erase k v s : Config.set k (to_val v) (erase s) = erase (put k v s).
Proof. induction s as [|[k2 v2] s IH]; simpl; [reflexivity|]. destruct (String.eqb k k2); simpl; [reflexivity|]. rewrite IH. reflexivity. Qed.
Lemma retype_val old v w : retype old v = Some w -> to_val w = to_val v.
Proof. destruct old, v; cbn; intros H; inversion H; reflexivity. Qed.
Lemma assign_erase k v s s' : assign k v s = Some s' -> erase s' = Config.set k (to_val v) (erase s).
Proof.
  unfold assign. destruct (look k s) as [old|].
  - destruct (retype old v) as [w|] eqn:E; cbn; intros H; inversion H; subst. rewrite <- (retype_val _ _ _ E), set_erase. reflexivity.
  - intros H. inversion H. rewrite set_erase. reflexivity.
Qed.
Lemma assign_all_erase o : forall s s', assign_all s o = Some s' -> erase s' = update (erase s) (erase o).
Proof.
  induction o as [|[k v] o IH]; intros s s' H; [inversion H; reflexivity|]. cbn in H.
  destruct (assign k v s) as [s1|] eqn:E; [|discriminate]. rewrite (IH _ _ H), (assign_erase _ _ _ _ E). reflexivity.
Qed.
Lemma lmerge_erase c o c' : lmerge c o = Some c' -> erasec c' = merge (erasec c) (erasec o).
Proof.
  unfold lmerge. destruct (assign_all (l_model c) _) as [m|] eqn:E1; [|discriminate].
  destruct (assign_all (l_sampler c) _) as [s|] eqn:E2; [|discriminate]. destruct (assign_all (l_exp c) _) as [e|] eqn:E3; [|discriminate].
  intros H. inversion H. unfold erasec, merge. cbn [l_model l_sampler l_exp c_model c_sampler c_exp].
  rewrite (assign_all_erase _ _ _ E1), (assign_all_erase _ _ _ E2), (assign_all_erase _ _ _ E3). reflexivity.
Qed.
Lemma common_erase : erasec common_file = common_config.
Proof. reflexivity. Qed.
Lemma dict_erase s : dict s -> dict (erase s).
Proof. unfold dict, erase. rewrite map_map. cbn. auto. Qed.
Lemma has_erase k s : Config.has k (erase s) = l_has k s.
Proof. unfold Config.has, l_has. rewrite get_erase. destruct (look k s); reflexivity. Qed.
Lemma true_erase k s : get_true k (erase s) = l_true k s.
Proof. unfold get_true, l_true. rewrite get_erase. destruct (look k s); reflexivity. Qed.
Lemma look_assign_all k o : dict o -> forall s s', assign_all s o = Some s' ->
  look k s' = match look k o with Some v => match look k s with None => Some v | Some old => retype old v end | None => look k s end.
Proof.
  unfold dict. induction o as [|[k2 v2] o IH]; intros Ho s s' H; [inversion H; reflexivity|]. cbn in H. inversion Ho as [|? ? Hn Ho']; subst.
  destruct (assign k2 v2 s) as [s1|] eqn:E; [|discriminate]. rewrite (IH Ho' _ _ H). cbn.
  unfold assign in E. destruct (look k2 s) as [old|] eqn:E2.
  - destruct (retype old v2) as [w|] eqn:E3; [|discriminate]. inversion E; subst. rewrite look_put.
    destruct (String.eqb_spec k k2) as [->|N]; [|reflexivity]. rewrite (look_none _ _ Hn), E2, E3. reflexivity.
  - inversion E; subst. rewrite look_put. destruct (String.eqb_spec k k2) as [->|N]; [|reflexivity]. rewrite (look_none _ _ Hn), E2. reflexivity.
Qed.

(** The typed merging refines the untyped one. *)
Lemma main_erased gm ef mf sf c : dict mf -> (forall v, look "name" mf = Some v -> exists s, v = LStr s) ->
  l_main_config gm ef mf sf = Some c ->
  exists gc, get_main_config gc (erasec ef) (erase mf) (erase sf) = Some (erasec c) /\
    (forall n g s, look "graph_type" (l_model ef) = None -> look "cfg_str" (l_model ef) = None ->
       look "name" mf = Some n -> look "graph_type" mf = Some g -> look "cfg_str" mf = Some s ->
       gc (to_val n) (to_val g) (to_val s) = option_map erase (gm n g s)).
Proof.
  intros Hd Hname H. unfold l_main_config in H. unfold get_main_config.
  rewrite !has_erase.
  set (b := (negb (l_has "graph_type" mf) && negb (l_has "bert_model" mf))%bool) in *.
  destruct (if b then lmerge common_file ef else Some common_file) as [c1|] eqn:E1; [|discriminate].
  assert (HE1 : erasec c1 = (if b then merge common_config (erasec ef) else common_config)).
  { destruct b; [rewrite (lmerge_erase _ _ _ E1), common_erase; reflexivity | inversion E1; apply common_erase]. }
  destruct (assign_all (l_sampler c1) sf) as [s|] eqn:E2; [|discriminate].
  destruct (assign_all (l_model c1) mf) as [m|] eqn:E3; [|discriminate].
  set (c2 := {| l_model := m; l_sampler := s; l_exp := l_exp c1 |}) in *.
  assert (HE2 : erasec c2 = mk (update (c_model (erasec c1)) (erase mf)) (update (c_sampler (erasec c1)) (erase sf)) (c_exp (erasec c1))).
  { unfold erasec, c2. cbn [l_model l_sampler l_exp c_model c_sampler c_exp]. rewrite (assign_all_erase _ _ _ E2), (assign_all_erase _ _ _ E3). reflexivity. }
  rewrite <- HE1, <- HE2. change (c_model (erasec c2)) with (erase m). rewrite true_erase.
  exists (fun _ _ _ => match look "name" m, look "graph_type" m, look "cfg_str" m with
                       | Some n, Some g, Some s => option_map erase (gm n g s) | _, _, _ => None end).
  split.
  - destruct (l_true "graph_type" m).
    + destruct (l_graph_part gm ef c2) as [c3|] eqn:E4; [|discriminate].
      assert (HE4 : graph_part (fun _ _ _ => match look "name" m, look "graph_type" m, look "cfg_str" m with
                       | Some n, Some g, Some s => option_map erase (gm n g s) | _, _, _ => None end) (erasec ef) (erasec c2) = Some (erasec c3)).
      { unfold l_graph_part in E4. unfold graph_part. change (c_model (erasec c2)) with (erase m). assert (Hm : l_model c2 = m) by reflexivity. rewrite !Hm in E4.
        rewrite !get_erase.
        destruct (look "name" m) as [n|]; [|discriminate]. destruct (look "graph_type" m) as [g|]; [|discriminate].
        destruct (look "cfg_str" m) as [s0|]; [|discriminate]. cbn [option_map].
        destruct (gm n g s0) as [sec|]; [|discriminate]. cbn [option_map].
        destruct (assign_all m sec) as [m1|] eqn:F1; [|discriminate]. destruct (assign_all (l_exp c2) co_file) as [e1|] eqn:F2; [|discriminate].
        match type of E4 with context [lmerge ?x ef] => destruct (lmerge x ef) as [c3'|] eqn:F3; [|discriminate E4] end.
        apply lmerge_erase in F3. unfold erasec at 2 in F3. cbn [l_model l_sampler l_exp] in F3.
        rewrite (assign_all_erase _ _ _ F1), (assign_all_erase _ _ _ F2) in F3. change (erase co_file) with co_default in F3.
        cbn [c_model c_sampler c_exp]. change (c_sampler (erasec c2)) with (erase (l_sampler c2)). change (c_exp (erasec c2)) with (erase (l_exp c2)).
        rewrite <- F3. change (c_model (erasec c3')) with (erase (l_model c3')). rewrite get_erase.
        destruct (look "num_models" (l_model c3')) as [k|]; [|discriminate]. cbn [option_map] in *.
        destruct (assign "num_models" k (l_exp c3')) as [e2|] eqn:F4; [|discriminate]. injection E4 as <-. unfold erasec. cbn [l_model l_sampler l_exp c_model c_sampler c_exp].
        rewrite (assign_erase _ _ _ _ F4). reflexivity. }
      rewrite HE4. change (c_model (erasec c3)) with (erase (l_model c3)). rewrite true_erase.
      destruct (l_true "bert_model" (l_model c3)); [apply lmerge_erase in H; rewrite H; reflexivity | inversion H; reflexivity].
    + change (c_model (erasec c2)) with (erase m). rewrite true_erase. change (l_model c2) with m in H.
      destruct (l_true "bert_model" m); [apply lmerge_erase in H; rewrite H; reflexivity | inversion H; reflexivity].
  - intros n g s0 Hg0 Hs0 Hn Hg Hs. cbv beta.
    rewrite (look_assign_all "name" mf Hd _ _ E3), (look_assign_all "graph_type" mf Hd _ _ E3), (look_assign_all "cfg_str" mf Hd _ _ E3), Hn, Hg, Hs.
    assert (Hb : b = false) by (unfold b, l_has; rewrite Hg; reflexivity). rewrite Hb in E1. inversion E1; subst c1. cbn [look common_file l_model String.eqb Ascii.eqb Bool.eqb].
    destruct (Hname n Hn) as [t ->]. reflexivity.
Qed.

(** ** Keys of the command line *)
Lemma prefix_split p : forall s, prefix p s = true -> exists r, s = p ++ r.
Proof.
  induction p as [|a p IH]; intros s H; [exists s; reflexivity|]. destruct s as [|b s]; [discriminate|]. cbn in H.
  destruct (ascii_dec a b) as [->|]; [|discriminate]. destruct (IH s H) as [r ->]. exists r. reflexivity.
Qed.
Lemma prefix_app p r : prefix p (p ++ r) = true.
Proof. induction p as [|a p IH]; cbn; [destruct r; reflexivity|]. destruct (ascii_dec a a); [exact IH|contradiction]. Qed.
Lemma substring_whole r : substring 0 (String.length r) r = r.
Proof. induction r as [|a r IH]; cbn; [reflexivity|]. rewrite IH. reflexivity. Qed.
Lemma substring_app p r : substring (String.length p) (String.length (p ++ r) - String.length p) (p ++ r) = r.
Proof.
  induction p as [|a p IH]; [|exact IH]. cbn [String.length String.append]. rewrite Nat.sub_0_r. apply substring_whole.
Qed.
Lemma after_app p r : after p (p ++ r) = Some r.
Proof. unfold after. rewrite prefix_app, substring_app. reflexivity. Qed.
Lemma after_some p s r : after p s = Some r -> s = p ++ r.
Proof.
  unfold after. destruct (prefix p s) eqn:E; [|discriminate]. destruct (prefix_split p s E) as [t ->]. rewrite substring_app. intros H. inversion H. reflexivity.
Qed.

Inductive slot := SlModel | SlSampler | SlExp | SlCModel | SlCSampler.
Definition slot_prefix (s : slot) : string :=
  match s with SlModel => "model_config." | SlSampler => "sampler_config." | SlExp => "config.experiment." | SlCModel => "config.model." | SlCSampler => "config.sampler." end.
Definition slot_get (s : slot) (f : flagged) : table lit :=
  match s with SlModel => g_model f | SlSampler => g_sampler f | SlExp => l_exp (g_conf f) | SlCModel => l_model (g_conf f) | SlCSampler => l_sampler (g_conf f) end.
Definition is_file_key (k : string) : bool := (String.eqb k "config" || String.eqb k "model_config" || String.eqb k "sampler_config")%bool.

Lemma file_key_slot s r : is_file_key (slot_prefix s ++ r) = false.
Proof. destruct s; reflexivity. Qed.
Lemma slot_inj s s' r r' : slot_prefix s ++ r = slot_prefix s' ++ r' -> s = s' /\ r = r'.
Proof. destruct s, s'; cbn; intros H; try discriminate H; inversion H; auto. Qed.

Lemma take_arg_slot repr f k v f' : take_arg repr f (k, v) = Some f' ->
  (is_file_key k = true /\ f' = f) \/
  (exists s r t', k = slot_prefix s ++ r /\ override repr r v (slot_get s f) = Some t' /\ slot_get s f' = t' /\
     forall s', s' <> s -> slot_get s' f' = slot_get s' f).
Proof.
  unfold take_arg. change (String.eqb k "config" || String.eqb k "model_config" || String.eqb k "sampler_config")%bool with (is_file_key k).
  destruct (is_file_key k); [intros H; left; inversion H; auto|]. intros H. right.
  destruct (after "model_config." k) as [r|] eqn:E1.
  { apply after_some in E1. destruct (override repr r v (g_model f)) as [t'|] eqn:O; [|discriminate]. inversion H; subst.
    exists SlModel, r, t'. split; [reflexivity|]. split; [exact O|]. split; [reflexivity|]. intros [] N; try reflexivity; congruence. }
  destruct (after "sampler_config." k) as [r|] eqn:E2.
  { apply after_some in E2. destruct (override repr r v (g_sampler f)) as [t'|] eqn:O; [|discriminate]. inversion H; subst.
    exists SlSampler, r, t'. split; [reflexivity|]. split; [exact O|]. split; [reflexivity|]. intros [] N; try reflexivity; congruence. }
  destruct (after "config.experiment." k) as [r|] eqn:E3.
  { apply after_some in E3. destruct (override repr r v (l_exp (g_conf f))) as [t'|] eqn:O; [|discriminate]. inversion H; subst.
    exists SlExp, r, t'. split; [reflexivity|]. split; [exact O|]. split; [reflexivity|]. intros [] N; try reflexivity; congruence. }
  destruct (after "config.model." k) as [r|] eqn:E4.
  { apply after_some in E4. destruct (override repr r v (l_model (g_conf f))) as [t'|] eqn:O; [|discriminate]. inversion H; subst.
    exists SlCModel, r, t'. split; [reflexivity|]. split; [exact O|]. split; [reflexivity|]. intros [] N; try reflexivity; congruence. }
  destruct (after "config.sampler." k) as [r|] eqn:E5; [|discriminate].
  apply after_some in E5. destruct (override repr r v (l_sampler (g_conf f))) as [t'|] eqn:O; [|discriminate]. inversion H; subst.
  exists SlCSampler, r, t'. split; [reflexivity|]. split; [exact O|]. split; [reflexivity|]. intros [] N; try reflexivity; congruence.
Qed.
Lemma slot_dec : forall a b : slot, {a = b} + {a <> b}.
Proof. decide equality. Qed.
Lemma override_look repr r v t t' : override repr r v t = Some t' ->
  exists old w, look r t = Some old /\ as_flag repr old v = Some w /\ t' = put r w t /\ map fst t' = map fst t.
Proof.
  unfold override. destruct (look r t) as [old|] eqn:E; [|discriminate]. destruct (as_flag repr old v) as [w|] eqn:E2; cbn; [|discriminate].
  intros H. inversion H. exists old, w. split; [reflexivity|]. split; [exact E2|]. split; [reflexivity|]. apply put_keys, (look_some_in _ _ _ E).
Qed.

(** What the overrides do to one section. *)
Lemma take_args_slot repr s : forall args f f', dict args -> take_args repr f args = Some f' ->
  (forall r v, look (slot_prefix s ++ r) args = Some v ->
     exists old w, look r (slot_get s f) = Some old /\ as_flag repr old v = Some w /\ look r (slot_get s f') = Some w) /\
  (forall r, look (slot_prefix s ++ r) args = None -> look r (slot_get s f') = look r (slot_get s f)) /\
  map fst (slot_get s f') = map fst (slot_get s f).
Proof.
  unfold dict. induction args as [|[k v] args IH]; intros f f' Hd H.
  - inversion H; subst. split; [intros r v H0; discriminate|]. split; [reflexivity|reflexivity].
  - cbn [take_args] in H. destruct (take_arg repr f (k, v)) as [f1|] eqn:E; [|discriminate]. inversion Hd as [|? ? Hn Hd']; subst.
    destruct (IH f1 f' Hd' H) as (A & B & C). clear IH.
    destruct (take_arg_slot repr f k v f1 E) as [[Hk ->]|(s' & r' & t' & -> & O & G & Others)].
    + split; [|split; [|exact C]].
      * intros r w Hl. cbn in Hl. destruct (String.eqb_spec (slot_prefix s ++ r) k) as [<-|N]; [rewrite file_key_slot in Hk; discriminate|]. apply A, Hl.
      * intros r Hl. cbn in Hl. destruct (String.eqb_spec (slot_prefix s ++ r) k) as [<-|N]; [discriminate|]. apply B, Hl.
    + destruct (override_look _ _ _ _ _ O) as (old & w & Ho & Hw & Ht & Hkeys).
      destruct (slot_dec s s') as [<-|Ns].
      * split; [|split].
        -- intros r u Hl. cbn in Hl. destruct (String.eqb_spec (slot_prefix s ++ r) (slot_prefix s ++ r')) as [Ee|N].
           ++ destruct (slot_inj _ _ _ _ Ee) as [_ ->]. inversion Hl; subst u. exists old, w. split; [exact Ho|]. split; [exact Hw|].
              rewrite B by (apply look_none; exact Hn). rewrite G, Ht, look_put, String.eqb_refl. reflexivity.
           ++ destruct (A r u Hl) as (old2 & w2 & X & Y & Z). exists old2, w2. split; [|split; assumption].
              rewrite G, Ht, look_put in X. destruct (String.eqb_spec r r') as [->|]; [contradiction|exact X].
        -- intros r Hl. cbn in Hl. destruct (String.eqb_spec (slot_prefix s ++ r) (slot_prefix s ++ r')) as [Ee|N]; [discriminate|].
           rewrite B by exact Hl. rewrite G, Ht, look_put. destruct (String.eqb_spec r r') as [->|]; [contradiction|reflexivity].
        -- rewrite C, G. exact Hkeys.
      * split; [|split].
        -- intros r u Hl. cbn in Hl. destruct (String.eqb_spec (slot_prefix s ++ r) (slot_prefix s' ++ r')) as [Ee|N]; [destruct (slot_inj _ _ _ _ Ee); contradiction|].
           destruct (A r u Hl) as (old2 & w2 & X & Y & Z). exists old2, w2. rewrite (Others s Ns) in X. auto.
        -- intros r Hl. cbn in Hl. destruct (String.eqb_spec (slot_prefix s ++ r) (slot_prefix s' ++ r')) as [Ee|N]; [discriminate|].
           rewrite B by exact Hl. rewrite (Others s Ns). reflexivity.
        -- rewrite C, (Others s Ns). reflexivity.
Qed.
Lemma as_flag_reads repr old v w : as_flag repr old v = Some w -> reads repr v w.
Proof.
  unfold reads. destruct old, v; cbn; intros H; try discriminate; try (inversion H; subst; auto; fail); try (inversion H; subst; right; left; split; [intros; discriminate|reflexivity]).
  destruct (tuple_of s) as [t|] eqn:E; [|discriminate]. inversion H; subst. right. right. exists s, t. auto.
Qed.
Lemma reads_val repr v w u : reads repr v w -> to_val u = to_val w -> (forall l, w = LTuple l -> u = LTuple l) -> (forall s, w = LStr s -> u = LStr s) -> reads repr v u.
Proof. intros [H|[[H0 H]|(s & l & A & B & C)]] E Ht Hs; [left; congruence | right; left; split; [exact H0|apply Hs, H] | right; right; exists s, l; auto]. Qed.
Lemma val_tuple u l : to_val u = VTuple l -> u = LTuple l.
Proof. destruct u; cbn; intros H; inversion H; reflexivity. Qed.
Lemma val_str u s : to_val u = VStr s -> u = LStr s.
Proof. destruct u; cbn; intros H; inversion H; reflexivity. Qed.
Lemma reads_same repr v w o : reads repr v w -> option_map to_val o = Some (to_val w) -> exists u, o = Some u /\ reads repr v u.
Proof.
  destruct o as [u|]; cbn; intros Hr H; [|discriminate]. inversion H as [E]. exists u. split; [reflexivity|]. apply (reads_val repr v w u Hr E).
  - intros l ->. apply val_tuple. exact E.
  - intros s ->. apply val_str. exact E.
Qed.

(** ** The configuration a command line gives *)
Lemma same_kept repr a f g g' : kept repr a f g -> same g' g -> kept repr a f g'.
Proof.
  unfold kept, same. destruct a as [v|]; [|congruence]. intros (w & -> & Hr) H. apply (reads_same repr v w g' Hr). exact H.
Qed.
Lemma kept_first repr a f g l : kept repr a f g -> kept repr a (first_of (f :: l)) (first_of (g :: l)).
Proof.
  unfold kept, same. destruct a as [v|].
  - intros (w & -> & Hr). exists w. split; [reflexivity|exact Hr].
  - intros H. destruct f, g; cbn in *; congruence.
Qed.
Lemma same_first g g' l : same g g' -> same (first_of (g :: l)) (first_of (g' :: l)).
Proof. unfold same. destruct g, g'; cbn; congruence. Qed.
Lemma same_first2 g l l' : same (first_of l) (first_of l') -> same (first_of (g :: l)) (first_of (g :: l')).
Proof. unfold same. destruct g; cbn; congruence. Qed.
Lemma first_erase {A B} (h : A -> B) l : option_map h (first_of l) = first_of (map (option_map h) l).
Proof. induction l as [|[a|] l IH]; cbn; auto. Qed.

Section FLAGS.
Variables (repr : lit -> string) (args : table lit) (f f' : flagged).
Hypotheses (Hd : dict args) (Ht : take_args repr f args = Some f').
Lemma flag_kept s r : kept repr (look (slot_prefix s ++ r) args) (look r (slot_get s f)) (look r (slot_get s f')).
Proof.
  destruct (take_args_slot repr s args f f' Hd Ht) as (A & B & _). unfold kept.
  destruct (look (slot_prefix s ++ r) args) as [v|] eqn:E.
  - destruct (A r v E) as (old & w & _ & Hf & Hl). exists w. split; [exact Hl|]. apply (as_flag_reads repr old v w Hf).
  - unfold same. rewrite (B r E). reflexivity.
Qed.
Lemma flag_known s r v : look (slot_prefix s ++ r) args = Some v -> exists old w, look r (slot_get s f) = Some old /\ as_flag repr old v = Some w /\ look r (slot_get s f') = Some w.
Proof. intros E. destruct (take_args_slot repr s args f f' Hd Ht) as (A & _). exact (A r v E). Qed.
Lemma flag_unknown s r : look r (slot_get s f) = None -> look r (slot_get s f') = None.
Proof.
  intros E. destruct (take_args_slot repr s args f f' Hd Ht) as (A & B & _).
  destruct (look (slot_prefix s ++ r) args) as [v|] eqn:E2; [destruct (A r v E2) as (old & w & X & _); congruence|].
  rewrite (B r E2). exact E.
Qed.
Lemma flag_dict s : dict (slot_get s f) -> dict (slot_get s f').
Proof. destruct (take_args_slot repr s args f f' Hd Ht) as (_ & _ & C). unfold dict. rewrite C. auto. Qed.
Lemma flag_name s n : look "name" (slot_get s f) = Some (LStr n) -> exists n', look "name" (slot_get s f') = Some (LStr n').
Proof.
  intros E. destruct (take_args_slot repr s args f f' Hd Ht) as (A & B & _).
  destruct (look (slot_prefix s ++ "name") args) as [v|] eqn:E2.
  - destruct (A _ v E2) as (old & w & X & Y & Z). rewrite E in X. inversion X; subst. destruct v; cbn in Y; inversion Y; subst; eauto.
  - rewrite (B _ E2), E. eauto.
Qed.
Lemma flag_empty s : slot_get s f = [] -> slot_get s f' = [].
Proof. intros E. destruct (take_args_slot repr s args f f' Hd Ht) as (_ & _ & C). rewrite E in C. destruct (slot_get s f'); [reflexivity|discriminate]. Qed.
Lemma flag_has s r : look r (slot_get s f) <> None -> look r (slot_get s f') <> None.
Proof.
  intros E. destruct (take_args_slot repr s args f f' Hd Ht) as (A & B & _).
  destruct (look (slot_prefix s ++ r) args) as [v|] eqn:E2; [destruct (A r v E2) as (old & w & _ & _ & Z); congruence|].
  rewrite (B r E2). exact E.
Qed.
End FLAGS.

Definition dicts (f : flagged) : Prop := forall s, dict (slot_get s f).
Lemma configure_read repr gm fs args c : configure repr gm fs args = Some c ->
  exists f f', open_files fs args = Some f /\ take_args repr f args = Some f' /\ l_main_config gm (g_conf f') (g_model f') (g_sampler f') = Some c.
Proof.
  unfold configure, read_flags. destruct (open_files fs args) as [f|]; [|discriminate]. destruct (take_args repr f args) as [f'|] eqn:E; [|discriminate].
  intros H. exists f, f'. auto.
Qed.
Lemma dicts_conf f : dicts f -> dict_config (erasec (g_conf f)).
Proof. intros H. repeat split; apply dict_erase; [exact (H SlCModel)|exact (H SlCSampler)|exact (H SlExp)]. Qed.

Lemma same_erased a l : option_map to_val a = first_of (map (option_map to_val) l) -> same a (first_of l).
Proof. unfold same. rewrite first_erase. auto. Qed.

Lemma classical_kept repr gm fs args f c : dict args -> dicts f ->
  open_files fs args = Some f -> configure repr gm fs args = Some c -> (exists n, look "name" (g_model f) = Some (LStr n)) ->
  look "graph_type" (g_model f) = None -> look "bert_model" (g_model f) = None ->
  look "graph_type" (l_model (g_conf f)) = None -> look "bert_model" (l_model (g_conf f)) = None ->
  (forall k, kept repr (look ("config.experiment." ++ k) args) (first_of [look k (l_exp (g_conf f)); look k (l_exp common_file)]) (look k (l_exp c))) /\
  (forall k, look ("config.model." ++ k) args = None ->
     kept repr (look ("model_config." ++ k) args) (first_of [look k (g_model f); look k (l_model (g_conf f)); look k (l_model common_file)]) (look k (l_model c))) /\
  (forall k, look ("config.sampler." ++ k) args = None ->
     kept repr (look ("sampler_config." ++ k) args) (first_of [look k (g_sampler f); look k (l_sampler (g_conf f)); look k (l_sampler common_file)]) (look k (l_sampler c))).
Proof.
  intros Ha Hdf Ho Hc [n Hn] G1 B1 G2 B2. destruct (configure_read _ _ _ _ _ Hc) as (f0 & f' & Ho' & Ht & Hm). rewrite Ho in Ho'. injection Ho' as <-.
  assert (Hd' : dicts f') by (intros s; apply (flag_dict repr args f f' Ha Ht), Hdf).
  destruct (main_erased gm (g_conf f') (g_model f') (g_sampler f') c (Hd' SlModel)) as (gc & Hg & _).
  { intros v Hv. destruct (flag_name repr args f f' Ha Ht SlModel n Hn) as [n' Hn']. cbn [slot_get] in Hn'. exists n'. congruence. }
  { exact Hm. }
  destruct (classical_main gc (erasec (g_conf f')) (erase (g_model f')) (erase (g_sampler f')) (dicts_conf f' Hd') (dict_erase _ (Hd' SlModel)) (dict_erase _ (Hd' SlSampler))) as (c' & Hc' & A & B & C).
  { rewrite get_erase. pose proof (flag_unknown repr args f f' Ha Ht SlModel _ G1) as X. cbn [slot_get] in X. rewrite X. reflexivity. }
  { rewrite get_erase. pose proof (flag_unknown repr args f f' Ha Ht SlModel _ B1) as X. cbn [slot_get] in X. rewrite X. reflexivity. }
  { cbn [erasec c_model]. rewrite get_erase. pose proof (flag_unknown repr args f f' Ha Ht SlCModel _ G2) as X. cbn [slot_get] in X. rewrite X. reflexivity. }
  { cbn [erasec c_model]. rewrite get_erase. pose proof (flag_unknown repr args f f' Ha Ht SlCModel _ B2) as X. cbn [slot_get] in X. rewrite X. reflexivity. }
  rewrite Hg in Hc'. injection Hc' as <-. rewrite <- common_erase in A, B, C. unfold erasec in A, B, C. cbn [c_model c_sampler c_exp] in A, B, C.
  split; [|split].
  - intros k. specialize (A k). rewrite !get_erase in A. eapply same_kept; [|exact (same_erased (look k (l_exp c)) [look k (l_exp (g_conf f')); look k (l_exp common_file)] A)].
    apply (kept_first repr _ (look k (slot_get SlExp f)) (look k (slot_get SlExp f'))); apply (flag_kept repr args f f' Ha Ht SlExp).
  - intros k Hk. specialize (B k). rewrite !get_erase in B. eapply same_kept; [|exact (same_erased (look k (l_model c)) [look k (g_model f'); look k (l_model (g_conf f')); look k (l_model common_file)] B)].
    pose proof (flag_kept repr args f f' Ha Ht SlModel k) as K1. pose proof (flag_kept repr args f f' Ha Ht SlCModel k) as K2. cbn [slot_prefix slot_get] in K1, K2. rewrite Hk in K2. cbn [kept] in K2.
    eapply same_kept; [apply (kept_first repr _ _ _ [look k (l_model (g_conf f)); look k (l_model common_file)] K1)|].
    apply same_first2, same_first, K2.
  - intros k Hk. specialize (C k). rewrite !get_erase in C. eapply same_kept; [|exact (same_erased (look k (l_sampler c)) [look k (g_sampler f'); look k (l_sampler (g_conf f')); look k (l_sampler common_file)] C)].
    pose proof (flag_kept repr args f f' Ha Ht SlSampler k) as K1. pose proof (flag_kept repr args f f' Ha Ht SlCSampler k) as K2. cbn [slot_prefix slot_get] in K1, K2. rewrite Hk in K2. cbn [kept] in K2.
    eapply same_kept; [apply (kept_first repr _ _ _ [look k (l_sampler (g_conf f)); look k (l_sampler common_file)] K1)|].
    apply same_first2, same_first, K2.
Qed.

Lemma retype_text old v g : retype old v = Some (LStr g) -> v = LStr g.
Proof. destruct old, v; cbn; intros H; inversion H; reflexivity. Qed.

Lemma graph_kept repr gm fs args f c : dict args -> dicts f -> (forall n g s sec, gm n g s = Some sec -> dict sec /\ look "bert_model" sec = None) ->
  open_files fs args = Some f -> configure repr gm fs args = Some c -> (exists n, look "name" (g_model f) = Some (LStr n)) ->
  look "graph_type" (g_model f) <> None -> look "cfg_str" (g_model f) <> None -> look "bert_model" (g_model f) = None ->
  l_model (g_conf f) = [] -> l_sampler (g_conf f) = [] ->
  (forall g, kept repr (look "model_config.graph_type" args) (look "graph_type" (g_model f)) (Some g) -> truthy (to_val g) = true) ->
  exists n g s sec, gm n g s = Some sec /\
    kept repr (look "model_config.name" args) (look "name" (g_model f)) (Some n) /\
    kept repr (look "model_config.graph_type" args) (look "graph_type" (g_model f)) (Some g) /\
    kept repr (look "model_config.cfg_str" args) (look "cfg_str" (g_model f)) (Some s) /\
    (forall k, k <> "num_models" -> kept repr (look ("config.experiment." ++ k) args) (first_of [look k (l_exp (g_conf f)); look k co_file; look k (l_exp common_file)]) (look k (l_exp c))) /\
    same (look "num_models" (l_exp c)) (look "num_models" (l_model c)) /\
    (forall k, kept repr (look ("sampler_config." ++ k) args) (first_of [look k (g_sampler f); look k (l_sampler common_file)]) (look k (l_sampler c))) /\
    (forall k, look k sec = None -> kept repr (look ("model_config." ++ k) args) (first_of [look k (g_model f); look k (l_model common_file)]) (look k (l_model c))) /\
    (forall k v, look k sec = Some v -> same (look k (l_model c)) (Some v)).
Proof.
  intros Ha Hdf Hsec Ho Hc [n0 Hn0] Hg0 Hs0 B1 M0 S0 Htr. destruct (configure_read _ _ _ _ _ Hc) as (f0 & f' & Ho' & Ht & Hm). rewrite Ho in Ho'. injection Ho' as <-.
  assert (Hd' : dicts f') by (intros s; apply (flag_dict repr args f f' Ha Ht), Hdf).
  pose proof (flag_empty repr args f f' Ha Ht SlCModel M0) as M1. pose proof (flag_empty repr args f f' Ha Ht SlCSampler S0) as S1. cbn [slot_get] in M1, S1.
  destruct (flag_name repr args f f' Ha Ht SlModel n0 Hn0) as [n1 Hn1]. cbn [slot_get] in Hn1.
  pose proof (flag_has repr args f f' Ha Ht SlModel _ Hg0) as Hg1. pose proof (flag_has repr args f f' Ha Ht SlModel _ Hs0) as Hs1. cbn [slot_get] in Hg1, Hs1.
  destruct (look "graph_type" (g_model f')) as [g|] eqn:Eg; [|congruence]. destruct (look "cfg_str" (g_model f')) as [s|] eqn:Es; [|congruence].
  pose proof (flag_kept repr args f f' Ha Ht SlModel "name") as Kn. pose proof (flag_kept repr args f f' Ha Ht SlModel "graph_type") as Kg. pose proof (flag_kept repr args f f' Ha Ht SlModel "cfg_str") as Ks.
  cbn [slot_get] in Kn, Kg, Ks. change (slot_prefix SlModel ++ "name") with "model_config.name" in Kn. change (slot_prefix SlModel ++ "graph_type") with "model_config.graph_type" in Kg.
  change (slot_prefix SlModel ++ "cfg_str") with "model_config.cfg_str" in Ks. rewrite Hn1 in Kn. rewrite Eg in Kg. rewrite Es in Ks.
  pose proof (Htr g Kg) as Htg.
  destruct (main_erased gm (g_conf f') (g_model f') (g_sampler f') c (Hd' SlModel)) as (gc & Hgm & Hgc).
  { intros v Hv. exists n1. congruence. } { exact Hm. }
  specialize (Hgc (LStr n1) g s). rewrite M1 in Hgc. specialize (Hgc eq_refl eq_refl Hn1 Eg Es).
  destruct (gm (LStr n1) g s) as [sec|] eqn:Esec.
  2:{ exfalso. unfold get_main_config in Hgm. rewrite !has_erase in Hgm. unfold l_has in Hgm. rewrite Eg in Hgm. cbn [negb andb] in Hgm. cbv zeta in Hgm. cbn [c_model c_sampler c_exp] in Hgm.
      unfold get_true in Hgm. rewrite (get_update "graph_type" _ (dict_erase _ (Hd' SlModel))), get_erase in Hgm. cbn [slot_get] in Hgm. rewrite Eg in Hgm. cbn [option_map first_of] in Hgm. rewrite Htg in Hgm.
      unfold graph_part in Hgm. cbn [c_model c_sampler c_exp] in Hgm.
      rewrite !(get_update _ _ (dict_erase _ (Hd' SlModel))), !get_erase in Hgm. cbn [slot_get] in Hgm. rewrite Hn1, Eg, Es in Hgm. cbn [option_map first_of] in Hgm. rewrite Hgc in Hgm. cbn [option_map] in Hgm. discriminate. }
  destruct (Hsec _ _ _ _ Esec) as [Dsec Bsec]. exists (LStr n1), g, s, sec. split; [exact Esec|]. split; [exact Kn|]. split; [exact Kg|]. split; [exact Ks|].
  destruct (graph_main gc (erasec (g_conf f')) (erase (g_model f')) (erase (g_sampler f')) (dicts_conf f' Hd') (dict_erase _ (Hd' SlModel)) (dict_erase _ (Hd' SlSampler))
              (to_val g) (to_val (LStr n1)) (to_val s) (erase sec)) with (c := erasec c) as (A & B & C).
  { rewrite get_erase, Eg. reflexivity. } { exact Htg. } { rewrite get_erase, Hn1. reflexivity. } { rewrite get_erase, Es. reflexivity. }
  { exact Hgc. } { apply dict_erase, Dsec. }
  { rewrite get_erase. pose proof (flag_unknown repr args f f' Ha Ht SlModel _ B1) as X. cbn [slot_get] in X. rewrite X. reflexivity. }
  { rewrite get_erase, Bsec. reflexivity. }
  { cbn [erasec c_model]. rewrite M1. reflexivity. }
  { exact Hgm. }
  rewrite <- common_erase in A, B, C. change co_default with (erase co_file) in C. unfold erasec in A, B, C. cbn [c_model c_sampler c_exp] in A, B, C.
  split; [|split; [|split; [|split]]].
  - intros k Hk. specialize (C k). destruct (String.eqb_spec k "num_models") as [|_]; [contradiction|]. rewrite !get_erase in C.
    eapply same_kept; [|exact (same_erased (look k (l_exp c)) [look k (l_exp (g_conf f')); look k co_file; look k (l_exp common_file)] C)].
    apply (kept_first repr _ (look k (slot_get SlExp f)) (look k (slot_get SlExp f'))), (flag_kept repr args f f' Ha Ht SlExp).
  - specialize (C "num_models"). cbn [String.eqb Ascii.eqb Bool.eqb] in C. rewrite !get_erase in C. exact C.
  - intros k. specialize (B k). rewrite !get_erase, S1 in B. cbn [look option_map first_of] in B.
    eapply same_kept; [|exact (same_erased (look k (l_sampler c)) [look k (g_sampler f'); look k (l_sampler common_file)] B)].
    apply (kept_first repr _ (look k (slot_get SlSampler f)) (look k (slot_get SlSampler f'))), (flag_kept repr args f f' Ha Ht SlSampler).
  - intros k Hk. specialize (A k). rewrite !get_erase, M1, Hk in A. cbn [look option_map first_of] in A.
    eapply same_kept; [|exact (same_erased (look k (l_model c)) [look k (g_model f'); look k (l_model common_file)] A)].
    apply (kept_first repr _ (look k (slot_get SlModel f)) (look k (slot_get SlModel f'))), (flag_kept repr args f f' Ha Ht SlModel).
  - intros k v Hk. specialize (A k). rewrite !get_erase, M1, Hk in A. exact A.
Qed.

Lemma infill_kept repr gm fs args f c : dict args -> dicts f ->
  open_files fs args = Some f -> configure repr gm fs args = Some c -> (exists n, look "name" (g_model f) = Some (LStr n)) ->
  look "graph_type" (g_model f) = None -> look "bert_model" (g_model f) <> None ->
  l_model (g_conf f) = [] -> l_sampler (g_conf f) = [] ->
  (forall b, kept repr (look "model_config.bert_model" args) (look "bert_model" (g_model f)) (Some b) -> truthy (to_val b) = true) ->
    (forall k, kept repr (look ("config.experiment." ++ k) args) (first_of [look k (l_exp (g_conf f)); look k (l_exp common_file)]) (look k (l_exp c))) /\
    (forall k, kept repr (look ("sampler_config." ++ k) args) (first_of [look k (g_sampler f); look k (l_sampler common_file)]) (look k (l_sampler c))) /\
    (forall k, kept repr (look ("model_config." ++ k) args) (first_of [look k (g_model f); look k (l_model common_file)]) (look k (l_model c))).
Proof.
  intros Ha Hdf Ho Hc [n0 Hn0] Hg0 Hb0 M0 S0 Htr. destruct (configure_read _ _ _ _ _ Hc) as (f0 & f' & Ho' & Ht & Hm). rewrite Ho in Ho'. injection Ho' as <-.
  assert (Hd' : dicts f') by (intros s; apply (flag_dict repr args f f' Ha Ht), Hdf).
  pose proof (flag_empty repr args f f' Ha Ht SlCModel M0) as M1. pose proof (flag_empty repr args f f' Ha Ht SlCSampler S0) as S1. cbn [slot_get] in M1, S1.
  destruct (flag_name repr args f f' Ha Ht SlModel n0 Hn0) as [n1 Hn1]. cbn [slot_get] in Hn1.
  pose proof (flag_has repr args f f' Ha Ht SlModel _ Hb0) as Hb1. cbn [slot_get] in Hb1.
  destruct (look "bert_model" (g_model f')) as [b|] eqn:Eb; [|congruence].
  pose proof (flag_kept repr args f f' Ha Ht SlModel "bert_model") as Kb. cbn [slot_get] in Kb. change (slot_prefix SlModel ++ "bert_model") with "model_config.bert_model" in Kb. rewrite Eb in Kb.
  pose proof (Htr b Kb) as Htb.
  destruct (main_erased gm (g_conf f') (g_model f') (g_sampler f') c (Hd' SlModel)) as (gc & Hgm & _).
  { intros v Hv. exists n1. congruence. } { exact Hm. }
  destruct (infill_main gc (erasec (g_conf f')) (erase (g_model f')) (erase (g_sampler f')) (dicts_conf f' Hd') (dict_erase _ (Hd' SlModel)) (dict_erase _ (Hd' SlSampler)) (to_val b)) as (c' & Hc' & A & B & C).
  { rewrite get_erase. pose proof (flag_unknown repr args f f' Ha Ht SlModel _ Hg0) as X. cbn [slot_get] in X. rewrite X. reflexivity. }
  { rewrite get_erase, Eb. reflexivity. } { exact Htb. }
  rewrite Hgm in Hc'. injection Hc' as <-. rewrite <- common_erase in A, B, C. unfold erasec in A, B, C. cbn [c_model c_sampler c_exp] in A, B, C.
  split; [|split].
  - intros k. specialize (C k). rewrite !get_erase in C.
    eapply same_kept; [|exact (same_erased (look k (l_exp c)) [look k (l_exp (g_conf f')); look k (l_exp common_file)] C)].
    apply (kept_first repr _ (look k (slot_get SlExp f)) (look k (slot_get SlExp f'))), (flag_kept repr args f f' Ha Ht SlExp).
  - intros k. specialize (B k). rewrite !get_erase, S1 in B. cbn [look option_map first_of] in B.
    eapply same_kept; [|exact (same_erased (look k (l_sampler c)) [look k (g_sampler f'); look k (l_sampler common_file)] B)].
    apply (kept_first repr _ (look k (slot_get SlSampler f)) (look k (slot_get SlSampler f'))), (flag_kept repr args f f' Ha Ht SlSampler).
  - intros k. specialize (A k). rewrite !get_erase, M1 in A. cbn [look option_map first_of] in A.
    eapply same_kept; [|exact (same_erased (look k (l_model c)) [look k (g_model f'); look k (l_model common_file)] A)].
    apply (kept_first repr _ (look k (slot_get SlModel f)) (look k (slot_get SlModel f'))), (flag_kept repr args f f' Ha Ht SlModel).
Qed.

(** Refused command lines. *)
Lemma take_args_in repr kv : forall args f f', In kv args -> take_args repr f args = Some f' ->
  exists f1 f2, take_arg repr f1 kv = Some f2 /\ forall s, map fst (slot_get s f1) = map fst (slot_get s f).
Proof.
  induction args as [|a args IH]; intros f f' Hi H; [destruct Hi|]. cbn [take_args] in H.
  destruct (take_arg repr f a) as [f1|] eqn:E; [|discriminate]. destruct Hi as [->|Hi]; [exists f, f1; auto|].
  destruct (IH f1 f' Hi H) as (g1 & g2 & X & Y). exists g1, g2. split; [exact X|]. intros s. rewrite Y. destruct a as [k v].
  destruct (take_arg_slot repr f k v f1 E) as [[_ ->]|(s' & r' & t' & -> & O & G & Others)]; [reflexivity|].
  destruct (slot_dec s s') as [->|N]; [|rewrite (Others s N); reflexivity].
  destruct (override_look _ _ _ _ _ O) as (old & w & _ & _ & _ & Hk). rewrite G. exact Hk.
Qed.
Lemma look_in_keys {V} k (t : table V) : In k (map fst t) -> look k t <> None.
Proof. induction t as [|[k2 v2] t IH]; cbn; intros H; [destruct H|]. destruct (String.eqb_spec k k2) as [->|N]; [discriminate|]. apply IH. destruct H; [congruence|assumption]. Qed.
Lemma known_key repr gm fs args f c k v : open_files fs args = Some f -> configure repr gm fs args = Some c -> In (k, v) args ->
  k = "config" \/ k = "model_config" \/ k = "sampler_config" \/ exists s r, k = slot_prefix s ++ r /\ look r (slot_get s f) <> None.
Proof.
  intros Ho Hc Hi. destruct (configure_read _ _ _ _ _ Hc) as (f0 & f' & Ho' & Ht & _). rewrite Ho in Ho'. injection Ho' as <-.
  destruct (take_args_in repr (k, v) args f f' Hi Ht) as (f1 & f2 & E & Hk).
  destruct (take_arg_slot _ _ _ _ _ E) as [[Hf _]|(s & r & t' & -> & O & _)].
  - unfold is_file_key in Hf. rewrite !orb_true_iff, !String.eqb_eq in Hf. tauto.
  - right. right. right. exists s, r. split; [reflexivity|]. destruct (override_look _ _ _ _ _ O) as (old & w & X & _). apply look_in_keys. rewrite <- Hk. apply (look_some_in _ _ _ X).
Qed.
Lemma known_type repr gm fs args f c s r v : dict args -> open_files fs args = Some f -> configure repr gm fs args = Some c -> look (slot_prefix s ++ r) args = Some v ->
  exists old w, look r (slot_get s f) = Some old /\ as_flag repr old v = Some w.
Proof.
  intros Ha Ho Hc E. destruct (configure_read _ _ _ _ _ Hc) as (f0 & f' & Ho' & Ht & _). rewrite Ho in Ho'. injection Ho' as <-.
  destruct (flag_known repr args f f' Ha Ht s r v E) as (old & w & X & Y & _). eauto.
Qed.

(** ** The jobs of a sweep file *)
Lemma all_or_none_some {A} : forall (l : list (option A)) r, all_or_none l = Some r -> l = map Some r.
Proof.
  induction l as [|[a|] l IH]; cbn; intros r H; [inversion H; reflexivity| |discriminate].
  destruct (all_or_none l) as [r'|]; [|discriminate]. inversion H; subst. cbn. rewrite <- (IH r' eq_refl). reflexivity.
Qed.
Lemma all_or_none_map {A} (r : list A) : all_or_none (map Some r) = Some r.
Proof. induction r; cbn; [reflexivity|]. rewrite IHr. reflexivity. Qed.
Lemma all_sweeps_in sweeps l kw : all_sweeps sweeps = Some l ->
  (In kw l <-> exists s, In s sweeps /\ map fst kw = map fst s /\ Forall2 (fun kv kvs => In (snd kv) (snd kvs)) kw s).
Proof.
  unfold all_sweeps. destruct sweeps as [|s0 ss]; [discriminate|]. generalize (s0 :: ss). clear s0 ss. intros sweeps.
  destruct (all_or_none (map Tools.get_sweeps sweeps)) as [r|] eqn:E; [|discriminate]. cbn. intros H. inversion H; subst l. clear H. apply all_or_none_some in E.
  rewrite in_concat. split.
  - intros (x & Hx & Hk). assert (Hy : In (Some x) (map Tools.get_sweeps sweeps)) by (rewrite E; apply (in_map Some), Hx). clear Hx. rename Hy into Hx. apply in_map_iff in Hx. destruct Hx as (s & Hs & Hi).
    exists s. split; [exact Hi|]. apply (ToolsProof.sweeps_complete s x kw Hs), Hk.
  - intros (s & Hi & Hk). pose proof (in_map Tools.get_sweeps _ _ Hi) as Hm. rewrite E in Hm. apply in_map_iff in Hm. destruct Hm as (x & Hx & Hi2).
    exists x. split; [exact Hi2|]. apply (ToolsProof.sweeps_complete s x kw (eq_sym Hx)), Hk.
Qed.
Lemma all_sweeps_none sweeps : all_sweeps sweeps = None <-> sweeps = [] \/ In [] sweeps.
Proof.
  unfold all_sweeps. destruct sweeps as [|s0 ss]; [tauto|]. set (sweeps := s0 :: ss). split.
  - intros H. right. destruct (all_or_none (map Tools.get_sweeps sweeps)) as [r|] eqn:E; [discriminate|]. clear H. clearbody sweeps. clear s0 ss.
    induction sweeps as [|s ss IH]; [discriminate|]. cbn [map] in E. destruct s as [|kv s]; [left; reflexivity|]. right. apply IH.
    cbn [Tools.get_sweeps all_or_none] in E. destruct (all_or_none (map Tools.get_sweeps ss)); [discriminate|reflexivity].
  - intros [H|H]; [discriminate|]. clearbody sweeps. destruct (all_or_none (map Tools.get_sweeps sweeps)) as [r|] eqn:E; [|reflexivity]. apply all_or_none_some in E.
    pose proof (in_map Tools.get_sweeps _ _ H) as Hm. rewrite E in Hm. apply in_map_iff in Hm. destruct Hm as (x & Hx & _). discriminate.
Qed.
Lemma all_sweeps_count sweeps l : all_sweeps sweeps = Some l ->
  List.length l = list_sum (map (fun s => fold_right (fun kvs m => List.length (snd kvs) * m) 1 s) sweeps).
Proof.
  unfold all_sweeps. destruct sweeps as [|s0 ss]; [discriminate|]. generalize (s0 :: ss). clear s0 ss. intros sweeps.
  destruct (all_or_none (map Tools.get_sweeps sweeps)) as [r|] eqn:E; [|discriminate]. cbn. intros H. inversion H; subst l. clear H. revert r E.
  induction sweeps as [|s ss IH]; intros r E; [inversion E; reflexivity|]. cbn [map all_or_none] in E. destruct (Tools.get_sweeps s) as [x|] eqn:Ex; [|discriminate].
  destruct (all_or_none (map Tools.get_sweeps ss)) as [r'|] eqn:E'; [|discriminate]. inversion E; subst r. cbn [concat map list_sum fold_right]. rewrite app_length. pose proof (ToolsProof.sweeps_count _ _ Ex) as C1. pose proof (IH r' eq_refl) as C2.
  unfold table in *. rewrite C1, C2. reflexivity.
Qed.
Lemma combine_seq_nth {A} (l : list A) : forall i n, nth_error (combine (seq n (List.length l)) l) i = option_map (pair (n + i)) (nth_error l i).
Proof.
  induction l as [|a l IH]; intros i n; [destruct i; reflexivity|]. destruct i; cbn; [rewrite Nat.add_0_r; reflexivity|]. rewrite IH. rewrite Nat.add_succ_r. reflexivity.
Qed.
Lemma launch_nth repr j extra sd jobs i a : launch repr j extra sd = Some jobs -> nth_error jobs i = Some a ->
  exists l kw, all_sweeps (j_sweep j) = Some l /\ nth_error l i = Some kw /\ make_job repr j extra sd (S i) kw = Some a.
Proof.
  unfold launch. destruct (all_sweeps (j_sweep j)) as [l|]; [|discriminate]. intros H Hn. apply all_or_none_some in H. exists l.
  pose proof (map_nth_error Some i jobs Hn) as M. rewrite <- H in M. rewrite nth_error_map, combine_seq_nth in M.
  destruct (nth_error l i) as [kw|]; [|discriminate]. cbn in M. exists kw. inversion M. auto.
Qed.
Lemma launch_length repr j extra sd jobs l : launch repr j extra sd = Some jobs -> all_sweeps (j_sweep j) = Some l -> List.length jobs = List.length l.
Proof.
  unfold launch. intros H E. rewrite E in H. apply all_or_none_some in H. apply (f_equal (@List.length _)) in H. rewrite !map_length, combine_length, seq_length, Nat.min_id in H. auto.
Qed.
Lemma default_dict j : dict (default_args j).
Proof.
  unfold default_args. assert (D0 : dict [("model_config", LStr ("/workdir/discs/models/configs/" ++ j_model j ++ "_config.py")%string); ("sampler_config", LStr ("/workdir/discs/samplers/configs/" ++ j_sampler j ++ "_config.py")%string)]).
  { unfold dict. cbn. repeat constructor; cbn; intuition discriminate. }
  destruct (j_graph j) as [g|]; [destruct (String.eqb g "")|destruct (String.eqb (j_model j) "text_infilling")]; repeat apply put_dict; exact D0.
Qed.
Lemma make_job_args repr j extra sd id kw a : dict kw -> dict extra -> make_job repr j extra sd id kw = Some a ->
  dict a /\
  (forall k, k <> "sampler_config" -> k <> "config.experiment.save_root" -> look k a = first_of [look k kw; look k extra; look k (default_args j)]) /\
  look "sampler_config" a = match first_of [look "sampler_config.name" kw; look "sampler_config.name" extra] with
    | Some v => Some (LStr ("/workdir/discs/samplers/configs/" ++ (match v with LStr s => s | _ => repr v end) ++ "_config.py"))
    | None => first_of [look "sampler_config" kw; look "sampler_config" extra; look "sampler_config" (default_args j)] end /\
  exists root t, first_of [look "config.experiment.save_root" kw; Some (LStr sd)] = Some (LStr root) /\ sweep_str repr kw = Some t /\
    look "config.experiment.save_root" a = Some (LStr (root ++ "/" ++ id_text id ++ "_" ++ t)).
Proof.
  intros Hk He. unfold make_job. set (a1 := put_all (executable_args j extra sd) kw).
  assert (D1 : dict a1) by (apply put_all_dict, put_dict, put_all_dict, default_dict).
  assert (L1 : forall k, look k a1 = first_of [look k kw; if String.eqb k "config.experiment.save_root" then Some (LStr sd) else first_of [look k extra; look k (default_args j)]]).
  { intros k. unfold a1. rewrite (look_put_all k kw Hk). unfold executable_args. rewrite look_put, (look_put_all k extra He). reflexivity. }
  assert (Hdn : look "sampler_config.name" (default_args j) = None).
  { unfold default_args. destruct (j_graph j) as [g|]; [destruct (String.eqb g "")|destruct (String.eqb (j_model j) "text_infilling")]; reflexivity. }
  set (a2 := match look "sampler_config.name" a1 with Some v => put "sampler_config" (LStr ("/workdir/discs/samplers/configs/" ++ (match v with LStr s => s | _ => repr v end) ++ "_config.py")) a1 | None => a1 end).
  assert (D2 : dict a2) by (unfold a2; destruct (look "sampler_config.name" a1); [apply put_dict|]; exact D1).
  assert (L2 : forall k, k <> "sampler_config" -> look k a2 = look k a1).
  { intros k N. unfold a2. destruct (look "sampler_config.name" a1); [|reflexivity]. rewrite look_put. destruct (String.eqb_spec k "sampler_config"); [contradiction|reflexivity]. }
  assert (L3 : look "sampler_config" a2 = match first_of [look "sampler_config.name" kw; look "sampler_config.name" extra] with
    | Some v => Some (LStr ("/workdir/discs/samplers/configs/" ++ (match v with LStr s => s | _ => repr v end) ++ "_config.py"))
    | None => first_of [look "sampler_config" kw; look "sampler_config" extra; look "sampler_config" (default_args j)] end).
  { unfold a2. rewrite (L1 "sampler_config.name"). change (String.eqb "sampler_config.name" "config.experiment.save_root") with false. cbv iota. rewrite Hdn.
    destruct (look "sampler_config.name" kw) as [v|]; cbn [first_of]; [rewrite look_put; reflexivity|]. destruct (look "sampler_config.name" extra) as [v|]; [rewrite look_put; reflexivity|].
    rewrite (L1 "sampler_config"). change (String.eqb "sampler_config" "config.experiment.save_root") with false. cbv iota. cbn [first_of].
    destruct (look "sampler_config" kw); [reflexivity|]. destruct (look "sampler_config" extra); [reflexivity|]. destruct (look "sampler_config" (default_args j)); reflexivity. }
  destruct (sweep_str repr kw) as [t|]; [|discriminate].
  destruct (look "config.experiment.save_root" a2) as [v|] eqn:ER; [|discriminate].
  destruct v as [root| | | |]; try discriminate. intros H.
  assert (HA : a = put "config.experiment.save_root" (LStr (root ++ "/" ++ id_text id ++ "_" ++ t)) a2) by (apply (f_equal (fun o => match o with Some x => x | None => [] end)) in H; symmetry; exact H).
  rewrite HA. clear H HA. split; [apply put_dict, D2|]. split; [|split].
  - intros k N1 N2. rewrite look_put. destruct (String.eqb_spec k "config.experiment.save_root"); [contradiction|]. rewrite (L2 k N1), L1.
    destruct (String.eqb_spec k "config.experiment.save_root"); [contradiction|]. cbn [first_of]. destruct (look k kw); [reflexivity|]. destruct (look k extra); [reflexivity|]. destruct (look k (default_args j)); reflexivity.
  - rewrite look_put. change (String.eqb "sampler_config" "config.experiment.save_root") with false. cbv iota. exact L3.
  - exists root, t. split; [|split; [reflexivity|rewrite look_put; reflexivity]].
    rewrite <- ER, (L2 "config.experiment.save_root") by discriminate. rewrite L1, String.eqb_refl. reflexivity.
Qed.

(** ** Texts *)
Lemma chars_app a b : list_ascii_of_string (a ++ b) = (list_ascii_of_string a ++ list_ascii_of_string b)%list.
Proof. induction a; cbn; [reflexivity|]. rewrite IHa. reflexivity. Qed.
Lemma chars_inj a b : list_ascii_of_string a = list_ascii_of_string b -> a = b.
Proof. intros H. rewrite <- (string_of_list_ascii_of_string a), <- (string_of_list_ascii_of_string b), H. reflexivity. Qed.
Lemma app_inj_l p a b : p ++ a = p ++ b -> a = b.
Proof. induction p; cbn; intros H; [exact H|]. inversion H. auto. Qed.
Lemma split_first (c : ascii) : forall u v u' v', ~ In c u -> ~ In c u' -> (u ++ c :: v = u' ++ c :: v')%list -> u = u' /\ v = v'.
Proof.
  induction u as [|x u IH]; intros v u' v' Hu Hu' H; destruct u' as [|y u']; cbn in *.
  - inversion H. auto.
  - inversion H; subst. exfalso. apply Hu'. auto.
  - inversion H; subst. exfalso. apply Hu. auto.
  - inversion H as [[H1 H2]]; subst. destruct (IH v u' v') as [-> ->]; auto.
Qed.
Definition numeral (c : ascii) : Prop := exists d, digit c = Some d.
Definition uchars (d : Decimal.uint) : list ascii := list_ascii_of_string (DecimalString.NilEmpty.string_of_uint d).
Lemma uchars_numeral d : forall c, In c (uchars d) -> numeral c.
Proof. unfold uchars. induction d; cbn; intros c H; try contradiction; destruct H as [<-|H]; auto; eexists; reflexivity. Qed.
Lemma uint_nonnil n : Nat.to_uint n <> Decimal.Nil.
Proof. rewrite <- (DecimalNat.Unsigned.of_to n), DecimalNat.Unsigned.to_of. apply DecimalFacts.unorm_nonnil. Qed.
Lemma id_uchars n : list_ascii_of_string (id_text n) = uchars (Nat.to_uint n).
Proof.
  unfold id_text, uchars, DecimalString.NilZero.string_of_uint. destruct (Nat.to_uint n) eqn:E; try reflexivity.
  exfalso. revert E. apply uint_nonnil.
Qed.
Lemma id_numeral n c : In c (list_ascii_of_string (id_text n)) -> numeral c.
Proof. rewrite id_uchars. apply uchars_numeral. Qed.
Lemma not_numeral n c : digit c = None -> ~ In c (list_ascii_of_string (id_text n)).
Proof. intros H Hi. destruct (id_numeral n c Hi) as [d Hd]. congruence. Qed.
Lemma id_inj n m : id_text n = id_text m -> n = m.
Proof.
  unfold id_text. intros H. apply (f_equal DecimalString.NilZero.uint_of_string) in H.
  rewrite !DecimalString.NilZero.usu in H by apply uint_nonnil. inversion H as [E]. apply DecimalNat.Unsigned.to_uint_inj, E.
Qed.
Lemma roots_apart sd i i' t t' : sd ++ "/" ++ id_text i ++ "_" ++ t = sd ++ "/" ++ id_text i' ++ "_" ++ t' -> i = i'.
Proof.
  intros H. apply app_inj_l, app_inj_l in H. apply (f_equal list_ascii_of_string) in H. rewrite !chars_app in H. cbn [list_ascii_of_string app] in H.
  apply split_first in H; [|apply not_numeral; reflexivity|apply not_numeral; reflexivity]. destruct H as [H _]. apply id_inj, chars_inj, H.
Qed.
Lemma dashes_free s : free_of "/"%char (dashes s).
Proof.
  unfold free_of, dashes. rewrite list_ascii_of_string_of_list_ascii. intros H. apply in_map_iff in H. destruct H as (c & H & _).
  destruct (Ascii.eqb_spec c "/"%char); [discriminate|congruence].
Qed.
Lemma folder_free repr kw t i : sweep_str repr kw = Some t -> free_of "/"%char (id_text i ++ "_" ++ t).
Proof.
  unfold sweep_str. destruct (sweep_parts repr kw) as [ps|]; [|discriminate]. intros H. cbn in H. inversion H. unfold free_of. rewrite chars_app, in_app_iff. intros [Hi|Hi].
  - revert Hi. apply not_numeral. reflexivity.
  - destruct Hi as [Hi|Hi]; [discriminate|]. exact (dashes_free _ Hi).
Qed.
Lemma digits_uint d : forall a, digits (Z.of_nat a) (uchars d) = Some (Z.of_nat (Nat.of_uint_acc d a)).
Proof.
  unfold uchars. induction d; intros a; cbn [DecimalString.NilEmpty.string_of_uint list_ascii_of_string digits Nat.of_uint_acc]; [reflexivity|..];
    rewrite <- IHd; rewrite Nat.tail_mul_spec;
    match goal with |- match digit ?c with _ => _ end = _ => let v := eval vm_compute in (digit c) in change (digit c) with v end; cbv iota beta; f_equal; lia.
Qed.
Lemma number_id n : number (list_ascii_of_string (nat_text n)) = Some (Z.of_nat n).
Proof.
  change (nat_text n) with (id_text n). pose proof (not_numeral n " " eq_refl) as Hsp.
  assert (D : digits 0 (list_ascii_of_string (id_text n)) = Some (Z.of_nat n)).
  { rewrite id_uchars. change 0%Z with (Z.of_nat 0). rewrite digits_uint. do 2 f_equal. change (Nat.of_uint (Nat.to_uint n) = n). apply DecimalNat.Unsigned.of_to. }
  assert (NE : list_ascii_of_string (id_text n) <> []).
  { rewrite id_uchars. unfold uchars. pose proof (uint_nonnil n) as NN. destruct (Nat.to_uint n); cbn; try discriminate. contradiction. }
  unfold number. destruct (list_ascii_of_string (id_text n)) as [|c w]; [contradiction|]. destruct (Ascii.eqb_spec c " ") as [->|_]; [exfalso; apply Hsp; left; reflexivity|]. exact D.
Qed.
Lemma number_space n : number (" "%char :: list_ascii_of_string (nat_text n)) = Some (Z.of_nat n).
Proof.
  pose proof (number_id n) as H. unfold number in *. change (Ascii.eqb " " " ") with true. cbv iota. pose proof (not_numeral n " " eq_refl) as Hsp. change (id_text n) with (nat_text n) in Hsp.
  destruct (list_ascii_of_string (nat_text n)) as [|c w]; [discriminate|]. destruct (Ascii.eqb_spec c " ") as [->|_]; [exfalso; apply Hsp; left; reflexivity|]. exact H.
Qed.
Lemma comma_free n : ~ In ","%char (list_ascii_of_string (nat_text n)).
Proof. apply not_numeral. reflexivity. Qed.
Fixpoint more_chars (l : list nat) : list ascii :=
  match l with [] => [] | n :: l' => (","%char :: " "%char :: list_ascii_of_string (nat_text n) ++ more_chars l')%list end.
Lemma more_chars_spec l : list_ascii_of_string (more_numbers l) = (more_chars l ++ [")"%char])%list.
Proof.
  induction l as [|n l IH]; [reflexivity|]. cbn [more_numbers more_chars]. rewrite chars_app. cbn [list_ascii_of_string app]. rewrite chars_app, IH, app_assoc. reflexivity.
Qed.
Lemma split_more l : forall w, ~ In ","%char w ->
  split_on ","%char (w ++ more_chars l) = w :: map (fun n => " "%char :: list_ascii_of_string (nat_text n)) l.
Proof.
  induction l as [|n l IH]; intros w Hw; cbn [more_chars map].
  - rewrite app_nil_r. apply UtilsProof.split_on_none, Hw.
  - rewrite UtilsProof.split_on_app by exact Hw. f_equal. apply (IH (" "%char :: list_ascii_of_string (nat_text n))). intros [H|H]; [discriminate|]. exact (comma_free n H).
Qed.
Lemma numbers_all l : all_or_none (map number (map (fun n => " "%char :: list_ascii_of_string (nat_text n)) l)) = Some (map Z.of_nat l).
Proof. induction l as [|n l IH]; [reflexivity|]. cbn [map all_or_none]. rewrite number_space, IH. reflexivity. Qed.
Lemma tuple_roundtrip l : l <> [] -> tuple_of (tuple_text l) = Some (map Z.of_nat l).
Proof.
  destruct l as [|n [|m l]]; [contradiction| |]; intros _; unfold tuple_of, tuple_text.
  - rewrite !chars_app. cbn [list_ascii_of_string app]. rewrite rev_app_distr. cbn [rev app].
    change (Ascii.eqb "(" "(" && Ascii.eqb ")" ")")%bool with true. cbv iota zeta. rewrite rev_involutive.
    rewrite UtilsProof.split_on_app by apply comma_free. cbn [split_on rev app map all_or_none]. rewrite number_id. reflexivity.
  - rewrite !chars_app. rewrite more_chars_spec. cbn [list_ascii_of_string app]. rewrite app_assoc, rev_app_distr. cbn [rev app].
    change (Ascii.eqb "(" "(" && Ascii.eqb ")" ")")%bool with true. cbv iota zeta. rewrite rev_involutive.
    rewrite split_more by apply comma_free.
    assert (R : exists c q w ws, rev (list_ascii_of_string (nat_text n) :: map (fun n => " "%char :: list_ascii_of_string (nat_text n)) (m :: l)) = (c :: q) :: w :: ws).
    { cbn [map]. cbn [rev]. destruct (rev (map (fun n0 : nat => " "%char :: list_ascii_of_string (nat_text n0)) l)) as [|x xs] eqn:E.
      - cbn. eauto.
      - assert (Hx : In x (map (fun n0 : nat => " "%char :: list_ascii_of_string (nat_text n0)) l)) by (apply in_rev; rewrite E; left; reflexivity).
        apply in_map_iff in Hx. destruct Hx as (n0 & <- & _). cbn [app]. destruct xs; cbn; eauto. }
    destruct R as (c & q & w & ws & ->). cbn [map all_or_none]. rewrite number_id. rewrite number_space, numbers_all. reflexivity.
Qed.
Lemma dict_files_dicts f : dict_files f -> dicts f.
Proof. intros (A & B & C & D & E) []; assumption. Qed.

Lemma default_looks j :
  look "model_config" (default_args j) = Some (LStr ("/workdir/discs/models/configs/" ++ j_model j ++ "_config.py")) /\
  look "sampler_config" (default_args j) = Some (LStr ("/workdir/discs/samplers/configs/" ++ j_sampler j ++ "_config.py")) /\
  (forall g, j_graph j = Some g -> g <> "" -> look "config" (default_args j) = Some (LStr ("/workdir/discs/experiment/configs/" ++ j_model j ++ "/" ++ g ++ ".py")) /\
     look "model_config.graph_type" (default_args j) = Some (LStr g) /\ look "model_config.data_root" (default_args j) = Some (LStr "/gcs/xcloud-shared/hadai/data/sco")) /\
  (j_graph j = None \/ j_graph j = Some "" -> look "model_config.graph_type" (default_args j) = None /\ look "model_config.data_root" (default_args j) = None) /\
  (j_graph j = None -> j_model j = "text_infilling" -> look "config" (default_args j) = Some (LStr "/workdir/discs/experiment/configs/lm_experiment.py")) /\
  (j_graph j = Some "" \/ j_graph j = None /\ j_model j <> "text_infilling" -> look "config" (default_args j) = Some (LStr "/workdir/discs/common/configs.py")) /\
  (forall k, ~ In k ["model_config"; "sampler_config"; "config"; "model_config.graph_type"; "model_config.data_root"] -> look k (default_args j) = None).
Proof.
  assert (K : forall k l, (forall q : string * lit, In q l -> fst q <> k) -> look k l = None).
  { intros k l H. apply look_none. intros Hi. apply in_map_iff in Hi. destruct Hi as (q & E & Hq). exact (H q Hq E). }
  unfold default_args. cbv zeta. destruct (j_graph j) as [g|].
  - destruct (String.eqb_spec g "") as [->|Hg].
    + split; [reflexivity|]. split; [reflexivity|]. split; [intros g E N; injection E as <-; contradiction|]. split; [intros _; split; reflexivity|]. split; [discriminate|]. split; [intros _; reflexivity|].
      intros k Hk. apply K. intros q Hq. cbn in Hq. intros <-. apply Hk. repeat (destruct Hq as [<-|Hq]; [cbn; tauto|]). destruct Hq.
    + split; [reflexivity|]. split; [reflexivity|]. split; [intros g' E N; injection E as <-; repeat split|]. split; [intros [E|E]; [discriminate|injection E as E; contradiction]|]. split; [discriminate|].
      split; [intros [E|[E _]]; [injection E as E; contradiction|discriminate]|].
      intros k Hk. apply K. intros q Hq. cbn in Hq. intros <-. apply Hk. repeat (destruct Hq as [<-|Hq]; [cbn; tauto|]). destruct Hq.
  - destruct (String.eqb_spec (j_model j) "text_infilling") as [E|N].
    + split; [reflexivity|]. split; [reflexivity|]. split; [discriminate|]. split; [intros _; split; reflexivity|]. split; [intros _ _; reflexivity|]. split; [intros [E'|[_ N]]; [discriminate|contradiction]|].
      intros k Hk. apply K. intros q Hq. cbn in Hq. intros <-. apply Hk. repeat (destruct Hq as [<-|Hq]; [cbn; tauto|]). destruct Hq.
    + split; [reflexivity|]. split; [reflexivity|]. split; [discriminate|]. split; [intros _; split; reflexivity|]. split; [contradiction|]. split; [intros _; reflexivity|].
      intros k Hk. apply K. intros q Hq. cbn in Hq. intros <-. apply Hk. repeat (destruct Hq as [<-|Hq]; [cbn; tauto|]). destruct Hq.
Qed.
