(** Which command lines are accepted. *)
From Coq Require Import String List Bool ZArith Lia.
From Verif.Spec Require Import ConfigSpec LaunchSpec.
From Verif.Model Require Import Config Launch.
From Verif.Proof Require Import LaunchProof.
Import ListNotations.
Local Open Scope string_scope.

Definition ty (v : lit) : nat := match v with LStr _ => 0 | LInt _ => 1 | LFloat _ _ => 2 | LBool _ => 3 | LTuple _ => 4 end.
Definition like1 (a b : string * lit) : Prop := fst a = fst b /\ ty (snd a) = ty (snd b).
Definition liket : table lit -> table lit -> Prop := Forall2 like1.
Lemma liket_refl s : liket s s.
Proof. induction s; constructor; [split; reflexivity|assumption]. Qed.
Lemma liket_trans a : forall b c, liket a b -> liket b c -> liket a c.
Proof. induction a as [|x a IH]; intros b c H K; inversion H; subst; inversion K; subst; constructor; [unfold like1 in *; intuition congruence|eapply IH; eassumption]. Qed.
Lemma liket_look s s' k : liket s s' -> match look k s, look k s' with Some a, Some b => ty a = ty b | None, None => True | _, _ => False end.
Proof. induction 1 as [|[k1 v1] [k2 v2] s s' [E T] _ IH]; cbn in *; [exact I|]. subst k2. destruct (String.eqb k k1); [exact T|exact IH]. Qed.
Lemma liket_put s s' k v v' : liket s s' -> ty v = ty v' -> liket (put k v s) (put k v' s').
Proof.
  intros H E. induction H as [|[k1 v1] [k2 v2] s s' [F T] H IH]; cbn [put]; [constructor; [split; [reflexivity|exact E]|constructor]|]. cbn in F, T. subst k2.
  destruct (String.eqb k k1); constructor; try assumption; split; try reflexivity; assumption.
Qed.
Lemma liket_self s k v old : look k s = Some old -> ty old = ty v -> liket s (put k v s).
Proof.
  intros H E. induction s as [|[k1 v1] s IH]; [discriminate|]. cbn [look put] in *. destruct (String.eqb_spec k k1) as [->|N].
  - injection H as ->. constructor; [split; [reflexivity|exact E]|apply liket_refl].
  - constructor; [split; reflexivity|apply IH, H].
Qed.
Lemma retype_like a a' v v' : ty a = ty a' -> ty v = ty v' -> match retype a v, retype a' v' with Some x, Some y => ty x = ty y | None, None => True | _, _ => False end.
Proof. destruct a, a'; cbn [ty]; intros E; try discriminate E; destruct v, v'; cbn [ty]; intros F; try discriminate F; cbn; auto. Qed.
Definition both {A} (R : A -> A -> Prop) (a b : option A) : Prop := match a, b with Some x, Some y => R x y | None, None => True | _, _ => False end.
Lemma assign_like s s' k v v' : liket s s' -> ty v = ty v' -> both liket (assign k v s) (assign k v' s').
Proof.
  intros H E. unfold assign. pose proof (liket_look s s' k H) as L. destruct (look k s) as [a|], (look k s') as [a'|]; try contradiction.
  - pose proof (retype_like a a' v v' L E) as R. destruct (retype a v), (retype a' v'); try contradiction; cbn; [apply liket_put; assumption|exact I].
  - apply liket_put; assumption.
Qed.
Lemma assign_all_like o : forall o' s s', liket o o' -> liket s s' -> both liket (assign_all s o) (assign_all s' o').
Proof.
  induction o as [|[k v] o IH]; intros o' s s' Ho Hs; inversion Ho as [|? [k' v'] ? o2 [E T] Ho2]; subst; [exact Hs|]. cbn in E, T. subst k'. cbn [assign_all].
  pose proof (assign_like s s' k v v' Hs T) as A. destruct (assign k v s), (assign k v' s'); try contradiction; cbn in A |- *; [apply IH; assumption|exact I].
Qed.
Definition likec (c c' : lconfig) : Prop := liket (l_model c) (l_model c') /\ liket (l_sampler c) (l_sampler c') /\ liket (l_exp c) (l_exp c').
Lemma lmerge_like c c' o o' : likec c c' -> likec o o' -> both likec (lmerge c o) (lmerge c' o').
Proof.
  intros (A & B & C) (D & E & F). unfold lmerge. pose proof (assign_all_like _ _ _ _ D A) as X. pose proof (assign_all_like _ _ _ _ E B) as Y. pose proof (assign_all_like _ _ _ _ F C) as Z.
  destruct (assign_all (l_model c) (l_model o)), (assign_all (l_model c') (l_model o')); try contradiction; try exact I.
  destruct (assign_all (l_sampler c) (l_sampler o)), (assign_all (l_sampler c') (l_sampler o')); try contradiction; try exact I.
  destruct (assign_all (l_exp c) (l_exp o)), (assign_all (l_exp c') (l_exp o')); try contradiction; try exact I. split; [exact X|]. split; [exact Y|exact Z].
Qed.
Definition likef (f f' : flagged) : Prop := forall s, liket (slot_get s f) (slot_get s f').
Lemma likef_conf f f' : likef f f' -> likec (g_conf f) (g_conf f').
Proof. intros H. split; [exact (H SlCModel)|]. split; [exact (H SlCSampler)|exact (H SlExp)]. Qed.

Lemma no_key k s o s' : look k s = None -> look k o = None -> assign_all s o = Some s' -> look k s' = None.
Proof.
  revert s. induction o as [|[k1 v1] o IH]; intros s Hs Ho H; cbn in H; [congruence|]. cbn [look] in Ho. destruct (String.eqb_spec k k1) as [|N]; [discriminate|].
  unfold assign in H. assert (P : forall w, look k (put k1 w s) = None) by (intros w; rewrite look_put; apply String.eqb_neq in N; rewrite N; exact Hs).
  destruct (look k1 s) as [old|]; [destruct (retype old v1) as [w|]; [|discriminate]|]; (eapply IH; [apply P|exact Ho|exact H]).
Qed.
Lemma plain_main gm ef mf sf : look "graph_type" mf = None -> look "bert_model" mf = None -> look "graph_type" (l_model ef) = None -> look "bert_model" (l_model ef) = None ->
  (l_main_config gm ef mf sf <> None <-> exists c s m, lmerge common_file ef = Some c /\ assign_all (l_sampler c) sf = Some s /\ assign_all (l_model c) mf = Some m).
Proof.
  intros G B G' B'. unfold l_main_config, l_has. rewrite G, B. cbn [negb andb]. split.
  - destruct (lmerge common_file ef) as [c|]; [|congruence]. destruct (assign_all (l_sampler c) sf) as [s|] eqn:E1; [|congruence]. destruct (assign_all (l_model c) mf) as [m|] eqn:E2; [|congruence]. intros _. exists c, s, m. auto.
  - intros (c & s & m & Ec & Es & Em). rewrite Ec, Es, Em. unfold lmerge in Ec. destruct (assign_all (l_model common_file) (l_model ef)) as [m1|] eqn:E1; [|discriminate].
    destruct (assign_all (l_sampler common_file) (l_sampler ef)); [|discriminate]. destruct (assign_all (l_exp common_file) (l_exp ef)); [|discriminate]. injection Ec as <-. cbn [l_model] in Em.
    assert (P : forall k, look k mf = None -> look k (l_model ef) = None -> look k (l_model common_file) = None -> look k m = None).
    { intros k X Y Z. eapply no_key; [|exact X|exact Em]. eapply no_key; [exact Z|exact Y|exact E1]. }
    unfold l_true. rewrite (P "graph_type" G G' eq_refl). cbn [l_model]. rewrite (P "bert_model" B B' eq_refl). discriminate.
Qed.
Lemma main_like gm ef ef' mf mf' sf sf' : likec ef ef' -> liket mf mf' -> liket sf sf' ->
  look "graph_type" mf = None -> look "bert_model" mf = None -> look "graph_type" (l_model ef) = None -> look "bert_model" (l_model ef) = None ->
  l_main_config gm ef mf sf <> None -> l_main_config gm ef' mf' sf' <> None.
Proof.
  intros He Hm Hs G B G' B' H. apply (proj1 (plain_main gm ef mf sf G B G' B')) in H. destruct H as (c & s & m & Ec & Es & Em).
  assert (N : forall t t' k, liket t t' -> look k t = None -> look k t' = None) by (intros t t' k L E; pose proof (liket_look t t' k L) as X; rewrite E in X; destruct (look k t'); [contradiction|reflexivity]).
  refine (proj2 (plain_main gm ef' mf' sf' (N _ _ _ Hm G) (N _ _ _ Hm B) (N _ _ _ (proj1 He) G') (N _ _ _ (proj1 He) B')) _).
  assert (Cc : likec common_file common_file) by (repeat split; apply liket_refl). pose proof (lmerge_like _ _ _ _ Cc He) as X. rewrite Ec in X. destruct (lmerge common_file ef') as [c'|]; [|contradiction].
  destruct X as (X1 & X2 & X3). pose proof (assign_all_like _ _ _ _ Hs X2) as Y. rewrite Es in Y. destruct (assign_all (l_sampler c') sf') as [s'|] eqn:Es'; [|contradiction].
  pose proof (assign_all_like _ _ _ _ Hm X1) as Z. rewrite Em in Z. destruct (assign_all (l_model c') mf') as [m'|] eqn:Em'; [|contradiction]. exists c', s', m'. auto.
Qed.

Lemma as_flag_fits repr old v : as_flag repr old v <> None <-> fits old v.
Proof.
  split.
  - destruct old, v; cbn; intros H; try congruence; eauto. right. destruct (tuple_of s) as [t|] eqn:E; [|cbn in H; congruence]. eauto.
  - destruct old; cbn.
    + destruct v; discriminate.
    + intros (? & ->). discriminate.
    + intros [(? & ->)|(? & ? & ->)]; discriminate.
    + intros (? & ->). discriminate.
    + intros [(? & ->)|(? & ? & -> & E)]; [discriminate|]. rewrite E. discriminate.
Qed.
Lemma as_flag_ty repr old v w : as_flag repr old v = Some w -> ty old = ty w.
Proof. destruct old, v; cbn; intros H; try discriminate; try (injection H as <-; reflexivity). destruct (tuple_of s); [injection H as <-; reflexivity|discriminate]. Qed.
Definition slotted (f : flagged) (k : string) (v : lit) : Prop := is_file_key k = true \/ exists s r old, k = slot_prefix s ++ r /\ look r (slot_get s f) = Some old /\ fits old v.
Lemma file_key k : is_file_key k = true <-> names_a_file k.
Proof. unfold is_file_key, names_a_file. rewrite !orb_true_iff, !String.eqb_eq. cbn [In]. intuition congruence. Qed.
Lemma slotted_acceptable f k v : slotted f k v <-> acceptable f k v.
Proof.
  unfold slotted, acceptable. rewrite file_key. split; intros [H|H]; [left; exact H| |left; exact H|]; right.
  - destruct H as (s & r & old & -> & L & F). exists (slot_prefix s), (slot_get s f), r, old. split; [destruct s; cbn; auto 10|auto].
  - destruct H as (p & t & r & old & I & -> & L & F). cbn [In] in I.
    destruct I as [I|[I|[I|[I|[I|[]]]]]]; injection I as <- <-; [exists SlModel|exists SlSampler|exists SlExp|exists SlCModel|exists SlCSampler]; exists r, old; auto.
Qed.
Lemma take_arg_accept repr f s r v old : look r (slot_get s f) = Some old -> fits old v -> exists f', take_arg repr f (slot_prefix s ++ r, v) = Some f'.
Proof.
  intros L F. apply (as_flag_fits repr) in F. destruct (as_flag repr old v) as [w|] eqn:E; [|congruence]. assert (O : override repr r v (slot_get s f) = Some (put r w (slot_get s f))) by (unfold override; rewrite L, E; reflexivity).
  unfold take_arg. change (_ || _ || _)%bool with (is_file_key (slot_prefix s ++ r)). rewrite file_key_slot.
  assert (N : forall s', s' <> s -> after (slot_prefix s') (slot_prefix s ++ r) = None).
  { intros s' Hs. destruct (after (slot_prefix s') (slot_prefix s ++ r)) as [q|] eqn:Q; [|reflexivity]. apply after_some in Q. apply slot_inj in Q. destruct Q as [Q _]. congruence. }
  change "model_config." with (slot_prefix SlModel). change "sampler_config." with (slot_prefix SlSampler). change "config.experiment." with (slot_prefix SlExp). change "config.model." with (slot_prefix SlCModel). change "config.sampler." with (slot_prefix SlCSampler).
  destruct s; repeat rewrite N by discriminate; rewrite after_app; cbn [slot_get] in O; rewrite O; cbn [option_map]; eauto.
Qed.
Lemma take_arg_like repr f kv f' : take_arg repr f kv = Some f' -> likef f f'.
Proof.
  destruct kv as [k v]. intros H s. destruct (take_arg_slot _ _ _ _ _ H) as [[_ ->]|(s' & r & t' & -> & O & G & Oth)]; [apply liket_refl|].
  destruct (slot_dec s s') as [<-|N]; [|rewrite Oth by exact N; apply liket_refl]. rewrite G. destruct (override_look _ _ _ _ _ O) as (old & w & L & F & -> & _). eapply liket_self; [exact L|apply (as_flag_ty repr _ v), F].
Qed.
Lemma fits_ty a b v : ty a = ty b -> fits a v -> fits b v.
Proof. destruct a, b; cbn; intros E; try discriminate E; auto. Qed.
Lemma slotted_like f f' k v : likef f f' -> slotted f k v -> slotted f' k v.
Proof.
  intros L [H|(s & r & old & -> & E & F)]; [left; exact H|]. right. pose proof (liket_look _ _ r (L s)) as X. rewrite E in X. destruct (look r (slot_get s f')) as [o|] eqn:E'; [|contradiction].
  exists s, r, o. split; [reflexivity|]. split; [exact E'|]. eapply fits_ty; eassumption.
Qed.
Lemma take_args_like repr args : forall f f', take_args repr f args = Some f' -> likef f f'.
Proof.
  induction args as [|kv args IH]; intros f f' H; cbn [take_args] in H; [injection H as <-; intros s; apply liket_refl|]. destruct (take_arg repr f kv) as [f1|] eqn:E; [|discriminate].
  intros s. eapply liket_trans; [exact (take_arg_like _ _ _ _ E s)|exact (IH _ _ H s)].
Qed.
Lemma take_args_accept repr args : forall f, (forall k v, In (k, v) args -> slotted f k v) -> exists f', take_args repr f args = Some f'.
Proof.
  induction args as [|[k v] args IH]; intros f H; [eexists; reflexivity|]. cbn [take_args]. destruct (H k v (or_introl eq_refl)) as [Hk|(s & r & old & -> & L & F)].
  - unfold take_arg. change (_ || _ || _)%bool with (is_file_key k). rewrite Hk. apply IH. intros; apply H; right; assumption.
  - destruct (take_arg_accept repr f s r v old L F) as (f1 & E). rewrite E. apply IH. intros k' v' Hi. eapply slotted_like; [exact (take_arg_like _ _ _ _ E)|apply H; right; exact Hi].
Qed.
Lemma take_args_only repr args : forall f f', take_args repr f args = Some f' -> forall k v, In (k, v) args -> slotted f k v.
Proof.
  induction args as [|[k v] args IH]; intros f f' H k' v' Hi; [destruct Hi|]. cbn [take_args] in H. destruct (take_arg repr f (k, v)) as [f1|] eqn:E; [|discriminate].
  assert (S : forall g g', likef g g' -> likef g' g) by (intros g g' L s; specialize (L s); clear -L; induction L as [|a b l l' [P Q] _ IH]; constructor; [split; congruence|assumption]).
  destruct Hi as [Hi|Hi].
  - injection Hi as -> ->. destruct (take_arg_slot _ _ _ _ _ E) as [[Hk _]|(s & r & t' & -> & O & _)]; [left; exact Hk|]. destruct (override_look _ _ _ _ _ O) as (old & w & L & F & _). right. exists s, r, old. split; [reflexivity|]. split; [exact L|].
    apply (as_flag_fits repr). rewrite F. discriminate.
  - eapply slotted_like; [apply S, (take_arg_like _ _ _ _ E)|eapply IH; eassumption].
Qed.
Lemma accepted_iff repr gm fs args plain f : open_files fs args = Some f -> open_files fs plain = Some f -> (forall k, In k (map fst plain) -> names_a_file k) ->
  look "graph_type" (g_model f) = None -> look "bert_model" (g_model f) = None -> look "graph_type" (l_model (g_conf f)) = None -> look "bert_model" (l_model (g_conf f)) = None ->
  configure repr gm fs plain <> None ->
  (configure repr gm fs args <> None <-> forall k v, In (k, v) args -> acceptable f k v).
Proof.
  intros Ho Hp Hf G B G' B' Hc. unfold configure, read_flags in *. rewrite Ho. rewrite Hp in Hc.
  assert (T : take_args repr f plain = Some f).
  { clear -Hf. induction plain as [|[k v] plain IH]; [reflexivity|]. cbn [take_args]. assert (K : is_file_key k = true) by (apply file_key, Hf; left; reflexivity).
    unfold take_arg. change (_ || _ || _)%bool with (is_file_key k). rewrite K. apply IH. intros k' Hk. apply Hf. right. exact Hk. }
  rewrite T in Hc. split.
  - intros H k v Hi. apply slotted_acceptable. destruct (take_args repr f args) as [f'|] eqn:E; [|congruence]. eapply take_args_only; eassumption.
  - intros H. destruct (take_args_accept repr args f) as (f' & E); [intros k v Hi; apply slotted_acceptable, H, Hi|]. rewrite E. pose proof (take_args_like _ _ _ _ E) as L.
    eapply main_like; [apply likef_conf, L|exact (L SlModel)|exact (L SlSampler)|assumption..].
Qed.

Lemma retype_suits old v : suits old v -> exists w, retype old v = Some w /\ ty w = ty old.
Proof. destruct old, v; cbn; intros []; eauto. Qed.
Lemma suits_ty a b v : ty a = ty b -> suits b v -> suits a v.
Proof. destruct a, b; cbn; intros E; try discriminate E; auto. Qed.
Lemma assign_all_suit o : forall s, dict o -> all_suit s o -> exists s', assign_all s o = Some s' /\
  (forall k a, look k s = Some a -> exists b, look k s' = Some b /\ ty b = ty a) /\ (forall k, look k s = None -> look k s' = look k o).
Proof.
  induction o as [|[k v] o IH]; intros s D H; [exists s; split; [reflexivity|split; [eauto|intros; assumption]]|]. cbn [assign_all]. inversion D as [|? ? Hn D']; subst.
  assert (X : exists w, assign k v s = Some (put k w s) /\ forall a, look k s = Some a -> ty w = ty a).
  { unfold assign. destruct (look k s) as [old|] eqn:E; [|exists v; split; [reflexivity|discriminate]]. destruct (retype_suits old v) as (w & R & T); [apply (H k); [exact E|cbn; rewrite String.eqb_refl; reflexivity]|].
    exists w. rewrite R. split; [reflexivity|]. intros a Ha. injection Ha as <-. exact T. }
  destruct X as (w & A & T). rewrite A. destruct (IH (put k w s) D') as (s' & As & P & Q).
  { intros k' old' v' L L'. rewrite look_put in L. destruct (String.eqb_spec k' k) as [->|N].
    - rewrite look_none in L' by exact Hn. discriminate.
    - apply (H k'); [exact L|]. cbn. apply String.eqb_neq in N. rewrite N. exact L'. }
  exists s'. split; [exact As|]. split.
  - intros k' a L. destruct (String.eqb_spec k' k) as [->|N].
    + destruct (P k w) as (b & B & Tb); [rewrite look_put, String.eqb_refl; reflexivity|]. exists b. split; [exact B|]. rewrite Tb. apply T, L.
    + apply P. rewrite look_put. apply String.eqb_neq in N. rewrite N. exact L.
  - intros k' L. cbn. destruct (String.eqb_spec k' k) as [->|N].
    + destruct (P k w) as (b & B & Tb); [rewrite look_put, String.eqb_refl; reflexivity|]. rewrite B. clear -A L As Hn B. 
      assert (W : w = v). { unfold assign in A. rewrite L in A. injection A as A. assert (Y : look k (put k v s) = look k (put k w s)) by (rewrite A; reflexivity). rewrite !look_put, String.eqb_refl in Y. congruence. }
      subst w. pose proof (look_none k o Hn) as No. clear A. revert B. assert (Z : look k (put k v s) = Some v) by (rewrite look_put, String.eqb_refl; reflexivity). revert Z As. generalize (put k v s) as t. clear L s Hn.
      induction o as [|[k1 v1] o IH]; intros t Z As B; [cbn in As; congruence|]. cbn [assign_all] in As. cbn [look] in No. destruct (String.eqb_spec k k1) as [|N1]; [discriminate|].
      destruct (assign k1 v1 t) as [t1|] eqn:E; [|discriminate]. apply (IH No t1); [|exact As|exact B]. unfold assign in E. apply String.eqb_neq in N1.
      destruct (look k1 t) as [old|]; [destruct (retype old v1) as [u|]; [|discriminate]|]; cbn in E; injection E as <-; rewrite look_put, N1; exact Z.
    + rewrite Q; [reflexivity|]. rewrite look_put. apply String.eqb_neq in N. rewrite N. exact L.
Qed.
Lemma two_suit s a b : dict a -> dict b -> all_suit s a -> all_suit s b -> all_suit a b -> exists s1 s2, assign_all s a = Some s1 /\ assign_all s1 b = Some s2.
Proof.
  intros Da Db Sa Sb Sab. destruct (assign_all_suit a s Da Sa) as (s1 & A1 & P & Q). exists s1. destruct (assign_all_suit b s1 Db) as (s2 & A2 & _); [|eauto].
  intros k old v L V. destruct (look k s) as [o|] eqn:E.
  - destruct (P k o E) as (x & X & T). rewrite L in X. injection X as <-. apply (suits_ty _ o); [exact T|exact (Sb k o v E V)].
  - rewrite (Q k E) in L. exact (Sab k old v L V).
Qed.
Lemma files_merge repr gm fs plain f : open_files fs plain = Some f -> (forall k, In k (map fst plain) -> names_a_file k) -> dict_files f ->
  look "graph_type" (g_model f) = None -> look "bert_model" (g_model f) = None -> look "graph_type" (l_model (g_conf f)) = None -> look "bert_model" (l_model (g_conf f)) = None ->
  all_suit (l_exp common_file) (l_exp (g_conf f)) ->
  all_suit (l_model common_file) (l_model (g_conf f)) -> all_suit (l_model common_file) (g_model f) -> all_suit (l_model (g_conf f)) (g_model f) ->
  all_suit (l_sampler common_file) (l_sampler (g_conf f)) -> all_suit (l_sampler common_file) (g_sampler f) -> all_suit (l_sampler (g_conf f)) (g_sampler f) ->
  configure repr gm fs plain <> None.
Proof.
  intros Hp Hf (D1 & D2 & D3 & D4 & D5) G B G' B' E M1 M2 M3 S1 S2 S3. unfold configure, read_flags. rewrite Hp.
  assert (T : take_args repr f plain = Some f).
  { clear -Hf. induction plain as [|[k v] plain IH]; [reflexivity|]. cbn [take_args]. assert (K : is_file_key k = true) by (apply file_key, Hf; left; reflexivity).
    unfold take_arg. change (_ || _ || _)%bool with (is_file_key k). rewrite K. apply IH. intros k' Hk. apply Hf. right. exact Hk. }
  rewrite T. apply (proj2 (plain_main gm (g_conf f) (g_model f) (g_sampler f) G B G' B')).
  destruct (two_suit _ _ _ D3 D1 M1 M2 M3) as (m1 & m2 & Hm1 & Hm2). destruct (two_suit _ _ _ D4 D2 S1 S2 S3) as (s1 & s2 & Hs1 & Hs2). destruct (assign_all_suit _ _ D5 E) as (e & He & _).
  exists {| l_model := m1; l_sampler := s1; l_exp := e |}, s2, m2. unfold lmerge. rewrite Hm1, Hs1, He. cbn [l_model l_sampler]. auto.
Qed.
