From Coq Require Import Reals String Ascii List Arith Bool Lia Lra.
From Verif.Base Require Import RSum.
From Verif.Spec Require Import ConvertSpec.
From Verif.Model Require Import Convert.
Import ListNotations.
Local Open Scope string_scope.

Lemma key_eqb_spec a b : reflect (a = b) (key_eqb a b).
Proof. unfold key_eqb. destruct (list_eq_dec string_dec a b); constructor; assumption. Qed.

Lemma lookup_in k v ps : lookup k ps = Some v -> In k (map fst ps).
Proof.
  induction ps as [| [k' v'] ps IH]; simpl; [discriminate |]. destruct (key_eqb_spec k' k) as [-> | N]; [left; reflexivity | right; auto].
Qed.
Lemma in_lookup k v ps : NoDup (map fst ps) -> In (k, v) ps -> lookup k ps = Some v.
Proof.
  induction ps as [| [k' v'] ps IH]; simpl; intros HN; [contradiction |]. inversion HN; subst. intros [[= -> ->] | Hi].
  - destruct (key_eqb_spec k k); [reflexivity | congruence].
  - destruct (key_eqb_spec k' k) as [-> | N]; [exfalso; apply H1; change k with (fst (k, v)); apply in_map, Hi | auto].
Qed.
Lemma replace_keys k v ps : map fst (replace k v ps) = map fst ps.
Proof. induction ps as [| [k' v'] ps IH]; simpl; [reflexivity |]. destruct (key_eqb k' k); simpl; congruence. Qed.
Lemma lookup_replace k k' v ps : In k (map fst ps) -> lookup k' (replace k v ps) = if key_eqb k' k then Some v else lookup k' ps.
Proof.
  induction ps as [| [k2 v2] ps IH]; simpl; [contradiction |]. intros Hi.
  destruct (key_eqb_spec k2 k) as [-> | N]; simpl.
  - destruct (key_eqb_spec k k') as [-> | N2]; [destruct (key_eqb_spec k' k'); congruence | destruct (key_eqb_spec k' k); congruence].
  - destruct Hi as [-> | Hi]; [congruence |]. rewrite (IH Hi). destruct (key_eqb_spec k2 k') as [-> | N2]; [destruct (key_eqb_spec k' k); congruence | reflexivity].
Qed.

Lemma store_spec key v ps ps' : store key v ps = Some ps' -> exists pk new, param_key key = Some pk /\ converted pk v = Some new /\
  In pk (map fst ps) /\ (exists old, lookup pk ps = Some old /\ shape old = shape new) /\ ps' = replace pk new ps.
Proof.
  unfold store. destruct (param_key key) as [pk |]; [| discriminate]. destruct (lookup pk ps) as [old |] eqn:E1; [| discriminate].
  destruct (converted pk v) as [new |] eqn:E2; [| discriminate]. unfold shape_eqb. destruct (list_eq_dec Nat.eq_dec (shape old) (shape new)); [| discriminate].
  intros [= <-]. exists pk, new. repeat split; auto; [eapply lookup_in; eauto | exists old; auto].
Qed.

(** One-to-one on a list of names. *)
Definition one_to_one (ks : list (list string)) : Prop :=
  forall a b, In a ks -> In b ks -> a <> ["mean"] -> b <> ["mean"] -> param_key a = param_key b -> a = b.

Lemma loop_spec : forall th ps m ps' m', convert_loop th ps m = Some (ps', m') -> NoDup (map fst th) -> one_to_one (map fst th) ->
  map fst ps' = map fst ps /\
  (forall k, (forall tk, In tk (map fst th) -> tk <> ["mean"] -> param_key tk <> Some k) -> lookup k ps' = lookup k ps) /\
  (forall tk tv, In (tk, tv) th -> tk <> ["mean"] -> exists k new, param_key tk = Some k /\ In k (map fst ps) /\ converted k tv = Some new /\ lookup k ps' = Some new) /\
  (forall tv, In (["mean"], tv) th -> m' = Some tv) /\ (~ In ["mean"] (map fst th) -> m' = m).
Proof.
  induction th as [| [key v] th IH]; intros ps m ps' m'; cbn [convert_loop map fst].
  - intros [= <- <-] _ _. repeat split; try reflexivity; intros; contradiction.
  - intros H HN HI. inversion HN as [| ? ? Hni HN']; subst.
    assert (HI' : one_to_one (map fst th)) by (intros a b Ha Hb; apply HI; right; assumption).
    destruct (key_eqb_spec key ["mean"]) as [-> | Nm].
    + destruct (IH _ _ _ _ H HN' HI') as (K & O & L & M1 & M2). repeat split.
      * exact K.
      * intros k Hk. apply O. intros tk Htk. apply Hk. right; exact Htk.
      * intros tk tv [[= <- <-] | Hi] Hne; [congruence | exact (L _ _ Hi Hne)].
      * intros tv [[= <-] | Hi]; [exact (M2 Hni) | exact (M1 _ Hi)].
      * intros Hn. exfalso. apply Hn. left; reflexivity.
    + destruct (store key v ps) as [ps1 |] eqn:ES; [| discriminate].
      destruct (store_spec _ _ _ _ ES) as (pk & new & E1 & E2 & E3 & _ & ->).
      destruct (IH _ _ _ _ H HN' HI') as (K & O & L & M1 & M2). rewrite replace_keys in K.
      assert (Hout : lookup pk ps' = Some new).
      { rewrite O.
        - rewrite lookup_replace by exact E3. destruct (key_eqb_spec pk pk); congruence.
        - intros tk Htk Hne Hp. apply Hni. rewrite <- (HI tk key); auto; [right; exact Htk | left; reflexivity | congruence]. }
      repeat split.
      * exact K.
      * intros k Hk. rewrite O by (intros tk Htk; apply Hk; right; exact Htk). rewrite lookup_replace by exact E3.
        destruct (key_eqb_spec k pk) as [-> | N]; [exfalso; apply (Hk key); auto; left; reflexivity | reflexivity].
      * intros tk tv [[= <- <-] | Hi] Hne; [exists pk, new; auto |]. destruct (L _ _ Hi Hne) as (k & nw & A1 & A2 & A3 & A4).
        rewrite replace_keys in A2. exists k, nw. auto.
      * intros tv [[= E _] | Hi]; [congruence | exact (M1 _ Hi)].
      * intros Hn. apply M2. intros Hi. apply Hn. right; exact Hi.
Qed.

Definition pk_of (k : list string) : list string := match param_key k with Some p => p | None => [] end.

Lemma NoDup_map_on {A B} (f : A -> B) l : NoDup l -> (forall a b, In a l -> In b l -> f a = f b -> a = b) -> NoDup (map f l).
Proof.
  induction l as [| a l IH]; intros HN HI; [constructor |]. inversion HN; subst. cbn [map]. constructor.
  - intros Hi. apply in_map_iff in Hi. destruct Hi as (b & Hb & Hi). rewrite (HI a b) in H1; [contradiction | left; reflexivity | right; exact Hi | congruence].
  - apply IH; [assumption |]. intros x y Hx Hy. apply HI; right; assumption.
Qed.

Lemma filter_one (ks : list (list string)) : NoDup ks -> In ["mean"] ks -> length (filter (fun k => negb (key_eqb k ["mean"])) ks) + 1 = length ks.
Proof.
  induction ks as [| k ks IH]; intros HN Hi; [contradiction |]. inversion HN; subst. cbn [filter length].
  destruct (key_eqb_spec k ["mean"]) as [-> | N]; cbn [negb].
  - assert (F : filter (fun k => negb (key_eqb k ["mean"])) ks = ks).
    { clear IH HN Hi H2. induction ks as [| k ks IH]; [reflexivity |]. cbn [filter]. destruct (key_eqb_spec k ["mean"]) as [-> | N].
      - exfalso. apply H1. left; reflexivity.
      - cbn [negb]. rewrite IH; [reflexivity |]. intros Hi. apply H1. right; exact Hi. }
    rewrite F. lia.
  - destruct Hi as [-> | Hi]; [congruence |]. cbn [length]. rewrite <- (IH H2 Hi). lia.
Qed.

Theorem convert_all th ps ps' m : NoDup (map fst ps) -> NoDup (map fst th) -> one_to_one (map fst th) -> In ["mean"] (map fst th) ->
  convert th ps = Some (ps', m) ->
  map fst ps' = map fst ps /\
  (forall k v, In (k, v) ps' -> exists tk tv, In (tk, tv) th /\ param_key tk = Some k /\ converted k tv = Some v) /\
  (exists mv, In (["mean"], mv) th /\ m = Some mv).
Proof.
  intros HP HT HI HM H. unfold convert in H. destruct (Nat.eqb_spec (length ps + 1) (length th)) as [EL | _]; [| discriminate].
  destruct (loop_spec _ _ _ _ _ H HT HI) as (K & _ & L & M1 & _). split; [exact K | split].
  - set (ks := filter (fun k => negb (key_eqb k ["mean"])) (map fst th)).
    assert (Hks : forall k, In k ks <-> In k (map fst th) /\ k <> ["mean"]).
    { intros k. unfold ks. rewrite filter_In. destruct (key_eqb_spec k ["mean"]); cbn [negb]; intuition congruence. }
    assert (Hlen : length ks = length ps).
    { pose proof (filter_one (map fst th) HT HM) as F. fold ks in F. rewrite map_length in F. lia. }
    assert (Hp : forall k, In k ks -> param_key k = Some (pk_of k) /\ In (pk_of k) (map fst ps)).
    { intros k Hk. apply Hks in Hk. destruct Hk as [Hk Hne]. apply in_map_iff in Hk. destruct Hk as ([k2 v2] & <- & Hi). cbn [fst] in *.
      destruct (L _ _ Hi Hne) as (pk & nw & A1 & A2 & _). unfold pk_of. rewrite A1. auto. }
    assert (HND : NoDup (map pk_of ks)).
    { apply NoDup_map_on; [apply NoDup_filter, HT |]. intros a b Ha Hb E. destruct (Hp a Ha) as [Pa _], (Hp b Hb) as [Pb _].
      apply Hks in Ha, Hb. apply HI; try tauto. congruence. }
    assert (Hincl : incl (map fst ps) (map pk_of ks)).
    { apply NoDup_length_incl; [exact HND | rewrite !map_length; lia |].
      intros k Hk. apply in_map_iff in Hk. destruct Hk as (tk & <- & Htk). apply (Hp tk Htk). }
    intros k v Hkv.
    assert (Hk : In k (map pk_of ks)).
    { apply Hincl. rewrite <- K. change k with (fst (k, v)). apply in_map, Hkv. }
    apply in_map_iff in Hk. destruct Hk as (tk & <- & Htk). destruct (Hp tk Htk) as [P1 _]. apply Hks in Htk. destruct Htk as [Hi Hne].
    apply in_map_iff in Hi. destruct Hi as ([tk2 tv] & <- & Hi). cbn [fst] in *.
    destruct (L _ _ Hi Hne) as (pk & nw & A1 & _ & A3 & A4). assert (pk = pk_of tk2) by congruence. subst pk.
    exists tk2, tv. split; [exact Hi | split; [exact A1 |]]. rewrite A3. rewrite <- A4. apply in_lookup; [rewrite K; exact HP | exact Hkv].
  - apply in_map_iff in HM. destruct HM as ([k mv] & Ek & Hi). cbn [fst] in Ek. subst k. exists mv. split; [exact Hi | exact (M1 _ Hi)].
Qed.

Lemma leaf_inj p q : In p ["weight"; "bias"] -> In q ["weight"; "bias"] -> leaf p = leaf q -> p = q.
Proof. intros [<- | [<- | []]] [<- | [<- | []]]; intros; try reflexivity; discriminate. Qed.

Lemma app_inj_l (s a b : string) : s ++ a = s ++ b -> a = b.
Proof. induction s as [| c s IH]; [auto |]. cbn. intros [= E]. auto. Qed.

(** The parameter name of each name of the network. *)
Lemma pk_proj p : In p ["weight"; "bias"] -> exists l, leaf p = Some l /\ param_key ["net"; "proj"; p] = Some ["Conv_0"; l].
Proof. intros [<- | [<- | []]]; eexists; split; reflexivity. Qed.
Lemma pk_linear p : In p ["weight"; "bias"] -> exists l, leaf p = Some l /\ param_key ["net"; "energy_linear"; p] = Some ["Dense_0"; l].
Proof. intros [<- | [<- | []]]; eexists; split; reflexivity. Qed.
Definition block_name (m : string) : string := if String.eqb m "conv1" then "Conv_0" else if String.eqb m "conv2" then "Conv_1" else "shortcut_conv".
Lemma pk_block layer m p : In m ["conv1"; "conv2"; "shortcut_conv"] -> In p ["weight"; "bias"] ->
  exists l, leaf p = Some l /\ param_key ["net"; "net"; layer; m; p] = Some ["BasicBlock_" ++ layer; block_name m; l].
Proof. intros [<- | [<- | [<- | []]]] [<- | [<- | []]]; eexists; split; reflexivity. Qed.
Lemma block_name_inj m m' : In m ["conv1"; "conv2"; "shortcut_conv"] -> In m' ["conv1"; "conv2"; "shortcut_conv"] -> block_name m = block_name m' -> m = m'.
Proof. intros [<- | [<- | [<- | []]]] [<- | [<- | [<- | []]]]; intros; try reflexivity; discriminate. Qed.

Theorem torch_names_one_to_one ks : Forall torch_name ks -> one_to_one ks.
Proof.
  intros HF a b Ha Hb Na Nb E. rewrite Forall_forall in HF. apply HF in Ha, Hb.
  destruct Ha as [| p Hp | p Hp | la ma p Hm Hp]; [congruence | | |]; (destruct Hb as [| q Hq | q Hq | lb mb q Hm' Hq]; [congruence | | |]).
  - destruct (pk_proj p Hp) as (l & L1 & E1), (pk_proj q Hq) as (l' & L2 & E2). rewrite E1, E2 in E. injection E as E. rewrite (leaf_inj p q Hp Hq); congruence.
  - destruct (pk_proj p Hp) as (l & L1 & E1), (pk_linear q Hq) as (l' & L2 & E2). rewrite E1, E2 in E. discriminate.
  - destruct (pk_proj p Hp) as (l & L1 & E1), (pk_block lb mb q Hm' Hq) as (l' & L2 & E2). rewrite E1, E2 in E. discriminate.
  - destruct (pk_linear p Hp) as (l & L1 & E1), (pk_proj q Hq) as (l' & L2 & E2). rewrite E1, E2 in E. discriminate.
  - destruct (pk_linear p Hp) as (l & L1 & E1), (pk_linear q Hq) as (l' & L2 & E2). rewrite E1, E2 in E. injection E as E. rewrite (leaf_inj p q Hp Hq); congruence.
  - destruct (pk_linear p Hp) as (l & L1 & E1), (pk_block lb mb q Hm' Hq) as (l' & L2 & E2). rewrite E1, E2 in E. discriminate.
  - destruct (pk_block la ma p Hm Hp) as (l & L1 & E1), (pk_proj q Hq) as (l' & L2 & E2). rewrite E1, E2 in E. discriminate.
  - destruct (pk_block la ma p Hm Hp) as (l & L1 & E1), (pk_linear q Hq) as (l' & L2 & E2). rewrite E1, E2 in E. discriminate.
  - destruct (pk_block la ma p Hm Hp) as (l & L1 & E1), (pk_block lb mb q Hm' Hq) as (l' & L2 & E2). rewrite E1, E2 in E.
    assert (F1 : "BasicBlock_" ++ la = "BasicBlock_" ++ lb) by congruence. assert (F2 : block_name ma = block_name mb) by congruence. assert (F3 : l = l') by congruence.
    apply app_inj_l in F1. rewrite F1, (block_name_inj ma mb Hm Hm' F2), (leaf_inj p q Hp Hq) by congruence. reflexivity.
Qed.

(** *** Layers *)
Local Open Scope R_scope.

Lemma conv_same I KH KW H W stride pad (weight : arr) bias img o y x :
  flax_conv I KH KW H W stride pad (fun h w i o => at_ (transpose4 weight) [h; w; i; o]) bias (fun r c i => img i r c) y x o =
  torch_conv I KH KW H W stride pad (fun o i h w => at_ weight [o; i; h; w]) bias img o y x.
Proof.
  unfold flax_conv, torch_conv. cbn [transpose4 at_]. rewrite Rplus_comm. f_equal.
  transitivity (rsum (seq 0 KH) (fun h => rsum (seq 0 I) (fun i => rsum (seq 0 KW) (fun w =>
    padded H W pad (fun a b => img i a b) (y * stride + h) (x * stride + w) * at_ weight [o; i; h; w])))).
  - apply rsum_ext. intros h _. apply rsum_swap.
  - rewrite rsum_swap. apply rsum_ext. intros i _. apply rsum_ext. intros h _. apply rsum_ext. intros w _. apply Rmult_comm.
Qed.

Lemma dense_same I (weight : arr) bias v o :
  flax_dense I (fun i o => at_ (transpose2 weight) [i; o]) bias v o = torch_linear I (fun o i => at_ weight [o; i]) bias v o.
Proof. unfold flax_dense, torch_linear. cbn [transpose2 at_]. f_equal. apply rsum_ext. intros; apply Rmult_comm. Qed.

Lemma converted_spec k v v' : converted k v = Some v' ->
  (last k ""%string = "kernel"%string -> (length (shape v) = 4%nat /\ v' = transpose4 v) \/ (length (shape v) = 2%nat /\ v' = transpose2 v)) /\
  (last k ""%string <> "kernel"%string -> v' = v).
Proof.
  unfold converted. destruct (String.eqb_spec (last k ""%string) "kernel"%string) as [E | N].
  - intros H. split; [intros _ | congruence].
    destruct (length (shape v)) as [| [| [| [| [| n]]]]]; try discriminate; injection H as <-; [right | left]; auto.
  - intros [= <-]. split; [congruence | reflexivity].
Qed.

(** *** Concrete checkpoints *)
Definition num_arr (s : list nat) : arr := mk_arr s (fun ix => INR (fold_left (fun a i => 10 * a + i)%nat ix 0%nat)).
Definition zero_arr (s : list nat) : arr := mk_arr s (fun _ => 0).
Local Open Scope string_scope.

Definition small_checkpoint : list (list string * arr) :=
  [(["mean"], zero_arr [4]%nat); (["net"; "proj"; "weight"], zero_arr [1; 1; 3; 3]%nat); (["net"; "proj"; "bias"], zero_arr [1]%nat);
   (["net"; "net"; "0"; "conv1"; "weight"], zero_arr [1; 1; 3; 3]%nat);
   (["net"; "net"; "0"; "conv2"; "weight"], num_arr [2; 1; 3; 3]%nat); (["net"; "energy_linear"; "weight"], zero_arr [1; 2]%nat)].
Definition small_params : params :=
  [(["Conv_0"; "kernel"], zero_arr [3; 3; 1; 1]%nat); (["Conv_0"; "bias"], zero_arr [1]%nat);
   (["BasicBlock_0"; "Conv_0"; "kernel"], zero_arr [3; 3; 1; 1]%nat); (["BasicBlock_0"; "Conv_1"; "kernel"], zero_arr [3; 3; 1; 2]%nat);
   (["Dense_0"; "kernel"], zero_arr [2; 1]%nat)].

Lemma small_case : exists ps' m, convert small_checkpoint small_params = Some (ps', m) /\
  Forall torch_name (map fst small_checkpoint) /\ NoDup (map fst small_checkpoint) /\ NoDup (map fst small_params) /\
  (exists a, Convert.lookup ["BasicBlock_0"; "Conv_1"; "kernel"] ps' = Some a /\ shape a = [3; 3; 1; 2]%nat /\ at_ a [2; 1; 0; 1]%nat = 1021%R).
Proof.
  do 2 eexists. split; [reflexivity |]. split; [| split; [| split]].
  - cbn [map fst small_checkpoint]. repeat constructor; cbn [In]; tauto.
  - cbn [map fst small_checkpoint]. repeat constructor; simpl; intuition discriminate.
  - cbn [map fst small_params]. repeat constructor; simpl; intuition discriminate.
  - eexists. split; [reflexivity |]. split; [reflexivity |]. cbn [at_ transpose4 num_arr fold_left Nat.mul Nat.add]. rewrite INR_IZR_INZ. reflexivity.
Qed.

Lemma any_names : exists th ps ps' m k v, NoDup (map fst ps) /\ NoDup (map fst th) /\ convert th ps = Some (ps', m) /\
  In (k, v) ps /\ In (k, v) ps' /\ (forall tk tv, In (tk, tv) th -> param_key tk <> Some k).
Proof.
  exists [(["mean"], zero_arr [4]%nat); (["net"; "net"; "0"; "conv1"; "weight"], zero_arr [1; 1; 3; 3]%nat); (["net"; "net"; "0"; "norm1"; "weight"], num_arr [1; 1; 3; 3]%nat)],
    [(["BasicBlock_0"; "Conv_0"; "kernel"], zero_arr [3; 3; 1; 1]%nat); (["Dense_0"; "bias"], zero_arr [1]%nat)].
  do 2 eexists. exists ["Dense_0"; "bias"], (zero_arr [1]%nat). split; [| split; [| split; [reflexivity | split; [| split]]]].
  - cbn [map fst]. repeat constructor; simpl; intuition discriminate.
  - cbn [map fst]. repeat constructor; simpl; intuition discriminate.
  - right; left; reflexivity.
  - right; left; reflexivity.
  - intros tk tv [[= <- <-] | [[= <- <-] | [[= <- <-] | []]]]; discriminate.
Qed.
