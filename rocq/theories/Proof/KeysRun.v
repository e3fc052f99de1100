(** Keys of whole runs. *)
From Coq Require Import List Reals Arith Bool Lia.
From Verif.Model Require Import Utils Keys.
From Verif.Spec Require Import KeysSpec.
From Verif.Proof Require Import KeysProof.
Import ListNotations.

(** ** One step, all its calls *)
Lemma call_some m s r n k x : In x (call_keys s r (Some n) k) -> exists i, i < n /\ derived m (Split k n i) x.
Proof. cbn. intros H. apply in_flat_map in H. destruct H as (i & Hi & H). exists i. split; [apply in_seq in Hi; lia|]. eapply step_derived, H. Qed.
Lemma call_derived m s r w k x : In x (call_keys s r w k) -> derived m k x.
Proof.
  destruct w as [n|]; intros H; [|eapply step_derived, H]. destruct (call_some m _ _ _ _ _ H) as (i & _ & D).
  apply (derived_trans m _ (Split k n i)); [apply derived_split|exact D].
Qed.
Lemma call_pw (R : key -> key -> Prop) m s r w k : (forall a b, apart m a b -> R a b) -> (forall r k, pw R (step_keys s r k)) -> pw R (call_keys s r w k).
Proof.
  intros HR Hs. destruct w as [n|]; [|apply Hs]. cbn. apply pw_flat; [apply seq_NoDup|intros; apply Hs|]. intros i j x y _ _ Hd Hx Hy. apply HR.
  apply (apart_derived m (Split k n i) (Split k n j)); [apply parts_apart, Hd|eapply step_derived, Hx|eapply step_derived, Hy].
Qed.

(** ** The chain *)
Lemma chain_derived m s r w : forall ts k x, In x (chain_keys s r w k ts) -> derived m (FoldIn k (hd 0 ts)) x.
Proof.
  induction ts as [|t ts IH]; intros k x H; [contradiction|]. cbn in H. cbn [hd]. apply in_app_or in H. destruct H as [H|H]; [eapply call_derived, H|].
  eapply derived_trans; [|apply IH, H]. apply derived_fold.
Qed.
Lemma chain_pw (R : key -> key -> Prop) m s r w : (forall r k, pw R (call_keys s r w k)) ->
  (forall r k t x y, 2 <= t -> In x (call_keys s r w k) -> derived m (FoldIn k t) y -> R x y) ->
  forall T a k, 1 <= a -> pw R (chain_keys s r w k (seq a T)).
Proof.
  intros Hc Hn. induction T as [|T IH]; intros a k Ha; cbn [seq chain_keys]; [exact I|]. apply pw_app. split; [apply Hc|]. split; [apply IH; lia|].
  intros x y Hx Hy. destruct T as [|T]; [contradiction|]. apply (chain_derived m) in Hy. cbn [seq hd] in Hy. apply (Hn (r a) (FoldIn k a) (S a)); auto; lia.
Qed.
Lemma steps_seq burn len : 1 <= burn -> exists T, step_numbers burn len = seq 1 T /\ T = Nat.max (burn - 1) len.
Proof.
  intros H. unfold step_numbers. exists (Nat.max (burn - 1) len). split; [|reflexivity].
  replace (Nat.max (burn - 1) len) with ((burn - 1) + (1 + len - burn)) by lia. rewrite seq_app. do 2 f_equal; lia.
Qed.
Lemma some_next m s r n k t x y : (m = Original \/ n <= 2) -> 2 <= t -> In x (call_keys s r (Some n) k) -> derived m (FoldIn k t) y -> apart m x y.
Proof.
  intros Hm Ht Hx Hy. destruct (call_some m _ _ _ _ _ Hx) as (i & Hi & D). apply (apart_derived m (Split k n i) (FoldIn k t)); auto.
  apply part_fold_apart. destruct Hm; [left; assumption|right; lia].
Qed.
Lemma none_next m s r k t x y : (two_way s = true /\ (m = Original \/ 2 <= t)) \/ (three_way s = true /\ m = Original) -> In x (call_keys s r None k) -> derived m (FoldIn k t) y -> apart m x y.
Proof.
  intros Hs Hx Hy. cbn in Hx. destruct Hs as [(Hs & Hm)|(Hs & Hm)].
  - destruct (step_two m _ _ _ _ Hs Hx) as (i & Hi & D). apply (apart_derived m (Split k 2 i) (FoldIn k t)); auto.
    apply part_fold_apart. destruct Hm; [left; assumption|right; lia].
  - destruct s; try discriminate. destruct (step_three m _ _ _ _ Hx) as (i & Hi & D). apply (apart_derived m (Split k 3 i) (FoldIn k t)); auto.
    apply part_fold_apart. left; assumption.
Qed.
Lemma longer m a b : derived m a b -> length (path m a) <= length (path m b).
Proof. intros (_ & l & ->). rewrite app_length. lia. Qed.
Lemma differ_longer m a b c : derived m c b -> length (path m a) < length (path m c) -> differ m a b.
Proof. intros D H He. apply longer in D. unfold name in He. injection He as _ Hp. rewrite Hp in H. lia. Qed.
Lemma differ_sym m a b : differ m a b -> differ m b a.
Proof. unfold differ; congruence. Qed.
Lemma none_next_differ m s r k t x y : m = Original \/ three_way s = false -> 2 <= t -> In x (call_keys s r None k) -> derived m (FoldIn k t) y -> differ m x y.
Proof.
  intros Hm Ht Hx Hy. destruct (two_way s) eqn:E2; [apply apart_name; eapply none_next; [left; split; [exact E2|right; exact Ht]| |]; eassumption|].
  destruct (three_way s) eqn:E3; [destruct Hm as [->|]; [|discriminate]; apply apart_name; eapply none_next; [right; split; [exact E3|reflexivity]| |]; eassumption|].
  destruct s; try discriminate; destruct Hx as [<-|[]]; (eapply differ_longer; [exact Hy|cbn; lia]).
Qed.

(** ** Initialisation *)
Lemma row_derived m n : forall k x, In x (row_keys k n) -> derived m (Split k 2 0) x.
Proof. induction n as [|n IH]; intros k x H; cbn in H; [contradiction|]. destruct H as [<-|H]; [apply derived_refl|]. eapply derived_trans; [|apply IH, H]. apply derived_split. Qed.
Lemma rows_differ m n : forall k, pw (differ m) (k :: row_keys k n).
Proof.
  induction n as [|n IH]; intros k; cbn [row_keys]; [cbn; split; [intros y []|exact I]|]. split; [|apply (IH (Split k 2 0))].
  intros y Hy. apply (row_derived m (S n)) in Hy. eapply differ_longer; [exact Hy|cbn; lia].
Qed.
Definition no_reuse (p : initialiser) : bool := match p with ICategFhmm _ => false | _ => true end.
Definition plain_init (p : initialiser) : bool := match p with ICategFhmm _ | IBinaryFhmm _ => false | _ => true end.
Lemma init_derived m p k x : In x (init_keys p k) -> derived m k x.
Proof.
  assert (Hrow : forall l x, In x (sample_x_keys (Split k 4 0) l) -> derived m k x).
  { intros l y [<-|H]; [apply derived_split|]. apply (row_derived m) in H. eapply derived_trans; [|exact H]. der. }
  destruct p; cbn [init_keys]; intros H; try contradiction.
  - destruct H as [<-|[]]; apply derived_refl.
  - apply in_app_or in H. destruct H as [H|H]; [eapply Hrow, H|]. cbn in H. destruct H as [<-|[<-|[<-|[]]]]; apply derived_split.
  - destruct H as [<-|H]; [apply derived_split|]. apply in_app_or in H. destruct H as [H|H]; [eapply Hrow, H|]. cbn in H. destruct H as [<-|[<-|[<-|[]]]]; apply derived_split.
  - destruct H as [<-|[<-|[]]]; apply derived_split.
Qed.
Lemma init_apart m p k : plain_init p = true -> pw (apart m) (init_keys p k).
Proof. destruct p; cbn; try discriminate; intros _; [exact I|split; [intros y []|exact I]|]. split; [intros y [<-|[]]; sibl|split; [intros y []|exact I]]. Qed.
Lemma init_differ m p k : no_reuse p = true -> pw (differ m) (init_keys p k).
Proof.
  destruct (plain_init p) eqn:E; [intros _; eapply pw_impl; [|apply init_apart, E]; apply apart_name|]. destruct p; try discriminate. intros _. cbn [init_keys].
  apply pw_app. split; [apply rows_differ|]. split.
  - eapply pw_impl; [apply apart_name|]. cbn. split; [intros y [<-|[<-|[]]]; apply parts_apart; lia|]. split; [intros y [<-|[]]; apply parts_apart; lia|split; [intros y []|exact I]].
  - intros x y Hx Hy. apply apart_name. assert (Dx : derived m (Split k 4 0) x).
    { destruct Hx as [<-|Hx]; [apply derived_refl|]. apply (row_derived m) in Hx. eapply derived_trans; [|exact Hx]. apply derived_split. }
    apply (apart_derived m (Split k 4 0) y); [|exact Dx|apply derived_refl]. cbn in Hy. destruct Hy as [<-|[<-|[<-|[]]]]; apply parts_apart; lia.
Qed.
Lemma start_derived m p n k x : In x (start_keys p n k) -> derived m k x.
Proof.
  destruct p; cbn; [intros [<-|[]]; apply derived_refl|]. intros H. apply in_flat_map in H. destruct H as (i & _ & H). destruct H as [<-|[<-|[]]]; der.
Qed.
Lemma start_apart m p n k : pw (apart m) (start_keys p n k).
Proof.
  destruct p; cbn [start_keys]; [cbn; split; [intros y []|exact I]|]. apply pw_flat; [apply seq_NoDup| |].
  - intros i _. cbn. split; [intros y [<-|[]]; apply parts_apart; lia|split; [intros y []|exact I]].
  - intros i j x y _ _ Hd Hx Hy. apply (apart_derived m (Split k n i) (Split k n j)); [apply parts_apart, Hd| |].
    + destruct Hx as [<-|[<-|[]]]; der.
    + destruct Hy as [<-|[<-|[]]]; der.
Qed.

(** ** Runs *)
Lemma disciplined_pw m ks : pw (apart m) ks -> disciplined m ks.
Proof.
  intros H. assert (P : forall ks, pw (apart m) ks -> forall i j a b, i < j -> nth_error ks i = Some a -> nth_error ks j = Some b -> apart m a b).
  { clear. induction ks as [|k ks IH]; intros H i j a b Hij Ha Hb; [destruct i; discriminate|]. cbn in H. destruct H as (Hk & H). destruct j as [|j]; [lia|]. cbn in Hb.
    destruct i as [|i]; cbn in Ha; [injection Ha as <-; apply Hk, (nth_error_In _ _ Hb)|apply (IH H i j); auto; lia]. }
  intros i j a b Hij Ha Hb. destruct (Nat.lt_total i j) as [L|[L|L]]; [apply (P ks H i j a b L Ha Hb)|contradiction|apply (P ks H j i b a L Hb Ha)].
Qed.
Lemma chain_differ_some m s r n T k : m = Original \/ n <= 2 -> pw (differ m) (chain_keys s r (Some n) k (seq 1 T)).
Proof.
  intros Hm. apply (chain_pw _ m); [| |lia].
  - intros r' k'. apply (call_pw _ m); [apply apart_name|intros; apply step_differ].
  - intros r' k' t x y Ht Hx Hy. apply apart_name. eapply some_next; eauto.
Qed.
Lemma chain_apart_some m s r n T k : regular s = true -> m = Original \/ n <= 2 -> pw (apart m) (chain_keys s r (Some n) k (seq 1 T)).
Proof.
  intros Hr Hm. apply (chain_pw _ m); [| |lia].
  - intros r' k'. apply (call_pw _ m); [auto|intros; apply step_apart, Hr].
  - intros r' k' t x y Ht Hx Hy. eapply some_next; eauto.
Qed.
(** What a chain with parts draws with is derived from a part of its first folded key, hence longer. *)
Lemma chain_some_long m s r n T k x : In x (chain_keys s r (Some n) k (seq 1 T)) -> length (path m k) + 2 <= length (path m x).
Proof.
  enough (G : forall T k a, In x (chain_keys s r (Some n) k (seq a T)) -> length (path m k) + 2 <= length (path m x)) by apply G. clear T k. induction T as [|T IH]; intros k a H; cbn [seq chain_keys] in H; [contradiction|]. apply in_app_or in H. destruct H as [H|H].
  - destruct (call_some m _ _ _ _ _ H) as (i & _ & D). apply longer in D. cbn in D. lia.
  - apply IH in H. cbn in H. lia.
Qed.
Lemma step_long m s r k x : two_way s = true \/ three_way s = true -> In x (step_keys s r k) -> length (path m k) < length (path m x).
Proof.
  intros [H|H] Hx; [destruct (step_two m _ _ _ _ H Hx) as (i & _ & D)|destruct s; try discriminate; destruct (step_three m _ _ _ _ Hx) as (i & _ & D)]; apply longer in D; cbn in D; lia.
Qed.
Lemma chain_none_long m s r T k x : two_way s = true \/ three_way s = true -> In x (chain_keys s r None k (seq 1 T)) -> length (path m k) + 2 <= length (path m x).
Proof.
  intros Hs. enough (G : forall T k a, In x (chain_keys s r None k (seq a T)) -> length (path m k) + 2 <= length (path m x)) by apply G. clear T k. induction T as [|T IH]; intros k a H; cbn [seq chain_keys] in H; [contradiction|]. apply in_app_or in H. destruct H as [H|H].
  - cbn [call_keys] in H. apply (step_long m _ _ _ _ Hs) in H. cbn in H. lia.
  - apply IH in H. cbn in H. lia.
Qed.
Lemma chain_seed s r w ts k x : In x (chain_keys s r w k ts) -> seed x = seed k.
Proof. intros H. apply (chain_derived Original) in H. destruct H as (H & _). exact H. Qed.

Lemma sampling_differ m p s r n burn len rnd : no_reuse p = true -> 1 <= burn -> m = Original \/ n <= 2 -> seed rnd <> 10 -> pw (differ m) (sampling_keys p s r n burn len rnd).
Proof.
  intros Hp Hb Hm Hs. unfold sampling_keys, initial_keys. destruct (steps_seq burn len Hb) as (T & -> & _). rewrite <- !app_assoc.
  assert (Di : forall x, In x (init_keys p (Split (Split rnd 3 0) 1 0)) -> derived m (Split (Split rnd 3 0) 1 0) x) by (intros x; apply init_derived).
  apply pw_app. split; [apply init_differ, Hp|]. split.
  - cbn [start_keys app pw]. split; [|split; [|split; [|apply chain_differ_some, Hm]]].
    + intros y [<-|[<-|Hy]]; [apply apart_name, parts_apart; lia|apply apart_name, roots_apart; exact Hs|apply apart_name, roots_apart]. apply chain_seed in Hy. rewrite Hy. exact Hs.
    + intros y [<-|Hy]; [apply apart_name, roots_apart; exact Hs|apply apart_name, roots_apart]. apply chain_seed in Hy. rewrite Hy. exact Hs.
    + intros y Hy. intros He. apply (chain_some_long m) in Hy. unfold name in He. injection He as _ He. rewrite <- He in Hy. cbn in Hy. lia.
  - intros x y Hx Hy. apply Di in Hx. assert (Sx : seed x = seed rnd) by (destruct Hx as (Hx & _); exact Hx).
    cbn [start_keys app] in Hy. destruct Hy as [<-|[<-|[<-|Hy]]].
    + apply apart_name. apply (apart_derived m (Split rnd 3 0) (Split rnd 3 1)); [apply parts_apart; lia| |apply derived_refl]. eapply derived_trans; [|exact Hx]. apply derived_split.
    + apply differ_sym. eapply differ_longer; [exact Hx|cbn; lia].
    + apply apart_name, roots_apart. rewrite Sx. exact Hs.
    + apply apart_name, roots_apart. apply chain_seed in Hy. rewrite Hy, Sx. exact Hs.
Qed.

Lemma co_pw (R : key -> key -> Prop) m x ns s r n burn len rnd : 1 <= burn -> (forall a b, apart m a b -> R a b) -> pw R (chain_keys s r (Some n) rnd (seq 1 (Nat.max (burn - 1) len))) ->
  (forall a b, In a (start_keys x ns (Split rnd 3 1)) -> In b (chain_keys s r (Some n) rnd (seq 1 (Nat.max (burn - 1) len))) -> R a b) -> pw R (co_keys x ns s r n burn len rnd).
Proof.
  intros Hb HR Hc Hx. unfold co_keys, initial_keys. cbn [init_keys app]. destruct (steps_seq burn len Hb) as (T & -> & ->). apply pw_app. split; [|split; [exact Hc|exact Hx]].
  eapply pw_impl; [|apply (start_apart m)]. exact HR.
Qed.
Lemma co_start_chain s r n rnd x ns T a b : In a (start_keys x ns (Split rnd 3 1)) -> In b (chain_keys s r (Some n) rnd (seq 1 T)) -> apart Original a b.
Proof.
  intros Ha Hb. destruct T as [|T]; [contradiction|]. apply (start_derived Original) in Ha. apply (chain_derived Original) in Hb. cbn [seq hd] in Hb.
  apply (apart_derived _ (Split rnd 3 1) (FoldIn rnd 1)); auto. apply part_fold_apart. left; reflexivity.
Qed.
Lemma ebm_pw (R : key -> key -> Prop) m p s r w len rnd : (forall a b, apart m a b -> R a b) -> pw R (init_keys p (Split rnd 3 0)) -> pw R (chain_keys s r w rnd (seq 1 len)) ->
  (forall b, In b (chain_keys s r w rnd (seq 1 len)) -> R (Split rnd 3 1) b) -> pw R (ebm_keys p s r w len rnd).
Proof.
  intros HR Hi Hc Hx. unfold ebm_keys. apply pw_app. split; [exact Hi|]. cbn [app]. split; [split; [exact Hx|exact Hc]|].
  intros a b Ha [<-|Hb]; apply HR; apply (init_derived m) in Ha.
  - apply (apart_derived m (Split rnd 3 0) (Split rnd 3 1)); [apply parts_apart; lia|exact Ha|apply derived_refl].
  - destruct len as [|len]; [contradiction|]. apply (chain_derived m) in Hb. cbn [seq hd] in Hb. apply (apart_derived m (Split rnd 3 0) (FoldIn rnd 1)); auto. apply part_fold_apart. right; lia.
Qed.
Lemma ebm_x0 s r w len rnd b : In b (chain_keys s r w rnd (seq 1 len)) -> apart Original (Split rnd 3 1) b.
Proof.
  intros Hb. destruct len as [|len]; [contradiction|]. apply (chain_derived Original) in Hb. cbn [seq hd] in Hb.
  apply (apart_derived _ (Split rnd 3 1) (FoldIn rnd 1)); [apply part_fold_apart; left; reflexivity|apply derived_refl|exact Hb].
Qed.
(** Two draws of the same name. *)
Lemma repeated m a b ks l1 l2 : ks = l1 ++ l2 -> In a l1 -> In b l2 -> name m a = name m b -> ~ independent m ks.
Proof.
  intros -> Ha Hb He H. apply independent_iff, pw_nodup in H. apply pw_app in H. destruct H as (_ & _ & H). apply (H a b Ha Hb He).
Qed.
Lemma repeated_prefix m ks ks' pre : (exists l1 l2 a b, ks = l1 ++ l2 /\ In a l1 /\ In b l2 /\ name m a = name m b) -> ks' = pre ++ ks -> ~ independent m ks'.
Proof.
  intros (l1 & l2 & a & b & -> & Ha & Hb & He) ->. apply (repeated m a b _ (pre ++ l1) l2); [apply app_assoc|apply in_or_app; right; exact Ha|exact Hb|exact He].
Qed.
Lemma in_call s r n k i x : i < n -> In x (step_keys s (r i) (Split k n i)) -> In x (call_keys s r (Some n) k).
Proof. intros Hi Hx. cbn. apply in_flat_map. exists i. split; [apply in_seq; lia|exact Hx]. Qed.
(** Newer derivation: instance 2 of step 1 has the key that step 2 splits. *)
Lemma walk_collision r n k T : 3 <= n -> 2 <= T ->
  exists l1 l2 a b, chain_keys KRandomWalk r (Some n) k (seq 1 T) = l1 ++ l2 /\ In a l1 /\ In b l2 /\ name FoldLike a = name FoldLike b.
Proof.
  intros Hn HT. destruct T as [|[|T]]; [lia|lia|]. cbn [seq chain_keys].
  eexists _, _, (Split (Split (Split (FoldIn k 1) n 2) 2 0) 2 1), (Split (Split (FoldIn (FoldIn k 1) 2) n 0) 2 1). split; [reflexivity|]. split; [|split; [|reflexivity]].
  - apply (in_call _ _ _ _ 2); [lia|]. cbn. auto.
  - apply in_or_app. left. apply (in_call _ _ _ _ 0); [lia|]. cbn. auto.
Qed.
(** Newer derivation, one call a step: the third part of step 1 is the key of step 2. *)
Lemma ball_collision b r k T : 1 <= b -> 2 <= T ->
  exists l1 l2 x y, chain_keys (KHammingBall b) r None k (seq 1 T) = l1 ++ l2 /\ In x l1 /\ In y l2 /\ name FoldLike x = name FoldLike y.
Proof.
  intros Hb HT. destruct T as [|[|T]]; [lia|lia|]. cbn [seq chain_keys].
  eexists _, _, (Split (Split (FoldIn k 1) 3 2) 2 0), (Split (FoldIn (FoldIn k 1) 2) 3 0). split; [reflexivity|]. split; [|split; [|reflexivity]].
  - cbn. right. right. apply in_or_app. right. destruct b; [lia|]. left. reflexivity.
  - apply in_or_app. left. left. reflexivity.
Qed.
(** Newer derivation: the key of the initial samples is the key of step 1. *)
Lemma normcut_collision s r n ns rnd T : two_way s = true -> s <> KRandomWalk -> 1 <= n -> 1 <= ns -> 1 <= T ->
  exists a b, In a (start_keys PNormcut ns (Split rnd 3 1)) /\ In b (chain_keys s r (Some n) rnd (seq 1 T)) /\ name FoldLike a = name FoldLike b.
Proof.
  intros Hs Hw Hn Hns HT. destruct T as [|T]; [lia|].
  exists (Split (Split (Split rnd 3 1) ns 0) 2 1), (Split (Split (FoldIn rnd 1) n 0) 2 1). split; [|split; [|reflexivity]].
  - cbn. apply in_flat_map. exists 0. split; [apply in_seq; lia|right; left; reflexivity].
  - cbn [seq chain_keys]. apply in_or_app. left. apply (in_call _ _ _ _ 0); [lia|]. destruct s; try discriminate; try congruence; cbn; auto.
    + apply in_or_app. right. left. reflexivity.
    + right. apply in_or_app. right. left. reflexivity.
Qed.
Lemma step_nonempty s r k : exists x, In x (step_keys s r k).
Proof. destruct s; cbn; try (eexists; left; reflexivity). eexists. apply in_or_app. right. left. reflexivity. Qed.
Lemma chain_nonempty s r n k T : 1 <= n -> 1 <= T -> exists x, In x (chain_keys s r (Some n) k (seq 1 T)).
Proof.
  intros Hn HT. destruct T as [|T]; [lia|]. destruct (step_nonempty s (r 1 0) (Split (FoldIn k 1) n 0)) as (x & Hx). exists x. cbn [seq chain_keys]. apply in_or_app. left.
  apply (in_call _ _ _ _ 0); [lia|exact Hx].
Qed.
