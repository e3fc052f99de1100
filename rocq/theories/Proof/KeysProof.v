(** Keys of draws: independence is distinctness; siblings; the steps of the samplers. *)
From Coq Require Import List Reals Arith Bool Lia Lra.
From Verif.Base Require Import RSum Dist.
From Verif.Model Require Import Utils Keys.
From Verif.Spec Require Import KeysSpec.
Import ListNotations.
Local Open Scope R_scope.

(** ** Independent iff the names are distinct *)
Lemma recall_none {A} n (ans : list ((nat * list label) * A)) : recall n ans = None <-> ~ In n (map fst ans).
Proof.
  induction ans as [|[n' a] ans IH]; cbn; [tauto|]. destruct (name_dec n n') as [->|N]; [split; [discriminate|tauto]|].
  rewrite IH. intuition congruence.
Qed.
Lemma words_fresh {A} m (d : dist A) ks : forall ans f, NoDup (map (name m) ks) -> (forall k, In k ks -> ~ In (name m k) (map fst ans)) ->
  E (words m d ans ks) f = E (indep (repeat d (length ks))) f.
Proof.
  induction ks as [|k ks IH]; intros ans f N D; [reflexivity|]. cbn [words length repeat indep].
  inversion N as [|? ? Nk N']; subst. rewrite (proj2 (recall_none _ _) (D k (or_introl eq_refl))).
  rewrite !E_bind. apply E_ext. intros a. rewrite !E_dmap. apply IH; [exact N'|].
  intros k' Hk' H. cbn in H. destruct H as [H|H]; [apply Nk; rewrite H; apply in_map, Hk'|apply (D k'); [right; exact Hk'|exact H]].
Qed.
Lemma words_consistent m (d : dist bool) ks : forall ans ws w, In (ws, w) (words m d ans ks) ->
  exists g, (forall n a, recall n ans = Some a -> g n = a) /\ ws = map (fun k => g (name m k)) ks.
Proof.
  induction ks as [|k ks IH]; intros ans ws w H; cbn [words] in H.
  - destruct H as [H|[]]. injection H as <- _. exists (fun n => match recall n ans with Some a => a | None => true end).
    split; [intros n a ->; reflexivity|reflexivity].
  - destruct (recall (name m k) ans) as [a|] eqn:Er.
    + unfold dmap in H. apply in_map_iff in H. destruct H as ([ws' w'] & Heq & H). injection Heq as <- _.
      destruct (IH _ _ _ H) as (g & Hg & ->). exists g. split; [exact Hg|]. cbn. rewrite (Hg _ _ Er). reflexivity.
    + unfold bind in H. apply in_flat_map in H. destruct H as ([a wa] & _ & H). apply in_map_iff in H. destruct H as ([q wq] & Heq & H). cbn in H.
      unfold dmap in H. apply in_map_iff in H. destruct H as ([ws' w'] & Heq' & H). cbn in Heq, Heq'. injection Heq as <- _. injection Heq' as <- _.
      destruct (IH _ _ _ H) as (g & Hg & ->). exists g. split.
      * intros n b Hn. apply Hg. cbn [recall]. destruct (name_dec n (name m k)) as [->|]; [congruence|exact Hn].
      * cbn [map]. rewrite (Hg (name m k) a); [reflexivity|]. cbn [recall]. destruct (name_dec (name m k) (name m k)); [reflexivity|congruence].
Qed.
Definition coin : dist bool := [(true, /2); (false, /2)].
Lemma coin_prob : is_prob coin.
Proof. split; [intros p [<-|[<-|[]]]; cbn; lra|unfold mass, E, coin; cbn; lra]. Qed.
Lemma E_coin f : E coin f = / 2 * f true + / 2 * f false.
Proof. unfold E, coin; cbn; lra. Qed.
Lemma indep_coin_mass n : E (indep (repeat coin n)) (fun _ => 1) = 1.
Proof. induction n; cbn [repeat indep]; [unfold E; cbn; lra|]. rewrite E_bind, E_coin, !E_dmap, IHn. lra. Qed.
Lemma indep_coin_one n : forall j (g : bool -> R), (j < n)%nat -> E (indep (repeat coin n)) (fun ws => g (nth j ws true)) = / 2 * g true + / 2 * g false.
Proof.
  induction n as [|n IH]; intros j g Hj; [lia|]. cbn [repeat indep]. rewrite E_bind, E_coin, !E_dmap. destruct j as [|j]; cbn [nth].
  - rewrite (E_ext _ _ (fun ws => g true * (fun _ => 1) ws)) by (intros; lra). rewrite (E_ext _ (fun _ => g false) (fun ws => g false * (fun _ => 1) ws)) by (intros; lra).
    rewrite !E_scal, indep_coin_mass. lra.
  - rewrite (IH j g) by lia. lra.
Qed.
Lemma indep_coin_two n : forall i j (g : bool -> bool -> R), (i < j)%nat -> (j < n)%nat ->
  E (indep (repeat coin n)) (fun ws => g (nth i ws true) (nth j ws true)) = / 2 * (/ 2 * g true true + / 2 * g true false) + / 2 * (/ 2 * g false true + / 2 * g false false).
Proof.
  induction n as [|n IH]; intros i j g Hi Hj; [lia|]. destruct j as [|j]; [lia|]. cbn [repeat indep]. rewrite E_bind, E_coin, !E_dmap. destruct i as [|i]; cbn [nth].
  - rewrite (indep_coin_one n j (g true)), (indep_coin_one n j (g false)) by lia. lra.
  - rewrite (IH i j g) by lia. lra.
Qed.
Lemma nodup_or {B} (dec : forall a b : B, {a = b} + {a <> b}) (l : list B) : NoDup l \/ exists i j a, (i < j)%nat /\ nth_error l i = Some a /\ nth_error l j = Some a.
Proof.
  induction l as [|x l IH]; [left; constructor|]. destruct (in_dec dec x l) as [H|H].
  - right. apply In_nth_error in H. destruct H as (j & Hj). exists 0%nat, (S j), x. repeat split; [lia|exact Hj].
  - destruct IH as [N|(i & j & a & Hij & Hi & Hj)]; [left; constructor; assumption|]. right. exists (S i), (S j), a. repeat split; [lia|exact Hi|exact Hj].
Qed.
Theorem independent_iff m ks : independent m ks <-> NoDup (map (name m) ks).
Proof.
  split.
  - intros H. destruct (nodup_or name_dec (map (name m) ks)) as [N|(i & j & n & Hij & Hi & Hj)]; [exact N|exfalso].
    assert (Lj : (j < length ks)%nat) by (rewrite <- (map_length (name m)); apply nth_error_Some; congruence).
    specialize (H bool coin (fun ws => if Bool.eqb (nth i ws true) (nth j ws true) then 0 else 1) coin_prob).
    rewrite (indep_coin_two (length ks) i j (fun a b => if Bool.eqb a b then 0 else 1) Hij Lj) in H. cbn in H.
    rewrite (E_ext_in _ _ (fun _ => 0 * 1)) in H.
    + rewrite E_scal in H. lra.
    + intros ws w Hw. destruct (words_consistent _ _ _ _ _ _ Hw) as (g & _ & ->).
      rewrite nth_error_map in Hi, Hj. destruct (nth_error ks i) as [ki|] eqn:Ei; [|discriminate]. destruct (nth_error ks j) as [kj|] eqn:Ej; [|discriminate].
      injection Hi as Hi. injection Hj as Hj.
      rewrite (nth_error_nth (map (fun k => g (name m k)) ks) i true (x := g (name m ki))) by (rewrite nth_error_map, Ei; reflexivity).
      rewrite (nth_error_nth (map (fun k => g (name m k)) ks) j true (x := g (name m kj))) by (rewrite nth_error_map, Ej; reflexivity).
      rewrite Hi, Hj, Bool.eqb_reflx. lra.
  - intros N A d f _. apply words_fresh; [exact N|]. intros k _ [].
Qed.

(** ** Pairs *)
Section Pairs.
Variable B : Type.
Variable R : B -> B -> Prop.
Fixpoint pw (l : list B) : Prop := match l with [] => True | x :: l' => (forall y, In y l' -> R x y) /\ pw l' end.
Lemma pw_app a b : pw (a ++ b) <-> pw a /\ pw b /\ forall x y, In x a -> In y b -> R x y.
Proof.
  induction a as [|x a IH]; cbn; [firstorder|]. rewrite IH. setoid_rewrite in_app_iff. split.
  - intros (H & Ha & Hb & Hab). repeat split; auto. intros u v [<-|Hu] Hv; auto.
  - intros ((Hx & Ha) & Hb & Hab). repeat split; auto. intros y [Hy|Hy]; auto.
Qed.
Lemma pw_flat {C} (f : C -> list B) (cs : list C) : NoDup cs -> (forall c, In c cs -> pw (f c)) ->
  (forall c c' x y, In c cs -> In c' cs -> c <> c' -> In x (f c) -> In y (f c') -> R x y) -> pw (flat_map f cs).
Proof.
  induction cs as [|c cs IH]; intros N H X; [exact I|]. cbn. inversion N; subst. apply pw_app. split; [apply H; left; reflexivity|]. split.
  - apply IH; auto; [intros; apply H; right; assumption|]. intros c1 c2 x y H1' H2' Hd Hx Hy. exact (X c1 c2 x y (or_intror H1') (or_intror H2') Hd Hx Hy).
  - intros x y Hx Hy. apply in_flat_map in Hy. destruct Hy as (c' & Hc' & Hy). apply (X c c'); auto; [left; reflexivity|right; assumption|]. intros <-. contradiction.
Qed.
End Pairs.
Arguments pw {B}.
Lemma pw_impl {B} (R R' : B -> B -> Prop) l : (forall x y, R x y -> R' x y) -> pw R l -> pw R' l.
Proof. intros H. induction l; cbn; firstorder. Qed.
Lemma pw_nodup {B C} (f : B -> C) l : pw (fun x y => f x <> f y) l <-> NoDup (map f l).
Proof.
  induction l as [|x l IH]; cbn; [split; constructor|]. rewrite IH. split.
  - intros (H & N). constructor; [|exact N]. intros Hi. apply in_map_iff in Hi. destruct Hi as (y & Hy & Hi). apply (H y Hi). congruence.
  - intros N. inversion N as [|? ? Hn Hr]; subst. split; [|exact Hr]. intros y Hy He. apply Hn. rewrite He. apply in_map, Hy.
Qed.

(** ** Derivations *)
Lemma derived_refl m k : derived m k k.
Proof. split; [reflexivity|exists []; reflexivity]. Qed.
Lemma derived_trans m a b c : derived m a b -> derived m b c -> derived m a c.
Proof. intros (S1 & l1 & P1) (S2 & l2 & P2). split; [congruence|]. exists (l2 ++ l1). rewrite P2, P1. apply app_assoc. Qed.
Lemma derived_split m k n i : derived m k (Split k n i).
Proof. split; [reflexivity|]. exists [part_label m n i]. reflexivity. Qed.
Lemma derived_fold m k d : derived m k (FoldIn k d).
Proof. split; [reflexivity|]. exists [fold_label m d]. reflexivity. Qed.
Definition apart m a b := ~ derived m a b /\ ~ derived m b a.
Lemma apart_sym m a b : apart m a b -> apart m b a.
Proof. unfold apart; tauto. Qed.
Lemma apart_name m a b : apart m a b -> name m a <> name m b.
Proof. intros (H & _) He. apply H. unfold name in He. injection He as Hs Hp. split; [congruence|]. exists []. rewrite Hp. reflexivity. Qed.
Lemma suffix_cmp {B} (p q r : list B) l1 l2 : l1 ++ p = r -> l2 ++ q = r -> (exists l, p = l ++ q) \/ (exists l, q = l ++ p).
Proof.
  intros H1 H2. assert (He : l1 ++ p = l2 ++ q) by congruence. clear H1 H2 r. revert l2 He. induction l1 as [|x l1 IH]; intros l2 He.
  - left. exists l2. exact He.
  - destruct l2 as [|y l2]; [right; exists (x :: l1); symmetry; exact He|]. cbn in He. injection He as _ He. apply (IH l2), He.
Qed.
(** What is derived from separated keys is separated. *)
Lemma apart_derived m a b a' b' : apart m a b -> derived m a a' -> derived m b b' -> apart m a' b'.
Proof.
  assert (H : forall a b a' b', apart m a b -> derived m a a' -> derived m b b' -> ~ derived m a' b').
  { clear. intros a b a' b' (N1 & N2) (S1 & l1 & P1) (S2 & l2 & P2) (S3 & l3 & P3).
    assert (Hs : seed a = seed b) by congruence. destruct (suffix_cmp (path m a) (path m b) (path m b') (l3 ++ l1) l2) as [(l & Hl)|(l & Hl)].
    - rewrite <- app_assoc, <- P1. symmetry; exact P3.
    - symmetry; exact P2.
    - apply N2. split; [exact Hs|exists l; exact Hl].
    - apply N1. split; [symmetry; exact Hs|exists l; exact Hl]. }
  intros Hab Ha Hb. split; [apply (H a b); assumption|apply (H b a); [apply apart_sym|..]; assumption].
Qed.
Definition child m (l : label) (k k' : key) := seed k' = seed k /\ path m k' = l :: path m k.
Lemma siblings m k l l' a b : l <> l' -> child m l k a -> child m l' k b -> apart m a b.
Proof.
  assert (H : forall l l' a b, l <> l' -> child m l k a -> child m l' k b -> ~ derived m a b).
  { clear. intros l l' a b N (S1 & P1) (S2 & P2) (S3 & q & P3). rewrite P1, P2 in P3. destruct q as [|x q]; [cbn in P3; congruence|].
    cbn in P3. injection P3 as _ P3. apply (f_equal (@length _)) in P3. rewrite app_length in P3. cbn in P3. lia. }
  intros N Ha Hb. split; [apply (H l l')|apply (H l' l)]; auto.
Qed.
Lemma child_split m k n i : child m (part_label m n i) k (Split k n i).
Proof. split; reflexivity. Qed.
Lemma child_fold m k d : child m (fold_label m d) k (FoldIn k d).
Proof. split; reflexivity. Qed.
Lemma parts_apart m k n n' i j : i <> j -> apart m (Split k n i) (Split k n' j).
Proof. intros N. eapply siblings; [|apply child_split|apply child_split]. destruct m; cbn; congruence. Qed.
Lemma part_fold_apart m k n i d : (m = Original \/ i <> d) -> apart m (Split k n i) (FoldIn k d).
Proof. intros N. eapply siblings; [|apply child_split|apply child_fold]. destruct m; cbn; [congruence|]. destruct N; congruence. Qed.
Lemma roots_apart m a b : seed a <> seed b -> apart m a b.
Proof. intros N. split; intros (H & _); congruence. Qed.
Lemma derived_proper m a b : derived m a b -> (length (path m a) < length (path m b))%nat -> name m a <> name m b.
Proof. intros _ H He. unfold name in He. injection He as _ Hp. rewrite Hp in H. lia. Qed.

(** ** Steps of the samplers *)
Lemma loop_derived m n : forall k x, In x (loop_keys k n) -> derived m k x.
Proof.
  induction n as [|n IH]; intros k x H; cbn in H; [contradiction|]. destruct H as [<-|H]; [apply derived_split|].
  apply (derived_trans m _ (Split k 2 1)); [apply derived_split|apply IH, H].
Qed.
Lemma loop_apart m n : forall k, pw (apart m) (loop_keys k n).
Proof.
  induction n as [|n IH]; intros k; cbn; [exact I|]. split; [|apply IH]. intros y Hy. apply loop_derived with (m := m) in Hy.
  apply (apart_derived m (Split k 2 0) (Split k 2 1)); [apply parts_apart; lia|apply derived_refl|exact Hy].
Qed.
Definition three_way (s : stepper) : bool := match s with KHammingBall _ => true | _ => false end.
Definition regular (s : stepper) : bool := match s with KPathAux true => false | _ => true end.
Ltac der := repeat first [apply derived_refl | apply derived_split | (eapply derived_trans; [|apply derived_split])].
Ltac sib k n i j := apply (apart_derived _ (Split k n i) (Split k n j)); [apply parts_apart; lia|solve [der]|solve [der]].
Ltac sibl := match goal with k : key |- _ => first [apply parts_apart; lia | sib k 2%nat 0%nat 1%nat | sib k 3%nat 0%nat 1%nat | sib k 3%nat 0%nat 2%nat | sib k 3%nat 1%nat 2%nat
  | apply (apart_derived _ (Split (Split k 3 1) 2 1) (Split (Split k 3 1) 2 0)); [apply parts_apart; lia|solve [der]|solve [der]]] end.
Lemma step_two m s r k x : two_way s = true -> In x (step_keys s r k) -> exists i, (i < 2)%nat /\ derived m (Split k 2 i) x.
Proof.
  destruct s; cbn; try discriminate; intros _ H.
  - destruct H as [<-|[<-|[<-|[]]]]; [exists 0%nat|exists 0%nat|exists 1%nat]; (split; [lia|der]).
  - destruct H as [<-|[<-|[]]]; [exists 0%nat|exists 1%nat]; (split; [lia|der]).
  - apply in_app_or in H. destruct H as [H|[<-|[]]]; [exists 0%nat; split; [lia|]; eapply loop_derived, H|exists 1%nat; split; [lia|der]].
  - destruct many; cbn in H; [destruct H as [<-|[<-|[<-|[]]]]|destruct H as [<-|[<-|[]]]]; first [exists 0%nat; split; [lia|solve [der]]|exists 1%nat; split; [lia|solve [der]]].
  - destruct H as [<-|[<-|[]]]; [exists 0%nat|exists 1%nat]; (split; [lia|der]).
  - destruct H as [<-|[<-|[]]]; [exists 0%nat|exists 1%nat]; (split; [lia|der]).
  - destruct H as [<-|[<-|[]]]; [exists 0%nat|exists 1%nat]; (split; [lia|der]).
Qed.
Lemma step_three m b r k x : In x (step_keys (KHammingBall b) r k) -> exists i, (i < 3)%nat /\ derived m (Split k 3 i) x.
Proof.
  cbn. intros [<-|[<-|H]]; [exists 0%nat; split; [lia|der]|exists 1%nat; split; [lia|der]|]. apply in_app_or in H. destruct H as [H|H].
  - apply in_map_iff in H. destruct H as (i & <- & _). exists 1%nat. split; [lia|der].
  - exists 2%nat. split; [lia|]. eapply loop_derived, H.
Qed.
Lemma step_derived m s r k x : In x (step_keys s r k) -> derived m k x.
Proof.
  intros H. destruct (two_way s) eqn:E2; [destruct (step_two m s r k x E2 H) as (i & _ & D); apply (derived_trans m _ (Split k 2 i)); [apply derived_split|exact D]|].
  destruct s; try discriminate; try (destruct H as [<-|[]]; apply derived_refl).
  destruct (step_three m _ _ _ _ H) as (i & _ & D). apply (derived_trans m _ (Split k 3 i)); [apply derived_split|exact D].
Qed.
Lemma step_apart m s r k : regular s = true -> pw (apart m) (step_keys s r k).
Proof.
  destruct s; cbn [regular]; intros Hr; try (cbn; split; [intros y []|exact I]).
  - cbn. split; [intros y [<-|[<-|[]]]; sibl|]. split; [intros y [<-|[]]; sibl|]. split; [intros y []|exact I].
  - cbn. split; [|split].
    + intros y [<-|Hy]; [sibl|]. apply in_app_or in Hy. destruct Hy as [Hy|Hy]; [apply in_map_iff in Hy; destruct Hy as (i & <- & _); sibl|].
      eapply apart_derived; [apply (parts_apart m k 3 3 0 2); lia|der|eapply loop_derived, Hy].
    + intros y Hy. apply in_app_or in Hy. destruct Hy as [Hy|Hy]; [apply in_map_iff in Hy; destruct Hy as (i & <- & _); sibl|].
      eapply apart_derived; [apply (parts_apart m k 3 3 1 2); lia|der|eapply loop_derived, Hy].
    + apply pw_app. split; [|split; [apply loop_apart|]].
      * generalize (seq_NoDup batch 0). generalize (seq 0 batch) as l. generalize batch at 1 as n. intros n l. induction l as [|i l IH]; intros N; cbn; [exact I|]. inversion N; subst.
        split; [|apply IH; assumption]. intros y Hy. apply in_map_iff in Hy. destruct Hy as (j & <- & Hj). apply parts_apart. intros <-. contradiction.
      * intros x y Hx Hy. apply in_map_iff in Hx. destruct Hx as (i & <- & _). eapply apart_derived; [apply (parts_apart m k 3 3 1 2); lia|der|eapply loop_derived, Hy].
  - cbn. split; [intros y [<-|[]]; sibl|]. split; [intros y []|exact I].
  - cbn. apply pw_app. split; [apply loop_apart|]. split; [cbn; split; [intros y []|exact I]|]. intros x y Hx [<-|[]].
    eapply apart_derived; [apply (parts_apart m k 2 2 0 1); lia|eapply loop_derived, Hx|der].
  - destruct many; [discriminate|]. cbn. split; [intros y [<-|[]]; sibl|]. split; [intros y []|exact I].
  - cbn. split; [intros y [<-|[]]; sibl|]. split; [intros y []|exact I].
  - cbn. split; [intros y [<-|[]]; sibl|]. split; [intros y []|exact I].
  - cbn. split; [intros y [<-|[]]; sibl|]. split; [intros y []|exact I].
Qed.
Definition differ m a b := name m a <> name m b.
Lemma step_differ m s r k : pw (differ m) (step_keys s r k).
Proof.
  destruct (regular s) eqn:E; [eapply pw_impl; [|apply step_apart, E]; apply apart_name|]. destruct s; try discriminate. destruct many; [|discriminate]. cbn.
  split; [intros y [<-|[<-|[]]]|split; [intros y [<-|[]]|split; [intros y []|exact I]]].
  - intros He. injection He as He. apply (f_equal (@length _)) in He. cbn in He. lia.
  - apply apart_name. sibl.
  - apply apart_name. sibl.
Qed.
