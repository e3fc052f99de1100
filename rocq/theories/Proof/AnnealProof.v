(** Proofs about annealed runs: the reported best value. *)
From Coq Require Import Reals List Lra Lia Arith Bool.
From Verif.Base Require Import RSum Cube Dist MH.
From Verif.Spec Require Import Chain Ergodic.
From Verif.Model Require Import MathUtil Gibbs RandomWalk LocallyBalanced GWG PathAux Experiment Annealing.
From Verif.Proof Require Import MHKernel MathUtilProof GibbsProof ChainProof RandomWalkProof GWGProof LangevinProof PathAuxProof NoReplProof LangevinAdapt ExperimentProof LBProof ScanProof ErgodicProof ErgodicSamplers ErgodicPath.
Import ListNotations.
Local Open Scope R_scope.

(** ** The reported value against the visited states *)
Definition seen {A} (L : nat) (good : A -> bool) (p : list (nat * list A)) : bool :=
  existsb (fun q => Nat.eqb (fst q mod L) 0 && existsb good (snd q)) p.
Definition is_opt {A} (obj : A -> R) (opt : R) (x : A) : bool := if Req_EM_T (obj x) opt then true else false.

Lemma report_seen {A} (S : list A) (obj : A -> R) ref zeros L opt p : 0 < ref -> - IZR 1000000000 < opt / ref ->
  (forall x, In x S -> obj x <= opt) -> (forall q, In q p -> snd q <> [] /\ forall y, In y (snd q) -> In y S) ->
  (co_report obj ref zeros L p = opt / ref <-> seen L (is_opt obj opt) p = true) /\ (co_report obj ref zeros L p <= opt / ref).
Proof.
  intros Hr Hlo Hmax Hp. unfold co_report.
  set (steps := map (fun q : nat * list A => (fst q, (map obj (snd q), snd q))) p).
  assert (Hin : forall s, In s (co_logged L steps) -> exists q, In q p /\ (fst q mod L = 0)%nat /\ s = (map obj (snd q), snd q)).
  { intros s Hs. unfold co_logged in Hs. apply in_map_iff in Hs. destruct Hs as ([s0 s1] & <- & Hs). apply filter_In in Hs.
    destruct Hs as [Hs Hm]. unfold steps in Hs. apply in_map_iff in Hs. destruct Hs as (q & Heq & Hq). injection Heq as <- <-.
    exists q. split; [exact Hq |]. split; [apply Nat.eqb_eq; exact Hm | reflexivity]. }
  assert (Hwf : forall s, In s (co_logged L steps) -> wf_step A s).
  { intros s Hs. destruct (Hin s Hs) as (q & Hq & _ & ->). destruct (Hp q Hq) as [Hne _]. split; cbn [fst snd].
    - destruct (snd q); [congruence | discriminate].
    - apply map_length. }
  destruct (co_run_best A ref zeros Hr L steps Hwf) as [H1 H2].
  assert (Hle : fst (co_run ref zeros L steps) <= opt / ref).
  { destruct H2 as [-> | (s & k & u & Hs & Hu & _ & ->)]; [cbn [co_init fst]; lra |].
    destruct (Hin s Hs) as (q & Hq & _ & ->). cbn [fst] in Hu. apply nth_error_In, in_map_iff in Hu. destruct Hu as (y & <- & Hy).
    apply Rmult_le_compat_r; [left; apply Rinv_0_lt_compat; exact Hr |]. apply Hmax. apply (Hp q Hq). exact Hy. }
  split; [| exact Hle]. split.
  - intros He. destruct H2 as [H2 | (s & k & u & Hs & Hu & _ & H2)]; [rewrite H2 in He; cbn [co_init fst] in He; lra |].
    destruct (Hin s Hs) as (q & Hq & Hm & ->). cbn [fst] in Hu. apply nth_error_In, in_map_iff in Hu. destruct Hu as (y & Hy1 & Hy).
    unfold seen. apply existsb_exists. exists q. split; [exact Hq |]. apply andb_true_iff. split; [apply Nat.eqb_eq; exact Hm |].
    apply existsb_exists. exists y. split; [exact Hy |]. unfold is_opt. destruct Req_EM_T as [_ | n]; [reflexivity |]. exfalso. apply n.
    rewrite Hy1. rewrite H2 in He. apply (Rmult_eq_reg_r (/ ref)); [exact He | apply Rgt_not_eq, Rinv_0_lt_compat; exact Hr].
  - intros Hs. apply Rle_antisym; [exact Hle |]. unfold seen in Hs. apply existsb_exists in Hs. destruct Hs as (q & Hq & Hs).
    apply andb_true_iff in Hs. destruct Hs as [Hm Hs]. apply existsb_exists in Hs. destruct Hs as (y & Hy & Ho).
    unfold is_opt in Ho. destruct Req_EM_T as [e | n]; [| discriminate]. rewrite <- e. apply (H1 (map obj (snd q), snd q)).
    + unfold co_logged. apply in_map_iff. exists (fst q, (map obj (snd q), snd q)). split; [reflexivity |]. apply filter_In. split; [| exact Hm].
      unfold steps. apply in_map_iff. exists q. split; [reflexivity | exact Hq].
    + cbn [fst]. apply in_map. exact Hy.
Qed.

(** ** Probability of missing every good state *)
Fixpoint unseen {A} (L : nat) (good : A -> bool) (k : nat -> A -> dist A) (n t : nat) (x : A) : R :=
  match n with
  | O => 1
  | S n' => E (k t x) (fun y => if Nat.eqb (t mod L) 0 && good y then 0 else unseen L good k n' (S t) y)
  end.

Lemma E_indep_rprod {A} (k : A -> dist A) g xs : E (indep (map k xs)) (fun ys => rprod ys g) = rprod xs (fun x => E (k x) g).
Proof.
  induction xs as [| x xs IH]; [cbn [map indep rprod]; rewrite E_ret; reflexivity |].
  cbn [map rprod]. rewrite E_indep_cons. cbn [rprod]. rewrite (E_ext _ _ (fun a => rprod xs (fun x => E (k x) g) * g a)).
  - rewrite E_scal. ring.
  - intros a. rewrite E_scal, IH. ring.
Qed.

Lemma rprod_guard {A} (good : A -> bool) (h : A -> R) ys : (if existsb good ys then 0 else rprod ys h) = rprod ys (fun y => if good y then 0 else h y).
Proof.
  induction ys as [| y ys IH]; [reflexivity |]. cbn [existsb rprod]. destruct (good y); cbn [orb]; [ring |].
  rewrite <- IH. destruct (existsb good ys); ring.
Qed.

Lemma path_unseen {A} L (good : A -> bool) (k : nat -> A -> dist A) n : forall t xs,
  E (co_path (fun s => batch_step (k s)) n t xs) (fun p => if seen L good p then 0 else 1) = rprod xs (unseen L good k n t).
Proof.
  induction n as [| n IH]; intros t xs.
  - cbn [co_path]. rewrite E_ret. cbn [seen existsb unseen]. induction xs as [| x xs IHx]; [reflexivity |]. cbn [rprod]. rewrite <- IHx. ring.
  - cbn [co_path]. rewrite E_bind. unfold batch_step at 1.
    rewrite (E_ext _ _ (fun ys => rprod ys (fun y => if Nat.eqb (t mod L) 0 && good y then 0 else unseen L good k n (S t) y))).
    + rewrite E_indep_rprod. reflexivity.
    + intros ys. rewrite E_dmap. destruct (Nat.eqb (t mod L) 0) eqn:Em; cbn [andb].
      * rewrite <- rprod_guard, <- IH. cbn [seen existsb fst snd]. rewrite Em. cbn [andb]. destruct (existsb good ys); cbn [orb]; [| reflexivity].
        rewrite (E_const _ 0). ring.
      * rewrite <- IH. apply E_ext. intros p. cbn [seen existsb fst snd]. rewrite Em. reflexivity.
Qed.

Section Bound.
  Context {A : Type} (S : list A) (L : nat) (good : A -> bool) (k : nat -> A -> dist A).
  Hypothesis Hk : forall t, proper S (k t).

  Lemma unseen_range n : forall t x, In x S -> 0 <= unseen L good k n t x <= 1.
  Proof.
    induction n as [| n IH]; intros t x Hx; cbn [unseen]; [lra |].
    destruct (Hk t x Hx) as [[P1 P2] P3].
    split.
    - apply Rle_trans with (E (k t x) (fun _ => 0)); [rewrite E_const; lra |]. apply E_le_in; auto. intros y w Hy. destruct (_ && _); [lra | apply IH; exact (P3 y w Hy)].
    - rewrite <- P2. unfold mass. apply E_le_in; auto. intros y w Hy. destruct (_ && _); [lra | apply IH; exact (P3 y w Hy)].
  Qed.

  Lemma unseen_block m n : forall t x, (0 < m)%nat -> ((t + m - 1) mod L = 0)%nat -> In x S ->
    unseen L good k (m + n) t x <= E (run_seq k m t x) (fun y => if good y then 0 else unseen L good k n (t + m) y).
  Proof.
    induction m as [| m IH]; intros t x Hm HL Hx; [lia |]. cbn [Nat.add unseen run_seq]. rewrite E_bind.
    destruct (Hk t x Hx) as [[P1 P2] P3]. apply E_le_in; auto. intros y w Hy. specialize (P3 y w Hy).
    destruct m as [| m].
    - cbn [Nat.add run_seq]. rewrite E_ret. replace (t + 1 - 1)%nat with t in HL by lia. rewrite HL. cbn [Nat.eqb andb].
      replace (t + 1)%nat with (Datatypes.S t) by lia. right. reflexivity.
    - replace (t + Datatypes.S (Datatypes.S m))%nat with (Datatypes.S t + Datatypes.S m)%nat by lia.
      apply Rle_trans with (unseen L good k (Datatypes.S m + n) (Datatypes.S t) y).
      + destruct (_ && _); [apply unseen_range; exact P3 | right; reflexivity].
      + apply IH; [lia | | exact P3]. rewrite <- HL. f_equal. lia.
  Qed.

  (** Blocks of [m] steps, each of which ends in a good state with probability at least [e]. *)
  Theorem unseen_bound m e : (0 < m)%nat -> (m mod L = 0)%nat -> 0 <= e <= 1 ->
    (forall q x, In x S -> e <= E (run_seq k m (1 + q * m) x) (fun y => if good y then 1 else 0)) ->
    forall n x, In x S -> unseen L good k n 1 x <= (1 - e) ^ (n / m).
  Proof.
    intros Hm HL He Hhit.
    assert (HB : forall j r q x, In x S -> unseen L good k (j * m + r) (1 + q * m) x <= (1 - e) ^ j).
    { induction j as [| j IH]; intros r q x Hx; [cbn [Nat.mul Nat.add pow]; apply unseen_range; exact Hx |].
      replace (Datatypes.S j * m + r)%nat with (m + (j * m + r))%nat by lia.
      eapply Rle_trans; [apply unseen_block; [exact Hm | | exact Hx] |].
      - replace (1 + q * m + m - 1)%nat with (m * (Datatypes.S q))%nat by lia.
        destruct (Nat.eq_dec L 0) as [-> | HL0]; [simpl in *; rewrite ?HL; simpl; nia |].
        rewrite Nat.mul_mod, HL by exact HL0. rewrite Nat.mul_0_l. apply Nat.mod_0_l. exact HL0.
      - destruct (run_proper S k Hk m (1 + q * m) x Hx) as [[P1 P2] P3].
        apply Rle_trans with (E (run_seq k m (1 + q * m) x) (fun y => (1 - e) ^ j * 1 - (1 - e) ^ j * (if good y then 1 else 0))).
        + apply E_le_in; auto. intros y w Hy. specialize (P3 y w Hy). destruct (good y); [lra |].
          replace (1 + q * m + m)%nat with (1 + Datatypes.S q * m)%nat by lia. specialize (IH r (Datatypes.S q) y P3). lra.
        + rewrite E_minus, !E_scal. change (E (run_seq k m (1 + q * m) x) (fun _ => 1)) with (mass (run_seq k m (1 + q * m) x)). rewrite P2.
          specialize (Hhit q x Hx). assert (0 <= (1 - e) ^ j) by (apply pow_le; lra). cbn [pow]. nra. }
    intros n x Hx. pose proof (Nat.div_mod n m ltac:(lia)) as Hn. rewrite Hn at 1. rewrite Nat.mul_comm.
    exact (HB (n / m)%nat (n mod m)%nat 0%nat x Hx).
  Qed.
End Bound.

Lemma rprod_le_pow {A} (xs : list A) (h : A -> R) c : (forall x, In x xs -> 0 <= h x <= c) -> rprod xs h <= c ^ length xs.
Proof.
  intros H. assert (HH : 0 <= rprod xs h <= c ^ length xs); [| tauto].
  induction xs as [| x xs IH]; cbn [rprod length pow]; [lra |].
  destruct (H x (or_introl eq_refl)) as [H1 H2]. destruct IH as [H3 H4]; [intros y Hy; apply H; right; exact Hy |].
  split; [apply Rmult_le_pos; lra |]. apply Rmult_le_compat; lra.
Qed.

Lemma co_path_support {A} (S : list A) (k : nat -> A -> dist A) : (forall t, proper S (k t)) -> forall n t xs p w,
  xs <> [] -> (forall x, In x xs -> In x S) -> In (p, w) (co_path (fun s => batch_step (k s)) n t xs) ->
  forall q, In q p -> snd q <> [] /\ forall y, In y (snd q) -> In y S.
Proof.
  intros Hk. induction n as [| n IH]; intros t xs p w Hne Hxs Hp q Hq.
  - destruct Hp as [Hp | []]. injection Hp as <- _. destruct Hq.
  - cbn [co_path] in Hp. unfold bind in Hp. apply in_flat_map in Hp. destruct Hp as ([ys u] & Hys & Hp). apply in_map_iff in Hp.
    destruct Hp as ([p' v] & Heq & Hp). cbn [fst snd] in *. injection Heq as -> _. unfold dmap in Hp. apply in_map_iff in Hp.
    destruct Hp as ([p'' v'] & Heq & Hp). cbn [fst snd] in Heq. injection Heq as <- _.
    assert (HY : ys <> [] /\ forall y, In y ys -> In y S).
    { unfold batch_step in Hys. clear -Hk Hne Hxs Hys. revert ys u Hys Hne Hxs. induction xs as [| x xs IHx]; intros ys u Hys Hne Hxs; [congruence |].
      cbn [map indep] in Hys. unfold bind in Hys. apply in_flat_map in Hys. destruct Hys as ([a u1] & Ha & Hys). apply in_map_iff in Hys.
      destruct Hys as ([l v] & Heq & Hl). cbn [fst snd] in *. injection Heq as -> _. unfold dmap in Hl. apply in_map_iff in Hl.
      destruct Hl as ([l' v'] & Heq & Hl). cbn [fst snd] in Heq. injection Heq as <- _. split; [discriminate |].
      pose proof (proj2 (Hk t x (Hxs x (or_introl eq_refl))) a u1 Ha) as HaS. intros y [<- | Hy]; [exact HaS |].
      destruct xs as [| x' xs]; [destruct Hl as [Hl | []]; injection Hl as <- _; destruct Hy |].
      refine (proj2 (IHx l' v' Hl _ _) y Hy); [discriminate | intros z Hz; apply Hxs; right; exact Hz]. }
    destruct Hq as [<- | Hq]; [exact HY |]. exact (IH (Datatypes.S t) ys p'' v' (proj1 HY) (proj2 HY) Hp q Hq).
Qed.

Lemma co_path_prob {A} (S : list A) (k : nat -> A -> dist A) : (forall t, proper S (k t)) -> forall n t xs,
  (forall x, In x xs -> In x S) -> is_prob (co_path (fun s => batch_step (k s)) n t xs).
Proof.
  intros Hk. induction n as [| n IH]; intros t xs Hxs; [apply is_prob_ret |]. cbn [co_path]. apply is_prob_bind.
  - apply is_prob_indep. intros D HD. apply in_map_iff in HD. destruct HD as (x & <- & Hx). apply (Hk t x (Hxs x Hx)).
  - intros ys u Hys. apply is_prob_dmap, IH. intros y Hy.
    destruct xs as [| x0 xs0]; [destruct Hys as [Hys | []]; injection Hys as <- _; destruct Hy |].
    assert (Hin : In ([(t, ys)], u * 1) (co_path (fun s => batch_step (k s)) 1 t (x0 :: xs0))).
    { cbn [co_path]. unfold bind. apply in_flat_map. exists (ys, u). split; [exact Hys |]. left. reflexivity. }
    destruct (co_path_support S k Hk 1 t (x0 :: xs0) _ _ ltac:(discriminate) Hxs Hin (t, ys) (or_introl eq_refl)) as [_ H]. exact (H y Hy).
Qed.

(** ** The reported optimum *)
Section Report.
  Context {A : Type} (S : list A) (obj : A -> R) (ref : R) (zeros : A) (L : nat) (opt : R) (k : nat -> A -> dist A).
  Hypothesis Hk : forall t, proper S (k t).
  Hypothesis Href : 0 < ref.
  Hypothesis Hlo : - IZR 1000000000 < opt / ref.
  Hypothesis Hmax : forall x, In x S -> obj x <= opt.

  Lemma report_prob n xs : xs <> [] -> (forall x, In x xs -> In x S) ->
    E (co_path (fun s => batch_step (k s)) n 1 xs) (fun p => if Req_EM_T (co_report obj ref zeros L p) (opt / ref) then 1 else 0)
    = 1 - rprod xs (unseen L (is_opt obj opt) k n 1).
  Proof.
    intros Hne Hxs. rewrite <- path_unseen. destruct (co_path_prob S k Hk n 1 xs Hxs) as [_ Hm].
    match goal with |- _ = 1 - ?X => transitivity (mass (co_path (fun s => batch_step (k s)) n 1 xs) - X); [| rewrite Hm; reflexivity] end.
    unfold mass. rewrite <- E_minus. apply E_ext_in. intros p w Hp.
    destruct (report_seen S obj ref zeros L opt p Href Hlo Hmax (co_path_support S k Hk n 1 xs p w Hne Hxs Hp)) as [[H1 H2] _].
    destruct Req_EM_T as [e | ne]; [rewrite (H1 e); ring |]. destruct (seen L (is_opt obj opt) p); [exfalso; auto | ring].
  Qed.

  Theorem report_bound m e : (0 < m)%nat -> (m mod L = 0)%nat -> 0 <= e <= 1 ->
    (forall q x, In x S -> e <= E (run_seq k m (1 + q * m) x) (fun y => if is_opt obj opt y then 1 else 0)) ->
    forall n xs, xs <> [] -> (forall x, In x xs -> In x S) ->
    1 - ((1 - e) ^ (n / m)) ^ length xs <=
    E (co_path (fun s => batch_step (k s)) n 1 xs) (fun p => if Req_EM_T (co_report obj ref zeros L p) (opt / ref) then 1 else 0).
  Proof.
    intros Hm HL He Hhit n xs Hne Hxs. rewrite report_prob by assumption.
    assert (rprod xs (unseen L (is_opt obj opt) k n 1) <= ((1 - e) ^ (n / m)) ^ length xs); [| lra].
    apply rprod_le_pow. intros x Hx. split; [apply (unseen_range S); auto |]. apply (unseen_bound S L _ k Hk m e); auto.
  Qed.
End Report.

(** ** Annealed Gibbs sampler *)
Lemma exp_le a b : a <= b -> exp a <= exp b.
Proof. intros [H | ->]; [left; apply exp_increasing; exact H | right; reflexivity]. Qed.

Lemma tempered_range {A} (S : list A) (obj : A -> R) D T Tmin : 0 < Tmin -> Tmin <= T ->
  (forall x y, In x S -> In y S -> Rabs (obj x - obj y) <= D) ->
  forall x y, In x S -> In y S -> Rabs (tempered obj T x - tempered obj T y) <= D / Tmin.
Proof.
  intros H0 HT HD x y Hx Hy. unfold tempered. replace (obj x / T - obj y / T) with ((obj x - obj y) * / T) by (field; lra).
  rewrite Rabs_mult, (Rabs_right (/ T)) by (left; apply Rinv_0_lt_compat; lra). unfold Rdiv. apply Rmult_le_compat.
  - apply Rabs_pos.
  - left. apply Rinv_0_lt_compat. lra.
  - apply HD; assumption.
  - apply Rinv_le_contravar; assumption.
Qed.

Lemma gibbs_anneal_index obj T d C s : (0 < d)%nat -> gibbs_anneal obj T d C s = gibbs_step (tempered obj (T s)) C ((s - 1) mod d).
Proof. intros Hd. unfold gibbs_anneal. rewrite gibbs_iter_state by exact Hd. reflexivity. Qed.

Lemma gibbs_anneal_proper obj T d C s : (0 < d)%nat -> proper (states d C) (gibbs_anneal obj T d C s).
Proof. intros Hd. rewrite gibbs_anneal_index by exact Hd. apply (gibbs_proper (tempered obj (T s)) d C Hd (s - 1)). Qed.

(** A bound that holds for the last steps of a block holds for the block. *)
Lemma run_tail {A} (S : list A) (k : nat -> A -> dist A) e f m1 m2 t x : (forall s, proper S (k s)) -> In x S ->
  (forall y, In y S -> e <= E (run_seq k m2 (t + m1) y) f) -> e <= E (run_seq k (m1 + m2) t x) f.
Proof.
  intros Hk Hx H. rewrite run_seq_add. destruct (run_proper S k Hk m1 t x Hx) as [[P1 P2] P3].
  apply Rle_trans with (E (run_seq k m1 t x) (fun _ => e)); [rewrite E_const, P2; lra |].
  apply E_le_in; [exact P1 |]. intros y w Hy. apply H. exact (P3 y w Hy).
Qed.

Lemma opt_ge {A} (dec : forall a b : A, {a = b} + {a <> b}) (S : list A) obj opt (d : dist A) y e : is_prob d -> obj y = opt ->
  e <= E d (fun a => if dec a y then 1 else 0) -> e <= E d (fun a => if is_opt obj opt a then 1 else 0).
Proof.
  intros [P1 _] Ho H. eapply Rle_trans; [exact H |]. apply E_le_in; [exact P1 |]. intros a w _. destruct (dec a y) as [-> | _].
  - unfold is_opt. rewrite Ho. destruct Req_EM_T; [lra | congruence].
  - destruct is_opt; lra.
Qed.

Lemma pow_unit c n : 0 <= c <= 1 -> 0 <= c ^ n <= 1.
Proof. intros H. induction n as [| n IH]; cbn [pow]; [lra | nra]. Qed.

Lemma range_nonneg {A} (S : list A) (obj : A -> R) D y : In y S -> (forall x y, In x S -> In y S -> Rabs (obj x - obj y) <= D) -> 0 <= D.
Proof. intros Hy H. specialize (H y y Hy Hy). pose proof (Rabs_pos (obj y - obj y)). lra. Qed.

Theorem gibbs_finds (obj : list nat -> R) T Tmin D opt ref zeros d C L n xs : (0 < d)%nat -> (0 < C)%nat -> (0 < L)%nat ->
  0 < ref -> - IZR 1000000000 < opt / ref -> 0 < Tmin -> (forall s, (1 <= s)%nat -> Tmin <= T s) ->
  (forall x y, In x (states d C) -> In y (states d C) -> Rabs (obj x - obj y) <= D) ->
  (forall x, In x (states d C) -> obj x <= opt) -> (exists x, In x (states d C) /\ obj x = opt) ->
  xs <> [] -> (forall x, In x xs -> In x (states d C)) ->
  1 - ((1 - (exp (- (D / Tmin)) / INR C) ^ d) ^ (n / (d * L))) ^ length xs <=
  E (co_path (fun s => batch_step (gibbs_anneal obj T d C s)) n 1 xs) (fun p => if Req_EM_T (co_report obj ref zeros L p) (opt / ref) then 1 else 0).
Proof.
  intros Hd HC HL Hr Hlo HTm HT HD Hmax (y & Hy & Ho) Hne Hxs.
  assert (HCR : 1 <= INR C) by (change 1 with (INR 1); apply le_INR; lia).
  pose proof (range_nonneg (states d C) obj D y Hy HD) as HD0.
  assert (Hc : 0 <= exp (- (D / Tmin)) / INR C <= 1).
  { assert (0 <= D / Tmin) by (apply Rmult_le_pos; [exact HD0 | left; apply Rinv_0_lt_compat; exact HTm]).
    assert (exp (- (D / Tmin)) <= 1) by (rewrite <- exp_0; apply exp_le; lra). pose proof (exp_pos (- (D / Tmin))).
    assert (0 < / INR C <= 1) by (split; [apply Rinv_0_lt_compat; lra | rewrite <- Rinv_1; apply Rinv_le_contravar; lra]). unfold Rdiv. split; nra. }
  apply (report_bound (states d C)); auto.
  - intros t. apply gibbs_anneal_proper. exact Hd.
  - nia.
  - apply Nat.mod_mul. lia.
  - apply pow_unit. exact Hc.
  - intros q x Hx. replace (d * L)%nat with (d * (L - 1) + d)%nat at 1 by nia.
    apply (run_tail (states d C)); [intros; apply gibbs_anneal_proper; exact Hd | exact Hx |].
    intros u Hu. apply (opt_ge sdec (states d C) obj opt _ y).
    + apply (run_proper (states d C)); [intros; apply gibbs_anneal_proper; exact Hd | exact Hu].
    + exact Ho.
    + apply (gibbs_sweep_ge (fun j => tempered obj (T (1 + q * (d * L) + d * (L - 1) + j)%nat))); auto.
      * intros; apply gibbs_anneal_proper; exact Hd.
      * intros j Hj. rewrite gibbs_anneal_index by exact Hd. f_equal.
        replace (1 + q * (d * L) + d * (L - 1) + j - 1)%nat with (j + (q * L + (L - 1)) * d)%nat by nia. rewrite Nat.mod_add by lia. apply Nat.mod_small. exact Hj.
      * intros j. apply tempered_range; [exact HTm | apply HT; lia | exact HD].
Qed.

(** ** Annealed random walk *)
Theorem rw_finds g (obj : list nat -> R) T Tmin D opt ref zeros radius d C L n xs : (0 < d)%nat -> (2 <= C)%nat -> (0 < L)%nat ->
  0 < radius < INR d -> 0 <= g -> g < exp (- (D / Tmin)) ->
  0 < ref -> - IZR 1000000000 < opt / ref -> 0 < Tmin -> (forall s, (1 <= s)%nat -> Tmin <= T s) ->
  (forall x y, In x (states d C) -> In y (states d C) -> Rabs (obj x - obj y) <= D) ->
  (forall x, In x (states d C) -> obj x <= opt) -> (exists x, In x (states d C) /\ obj x = opt) ->
  xs <> [] -> (forall x, In x xs -> In x (states d C)) ->
  1 - ((1 - (Rmin (radius / INR d) (1 - radius / INR d) / INR (C - 1)) ^ d * (exp (- (D / Tmin)) - g)) ^ (n / L)) ^ length xs <=
  E (co_path (fun s => batch_step (rw_anneal g obj T radius d C s)) n 1 xs) (fun p => if Req_EM_T (co_report obj ref zeros L p) (opt / ref) then 1 else 0).
Proof.
  intros Hd HC HL Hrad Hg HgD Hr Hlo HTm HT HD Hmax (y & Hy & Ho) Hne Hxs.
  pose proof (range_nonneg (states d C) obj D y Hy HD) as HD0.
  assert (HCR : 1 <= INR (C - 1)) by (change 1 with (INR 1); apply le_INR; lia).
  pose proof (rw_p_open d C radius HC Hrad Hd) as Hp.
  assert (He : exp (- (D / Tmin)) <= 1).
  { rewrite <- exp_0. apply exp_le. assert (0 <= D / Tmin) by (apply Rmult_le_pos; [exact HD0 | left; apply Rinv_0_lt_compat; exact HTm]). lra. }
  assert (Hprop : forall t, proper (states d C) (rw_anneal g obj T radius d C t)) by (intros t; apply rw_proper; assumption).
  apply (report_bound (states d C)); auto.
  - apply Nat.mod_same. lia.
  - assert (Hb : 0 <= Rmin (radius / INR d) (1 - radius / INR d) / INR (C - 1) <= 1).
    { assert (0 < / INR (C - 1) <= 1) by (split; [apply Rinv_0_lt_compat; lra | rewrite <- Rinv_1; apply Rinv_le_contravar; lra]).
      assert (0 <= Rmin (radius / INR d) (1 - radius / INR d)) by (apply Rmin_glb; lra). pose proof (Rmin_l (radius / INR d) (1 - radius / INR d)). unfold Rdiv at 1 4. split; nra. }
    pose proof (pow_unit _ d Hb). split; nra.
  - intros q x Hx. replace L with (L - 1 + 1)%nat at 1 by lia. apply (run_tail (states d C)); [exact Hprop | exact Hx |].
    intros u Hu. apply (opt_ge sdec (states d C) obj opt _ y); [apply (run_proper (states d C)); assumption | exact Ho |].
    cbn [run_seq]. rewrite E_bind. rewrite (E_ext _ _ (fun a => if sdec a y then 1 else 0)) by (intros; apply E_ret).
    apply rw_minor; auto. apply tempered_range; [exact HTm | apply HT; lia | exact HD].
Qed.

(** ** Any sampler that converges, at a constant temperature *)
Lemma n_div_large m N : (0 < m)%nat -> forall n, (N * m <= n)%nat -> (N <= n / m)%nat.
Proof. intros Hm n Hn. apply Nat.div_le_lower_bound; [lia |]. lia. Qed.

Theorem convergent_finds {A} (S : list A) (pi obj : A -> R) ref zeros L opt (k : nat -> A -> dist A) P :
  (forall t, proper S (k t)) -> (0 < L)%nat -> (0 < P)%nat -> (forall t, k (P + t)%nat = k t) ->
  converges S pi (fun t => k (Datatypes.S t)) -> (forall x, In x S -> 0 < pi x) ->
  0 < ref -> - IZR 1000000000 < opt / ref -> (forall x, In x S -> obj x <= opt) -> (exists x, In x S /\ obj x = opt) ->
  forall eps, 0 < eps -> exists N, forall n xs, (N <= n)%nat -> xs <> [] -> (forall x, In x xs -> In x S) ->
  1 - eps <= E (co_path (fun s => batch_step (k s)) n 1 xs) (fun p => if Req_EM_T (co_report obj ref zeros L p) (opt / ref) then 1 else 0).
Proof.
  intros Hk HL HP Hper Hc Hpi Hr Hlo Hmax (y & Hy & Ho) eps Heps.
  set (f := fun a => if is_opt obj opt a then 1 else 0).
  assert (HZ : 0 < rsum S pi) by (apply rsum_pos; [intros ->; destruct Hy | exact Hpi]).
  assert (Hp : 0 < mean S pi f).
  { unfold mean. apply Rdiv_lt_0_compat; [| exact HZ]. apply Rlt_le_trans with (pi y * f y).
    - unfold f, is_opt. rewrite Ho. destruct Req_EM_T; [| congruence]. specialize (Hpi y Hy). lra.
    - apply (rsum_ge_term S (fun y => pi y * f y) y Hy). intros x Hx. specialize (Hpi x Hx). unfold f. destruct is_opt; lra. }
  assert (Hf : forall x, Rabs (f x) <= 1) by (intros x; unfold f; destruct is_opt; rewrite ?Rabs_R1, ?Rabs_R0; lra).
  destruct (Hc (mean S pi f / 2) ltac:(lra)) as [N0 HN0].
  set (m := (L * P * (N0 + 1))%nat). assert (Hm : (0 < m)%nat) by (unfold m; nia).
  set (e := Rmin (mean S pi f / 2) (/ 2)).
  assert (He : 0 < e <= / 2) by (split; [apply Rmin_glb_lt; lra | apply Rmin_r]).
  destruct (pow_lt_1_zero (1 - e) ltac:(rewrite Rabs_right; lra) eps Heps) as [N1 HN1].
  exists (N1 * m)%nat. intros n xs Hn Hne Hxs.
  eapply Rle_trans; [| apply (report_bound S obj ref zeros L opt k Hk Hr Hlo Hmax m e)]; auto.
  - specialize (HN1 (n / m)%nat (n_div_large m N1 Hm n Hn)). rewrite Rabs_right in HN1 by (apply Rle_ge, pow_le; lra).
    assert (HH : 0 <= (1 - e) ^ (n / m) <= 1) by (apply pow_unit; lra). set (h := (1 - e) ^ (n / m)) in *.
    destruct xs as [| x xs]; [congruence |]. cbn [length pow]. pose proof (pow_unit h (length xs) HH). nra.
  - unfold m. replace (L * P * (N0 + 1))%nat with ((P * (N0 + 1)) * L)%nat by lia. apply Nat.mod_mul. lia.
  - lra.
  - intros q x Hx.
    assert (Hq : forall j t, k (j * P + t)%nat = k t).
    { induction j as [| j IH]; intros t; [reflexivity |]. replace (Datatypes.S j * P + t)%nat with (P + (j * P + t))%nat by lia. rewrite Hper. apply IH. }
    rewrite (run_seq_shift k m (1 + q * m) 1) by (intros i; replace (1 + q * m + i)%nat with ((q * (L * (N0 + 1))) * P + (1 + i))%nat by (unfold m; nia); apply Hq).
    assert (Hsh : forall n t x, run_seq k n (Datatypes.S t) x = run_seq (fun t => k (Datatypes.S t)) n t x).
    { induction n0 as [| n0 IH]; intros t z; [reflexivity |]. cbn [run_seq]. unfold bind. apply flat_map_ext. intros p. rewrite IH. reflexivity. }
    rewrite Hsh. specialize (HN0 m x f ltac:(unfold m; nia) Hx (fun z _ => Hf z)). apply Rabs_def2_le in HN0.
    pose proof (Rmin_l (mean S pi f / 2) (/ 2)). fold e in H. fold f. lra.
Qed.

(** ** Concentration of the target at a low temperature *)
Theorem cold_target {A} (S : list A) (obj : A -> R) opt gap T : 0 < T -> (exists x, In x S /\ obj x = opt) ->
  (forall x, In x S -> obj x = opt \/ obj x <= opt - gap) ->
  mean S (fun x => exp (tempered obj T x)) (fun x => if Req_EM_T (obj x) opt then 0 else 1) <= INR (length S) * exp (- (gap / T)).
Proof.
  intros HT (y & Hy & Ho) Hgap. unfold mean, tempered.
  assert (HZ : exp (opt / T) <= rsum S (fun x => exp (obj x / T))).
  { rewrite <- Ho. apply (rsum_ge_term S (fun x => exp (obj x / T)) y Hy). intros; left; apply exp_pos. }
  pose proof (exp_pos (opt / T)) as Hpos.
  apply (Rmult_le_reg_r (rsum S (fun x => exp (obj x / T)))); [lra |]. unfold Rdiv at 1. rewrite Rmult_assoc, Rinv_l, Rmult_1_r by lra.
  apply Rle_trans with (INR (length S) * exp (- (gap / T)) * exp (opt / T)).
  - rewrite Rmult_assoc, <- exp_plus, <- rsum_const. apply rsum_le. intros x Hx. destruct Req_EM_T as [e | ne].
    + rewrite Rmult_0_r. left. apply exp_pos.
    + rewrite Rmult_1_r. apply exp_le. destruct (Hgap x Hx) as [H | H]; [contradiction |].
      replace (- (gap / T) + opt / T) with ((opt - gap) / T) by (field; lra). apply Rmult_le_compat_r; [left; apply Rinv_0_lt_compat; exact HT | exact H].
  - apply Rmult_le_compat_l; [| exact HZ]. apply Rmult_le_pos; [apply pos_INR | left; apply exp_pos].
Qed.

(** ** Runs that cannot reach the optimum *)
Lemma unseen_stuck {A} L (good : A -> bool) (k : nat -> A -> dist A) (P : A -> Prop) :
  (forall t x f, (1 <= t)%nat -> P x -> (forall y, P y -> f y = 1) -> E (k t x) f = 1) -> (forall x, P x -> good x = false) ->
  forall n t x, (1 <= t)%nat -> P x -> unseen L good k n t x = 1.
Proof.
  intros Hk Hg. induction n as [| n IH]; intros t x Ht Hx; [reflexivity |]. cbn [unseen]. apply Hk; [exact Ht | exact Hx |].
  intros y Hy. rewrite (Hg y Hy), andb_false_r. apply IH; [lia | exact Hy].
Qed.

Theorem stuck_never {A} (S : list A) (obj : A -> R) ref zeros L opt (k : nat -> A -> dist A) (P : A -> Prop) n xs :
  (forall t, proper S (k t)) -> 0 < ref -> - IZR 1000000000 < opt / ref -> (forall x, In x S -> obj x <= opt) ->
  (forall t x f, (1 <= t)%nat -> P x -> (forall y, P y -> f y = 1) -> E (k t x) f = 1) -> (forall x, P x -> obj x <> opt) ->
  xs <> [] -> (forall x, In x xs -> In x S /\ P x) ->
  E (co_path (fun s => batch_step (k s)) n 1 xs) (fun p => if Req_EM_T (co_report obj ref zeros L p) (opt / ref) then 1 else 0) = 0.
Proof.
  intros Hp Hr Hlo Hmax Hk Hno Hne Hxs. rewrite (report_prob S obj ref zeros L opt k Hp Hr Hlo Hmax n xs Hne) by (intros x Hx; apply (Hxs x Hx)).
  assert (H : rprod xs (unseen L (is_opt obj opt) k n 1) = 1); [| lra].
  clear Hne. induction xs as [| x xs IH]; [reflexivity |]. cbn [rprod]. rewrite IH by (intros y Hy; apply Hxs; right; exact Hy).
  rewrite (unseen_stuck L (is_opt obj opt) k P Hk); [ring | | lia | apply (Hxs x (or_introl eq_refl))].
  intros z Hz. unfold is_opt. destruct Req_EM_T as [e | _]; [destruct (Hno z Hz e) | reflexivity].
Qed.

Theorem pafs_never g (obj : list nat -> R) T mask nf d ref zeros L opt n xs : (1 <= nf <= d)%nat -> Nat.Even nf ->
  0 < ref -> - IZR 1000000000 < opt / ref -> (forall x, In x (states d 2) -> obj x <= opt) ->
  xs <> [] -> (forall x y, In x xs -> In x (states d 2) /\ (In y (states d 2) -> obj y = opt -> Nat.even (list_sum x) <> Nat.even (list_sum y))) ->
  E (co_path (fun s => batch_step (pafs_anneal g obj T mask nf s)) n 1 xs) (fun p => if Req_EM_T (co_report obj ref zeros L p) (opt / ref) then 1 else 0) = 0.
Proof.
  intros Hnf [h He] Hr Hlo Hmax Hne Hxs. subst nf.
  apply (stuck_never (states d 2) obj ref zeros L opt _ (fun z => In z (states d 2) /\ exists x, In x xs /\ par z = par x)); auto.
  - intros t. apply pafs_proper. exact Hnf.
  - intros t x f _ [Hx (x0 & Hx0 & Hpar)] Hf. unfold pafs_anneal. rewrite (pafs_step_E _ _ _ mask d (2 * h) Hnf) by exact Hx. unfold mh_kernel. rewrite E_bind.
    rewrite (E_ext_in _ _ (fun _ => 1)).
    + rewrite E_const. rewrite (proj2 (prop_prob _ _ mask d (2 * h) Hnf x (proj1 (proj1 (in_states d 2 x) Hx)))). ring.
    + intros a u Ha. apply in_norepl in Ha. apply in_kperms in Ha; [| apply seq_NoDup]. destruct Ha as (H1 & H2 & H3).
      assert (Hfl : f (flip_idx a x) = 1).
      { apply Hf. split; [apply flip_idx_in; exact Hx |]. exists x0. split; [exact Hx0 |]. rewrite (par_flip_idx d); [| exact Hx | exact H2 |].
        - rewrite H1, pow_1_even, Hpar. ring.
        - intros i Hi. apply H3 in Hi. apply in_seq in Hi. lia. }
      rewrite E_mh_law, Hfl, (Hf x); [ring |]. split; [exact Hx |]. exists x0. auto.
  - intros z [Hz (x & Hx & Hpar)] Ho. destruct (Hxs x z Hx) as [_ H]. apply (H Hz Ho). symmetry. clear -Hpar. unfold par in Hpar.
    assert (Hev : forall m, (-1) ^ m = if Nat.even m then 1 else -1).
    { intros m. destruct (Nat.even m) eqn:Em.
      - apply Nat.even_spec in Em. destruct Em as [q ->]. apply pow_1_even.
      - assert (Nat.odd m = true) by (unfold Nat.odd; rewrite Em; reflexivity). apply Nat.odd_spec in H. destruct H as [q ->].
        rewrite Nat.add_1_r. apply pow_1_odd. }
    rewrite !Hev in Hpar. destruct (Nat.even (list_sum z)), (Nat.even (list_sum x)); auto; lra.
  - intros x Hx. split; [apply (Hxs x x Hx) |]. split; [apply (Hxs x x Hx) |]. exists x. auto.
Qed.

(** A local optimum whose margin is large against the temperature: no proposal is ever accepted. *)
Lemma neg_sign_sq b : (b < 2)%nat -> (1 - 2 * INR b) * (1 - 2 * INR b) = 1.
Proof. intros H. destruct b as [| [| b]]; [| | lia]; simpl; ring. Qed.

Lemma gwg_trap_acc fw d x i : In x (states d 2) -> (i < d)%nat ->
  exp (gwg_log_acc fw (fun t => t / 2) (flip_grad fw) None x [i])
  = rsum (seq 0 d) (fun j => exp ((fw (neighbor x j) - fw x) / 2)) / rsum (seq 0 d) (fun j => exp ((fw (neighbor (neighbor x i) j) - fw (neighbor x i)) / 2)).
Proof.
  intros Hx Hi.
  assert (Hsc : forall z, In z (states d 2) -> map (fun j => mask_score None j ((1 - 2 * INR (nth j z 0%nat)) * flip_grad fw z j / 2)) (seq 0 (length z))
                        = map (fun j => (fw (neighbor z j) - fw z) / 2) (seq 0 d)).
  { intros z Hz. rewrite (proj1 (proj1 (in_states d 2 z) Hz)). apply map_ext_in. intros j Hj. apply in_seq in Hj. cbn [mask_score]. unfold flip_grad.
    pose proof (neg_sign_sq (nth j z 0%nat) ltac:(apply (in_states_nth d 2 z j); [exact Hz | lia])) as Hsq.
    set (a := 1 - 2 * INR (nth j z 0%nat)) in *. replace (a * (a * (fw (neighbor z j) - fw z)) / 2) with (a * a * (fw (neighbor z j) - fw z) / 2) by field. rewrite Hsq. field. }
  assert (Hy : In (neighbor x i) (states d 2)) by (apply neighbor_states; exact Hx).
  assert (Hse : forall z, sumexp (map (fun j => (fw (neighbor z j) - fw z) / 2) (seq 0 d)) = rsum (seq 0 d) (fun j => exp ((fw (neighbor z j) - fw z) / 2))).
  { intros z. unfold sumexp. rewrite rsum_map. reflexivity. }
  assert (Hpos : forall z, 0 < rsum (seq 0 d) (fun j => exp ((fw (neighbor z j) - fw z) / 2))).
  { intros z. apply rsum_pos; [destruct d; [lia | discriminate] | intros; apply exp_pos]. }
  unfold gwg_log_acc. change (flip_idx [i] x) with (neighbor x i). unfold gwg_ll. cbn [rsum]. unfold gwg_dist_at.
  rewrite (Hsc x Hx), (Hsc _ Hy). rewrite !nth_log_softmax by (rewrite map_length, seq_length; exact Hi). rewrite !Hse.
  rewrite !(nth_map_seq _ d) by exact Hi.
  rewrite (neighbor_involutive d x i Hx).
  set (zx := rsum (seq 0 d) (fun j => exp ((fw (neighbor x j) - fw x) / 2))).
  set (zy := rsum (seq 0 d) (fun j => exp ((fw (neighbor (neighbor x i) j) - fw (neighbor x i)) / 2))).
  replace (_ - _) with (ln zx + - ln zy) by field.
  rewrite exp_plus, exp_Ropp, !exp_ln by (unfold zx, zy; apply Hpos). reflexivity.
Qed.

Theorem gwg_trapped g (obj : list nat -> R) T Tmax delta d ref zeros L opt n xs : (0 < d)%nat ->
  0 < ref -> - IZR 1000000000 < opt / ref -> (forall x, In x (states d 2) -> obj x <= opt) ->
  (forall s, (1 <= s)%nat -> 0 < T s <= Tmax) -> 0 <= delta -> INR d * exp (- (delta / Tmax)) <= g ->
  xs <> [] ->
  (forall x, In x xs -> In x (states d 2) /\ obj x <> opt /\ forall i, (i < d)%nat -> obj (neighbor x i) <= obj x - delta) ->
  E (co_path (fun s => batch_step (gwg_anneal g obj T None 1 s)) n 1 xs) (fun p => if Req_EM_T (co_report obj ref zeros L p) (opt / ref) then 1 else 0) = 0.
Proof.
  intros Hd Hr Hlo Hmax HT Hdel Hg Hne Hxs.
  apply (stuck_never (states d 2) obj ref zeros L opt _ (fun z => In z xs)); auto.
  - intros t. apply gwg_proper; exact Hd.
  - intros s x f Hs Hx Hf. destruct (Hxs x Hx) as (HxS & Hno & Hm). unfold gwg_anneal.
    destruct (HT s Hs) as [HT0 HT1]. unfold gwg_step. rewrite E_bind.
    destruct (gwg_hyps (fun t => t / 2) (flip_grad (tempered obj (T s))) None d 1 Hd) as [HP HE].
    rewrite (E_ext_in _ _ (fun _ => 1)).
    + rewrite E_const, (proj2 (HP x HxS)). ring.
    + intros idx w Hidx. assert (Hi : exists i, idx = [i] /\ (i < d)%nat).
      { unfold multinomial_repl_law in Hidx. cbn [repeat indep] in Hidx. unfold bind in Hidx. apply in_flat_map in Hidx. destruct Hidx as ([i u] & Hi & Hidx).
        cbn [dmap map ret fst snd] in Hidx. destruct Hidx as [Hidx | []]. injection Hidx as <- _. exists i. split; [reflexivity |].
        unfold categorical, weighted in Hi. apply in_map_iff in Hi. destruct Hi as (i' & Heq & Hi). injection Heq as <- _. apply in_seq in Hi.
        rewrite gwg_dist_length, (proj1 (proj1 (in_states d 2 x) HxS)) in Hi. lia. }
      destruct Hi as (i & -> & Hi). rewrite E_mh_law, (Hf x Hx).
      assert (Hacc : accept_prob g (gwg_log_acc (tempered obj (T s)) (fun t => t / 2) (flip_grad (tempered obj (T s))) None x [i]) = 0); [| rewrite Hacc; ring].
      unfold accept_prob. apply Rmax_left. eapply Rle_trans; [apply Rmin_r |].
      rewrite (gwg_trap_acc _ d) by assumption. set (fw := tempered obj (T s)) in *.
      set (b := delta / T s).
      assert (Hb : delta / Tmax <= b) by (unfold b, Rdiv; apply Rmult_le_compat_l; [exact Hdel | apply Rinv_le_contravar; assumption]).
      assert (HZx : rsum (seq 0 d) (fun j => exp ((fw (neighbor x j) - fw x) / 2)) <= INR d * exp (- b / 2)).
      { rewrite <- (seq_length d 0) at 2. rewrite <- rsum_const. apply rsum_le. intros j Hj. apply in_seq in Hj. apply exp_le. unfold fw, tempered, b.
        replace (- (delta / T s) / 2) with (- delta * (/ T s / 2)) by (field; lra). replace ((obj (neighbor x j) / T s - obj x / T s) / 2) with ((obj (neighbor x j) - obj x) * (/ T s / 2)) by (field; lra).
        apply Rmult_le_compat_r; [| specialize (Hm j ltac:(lia)); lra]. pose proof (Rinv_0_lt_compat (T s) HT0). lra. }
      assert (HZy : exp (b / 2) <= rsum (seq 0 d) (fun j => exp ((fw (neighbor (neighbor x i) j) - fw (neighbor x i)) / 2))).
      { eapply Rle_trans; [| apply (rsum_ge_term _ _ i)]; [| apply in_seq; lia | intros; left; apply exp_pos]. cbv beta. rewrite (neighbor_involutive d x i HxS).
        apply exp_le. unfold fw, tempered, b.
        replace (delta / T s / 2) with (delta * (/ T s / 2)) by (field; lra). replace ((obj x / T s - obj (neighbor x i) / T s) / 2) with ((obj x - obj (neighbor x i)) * (/ T s / 2)) by (field; lra).
        apply Rmult_le_compat_r; [| specialize (Hm i Hi); lra]. pose proof (Rinv_0_lt_compat (T s) HT0). lra. }
      pose proof (exp_pos (b / 2)) as Hpb.
      assert (Hq : rsum (seq 0 d) (fun j => exp ((fw (neighbor x j) - fw x) / 2)) / rsum (seq 0 d) (fun j => exp ((fw (neighbor (neighbor x i) j) - fw (neighbor x i)) / 2))
                   <= INR d * exp (- (delta / Tmax))); [| lra].
      match goal with |- ?X / ?Y <= _ => apply (Rmult_le_reg_r Y); [lra |]; unfold Rdiv at 1; rewrite Rmult_assoc, Rinv_l, Rmult_1_r by lra end.
      eapply Rle_trans; [exact HZx |]. apply Rle_trans with (INR d * exp (- (delta / Tmax)) * exp (b / 2)).
      * rewrite Rmult_assoc. apply Rmult_le_compat_l; [apply pos_INR |]. rewrite <- exp_plus. apply exp_le. lra.
      * apply Rmult_le_compat_l; [| exact HZy]. apply Rmult_le_pos; [apply pos_INR | left; apply exp_pos].
  - intros z Hz. apply (Hxs z Hz).
  - intros x Hx. split; [apply (Hxs x Hx) | exact Hx].
Qed.

Theorem never_above {A} (S : list A) (obj : A -> R) ref zeros L opt (k : nat -> A -> dist A) n xs :
  (forall t, proper S (k t)) -> 0 < ref -> - IZR 1000000000 < opt / ref -> (forall x, In x S -> obj x <= opt) ->
  xs <> [] -> (forall x, In x xs -> In x S) ->
  E (co_path (fun s => batch_step (k s)) n 1 xs) (fun p => if Rlt_dec (opt / ref) (co_report obj ref zeros L p) then 1 else 0) = 0.
Proof.
  intros Hk Hr Hlo Hmax Hne Hxs. rewrite (E_ext_in _ _ (fun _ => 0)); [rewrite E_const; ring |]. intros p w Hp.
  destruct (report_seen S obj ref zeros L opt p Hr Hlo Hmax (co_path_support S k Hk n 1 xs p w Hne Hxs Hp)) as [_ H].
  destruct Rlt_dec; [lra | reflexivity].
Qed.

Theorem gibbs_finds_limit (obj : list nat -> R) Tmin D opt ref zeros d C L : (0 < d)%nat -> (0 < C)%nat -> (0 < L)%nat ->
  0 < ref -> - IZR 1000000000 < opt / ref -> 0 < Tmin ->
  (forall x y, In x (states d C) -> In y (states d C) -> Rabs (obj x - obj y) <= D) ->
  (forall x, In x (states d C) -> obj x <= opt) -> (exists x, In x (states d C) /\ obj x = opt) ->
  forall eps, 0 < eps -> exists N, forall n T xs, (N <= n)%nat -> (forall s, (1 <= s)%nat -> Tmin <= T s) ->
  xs <> [] -> (forall x, In x xs -> In x (states d C)) ->
  1 - eps <= E (co_path (fun s => batch_step (gibbs_anneal obj T d C s)) n 1 xs) (fun p => if Req_EM_T (co_report obj ref zeros L p) (opt / ref) then 1 else 0).
Proof.
  intros Hd HC HL Hr Hlo HTm HD Hmax Hex eps Heps.
  set (c := exp (- (D / Tmin)) / INR C).
  assert (HCR : 1 <= INR C) by (change 1 with (INR 1); apply le_INR; lia).
  assert (HD0 : 0 <= D) by (destruct Hex as (y & Hy & _); exact (range_nonneg (states d C) obj D y Hy HD)).
  assert (Hc : 0 < c <= 1).
  { unfold c. assert (0 <= D / Tmin) by (apply Rmult_le_pos; [exact HD0 | left; apply Rinv_0_lt_compat; exact HTm]).
    assert (exp (- (D / Tmin)) <= 1) by (rewrite <- exp_0; apply exp_le; lra). pose proof (exp_pos (- (D / Tmin))).
    assert (0 < / INR C <= 1) by (split; [apply Rinv_0_lt_compat; lra | rewrite <- Rinv_1; apply Rinv_le_contravar; lra]). unfold Rdiv. split; nra. }
  assert (He : 0 < c ^ d <= 1) by (split; [apply pow_lt; lra | apply pow_unit; lra]).
  destruct (pow_lt_1_zero (1 - c ^ d) ltac:(rewrite Rabs_right; lra) eps Heps) as [N1 HN1].
  assert (Hm : (0 < d * L)%nat) by nia.
  exists (N1 * (d * L))%nat. intros n T xs Hn HT Hne Hxs.
  eapply Rle_trans; [| apply (gibbs_finds obj T Tmin D)]; auto. fold c.
  specialize (HN1 (n / (d * L))%nat (n_div_large (d * L) N1 Hm n Hn)). rewrite Rabs_right in HN1 by (apply Rle_ge, pow_le; lra).
  assert (HH : 0 <= (1 - c ^ d) ^ (n / (d * L)) <= 1) by (apply pow_unit; lra). set (h := (1 - c ^ d) ^ (n / (d * L))) in *.
  destruct xs as [| x xs]; [congruence |]. cbn [length pow]. pose proof (pow_unit h (length xs) HH). nra.
Qed.

Lemma two_pow_exp n : 2 ^ n <= exp (INR n).
Proof.
  induction n as [| n IH]; [simpl; rewrite exp_0; lra |]. rewrite S_INR, exp_plus. cbn [pow].
  pose proof (exp_ineq1_le 1). assert (0 < 2 ^ n) by (apply pow_lt; lra). nra.
Qed.

Lemma exp_neg_tiny : INR 2 * exp (- INR 100) <= acc_guard.
Proof.
  rewrite exp_Ropp. pose proof (two_pow_exp 100) as H. assert (H2 : 2 * 10 ^ 24 <= 2 ^ 100).
  { replace (2 ^ 100) with (IZR (2 ^ 100)) by (rewrite <- pow_IZR with (n := 100%nat); f_equal). replace (10 ^ 24) with (IZR (10 ^ 24)) by (rewrite <- pow_IZR with (n := 24%nat); f_equal).
    rewrite <- mult_IZR. apply IZR_le. vm_compute. discriminate. }
  assert (0 < 10 ^ 24) by (apply pow_lt; lra). unfold acc_guard. change (INR 2) with 2. set (a := exp (INR 100)) in *. set (b := 10 ^ 24) in *.
  assert (Ha : 2 * b <= a) by lra. apply (Rmult_le_reg_r a); [lra |]. rewrite Rmult_assoc, Rinv_l by lra. apply (Rmult_le_reg_r b); [lra |].
  replace (/ b * a * b) with a by (field; lra). lra.
Qed.
