(** Convergence of finite chains by minorisation. *)
From Coq Require Import Reals List Lra Lia Arith.
From Verif.Base Require Import RSum Cube Dist MH.
From Verif.Spec Require Import Chain Ergodic.
From Verif.Proof Require Import ChainProof.
Import ListNotations.
Local Open Scope R_scope.

Lemma E_le_in {A} (d : dist A) f g : (forall p, In p d -> 0 <= snd p) -> (forall a w, In (a, w) d -> f a <= g a) -> E d f <= E d g.
Proof.
  intros Hp H. unfold E. apply rsum_le. intros [a w] Hin. simpl. apply Rmult_le_compat_l; [apply (Hp _ Hin)|]. eapply H; eauto.
Qed.

Lemma finite_min {A} (l : list A) (g : A -> R) : (forall a, In a l -> 0 < g a) -> exists e, 0 < e /\ forall a, In a l -> e <= g a.
Proof.
  induction l as [|a l IH]; intros H; [exists 1; split; [lra|intros a []]|].
  destruct IH as (e & He & Hl); [intros; apply H; right; auto|].
  exists (Rmin e (g a)). split; [apply Rmin_glb_lt; auto; apply H; left; auto|].
  intros b [->|Hb]; [apply Rmin_r|]. eapply Rle_trans; [apply Rmin_l|auto].
Qed.

Lemma run_seq_add {A} (k : nat -> A -> dist A) n m : forall t x f,
  E (run_seq k (n + m) t x) f = E (run_seq k n t x) (fun y => E (run_seq k m (t + n) y) f).
Proof.
  induction n as [|n IH]; intros t x f; simpl.
  - rewrite E_ret, Nat.add_0_r. reflexivity.
  - rewrite !E_bind. apply E_ext. intros a. rewrite IH. apply E_ext. intros b. do 2 f_equal. lia.
Qed.

Lemma run_seq_shift {A} (k : nat -> A -> dist A) n : forall t t' x,
  (forall i, k (t + i)%nat = k (t' + i)%nat) -> run_seq k n t x = run_seq k n t' x.
Proof.
  induction n as [|n IH]; intros t t' x H; simpl; auto.
  rewrite <- (Nat.add_0_r t), <- (Nat.add_0_r t') at 1. rewrite H. unfold bind. apply flat_map_ext. intros p.
  rewrite (IH (Datatypes.S t) (Datatypes.S t')); auto. intros i. specialize (H (Datatypes.S i)). rewrite !Nat.add_succ_r in H. exact H.
Qed.

Section Conv.
  Context {A : Type}.
  Variable dec : forall a b : A, {a = b} + {a <> b}.
  Variables (S : list A) (pi : A -> R) (k : nat -> A -> dist A).
  Hypothesis HS : NoDup S.
  Hypothesis Hk : forall t, proper S (k t).

  Lemma run_proper n : forall t, proper S (run_seq k n t).
  Proof.
    induction n as [|n IH]; intros t x Hx; simpl.
    - split; [apply is_prob_ret|]. intros y w [H|[]]. inversion H; subst; auto.
    - destruct (Hk t x Hx) as [H1 H2]. split.
      + apply is_prob_bind; auto. intros a w Ha. apply (IH (Datatypes.S t) a (H2 a w Ha)).
      + intros y w Hy. unfold bind in Hy. apply in_flat_map in Hy. destruct Hy as ([a u] & Ha & Hy).
        apply in_map_iff in Hy. destruct Hy as ([b v] & Heq & Hb). inversion Heq; subst. simpl in *.
        apply (proj2 (IH (Datatypes.S t) a (H2 a u Ha)) y v Hb).
  Qed.

  Lemma proper_range (step : A -> dist A) x f lo hi : proper S step -> In x S ->
    (forall y, In y S -> lo <= f y <= hi) -> lo <= E (step x) f <= hi.
  Proof.
    intros Hp Hx Hf. destruct (Hp x Hx) as [[P1 P2] P3]. split.
    - rewrite <- (Rmult_1_l lo), <- P2, <- E_const. apply E_le_in; auto. intros a w Ha. apply Hf. eapply P3; eauto.
    - rewrite <- (Rmult_1_l hi), <- P2, <- E_const. apply E_le_in; auto. intros a w Ha. apply Hf. eapply P3; eauto.
  Qed.

  Lemma E_on (step : A -> dist A) x f : proper S step -> In x S ->
    E (step x) f = rsum S (fun y => f y * E (step x) (fun z => if dec z y then 1 else 0)).
  Proof.
    intros Hp Hx. destruct (Hp x Hx) as [_ P3].
    transitivity (E (step x) (fun z => rsum S (fun y => f y * (if dec z y then 1 else 0)))).
    - apply E_ext_in. intros a w Ha. rewrite (rsum_single S _ a HS (P3 a w Ha)).
      + destruct (dec a a); [lra|congruence].
      + intros b Hb Hne. destruct (dec a b); [congruence|lra].
    - unfold E. rewrite (rsum_ext (step x) _ (fun p => rsum S (fun y => f y * (snd p * (if dec (fst p) y then 1 else 0)))))
        by (intros p _; rewrite <- rsum_scal; apply rsum_ext; intros; ring).
      rewrite rsum_swap. apply rsum_ext. intros y _. rewrite rsum_scal. reflexivity.
  Qed.

  (** A step giving every state probability at least [e0] shrinks the range of every function. *)
  Lemma minor_shrink (step : A -> dist A) e0 f lo hi : proper S step -> 0 <= e0 ->
    (forall x y, In x S -> In y S -> e0 <= E (step x) (fun z => if dec z y then 1 else 0)) ->
    (forall y, In y S -> lo <= f y <= hi) ->
    exists lo' hi', lo <= lo' /\ hi' <= hi /\ hi' - lo' = (1 - e0 * INR (length S)) * (hi - lo) /\
      forall x, In x S -> lo' <= E (step x) f <= hi'.
  Proof.
    intros Hp He Hmin Hf.
    assert (Hlow : forall x g, In x S -> (forall y, In y S -> 0 <= g y) -> e0 * rsum S g <= E (step x) g).
    { intros x g Hx Hg. rewrite (E_on step x g Hp Hx), <- rsum_scal. apply rsum_le. intros y Hy.
      rewrite Rmult_comm. apply Rmult_le_compat_l; auto. }
    exists (lo + e0 * rsum S (fun y => f y - lo)), (hi - e0 * rsum S (fun y => hi - f y)).
    assert (H1 : 0 <= rsum S (fun y => f y - lo)) by (apply rsum_nonneg; intros y Hy; specialize (Hf y Hy); lra).
    assert (H2 : 0 <= rsum S (fun y => hi - f y)) by (apply rsum_nonneg; intros y Hy; specialize (Hf y Hy); lra).
    assert (H3 : rsum S (fun y => f y - lo) + rsum S (fun y => hi - f y) = INR (length S) * (hi - lo)).
    { rewrite <- rsum_plus, (rsum_ext S _ (fun _ => hi - lo)) by (intros; ring). rewrite rsum_const. ring. }
    pose proof (Rmult_le_pos _ _ He H1). pose proof (Rmult_le_pos _ _ He H2).
    split; [lra|]. split; [lra|]. split.
    - replace (rsum S (fun y => hi - f y)) with (INR (length S) * (hi - lo) - rsum S (fun y => f y - lo)) by lra. ring.
    - intros x Hx. destruct (Hp x Hx) as [[P1 P2] P3].
      assert (M : forall c, E (step x) (fun _ => c) = c) by (intros c; rewrite E_const, P2; ring).
      pose proof (Hlow x (fun y => f y - lo) Hx ltac:(intros y Hy; specialize (Hf y Hy); lra)) as K1.
      pose proof (Hlow x (fun y => hi - f y) Hx ltac:(intros y Hy; specialize (Hf y Hy); lra)) as K2.
      rewrite E_minus, M in K1, K2. lra.
  Qed.

  Lemma minor_le1 (step : A -> dist A) e0 x : proper S step -> In x S ->
    (forall y, In y S -> e0 <= E (step x) (fun z => if dec z y then 1 else 0)) -> e0 * INR (length S) <= 1.
  Proof.
    intros Hp Hx Hmin. destruct (Hp x Hx) as [[P1 P2] P3].
    pose proof (E_on step x (fun _ => 1) Hp Hx) as H. unfold mass in P2. rewrite P2 in H.
    rewrite (rsum_ext S _ (fun y => E (step x) (fun z => if dec z y then 1 else 0))) in H by (intros; ring).
    rewrite H, Rmult_comm, <- rsum_const. apply rsum_le. auto.
  Qed.

  Lemma mean_range f lo hi : (forall x, In x S -> 0 <= pi x) -> 0 < rsum S pi -> (forall y, In y S -> lo <= f y <= hi) ->
    lo <= mean S pi f <= hi.
  Proof.
    intros Hpi HZ Hf. unfold mean. split; apply (Rmult_le_reg_r (rsum S pi)); auto.
    - unfold Rdiv. rewrite Rmult_assoc, Rinv_l, Rmult_1_r, <- rsum_scal by lra. apply rsum_le. intros y Hy.
      rewrite Rmult_comm. apply Rmult_le_compat_l; auto. apply Hf; auto.
    - unfold Rdiv. rewrite Rmult_assoc, Rinv_l, Rmult_1_r, <- rsum_scal by lra. apply rsum_le. intros y Hy.
      rewrite (Rmult_comm hi). apply Rmult_le_compat_l; auto. apply Hf; auto.
  Qed.

  (** ** Periodic schedules with a minorised period *)
  Section Periodic.
    Variables (m : nat) (e0 : R).
    Hypothesis Hm : (0 < m)%nat.
    Hypothesis Hper : forall t, k (m + t)%nat = k t.
    Hypothesis He0 : 0 <= e0.
    Hypothesis Hmin : forall x y, In x S -> In y S -> e0 <= E (run_seq k m 0 x) (fun z => if dec z y then 1 else 0).

    Lemma run_block_shift n q x : run_seq k n (q * m) x = run_seq k n 0 x.
    Proof.
      apply run_seq_shift. intros i. induction q as [|q IH]; [reflexivity|].
      simpl. rewrite <- Nat.add_assoc. rewrite Hper. exact IH.
    Qed.

    Lemma blocks_shrink q : forall f lo hi, (forall y, In y S -> lo <= f y <= hi) ->
      exists lo' hi', hi' - lo' = (1 - e0 * INR (length S)) ^ q * (hi - lo) /\
        forall x, In x S -> lo' <= E (run_seq k (q * m) 0 x) f <= hi'.
    Proof.
      induction q as [|q IH]; intros f lo hi Hf.
      - exists lo, hi. split; [simpl; ring|]. intros x Hx. simpl. rewrite E_ret. auto.
      - destruct (IH f lo hi Hf) as (lo' & hi' & Hd & Hr).
        destruct (minor_shrink (run_seq k m 0) e0 (fun y => E (run_seq k (q * m) 0 y) f) lo' hi' (run_proper m 0) He0 Hmin Hr)
          as (lo2 & hi2 & _ & _ & Hd2 & Hr2).
        exists lo2, hi2. split; [rewrite Hd2, Hd; simpl; ring|].
        intros x Hx. replace (Datatypes.S q * m)%nat with (m + q * m)%nat by reflexivity. rewrite run_seq_add.
        rewrite (E_ext _ _ (fun y => E (run_seq k (q * m) 0 y) f)); [auto|].
        intros y. pose proof (run_block_shift (q * m) 1 y) as Hsh. rewrite Nat.mul_1_l in Hsh. simpl. rewrite Hsh. reflexivity.
    Qed.

    Theorem periodic_rate : (forall t, invariant S pi (k t)) -> (forall x, In x S -> 0 <= pi x) -> 0 < rsum S pi ->
      forall n x f, In x S -> (forall y, In y S -> Rabs (f y) <= 1) ->
      Rabs (E (run_seq k n 0 x) f - mean S pi f) <= 2 * (1 - e0 * INR (length S)) ^ (n / m).
    Proof.
      intros Hinv Hpi HZ n x f Hx Hf.
      pose proof (Nat.div_mod n m ltac:(lia)) as Hn. set (q := (n / m)%nat) in *. set (r := (n mod m)%nat) in *.
      set (g := fun y => E (run_seq k r 0 y) f).
      assert (Hg : forall y, In y S -> -1 <= g y <= 1).
      { intros y Hy. apply proper_range; auto; [apply run_proper|]. intros z Hz. apply Rabs_def2_le; auto. }
      destruct (blocks_shrink q g (-1) 1 Hg) as (lo & hi & Hd & Hr).
      assert (Heq : forall y, E (run_seq k n 0 y) f = E (run_seq k (q * m) 0 y) g).
      { intros y. replace n with (q * m + r)%nat by lia. rewrite run_seq_add. apply E_ext. intros z. unfold g.
        rewrite Nat.add_0_l, run_block_shift. reflexivity. }
      assert (Hmean : mean S pi f = mean S pi (fun y => E (run_seq k n 0 y) f)).
      { unfold mean. f_equal. symmetry. apply (run_seq_invariant S pi k Hinv n 0). }
      assert (lo <= mean S pi f <= hi).
      { rewrite Hmean. apply mean_range; auto. intros y Hy. rewrite Heq. auto. }
      specialize (Hr x Hx). rewrite <- Heq in Hr. apply Rabs_le. lra.
    Qed.
  End Periodic.

  Lemma pow_small rho eps : 0 <= rho < 1 -> 0 < eps -> exists N, forall n, (N <= n)%nat -> rho ^ n <= eps.
  Proof.
    intros Hr He. destruct (pow_lt_1_zero rho ltac:(rewrite Rabs_right; lra) eps He) as [N HN].
    exists N. intros n Hn. specialize (HN n Hn). rewrite Rabs_right in HN by (apply Rle_ge, pow_le; lra). lra.
  Qed.

  Theorem periodic_converges m : (0 < m)%nat -> (forall t, k (m + t)%nat = k t) ->
    (forall t, invariant S pi (k t)) -> (forall x, In x S -> 0 <= pi x) -> 0 < rsum S pi ->
    (forall x y, In x S -> In y S -> can_move dec (run_seq k m 0) x y) -> converges S pi k.
  Proof.
    intros Hm Hper Hinv Hpi HZ Hpos eps Heps.
    destruct S as [|s0 S0] eqn:ES; [simpl in HZ; lra|]. rewrite <- ES in *.
    destruct (finite_min (list_prod S S) (fun p => E (run_seq k m 0 (fst p)) (fun z => if dec z (snd p) then 1 else 0))) as (e0 & He0 & Hmin).
    { intros [x y] Hp. apply in_prod_iff in Hp. destruct Hp. apply Hpos; auto. }
    assert (Hmin' : forall x y, In x S -> In y S -> e0 <= E (run_seq k m 0 x) (fun z => if dec z y then 1 else 0))
      by (intros x y Hx Hy; apply (Hmin (x, y)); apply in_prod_iff; auto).
    assert (Hs0 : In s0 S) by (rewrite ES; left; auto).
    pose proof (minor_le1 (run_seq k m 0) e0 s0 (run_proper m 0) Hs0 ltac:(intros; apply Hmin'; auto)) as Hle.
    assert (HL : 0 < INR (length S)) by (rewrite ES; apply lt_0_INR; simpl; lia).
    pose proof (Rmult_lt_0_compat _ _ He0 HL) as Hpos1.
    destruct (pow_small (1 - e0 * INR (length S)) (eps / 2) ltac:(lra) ltac:(lra)) as [N HN].
    exists (N * m)%nat. intros n x f Hn Hx Hf.
    eapply Rle_trans; [apply (periodic_rate m e0 Hm Hper ltac:(lra) Hmin' Hinv Hpi HZ n x f Hx Hf)|].
    assert (N <= n / m)%nat by (apply Nat.div_le_lower_bound; lia).
    specialize (HN _ H). lra.
  Qed.

  (** ** Composing positive moves *)
  Lemma move_ret t x : can_move dec (run_seq k 0 t) x x.
  Proof. unfold can_move. simpl. rewrite E_ret. destruct (dec x x); [lra|congruence]. Qed.

  Lemma move_add n1 n2 t x z y : In x S -> can_move dec (run_seq k n1 t) x z -> can_move dec (run_seq k n2 (t + n1)) z y ->
    can_move dec (run_seq k (n1 + n2) t) x y.
  Proof.
    unfold can_move. intros Hx H1 H2. rewrite run_seq_add.
    set (c := E (run_seq k n2 (t + n1) z) (fun z0 => if dec z0 y then 1 else 0)) in *.
    apply Rlt_le_trans with (c * E (run_seq k n1 t x) (fun z0 => if dec z0 z then 1 else 0)); [apply Rmult_lt_0_compat; auto|].
    rewrite <- E_scal. destruct (run_proper n1 t x Hx) as [[P1 _] P3]. apply E_le_in; auto. intros a w Ha.
    destruct (dec a z) as [->|]; [fold c; lra|]. rewrite Rmult_0_r.
    destruct (run_proper n2 (t + n1) a (P3 a w Ha)) as [[Q1 _] _]. unfold E. apply rsum_nonneg. intros p Hp.
    apply Rmult_le_pos; [apply (Q1 p Hp)|]. destruct (dec (fst p) y); lra.
  Qed.

  Lemma move_one t x y : can_move dec (k t) x y -> can_move dec (run_seq k 1 t) x y.
  Proof. unfold can_move. simpl. rewrite E_bind. intros H. erewrite E_ext; [exact H|]. intros a. rewrite E_ret. reflexivity. Qed.

  Lemma move_snoc n t x z y : In x S -> can_move dec (run_seq k n t) x z -> can_move dec (k (t + n)%nat) z y ->
    can_move dec (run_seq k (Datatypes.S n) t) x y.
  Proof. intros Hx H1 H2. rewrite <- Nat.add_1_r. apply (move_add n 1 t x z y Hx H1). apply move_one, H2. Qed.

  Lemma move_path (z : nat -> A) t n : (forall j, (j <= n)%nat -> In (z j) S) ->
    (forall j, (j < n)%nat -> can_move dec (k (t + j)%nat) (z j) (z (Datatypes.S j))) ->
    can_move dec (run_seq k n t) (z 0%nat) (z n).
  Proof.
    induction n as [|n IH]; intros Hin Hmv; [apply move_ret|].
    apply (move_snoc n t (z 0%nat) (z n)); [apply Hin; lia| |apply Hmv; lia]. apply IH; intros; [apply Hin|apply Hmv]; lia.
  Qed.

  Lemma path_ge (z : nat -> A) t c n : 0 <= c -> (forall j, (j <= n)%nat -> In (z j) S) ->
    (forall j, (j < n)%nat -> c <= E (k (t + j)%nat (z j)) (fun a => if dec a (z (Datatypes.S j)) then 1 else 0)) ->
    c ^ n <= E (run_seq k n t (z 0%nat)) (fun a => if dec a (z n) then 1 else 0).
  Proof.
    intros Hc. revert z t. induction n as [|n IH]; intros z t Hin Hmv.
    - simpl. rewrite E_ret. destruct (dec (z 0%nat) (z 0%nat)); [lra|congruence].
    - simpl. rewrite E_bind. destruct (Hk t (z 0%nat) (Hin 0%nat ltac:(lia))) as [[P1 _] P3].
      apply Rle_trans with (c ^ n * E (k t (z 0%nat)) (fun a => if dec a (z 1%nat) then 1 else 0)).
      + rewrite Rmult_comm. apply Rmult_le_compat_l; [apply pow_le; auto|]. specialize (Hmv 0%nat ltac:(lia)). rewrite Nat.add_0_r in Hmv. exact Hmv.
      + rewrite <- E_scal. apply E_le_in; auto. intros a w Ha. destruct (dec a (z 1%nat)) as [->|].
        * rewrite Rmult_1_r. apply (IH (fun j => z (Datatypes.S j)) (Datatypes.S t)).
          -- intros j Hj. apply Hin. lia.
          -- intros j Hj. specialize (Hmv (Datatypes.S j) ltac:(lia)). rewrite Nat.add_succ_r in Hmv. exact Hmv.
        * rewrite Rmult_0_r. destruct (run_proper n (Datatypes.S t) a (P3 a w Ha)) as [[Q1 _] _]. unfold E. apply rsum_nonneg. intros p Hp.
          apply Rmult_le_pos; [apply (Q1 p Hp)|]. destruct (dec (fst p) (z (Datatypes.S n))); lra.
  Qed.

  (** A common eigenfunction of all steps. *)
  Lemma eigen_run (g : A -> R) c : (forall t y, In y S -> E (k t y) g = c * g y) ->
    forall n t y, In y S -> E (run_seq k n t y) g = c ^ n * g y.
  Proof.
    intros Hg. induction n as [|n IH]; intros t y Hy; simpl; [rewrite E_ret; ring|]. rewrite E_bind.
    destruct (Hk t y Hy) as [_ P3].
    rewrite (E_ext_in _ _ (fun z => c ^ n * g z)) by (intros z w Hz; apply IH; eapply P3; eauto).
    rewrite E_scal, Hg by auto. ring.
  Qed.

  (** A quantity of modulus one whose sign every step flips rules out convergence. *)
  Theorem alternating_not_converges (g : A -> R) x : In x S -> (forall y, In y S -> g y = 1 \/ g y = -1) ->
    (forall t y, In y S -> E (k t y) g = - g y) -> ~ converges S pi k.
  Proof.
    intros Hx Hg Hflip Hc.
    pose proof (eigen_run g (-1) ltac:(intros; rewrite Hflip by auto; ring)) as Hrun.
    destruct (Hc (1/2) ltac:(lra)) as [N HN].
    assert (Hb : forall y, In y S -> Rabs (g y) <= 1) by (intros y Hy; destruct (Hg y Hy) as [-> | ->]; [rewrite Rabs_R1|rewrite Rabs_left]; lra).
    pose proof (HN (2 * N)%nat x g ltac:(lia) Hx Hb) as H1. pose proof (HN (Datatypes.S (2 * N)) x g ltac:(lia) Hx Hb) as H2.
    rewrite Hrun in H1, H2 by auto. cbn [pow] in H2. rewrite pow_1_even in H1, H2.
    apply Rabs_def2_le in H1, H2. destruct (Hg x Hx) as [Hgx|Hgx]; rewrite Hgx in *; lra.
  Qed.

  (** A nonconstant quantity conserved by every step rules out convergence. *)
  Theorem conserved_not_converges (g : A -> R) x y : In x S -> In y S -> g x = 1 -> g y = -1 ->
    (forall z, In z S -> Rabs (g z) <= 1) -> (forall t y, In y S -> E (k t y) g = g y) -> ~ converges S pi k.
  Proof.
    intros Hx Hy Hgx Hgy Hb Hcons Hc.
    pose proof (eigen_run g 1 ltac:(intros; rewrite Hcons by auto; ring)) as Hrun.
    destruct (Hc (1/2) ltac:(lra)) as [N HN].
    pose proof (HN N x g ltac:(lia) Hx Hb) as H1. pose proof (HN N y g ltac:(lia) Hy Hb) as H2.
    rewrite Hrun, pow1 in H1, H2 by auto. apply Rabs_def2_le in H1, H2. lra.
  Qed.
End Conv.

(** ** One kernel, invariant only up to [delta] *)
Section Upto.
  Context {A : Type}.
  Variable dec : forall a b : A, {a = b} + {a <> b}.
  Variables (S : list A) (pi : A -> R) (step : A -> dist A) (e0 delta : R).
  Hypothesis HS : NoDup S.
  Hypothesis Hk : proper S step.
  Hypothesis Hpi : forall x, In x S -> 0 <= pi x.
  Hypothesis HZ : 0 < rsum S pi.
  Hypothesis He0 : 0 < e0.
  Hypothesis Hmin : forall x y, In x S -> In y S -> e0 <= E (step x) (fun z => if dec z y then 1 else 0).
  Hypothesis Hd : 0 <= delta.
  Hypothesis Hinv : invariant_upto delta S pi step.

  Let k := fun _ : nat => step.
  Let e := e0 * INR (length S).

  Lemma upto_range f lo hi : (forall y, In y S -> lo <= f y <= hi) -> lo <= hi ->
    Rabs (mean S pi (fun x => E (step x) f) - mean S pi f) <= delta * ((hi - lo) / 2).
  Proof.
    intros Hf Hlh. unfold mean.
    set (c := (hi + lo) / 2). set (w := (hi - lo) / 2).
    assert (Hstep : forall x, In x S -> E (step x) f = c + E (step x) (fun y => f y - c)).
    { intros x Hx. destruct (Hk x Hx) as [[P1 P2] P3]. rewrite E_minus, E_const, P2. ring. }
    destruct (Req_dec w 0) as [Hw|Hw].
    - assert (Hfc : forall y, In y S -> f y = c) by (intros y Hy; specialize (Hf y Hy); unfold c, w in *; lra).
      rewrite (rsum_ext S (fun y => pi y * E (step y) f) (fun y => pi y * f y)).
      + rewrite Rminus_diag_eq by reflexivity. rewrite Rabs_R0, Hw. lra.
      + intros y Hy. rewrite Hstep, (Hfc y Hy) by auto. destruct (Hk y Hy) as [[P1 P2] P3].
        rewrite (E_ext_in _ _ (fun _ => 0)); [rewrite E_const; ring|]. intros a u Ha. rewrite Hfc; [ring|eapply P3; eauto].
    - assert (Hwp : 0 < w) by (unfold w in *; lra).
      set (g := fun y => Rmax (-1) (Rmin 1 ((f y - c) / w))).
      assert (Hg1 : forall y, Rabs (g y) <= 1).
      { intros y. unfold g. apply Rabs_le. split; [apply Rmax_l|]. apply Rmax_lub; [lra|apply Rmin_l]. }
      assert (Hg2 : forall y, In y S -> f y = c + w * g y).
      { intros y Hy. specialize (Hf y Hy). unfold g.
        assert (-1 <= (f y - c) / w <= 1).
        { split; apply (Rmult_le_reg_r w); auto; unfold Rdiv; rewrite Rmult_assoc, Rinv_l, Rmult_1_r by lra; unfold c, w; lra. }
        rewrite Rmin_right, Rmax_right by lra. field. lra. }
      specialize (Hinv g Hg1).
      rewrite (rsum_ext S (fun y => pi y * E (step y) f) (fun y => c * pi y + w * (pi y * E (step y) g))).
      2:{ intros y Hy. destruct (Hk y Hy) as [[P1 P2] P3].
          rewrite (E_ext_in (step y) f (fun z => c + w * g z)) by (intros a u Ha; apply Hg2; eapply P3; eauto).
          rewrite E_plus, E_const, E_scal, P2. ring. }
      rewrite (rsum_ext S (fun y => pi y * f y) (fun y => c * pi y + w * (pi y * g y))) by (intros y Hy; rewrite (Hg2 y Hy); ring).
      rewrite !rsum_plus, !rsum_scal.
      replace ((c * rsum S pi + w * rsum S (fun a => pi a * E (step a) g)) / rsum S pi - (c * rsum S pi + w * rsum S (fun a => pi a * g a)) / rsum S pi)
        with (w / rsum S pi * (rsum S (fun x => pi x * E (step x) g) - rsum S (fun x => pi x * g x))) by (field; lra).
      rewrite Rabs_mult, (Rabs_right (w / rsum S pi)) by (apply Rle_ge; apply Rmult_le_pos; [lra|left; apply Rinv_0_lt_compat; auto]).
      apply Rle_trans with (w / rsum S pi * (delta * rsum S pi)).
      + apply Rmult_le_compat_l; auto. apply Rmult_le_pos; [lra|left; apply Rinv_0_lt_compat; auto].
      + right. field. lra.
  Qed.

  Fixpoint geo (n : nat) : R := match n with O => 0 | Datatypes.S n' => geo n' + (1 - e) ^ n' end.

  Lemma homog_shrink n : forall f lo hi, lo <= hi -> (forall y, In y S -> lo <= f y <= hi) ->
    exists lo' hi', lo' <= hi' /\ hi' - lo' <= (1 - e) ^ n * (hi - lo) /\
      forall x, In x S -> lo' <= E (run_seq k n 0 x) f <= hi'.
  Proof.
    intros f lo hi Hlh Hf.
    destruct (blocks_shrink dec S k HS (fun _ => Hk) 1 e0 (fun _ => eq_refl) ltac:(lra)) with (q := n) (f := f) (lo := lo) (hi := hi)
      as (lo' & hi' & H1 & H2); auto.
    - intros x y Hx Hy. specialize (Hmin x y Hx Hy). simpl. rewrite E_bind. unfold k.
      erewrite E_ext; [exact Hmin|]. intros a. rewrite E_ret. reflexivity.
    - rewrite Nat.mul_1_r in H2. exists lo', hi'. split; [|split; auto; fold e in H1; lra].
      destruct S as [|s0 S0]; [simpl in HZ; lra|]. specialize (H2 s0 (or_introl eq_refl)). lra.
  Qed.

  Lemma geo_bound n : e <= 1 -> geo n * e <= 1.
  Proof.
    intros H1. assert (geo n * e = 1 - (1 - e) ^ n).
    { induction n as [|n IH]; simpl; [ring|]. rewrite Rmult_plus_distr_r, IH. ring. }
    rewrite H. pose proof (pow_le (1 - e) n ltac:(lra)). lra.
  Qed.

  Lemma run_step_last n : forall x f, E (run_seq k (Datatypes.S n) 0 x) f = E (step x) (fun y => E (run_seq k n 0 y) f).
  Proof.
    intros x f. simpl. rewrite E_bind. apply E_ext. intros y. rewrite (run_seq_shift k n 1 0 y) by reflexivity. reflexivity.
  Qed.

  Theorem upto_rate : forall n x f, In x S -> (forall y, In y S -> Rabs (f y) <= 1) ->
    Rabs (E (run_seq k n 0 x) f - mean S pi f) <= 2 * (1 - e) ^ n + delta / e.
  Proof.
    intros n x f Hx Hf.
    assert (Hle : e <= 1) by (apply (minor_le1 dec S HS step e0 x); auto).
    assert (HL : 0 < INR (length S)).
    { destruct S as [|s0 S0]; [simpl in HZ; lra|]. apply lt_0_INR. simpl. lia. }
    assert (Hep : 0 < e) by (apply Rmult_lt_0_compat; auto).
    assert (Hf' : forall y, In y S -> -1 <= f y <= 1) by (intros y Hy; apply Rabs_def2_le; auto).
    assert (Hm : forall n, Rabs (mean S pi (fun y => E (run_seq k n 0 y) f) - mean S pi f) <= delta * geo n).
    { induction n0 as [|n0 IH].
      - simpl. rewrite (Rminus_diag_eq); [rewrite Rabs_R0; lra|]. unfold mean. f_equal. apply rsum_ext. intros y _. rewrite E_ret. reflexivity.
      - destruct (homog_shrink n0 f (-1) 1 ltac:(lra) Hf') as (lo & hi & H1 & H2 & H3).
        pose proof (upto_range (fun y => E (run_seq k n0 0 y) f) lo hi H3 H1) as H4.
        replace (mean S pi (fun y => E (run_seq k (Datatypes.S n0) 0 y) f)) with (mean S pi (fun y => E (step y) (fun z => E (run_seq k n0 0 z) f)))
          by (unfold mean; f_equal; apply rsum_ext; intros y _; rewrite run_step_last; reflexivity).
        simpl geo. rewrite Rmult_plus_distr_l.
        replace (mean S pi (fun y => E (step y) (fun z => E (run_seq k n0 0 z) f)) - mean S pi f)
          with ((mean S pi (fun y => E (run_seq k n0 0 y) f) - mean S pi f)
                + (mean S pi (fun y => E (step y) (fun z => E (run_seq k n0 0 z) f)) - mean S pi (fun y => E (run_seq k n0 0 y) f))) by ring.
        eapply Rle_trans; [apply Rabs_triang|]. apply Rplus_le_compat; auto.
        eapply Rle_trans; [exact H4|]. apply Rmult_le_compat_l; auto. lra. }
    destruct (homog_shrink n f (-1) 1 ltac:(lra) Hf') as (lo & hi & H1 & H2 & H3).
    pose proof (mean_range S pi (fun y => E (run_seq k n 0 y) f) lo hi Hpi HZ H3) as H4.
    specialize (H3 x Hx). specialize (Hm n).
    replace (E (run_seq k n 0 x) f - mean S pi f) with
      ((E (run_seq k n 0 x) f - mean S pi (fun y => E (run_seq k n 0 y) f)) + (mean S pi (fun y => E (run_seq k n 0 y) f) - mean S pi f)) by ring.
    eapply Rle_trans; [apply Rabs_triang|]. apply Rplus_le_compat.
    - apply Rabs_le. lra.
    - eapply Rle_trans; [exact Hm|]. unfold Rdiv. apply Rmult_le_compat_l; auto.
      apply (Rmult_le_reg_r e); auto. rewrite Rinv_l by lra. apply geo_bound; auto.
  Qed.
End Upto.
