(** Abstract Metropolis-Hastings with an auxiliary variable and an involution on
    (state, auxiliary) pairs; two-block reindexing.  Pure mathematics. *)
From Coq Require Import Reals List Lra Lia.
From Verif.Base Require Import RSum Cube Dist.
From Verif.Spec Require Import Chain.
Import ListNotations.
Local Open Scope R_scope.

Lemma reversible_invariant {A} (S : list A) (pi : A -> R) (step : A -> dist A) :
  (forall x, In x S -> mass (step x) = 1) -> reversible S pi step -> invariant S pi step.
Proof.
  intros Hm Hr f. specialize (Hr (fun _ => 1) f).
  rewrite (rsum_ext S (fun x => pi x * E (step x) f) (fun x => pi x * 1 * E (step x) f)) by (intros; lra).
  rewrite Hr. apply rsum_ext. intros x Hx. fold (mass (step x)). rewrite Hm by auto. lra.
Qed.

Section Involution.
  Context {A B : Type}.
  Variables (S : list A) (Aux : list B) (T : A -> B -> A) (I : A -> B -> B).
  Hypothesis HS : NoDup S.
  Hypothesis HAux : NoDup Aux.
  Hypothesis HT : forall x a, In x S -> In a Aux -> In (T x a) S.
  Hypothesis HI : forall x a, In x S -> In a Aux -> In (I x a) Aux.
  Hypothesis HTT : forall x a, In x S -> In a Aux -> T (T x a) (I x a) = x.
  Hypothesis HII : forall x a, In x S -> In a Aux -> I (T x a) (I x a) = a.

  Lemma pair_reindex (F : A -> B -> R) :
    rsum S (fun x => rsum Aux (fun a => F x a))
    = rsum S (fun x => rsum Aux (fun a => F (T x a) (I x a))).
  Proof.
    pose proof (rsum_list_prod S Aux (fun p => F (fst p) (snd p))) as H1.
    pose proof (rsum_list_prod S Aux (fun p => F (T (fst p) (snd p)) (I (fst p) (snd p)))) as H2.
    cbn [fst snd] in H1, H2. rewrite <- H1, <- H2.
    apply (rsum_involution (list_prod S Aux) (fun p => (T (fst p) (snd p), I (fst p) (snd p)))
               (fun p => F (fst p) (snd p))).
    - apply NoDup_list_prod; auto.
    - intros [x a] Hp. apply in_prod_iff in Hp. apply in_prod_iff. simpl. destruct Hp; auto.
    - intros [x a] Hp. apply in_prod_iff in Hp. simpl. destruct Hp. rewrite HTT, HII; auto.
  Qed.

  (** Symmetric flow implies reversibility. *)
  Lemma aux_reversible (pi : A -> R) (w : A -> B -> R) (r : A -> R) (step : A -> dist A) :
    (forall x f, In x S -> E (step x) f = rsum Aux (fun a => w x a * f (T x a)) + r x * f x) ->
    (forall x a, In x S -> In a Aux -> pi x * w x a = pi (T x a) * w (T x a) (I x a)) ->
    reversible S pi step.
  Proof.
    intros Hstep Hflow f g.
    rewrite (rsum_ext S _ (fun x => rsum Aux (fun a => pi x * w x a * (f x * g (T x a))) + pi x * r x * f x * g x)).
    2:{ intros x Hx. rewrite Hstep by auto. rewrite Rmult_plus_distr_l, <- rsum_scal.
        f_equal; [apply rsum_ext; intros; ring|ring]. }
    rewrite (rsum_ext S (fun x => pi x * g x * E (step x) f)
               (fun x => rsum Aux (fun a => pi x * w x a * (g x * f (T x a))) + pi x * r x * f x * g x)).
    2:{ intros x Hx. rewrite Hstep by auto. rewrite Rmult_plus_distr_l, <- rsum_scal.
        f_equal; [apply rsum_ext; intros; ring|ring]. }
    rewrite !rsum_plus. f_equal.
    rewrite (pair_reindex (fun x a => pi x * w x a * (f x * g (T x a)))).
    apply rsum_ext. intros x Hx. apply rsum_ext. intros a Ha.
    rewrite HTT by auto. rewrite <- Hflow by auto. ring.
  Qed.
End Involution.

(** Metropolis acceptance: min(1, ratio) makes the flow symmetric. *)
Lemma mh_flow (wf wb la : R) :
  0 < wf -> 0 < wb -> exp la = wb / wf ->
  wf * Rmin 1 (exp la) = wb * Rmin 1 (exp (- la)).
Proof.
  intros Hf Hb Hla. rewrite exp_Ropp, Hla.
  unfold Rmin. destruct (Rle_dec 1 (wb / wf)) as [H1|H1], (Rle_dec 1 (/ (wb / wf))) as [H2|H2].
  - assert (wf <= wb).
    { apply (Rmult_le_reg_r (/ wf)); [apply Rinv_0_lt_compat; auto|]. rewrite Rinv_r by lra. exact H1. }
    assert (wb <= wf).
    { apply (Rmult_le_reg_r (/ wb)); [apply Rinv_0_lt_compat; auto|]. rewrite Rinv_r by lra.
      replace (wf * / wb) with (/ (wb / wf)) by (field; lra). exact H2. }
    lra.
  - field; lra.
  - field; lra.
  - exfalso. apply H2. apply Rnot_le_lt in H1.
    replace 1 with (/ 1) by field. apply Rinv_le_contravar; [|lra].
    apply Rdiv_lt_0_compat; auto.
Qed.
