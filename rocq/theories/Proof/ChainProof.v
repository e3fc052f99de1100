(** Composition in time and over the batch preserves invariance. *)
From Coq Require Import Reals List Lra Lia.
From Verif.Base Require Import RSum Cube Dist MH.
From Verif.Spec Require Import Chain.
Import ListNotations.
Local Open Scope R_scope.

Lemma run_seq_invariant {A} (S : list A) (pi : A -> R) (k : nat -> A -> dist A) :
  (forall t, invariant S pi (k t)) -> forall n t, invariant S pi (run_seq k n t).
Proof.
  intros Hk n; induction n as [|n IH]; intros t f.
  - apply rsum_ext. intros x _. simpl. rewrite E_ret. reflexivity.
  - transitivity (rsum S (fun x => pi x * E (k t x) (fun y => E (run_seq k n (Datatypes.S t) y) f))).
    { apply rsum_ext. intros x _. simpl. rewrite E_bind. reflexivity. }
    rewrite (Hk t (fun y => E (run_seq k n (Datatypes.S t) y) f)). apply IH.
Qed.

Lemma Rabs_def2_le x a : Rabs x <= a -> - a <= x <= a.
Proof. unfold Rabs. destruct (Rcase_abs x); lra. Qed.

Lemma run_seq_upto {A} (S : list A) (pi : A -> R) (k : nat -> A -> dist A) eps :
  (forall t x, In x S -> is_prob (k t x) /\ (forall y w, In (y, w) (k t x) -> In y S)) ->
  0 <= eps ->
  (forall t, invariant_upto eps S pi (k t)) -> forall n t, invariant_upto (INR n * eps) S pi (run_seq k n t).
Proof.
  intros Hp Heps Hk n; induction n as [|n IH]; intros t f Hf.
  - rewrite (rsum_ext S (fun x => pi x * E (run_seq k 0 t x) f) (fun x => pi x * f x))
      by (intros; simpl; rewrite E_ret; reflexivity).
    rewrite Rminus_diag_eq by reflexivity. rewrite Rabs_R0. simpl. lra.
  - assert (Hprob : forall m t x, In x S -> is_prob (run_seq k m t x)).
    { clear -Hp. induction m as [|m IH]; intros t x Hx; simpl; [apply is_prob_ret|].
      destruct (Hp t x Hx) as [H1 H2]. apply is_prob_bind; auto.
      intros a w Ha. apply IH. eapply H2; eauto. }
    set (G := fun y => Rmax (-1) (Rmin 1 (E (run_seq k n (Datatypes.S t) y) f))).
    assert (HG : forall y, Rabs (G y) <= 1).
    { intros y. unfold G. apply Rabs_le. split; [apply Rmax_l|]. apply Rmax_lub; [lra|apply Rmin_l]. }
    assert (HGE : forall y, In y S -> G y = E (run_seq k n (Datatypes.S t) y) f).
    { intros y Hy. unfold G. destruct (Hprob n (Datatypes.S t) y Hy) as [P1 P2].
      pose proof (E_abs_le (run_seq k n (Datatypes.S t) y) f 1 P1 Hf) as HB. rewrite P2, Rmult_1_l in HB.
      apply Rabs_def2_le in HB. rewrite Rmin_right by lra. apply Rmax_right. lra. }
    assert (H1 : rsum S (fun x => pi x * E (run_seq k (Datatypes.S n) t x) f)
                 = rsum S (fun x => pi x * E (k t x) G)).
    { apply rsum_ext. intros x Hx. simpl. rewrite E_bind. f_equal. apply E_ext_in. intros a w Ha.
      symmetry. apply HGE. destruct (Hp t x Hx) as [_ H2]. eapply H2; eauto. }
    rewrite H1. clear H1.
    pose proof (Hk t G HG) as K1.
    pose proof (IH (Datatypes.S t) f Hf) as K2.
    rewrite (rsum_ext S (fun x => pi x * G x) (fun x => pi x * E (run_seq k n (Datatypes.S t) x) f)) in K1
      by (intros x Hx; rewrite HGE by auto; reflexivity).
    rewrite S_INR.
    replace (_ - _) with ((rsum S (fun x => pi x * E (k t x) G) - rsum S (fun x => pi x * E (run_seq k n (Datatypes.S t) x) f))
      + (rsum S (fun x => pi x * E (run_seq k n (Datatypes.S t) x) f) - rsum S (fun x => pi x * f x))) by ring.
    eapply Rle_trans; [apply Rabs_triang|]. lra.
Qed.

Lemma batch_invariant {A} (S : list A) (pi : A -> R) (step : A -> dist A) B :
  invariant S pi step -> invariant (lists_over S B) (batch_pi pi) (batch_step step).
Proof.
  intros Hinv. induction B as [|B IH]; intros f.
  - simpl. unfold batch_step. simpl. rewrite E_ret. reflexivity.
  - rewrite !rsum_lists_over_cons.
    transitivity (rsum S (fun x => pi x * rsum (lists_over S B) (fun l => batch_pi pi l * E (step x) (fun y => f (y :: l))))).
    + apply rsum_ext. intros x _.
      transitivity (pi x * rsum (lists_over S B) (fun l => batch_pi pi l * E (batch_step step l) (fun l' => E (step x) (fun y => f (y :: l'))))).
      * rewrite <- rsum_scal. apply rsum_ext. intros l _. unfold batch_pi, batch_step. simpl.
        rewrite E_bind. rewrite Rmult_assoc. f_equal. f_equal.
        transitivity (E (step x) (fun a => E (indep (map step l)) (fun l' => f (a :: l')))).
        { apply E_ext. intros a. rewrite E_dmap. reflexivity. }
        unfold E. rewrite (rsum_ext _ _ (fun p => rsum (indep (map step l)) (fun q => snd p * (snd q * f (fst p :: fst q)))))
          by (intros p _; rewrite <- rsum_scal; reflexivity).
        rewrite rsum_swap. apply rsum_ext. intros q _. rewrite <- rsum_scal. apply rsum_ext. intros p _. ring.
      * f_equal. apply (IH (fun l' => E (step x) (fun y => f (y :: l')))).
    + transitivity (rsum (lists_over S B) (fun l => batch_pi pi l * rsum S (fun x => pi x * E (step x) (fun y => f (y :: l))))).
      * rewrite (rsum_ext S _ (fun x => rsum (lists_over S B) (fun l => batch_pi pi l * (pi x * E (step x) (fun y => f (y :: l))))))
          by (intros x _; rewrite <- rsum_scal; apply rsum_ext; intros; ring).
        rewrite rsum_swap. apply rsum_ext. intros l _. rewrite rsum_scal. reflexivity.
      * rewrite (rsum_ext (lists_over S B) _ (fun l => batch_pi pi l * rsum S (fun x => pi x * f (x :: l))))
          by (intros l _; f_equal; apply (Hinv (fun y => f (y :: l)))).
        rewrite (rsum_ext S _ (fun x => rsum (lists_over S B) (fun l => batch_pi pi l * (pi x * f (x :: l)))))
          by (intros x _; apply rsum_ext; intros l _; unfold batch_pi; simpl; ring).
        rewrite rsum_swap. apply rsum_ext. intros l _. rewrite rsum_scal. reflexivity.
Qed.
