(** Metropolis-Hastings kernels built from [mh_law]: exact reversibility for the idealised acceptance rule,
    and invariance up to twice the acceptance guard for the rule in the code. *)
From Coq Require Import Reals List Lra Lia.
From Verif.Base Require Import RSum Cube Dist MH.
From Verif.Spec Require Import Chain.
From Verif.Model Require Import MathUtil.
Import ListNotations.
Local Open Scope R_scope.

Lemma accept_prob_range g la : 0 <= accept_prob g la <= 1.
Proof.
  unfold accept_prob. split; [apply Rmax_l|].
  apply Rmax_lub; [lra|]. apply Rmin_l.
Qed.

Lemma accept_prob_0 la : accept_prob 0 la = Rmin 1 (exp la).
Proof.
  unfold accept_prob. rewrite Rminus_0_r. apply Rmax_right.
  apply Rmin_glb; [lra|]. left; apply exp_pos.
Qed.

Lemma accept_prob_lip g la : 0 <= g -> Rabs (accept_prob g la - accept_prob 0 la) <= g.
Proof.
  intros Hg. rewrite accept_prob_0. unfold accept_prob, Rmax, Rmin.
  pose proof (exp_pos la).
  destruct (Rle_dec 1 (exp la - g)), (Rle_dec 1 (exp la));
  repeat match goal with |- context [Rle_dec ?a ?b] => destruct (Rle_dec a b) end;
  unfold Rabs; destruct (Rcase_abs _); lra.
Qed.

Lemma E_mh_law {A} g la (cur new : A) f :
  E (mh_law g la cur new) f = accept_prob g la * f new + (1 - accept_prob g la) * f cur.
Proof. unfold mh_law. rewrite E_bind, E_bernoulli, !E_ret. reflexivity. Qed.

Lemma is_prob_mh_law {A} g la (cur new : A) : is_prob (mh_law g la cur new).
Proof.
  apply is_prob_bind; [apply is_prob_bernoulli, accept_prob_range|].
  intros; apply is_prob_ret.
Qed.

Lemma in_mh_law {A} g la (cur new : A) y w : In (y, w) (mh_law g la cur new) -> y = cur \/ y = new.
Proof.
  unfold mh_law, bind, bernoulli. simpl. intros [H|[H|[]]]; inversion H; auto.
Qed.

Definition mh_kernel {A B} (prop : A -> dist B) (T : A -> B -> A) (la : A -> B -> R) (g : R) (x : A) : dist A :=
  bind (prop x) (fun a => mh_law g (la x a) x (T x a)).

Lemma E_bound {A} (d : dist A) f g eps :
  is_prob d -> (forall a, Rabs (f a - g a) <= eps) -> Rabs (E d f - E d g) <= eps.
Proof.
  intros [Hp Hm] H. rewrite <- E_minus.
  eapply Rle_trans; [apply (E_abs_le d (fun a => f a - g a) eps); auto|]. rewrite Hm; lra.
Qed.

Lemma is_prob_mh_kernel {A B} (prop : A -> dist B) T la g (x : A) :
  is_prob (prop x) -> is_prob (mh_kernel prop T la g x).
Proof. intros H. apply is_prob_bind; auto. intros; apply is_prob_mh_law. Qed.

Lemma mh_kernel_guard {A B} (prop : A -> dist B) T la g (x : A) f :
  is_prob (prop x) -> 0 <= g -> (forall y, Rabs (f y) <= 1) ->
  Rabs (E (mh_kernel prop T la g x) f - E (mh_kernel prop T la 0 x) f) <= 2 * g.
Proof.
  intros Hp Hg Hf. unfold mh_kernel. rewrite !E_bind. apply E_bound; auto.
  intros a. rewrite !E_mh_law.
  replace (_ - _) with ((accept_prob g (la x a) - accept_prob 0 (la x a)) * (f (T x a) - f x)) by ring.
  rewrite Rabs_mult, (Rmult_comm 2 g).
  apply Rmult_le_compat; try apply Rabs_pos; [apply accept_prob_lip; auto|].
  unfold Rminus. eapply Rle_trans; [apply Rabs_triang|]. rewrite Rabs_Ropp.
  pose proof (Hf (T x a)). pose proof (Hf x). lra.
Qed.

(** From exact invariance to invariance up to eps of a perturbed kernel. *)
Lemma invariant_perturb {A} (S : list A) (pi : A -> R) (k k0 : A -> dist A) eps :
  (forall x, In x S -> 0 <= pi x) ->
  invariant S pi k0 ->
  (forall x f, In x S -> (forall y, Rabs (f y) <= 1) -> Rabs (E (k x) f - E (k0 x) f) <= eps) ->
  invariant_upto eps S pi k.
Proof.
  intros Hpi Hinv Hk f Hf. rewrite <- (Hinv f), <- rsum_minus, <- rsum_scal.
  eapply Rle_trans; [apply rsum_abs|]. apply rsum_le. intros x Hx.
  rewrite <- Rmult_minus_distr_l, Rabs_mult, (Rabs_pos_eq (pi x)) by auto.
  rewrite Rmult_comm. apply Rmult_le_compat_r; auto.
Qed.

Section Kernel.
  Context {A B : Type}.
  Variables (S : list A) (Aux : list B) (T : A -> B -> A) (I : A -> B -> B).
  Hypothesis HS : NoDup S.
  Hypothesis HAux : NoDup Aux.
  Hypothesis HT : forall x a, In x S -> In a Aux -> In (T x a) S.
  Hypothesis HI : forall x a, In x S -> In a Aux -> In (I x a) Aux.
  Hypothesis HTT : forall x a, In x S -> In a Aux -> T (T x a) (I x a) = x.
  Hypothesis HII : forall x a, In x S -> In a Aux -> I (T x a) (I x a) = a.
  Variables (pi : A -> R) (q : A -> B -> R) (la : A -> B -> R) (prop : A -> dist B).
  Hypothesis Hpi : forall x, In x S -> 0 <= pi x.
  Hypothesis Hprob : forall x, In x S -> is_prob (prop x).
  Hypothesis Hprop : forall x f, In x S -> E (prop x) f = rsum Aux (fun a => q x a * f a).
  Hypothesis Hq : forall x a, In x S -> In a Aux -> 0 <= q x a.
  Hypothesis Hla : forall x a, In x S -> In a Aux ->
    pi x * q x a * exp (la x a) = pi (T x a) * q (T x a) (I x a).
  Hypothesis Hanti : forall x a, In x S -> In a Aux -> la (T x a) (I x a) = - la x a.

  Lemma Rmin_mult_l r a b : 0 <= r -> r * Rmin a b = Rmin (r * a) (r * b).
  Proof.
    intros Hr. unfold Rmin. destruct (Rle_dec a b) as [H|H], (Rle_dec (r * a) (r * b)) as [H'|H']; auto.
    - exfalso; apply H'. apply Rmult_le_compat_l; auto.
    - apply Rle_antisym; [|exact H']. apply Rmult_le_compat_l; auto. lra.
  Qed.

  Lemma kernel_flow x a : In x S -> In a Aux ->
    pi x * (q x a * accept_prob 0 (la x a))
    = pi (T x a) * (q (T x a) (I x a) * accept_prob 0 (la (T x a) (I x a))).
  Proof.
    intros Hx Ha. rewrite !accept_prob_0, Hanti by auto.
    set (W := pi x * q x a) in *. set (W' := pi (T x a) * q (T x a) (I x a)) in *.
    assert (HW : 0 <= W) by (unfold W; apply Rmult_le_pos; auto).
    assert (HW' : 0 <= W') by (unfold W'; apply Rmult_le_pos; auto).
    pose proof (Hla x a Hx Ha) as HE. fold W W' in HE.
    rewrite <- !Rmult_assoc. fold W. fold W'.
    assert (HE' : W' * exp (- la x a) = W).
    { rewrite <- HE, Rmult_assoc, <- exp_plus, Rplus_opp_r, exp_0. ring. }
    rewrite !Rmin_mult_l by auto. rewrite HE, HE', !Rmult_1_r. apply Rmin_comm.
  Qed.

  Theorem kernel_reversible : reversible S pi (mh_kernel prop T la 0).
  Proof.
    apply (aux_reversible S Aux T I HS HAux HT HI HTT HII pi
             (fun x a => q x a * accept_prob 0 (la x a))
             (fun x => rsum Aux (fun a => q x a * (1 - accept_prob 0 (la x a))))).
    - intros x f Hx. unfold mh_kernel. rewrite E_bind, Hprop by auto.
      rewrite <- rsum_scal_r, <- rsum_plus. apply rsum_ext. intros a _. rewrite E_mh_law. ring.
    - intros x a Hx Ha. apply kernel_flow; auto.
  Qed.

  Theorem kernel_invariant : invariant S pi (mh_kernel prop T la 0).
  Proof.
    apply reversible_invariant; [|apply kernel_reversible].
    intros x Hx. apply is_prob_mh_kernel; auto.
  Qed.

  Theorem kernel_invariant_upto g : 0 <= g -> invariant_upto (2 * g) S pi (mh_kernel prop T la g).
  Proof.
    intros Hg. apply (invariant_perturb S pi _ (mh_kernel prop T la 0)); auto.
    - apply kernel_invariant.
    - intros x f Hx Hf. apply mh_kernel_guard; auto.
  Qed.
End Kernel.

(** Kernels whose proposal probability is the exponential of the log-probability used in the
    acceptance ratio. *)
Section LLKernel.
  Context {A B : Type}.
  Variables (S : list A) (Aux : list B) (T : A -> B -> A) (I : A -> B -> B).
  Hypothesis HS : NoDup S.
  Hypothesis HAux : NoDup Aux.
  Hypothesis HT : forall x a, In x S -> In a Aux -> In (T x a) S.
  Hypothesis HI : forall x a, In x S -> In a Aux -> In (I x a) Aux.
  Hypothesis HTT : forall x a, In x S -> In a Aux -> T (T x a) (I x a) = x.
  Hypothesis HII : forall x a, In x S -> In a Aux -> I (T x a) (I x a) = a.
  Variables (fw : A -> R) (ll : A -> B -> R) (prop : A -> dist B) (la : A -> B -> R).
  Hypothesis Hprob : forall x, In x S -> is_prob (prop x).
  Hypothesis Hprop : forall x f, In x S -> E (prop x) f = rsum Aux (fun a => exp (ll x a) * f a).
  Hypothesis Hla : forall x a, In x S -> In a Aux ->
    la x a = fw (T x a) + ll (T x a) (I x a) - fw x - ll x a.

  Let pi (x : A) := exp (fw x).

  Lemma ll_balance : forall x a, In x S -> In a Aux ->
    pi x * exp (ll x a) * exp (la x a) = pi (T x a) * exp (ll (T x a) (I x a)).
  Proof.
    intros x a Hx Ha. unfold pi. rewrite (Hla x a Hx Ha), <- !exp_plus. f_equal. ring.
  Qed.

  Lemma ll_anti : forall x a, In x S -> In a Aux -> la (T x a) (I x a) = - la x a.
  Proof.
    intros x a Hx Ha. rewrite (Hla x a Hx Ha), (Hla (T x a) (I x a) (HT x a Hx Ha) (HI x a Hx Ha)).
    rewrite (HTT x a Hx Ha), (HII x a Hx Ha). ring.
  Qed.

  Theorem ll_kernel_reversible : reversible S (fun x => exp (fw x)) (mh_kernel prop T la 0).
  Proof.
    apply (kernel_reversible S Aux T I HS HAux HT HI HTT HII pi (fun x a => exp (ll x a)) la prop).
    - intros; left; apply exp_pos.
    - exact Hprop.
    - intros; left; apply exp_pos.
    - exact ll_balance.
    - exact ll_anti.
  Qed.

  Theorem ll_kernel_invariant_upto g : 0 <= g ->
    invariant_upto (2 * g) S (fun x => exp (fw x)) (mh_kernel prop T la g).
  Proof.
    intros Hg. apply (kernel_invariant_upto S Aux T I HS HAux HT HI HTT HII pi (fun x a => exp (ll x a)) la prop); auto.
    - intros; left; apply exp_pos.
    - intros; left; apply exp_pos.
    - exact ll_balance.
    - exact ll_anti.
  Qed.
End LLKernel.
