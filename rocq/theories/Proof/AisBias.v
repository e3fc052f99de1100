(** The importance weight of an annealed chain: its mean when every move nearly keeps its target, and its range. *)
From Coq Require Import Reals List Arith Lra Lia.
From Verif.Base Require Import RSum Cube Dist.
From Verif.Spec Require Import Chain AisRunSpec.
From Verif.Model Require Import Experiment AisRun.
From Verif.Proof Require Import MHKernel AdaptiveRunProof ChainProof LangevinAdapt BernEvalProof FullRunProof GuardRun ErgodicProof ExperimentProof AisChains.
Import ListNotations.
Local Open Scope R_scope.

(** ** One chain *)
Section Chain.
  Variables (S0 : list (list nat)) (f : nat -> list nat -> R) (K : nat -> list nat -> dist (list nat)) (c : R).
  Hypothesis HK : forall t, proper S0 (K t).
  Hypothesis Hc : forall t x, In x S0 -> Rabs (f (S t) x - f t x) <= c.
  Hypothesis Hc0 : 0 <= c.

  (** Mean of the weight gained in [n] steps from [x]. *)
  Fixpoint gain (n t : nat) (x : list nat) : R :=
    match n with O => 1 | S n' => exp (f (S t) x - f t x) * E (K (S t) x) (gain n' (S t)) end.

  Lemma path_gain m : forall n t x w, (n < m)%nat -> In x S0 -> E (path f K m t (x, w)) (fun r => exp (nth n r 0)) = exp w * gain (S n) t x.
  Proof.
    induction m as [|m IH]; intros n t x w Hn Hx; [lia|]. cbn [path fst snd]. rewrite E_bind. destruct (HK (S t) x Hx) as [Hp Hin].
    assert (Ew : exp (w + f (S t) x - f t x) = exp w * exp (f (S t) x - f t x)) by (rewrite <- exp_plus; f_equal; ring).
    destruct n as [|n].
    - rewrite (E_ext_in _ _ (fun _ => exp (w + f (S t) x - f t x))).
      + rewrite E_const. cbn [gain]. rewrite E_const, Ew. ring.
      + intros y v Hy. rewrite E_dmap. cbn [nth]. rewrite E_const. 
        assert (Hm : forall n t p, In (fst p) S0 -> mass (path f K n t p) = 1).
        { clear - HK. induction n as [|n IHn]; intros t p Hp; cbn [path]; [apply mass_ret|]. unfold mass. rewrite E_bind. destruct (HK (S t) (fst p) Hp) as [[_ H1] H2].
          rewrite (E_ext_in _ _ (fun _ => 1)); [exact H1|]. intros y v Hy. rewrite E_dmap. apply (IHn (S t) (y, _)). exact (H2 y v Hy). }
        rewrite Hm by exact (Hin y v Hy). ring.
    - rewrite (E_ext_in _ _ (fun y => exp (w + f (S t) x - f t x) * gain (S n) (S t) y)).
      + rewrite E_scal, Ew. change (gain (S (S n)) t x) with (exp (f (S t) x - f t x) * E (K (S t) x) (gain (S n) (S t))). ring.
      + intros y v Hy. rewrite E_dmap. cbn [nth]. apply IH; [lia|exact (Hin y v Hy)].
  Qed.

  Lemma exp_le a b : a <= b -> exp a <= exp b.
  Proof. intros [H|H]; [left; apply exp_increasing; exact H|right; f_equal; exact H]. Qed.

  Lemma gain_range n : forall t x, In x S0 -> 0 <= gain n t x <= exp (INR n * c).
  Proof.
    induction n as [|n IH]; intros t x Hx; [cbn [gain INR]; rewrite Rmult_0_l, exp_0; lra|]. cbn [gain]. destruct (HK (S t) x Hx) as [Hp Hin].
    assert (H1 : 0 <= E (K (S t) x) (gain n (S t)) <= exp (INR n * c)).
    { destruct Hp as [Hp Hm]. assert (E0 : E (K (S t) x) (fun _ => 0) = 0) by (rewrite E_const; ring).
      assert (E1 : E (K (S t) x) (fun _ => exp (INR n * c)) = exp (INR n * c)) by (rewrite E_const, Hm; ring).
      split; [rewrite <- E0|rewrite <- E1]; apply E_le_in; auto; intros y v Hy; apply (IH (S t) y (Hin y v Hy)). }
    pose proof (exp_pos (f (S t) x - f t x)). split; [apply Rmult_le_pos; lra|].
    rewrite S_INR. replace ((INR n + 1) * c) with (c + INR n * c) by ring. rewrite exp_plus.
    apply Rmult_le_compat; try lra. apply exp_le. pose proof (Hc t x Hx) as H2. apply Rabs_def2b in H2 || (unfold Rabs in H2; destruct Rcase_abs in H2; lra).
  Qed.

  (** Moving [K] off its target by [eps] each step moves the mean by at most [n * eps] of the largest possible value. *)
  Lemma gain_bias eps : 0 <= eps -> (forall t, invariant_upto eps S0 (fun x => exp (f t x)) (K t)) -> forall n t,
    Rabs (rsum S0 (fun x => exp (f t x) * gain n t x) - rsum S0 (fun x => exp (f (t + n)%nat x))) <= INR n * eps * exp (INR n * c) * rsum S0 (fun x => exp (f t x)).
  Proof.
    intros He Hi. induction n as [|n IH]; intros t.
    - rewrite Nat.add_0_r. cbn [gain INR]. rewrite (rsum_ext _ _ (fun x => exp (f t x))) by (intros; ring).
      rewrite Rminus_diag_eq by reflexivity. rewrite Rabs_R0. lra.
    - set (Z := fun t => rsum S0 (fun x => exp (f t x))). 
      assert (Hz : Z (S t) <= exp c * Z t).
      { unfold Z. rewrite <- rsum_scal. apply rsum_le. intros x Hx. rewrite <- exp_plus. apply exp_le. pose proof (Hc t x Hx) as H2. unfold Rabs in H2; destruct Rcase_abs in H2; lra. }
      assert (Z0 : 0 <= Z t) by (apply rsum_nonneg; intros; left; apply exp_pos).
      assert (Z1 : 0 <= Z (S t)) by (apply rsum_nonneg; intros; left; apply exp_pos).
      replace (t + S n)%nat with (S t + n)%nat by lia.
      assert (E1 : rsum S0 (fun x => exp (f t x) * gain (S n) t x) = rsum S0 (fun x => exp (f (S t) x) * E (K (S t) x) (gain n (S t)))).
      { apply rsum_ext. intros x _. cbn [gain]. rewrite <- Rmult_assoc, <- exp_plus. f_equal. f_equal. ring. }
      rewrite E1. clear E1. set (b := exp (INR n * c)) in *. assert (Hb : 0 < b) by apply exp_pos.
      pose (h := fun x => Rmax (-1) (Rmin 1 (gain n (S t) x / b))).
      assert (Hh : forall x, In x S0 -> gain n (S t) x = b * h x).
      { intros x Hx. destruct (gain_range n (S t) x Hx) as [G1 G2]. fold b in G2. unfold h. assert (G3 : 0 <= gain n (S t) x / b <= 1).
        { split; [apply Rmult_le_pos; [exact G1|left; apply Rinv_0_lt_compat; exact Hb]|]. apply Rmult_le_reg_r with b; [exact Hb|]. unfold Rdiv. rewrite Rmult_assoc, Rinv_l by lra. lra. }
        rewrite Rmin_right, Rmax_right by lra. field. lra. }
      assert (Hh1 : forall x, Rabs (h x) <= 1).
      { intros x. unfold h. apply Rabs_le. split; [apply Rmax_l|apply Rmax_lub; [lra|apply Rmin_l]]. }
      pose proof (Hi (S t) h Hh1) as HI. fold (Z (S t)) in HI.
      assert (E2 : rsum S0 (fun x => exp (f (S t) x) * E (K (S t) x) (gain n (S t))) = b * rsum S0 (fun x => exp (f (S t) x) * E (K (S t) x) h)).
      { rewrite <- rsum_scal. apply rsum_ext. intros x Hx. rewrite (E_ext_in _ (gain n (S t)) (fun y => b * h y)).
        - rewrite E_scal. ring.
        - intros y v Hy. apply Hh. exact (proj2 (HK (S t) x Hx) y v Hy). }
      assert (E3 : rsum S0 (fun x => exp (f (S t) x) * gain n (S t) x) = b * rsum S0 (fun x => exp (f (S t) x) * h x)).
      { rewrite <- rsum_scal. apply rsum_ext. intros x Hx. rewrite (Hh x Hx). ring. }
      specialize (IH (S t)). change (rsum S0 (fun x => exp (f (S t + n)%nat x))) with (Z (S t + n)%nat) in *. fold (Z (S t)) in IH. fold (Z t). rewrite S_INR. replace ((INR n + 1) * c) with (c + INR n * c) by ring. rewrite exp_plus. fold b. fold b in IH.
      rewrite E2. rewrite E3 in IH. set (A := rsum S0 (fun x => exp (f (S t) x) * E (K (S t) x) h)) in *. set (D := rsum S0 (fun x => exp (f (S t) x) * h x)) in *.
      replace (b * A - Z (S t + n)%nat) with (b * (A - D) + (b * D - Z (S t + n)%nat)) by ring.
      eapply Rle_trans; [apply Rabs_triang|]. rewrite Rabs_mult, (Rabs_pos_eq b) by lra.
      assert (Q1 : b * Rabs (A - D) <= b * (eps * Z (S t))) by (apply Rmult_le_compat_l; lra).
      pose proof (pos_INR n) as Pn.
      assert (Q2 : b * (eps * Z (S t)) + INR n * eps * b * Z (S t) <= (INR n + 1) * eps * (exp c * b) * Z t).
      { replace ((INR n + 1) * eps * (exp c * b) * Z t) with ((INR n + 1) * eps * b * (exp c * Z t)) by ring.
        replace (b * (eps * Z (S t)) + INR n * eps * b * Z (S t)) with ((INR n + 1) * eps * b * Z (S t)) by ring.
        apply Rmult_le_compat_l; [|exact Hz]. apply Rmult_le_pos; [apply Rmult_le_pos; lra|lra]. }
      lra.
  Qed.

  Lemma path_range m : forall t x w r v, In x S0 -> In (r, v) (path f K m t (x, w)) -> length r = m /\ forall n, (n < m)%nat -> Rabs (nth n r 0 - w) <= INR (S n) * c.
  Proof.
    induction m as [|m IH]; intros t x w r v Hx Hr; cbn [path] in Hr.
    - destruct Hr as [Hr|[]]. injection Hr as <- _. split; [reflexivity|intros; lia].
    - cbn [fst snd] in Hr. apply in_bind in Hr. destruct Hr as (y & u & u' & Hy & Hr). apply in_dmap in Hr. destruct Hr as (r' & Hr & ->).
      destruct (IH (S t) y _ r' u' (proj2 (HK (S t) x Hx) y u Hy) Hr) as [Hl Hn]. split; [cbn; lia|]. intros n Hn'.
      pose proof (Hc t x Hx) as H1. destruct n as [|n]; cbn [nth].
      + cbn [INR]. rewrite Rmult_1_l. replace (w + f (S t) x - f t x - w) with (f (S t) x - f t x) by ring. exact H1.
      + specialize (Hn n ltac:(lia)). rewrite S_INR, Rmult_plus_distr_r, Rmult_1_l.
        replace (nth n r' 0 - w) with ((nth n r' 0 - (w + f (S t) x - f t x)) + (f (S t) x - f t x)) by ring.
        eapply Rle_trans; [apply Rabs_triang|]. lra.
  Qed.
End Chain.
