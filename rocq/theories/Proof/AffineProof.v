(** Functions affine in one coordinate: their derivative is the finite difference. *)
From Coq Require Import Reals List Lra Lia Arith.
From Verif.Base Require Import RSum.
Import ListNotations.
Local Open Scope R_scope.

Definition affine (f : R -> R) : Prop := exists a g, forall t, f t = a + g * t.

Lemma affine_const c : affine (fun _ => c).
Proof. exists c, 0. intros. ring. Qed.
Lemma affine_id : affine (fun t => t).
Proof. exists 0, 1. intros. ring. Qed.
Lemma affine_plus f g : affine f -> affine g -> affine (fun t => f t + g t).
Proof. intros (a & p & H) (b & q & K). exists (a + b), (p + q). intros. rewrite H, K. ring. Qed.
Lemma affine_opp f : affine f -> affine (fun t => - f t).
Proof. intros (a & p & H). exists (- a), (- p). intros. rewrite H. ring. Qed.
Lemma affine_scal c f : affine f -> affine (fun t => c * f t).
Proof. intros (a & p & H). exists (c * a), (c * p). intros. rewrite H. ring. Qed.
Lemma affine_scal_r c f : affine f -> affine (fun t => f t * c).
Proof. intros (a & p & H). exists (c * a), (c * p). intros. rewrite H. ring. Qed.
Lemma affine_minus f g : affine f -> affine g -> affine (fun t => f t - g t).
Proof. intros. apply affine_plus; auto. apply affine_opp; auto. Qed.
Lemma affine_ext f g : (forall t, f t = g t) -> affine f -> affine g.
Proof. intros H (a & p & K). exists a, p. intros. rewrite <- H. auto. Qed.
Lemma affine_rsum {A} (l : list A) (f : A -> R -> R) : (forall a, In a l -> affine (f a)) -> affine (fun t => rsum l (fun a => f a t)).
Proof.
  induction l as [|a l IH]; intros H; cbn [rsum]; [apply affine_const|].
  apply affine_plus; [apply H; left; auto|]. apply IH. intros; apply H; right; auto.
Qed.
(** A product is affine when one factor is constant. *)
Lemma affine_mult_l f g : (forall t t', f t = f t') -> affine g -> affine (fun t => f t * g t).
Proof. intros Hf Hg. apply (affine_ext (fun t => f 0 * g t)); [intros; rewrite (Hf 0 t); auto|]. apply affine_scal; auto. Qed.
Lemma affine_mult_r f g : (forall t t', g t = g t') -> affine f -> affine (fun t => f t * g t).
Proof. intros Hg Hf. apply (affine_ext (fun t => g 0 * f t)); [intros; rewrite (Hg 0 t); ring|]. apply affine_scal; auto. Qed.

Lemma affine_derivative f t0 l : affine f -> derivable_pt_lim f t0 l -> forall t t', f t' - f t = l * (t' - t).
Proof.
  intros (a & g & H) Hd t t'.
  assert (Hg : derivable_pt_lim f t0 g).
  { intros eps Heps. exists (mkposreal 1 Rlt_0_1). intros hh Hh _. rewrite !H.
    replace ((a + g * (t0 + hh) - (a + g * t0)) / hh - g) with 0 by (field; auto). rewrite Rabs_R0. auto. }
  rewrite (uniqueness_limite f t0 l g Hd Hg), !H. ring.
Qed.

(** Quadratic in the coordinate: f t = a + g t + q t^2. *)
Lemma quad_derivative f a g q t0 l : (forall t, f t = a + g * t + q * t * t) -> derivable_pt_lim f t0 l -> l = g + 2 * q * t0.
Proof.
  intros H Hd. apply (uniqueness_limite f t0); auto.
  intros eps Heps.
  destruct (Req_dec q 0) as [->|Hq].
  - exists (mkposreal 1 Rlt_0_1). intros hh Hh _. rewrite !H.
    match goal with |- Rabs ?e < _ => replace e with 0 by (field; auto) end. rewrite Rabs_R0. auto.
  - assert (Hp : 0 < eps / Rabs q) by (apply Rdiv_lt_0_compat; auto; apply Rabs_pos_lt; auto).
    exists (mkposreal _ Hp). intros hh Hh Hlt. cbn [pos] in Hlt. rewrite !H.
    match goal with |- Rabs ?e < _ => replace e with (q * hh) by (field; auto) end.
    rewrite Rabs_mult. apply (Rmult_lt_compat_l (Rabs q)) in Hlt; [|apply Rabs_pos_lt; auto].
    replace (Rabs q * (eps / Rabs q)) with eps in Hlt by (field; apply Rabs_no_R0; auto). exact Hlt.
Qed.

Lemma affine_has_derivative f t0 : affine f -> exists l, derivable_pt_lim f t0 l.
Proof.
  intros (a & g & H). exists g. intros eps Heps. exists (mkposreal 1 Rlt_0_1). intros hh Hh _. rewrite !H.
  replace ((a + g * (t0 + hh) - (a + g * t0)) / hh - g) with 0 by (field; auto). rewrite Rabs_R0. auto.
Qed.
