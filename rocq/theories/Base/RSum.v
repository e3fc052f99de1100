(** Finite sums and products of reals over lists.  Pure mathematics, no code of
    the repository is modelled here. *)
From Coq Require Import Reals List Lra Lia Permutation.
Import ListNotations.
Local Open Scope R_scope.

Fixpoint rsum {A : Type} (l : list A) (f : A -> R) : R :=
  match l with
  | [] => 0
  | a :: l' => f a + rsum l' f
  end.

Fixpoint rprod {A : Type} (l : list A) (f : A -> R) : R :=
  match l with
  | [] => 1
  | a :: l' => f a * rprod l' f
  end.

Section Sums.
  Context {A B : Type}.

  Lemma rsum_ext (l : list A) (f g : A -> R) :
    (forall a, In a l -> f a = g a) -> rsum l f = rsum l g.
  Proof.
    induction l as [|a l IH]; simpl; intros H; [reflexivity|].
    rewrite (H a) by auto. rewrite IH; [reflexivity|]. intros b Hb; apply H; auto.
  Qed.

  Lemma rsum_const0 (l : list A) (f : A -> R) :
    (forall a, In a l -> f a = 0) -> rsum l f = 0.
  Proof.
    induction l as [|a l IH]; simpl; intros H; [reflexivity|].
    rewrite (H a) by auto. rewrite IH; [lra|]. intros b Hb; apply H; auto.
  Qed.

  Lemma rsum_plus (l : list A) (f g : A -> R) :
    rsum l (fun a => f a + g a) = rsum l f + rsum l g.
  Proof. induction l as [|a l IH]; simpl; [lra|]. rewrite IH; lra. Qed.

  Lemma rsum_minus (l : list A) (f g : A -> R) :
    rsum l (fun a => f a - g a) = rsum l f - rsum l g.
  Proof. induction l as [|a l IH]; simpl; [lra|]. rewrite IH; lra. Qed.

  Lemma rsum_scal (l : list A) (c : R) (f : A -> R) :
    rsum l (fun a => c * f a) = c * rsum l f.
  Proof. induction l as [|a l IH]; simpl; [lra|]. rewrite IH; lra. Qed.

  Lemma rsum_scal_r (l : list A) (c : R) (f : A -> R) :
    rsum l (fun a => f a * c) = rsum l f * c.
  Proof. induction l as [|a l IH]; simpl; [lra|]. rewrite IH; lra. Qed.

  Lemma rsum_opp (l : list A) (f : A -> R) :
    rsum l (fun a => - f a) = - rsum l f.
  Proof. induction l as [|a l IH]; simpl; [lra|]. rewrite IH; lra. Qed.

  Lemma rsum_const (l : list A) (c : R) :
    rsum l (fun _ => c) = INR (length l) * c.
  Proof.
    induction l as [|a l IH]; [simpl; lra|].
    cbn [rsum length]. rewrite IH, S_INR. lra.
  Qed.

  Lemma rsum_app (l1 l2 : list A) (f : A -> R) :
    rsum (l1 ++ l2) f = rsum l1 f + rsum l2 f.
  Proof. induction l1 as [|a l IH]; simpl; [lra|]. rewrite IH; lra. Qed.

  Lemma rsum_map (l : list B) (h : B -> A) (f : A -> R) :
    rsum (map h l) f = rsum l (fun b => f (h b)).
  Proof. induction l as [|a l IH]; simpl; [reflexivity|]. rewrite IH; reflexivity. Qed.

  Lemma rsum_perm (l1 l2 : list A) (f : A -> R) :
    Permutation l1 l2 -> rsum l1 f = rsum l2 f.
  Proof. induction 1; simpl; lra. Qed.

  Lemma rsum_nonneg (l : list A) (f : A -> R) :
    (forall a, In a l -> 0 <= f a) -> 0 <= rsum l f.
  Proof.
    induction l as [|a l IH]; simpl; intros H; [lra|].
    pose proof (H a (or_introl eq_refl)). assert (0 <= rsum l f) by (apply IH; intros b Hb; apply H; auto). lra.
  Qed.

  Lemma rsum_pos (l : list A) (f : A -> R) :
    l <> [] -> (forall a, In a l -> 0 < f a) -> 0 < rsum l f.
  Proof.
    destruct l as [|a l]; intros Hne H; [congruence|]. simpl.
    pose proof (H a (or_introl eq_refl)).
    assert (0 <= rsum l f) by (apply rsum_nonneg; intros b Hb; left; apply H; right; auto). lra.
  Qed.

  Lemma rsum_le (l : list A) (f g : A -> R) :
    (forall a, In a l -> f a <= g a) -> rsum l f <= rsum l g.
  Proof.
    induction l as [|a l IH]; simpl; intros H; [lra|].
    pose proof (H a (or_introl eq_refl)). assert (rsum l f <= rsum l g) by (apply IH; intros b Hb; apply H; auto). lra.
  Qed.

  Lemma rsum_abs (l : list A) (f : A -> R) :
    Rabs (rsum l f) <= rsum l (fun a => Rabs (f a)).
  Proof.
    induction l as [|a l IH]; simpl; [rewrite Rabs_R0; lra|].
    eapply Rle_trans; [apply Rabs_triang|]. lra.
  Qed.

  Lemma rsum_ge_term (l : list A) (f : A -> R) (a : A) :
    In a l -> (forall b, In b l -> 0 <= f b) -> f a <= rsum l f.
  Proof.
    induction l as [|b l IH]; simpl; intros Hin H; [contradiction|].
    assert (0 <= f b) by (apply H; auto).
    assert (0 <= rsum l f) by (apply rsum_nonneg; intros c Hc; apply H; auto).
    destruct Hin as [->|Hin]; [lra|].
    assert (f a <= rsum l f) by (apply IH; [exact Hin| intros c Hc; apply H; auto]). lra.
  Qed.

  Lemma rsum_filter (l : list A) (p : A -> bool) (f : A -> R) :
    rsum (filter p l) f = rsum l (fun a => if p a then f a else 0).
  Proof.
    induction l as [|a l IH]; simpl; [reflexivity|].
    destruct (p a); simpl; rewrite IH; lra.
  Qed.

  Lemma rsum_single (l : list A) (f : A -> R) (a : A) :
    NoDup l -> In a l -> (forall b, In b l -> b <> a -> f b = 0) -> rsum l f = f a.
  Proof.
    induction l as [|b l IH]; simpl; intros Hnd Hin H0; [contradiction|].
    inversion Hnd as [|? ? Hni Hnd']; subst.
    destruct Hin as [->|Hin].
    - rewrite rsum_const0; [lra|]. intros c Hc. apply H0; [auto|]. intros ->; contradiction.
    - rewrite IH; auto.
      rewrite (H0 b); [lra|auto|]. intros ->; contradiction.
  Qed.
End Sums.

Lemma rsum_swap {A B} (l1 : list A) (l2 : list B) (f : A -> B -> R) :
  rsum l1 (fun a => rsum l2 (fun b => f a b)) = rsum l2 (fun b => rsum l1 (fun a => f a b)).
Proof.
  induction l1 as [|a l1 IH]; simpl.
  - rewrite rsum_const0; auto.
  - rewrite IH, <- rsum_plus. reflexivity.
Qed.

Lemma rsum_list_prod {A B} (l1 : list A) (l2 : list B) (f : A * B -> R) :
  rsum (list_prod l1 l2) f = rsum l1 (fun a => rsum l2 (fun b => f (a, b))).
Proof.
  induction l1 as [|a l1 IH]; simpl; [reflexivity|].
  rewrite rsum_app, rsum_map, IH. reflexivity.
Qed.

Lemma rsum_flat_map {A B} (l : list A) (h : A -> list B) (f : B -> R) :
  rsum (flat_map h l) f = rsum l (fun a => rsum (h a) f).
Proof.
  induction l as [|a l IH]; simpl; [reflexivity|]. rewrite rsum_app, IH; reflexivity.
Qed.

Lemma rsum_mult {A B} (l1 : list A) (l2 : list B) (f : A -> R) (g : B -> R) :
  rsum l1 f * rsum l2 g = rsum l1 (fun a => rsum l2 (fun b => f a * g b)).
Proof.
  rewrite <- rsum_scal_r. apply rsum_ext; intros a _. rewrite rsum_scal. reflexivity.
Qed.

(** Reindexing a sum by a bijection between two duplicate-free lists. *)
Lemma rsum_bij {A B} (l : list A) (l' : list B) (phi : A -> B) (psi : B -> A) (F : B -> R) :
  NoDup l -> NoDup l' ->
  (forall a, In a l -> In (phi a) l') ->
  (forall b, In b l' -> In (psi b) l) ->
  (forall a, In a l -> psi (phi a) = a) ->
  (forall b, In b l' -> phi (psi b) = b) ->
  rsum l' F = rsum l (fun a => F (phi a)).
Proof.
  intros Hl Hl' H1 H2 H3 H4.
  rewrite <- (rsum_map l phi F). apply rsum_perm. symmetry.
  apply NoDup_Permutation.
  - clear H2 H4 Hl' H1. induction Hl as [|a l Hni Hl IH]; simpl; constructor.
    + intros Hin. apply in_map_iff in Hin. destruct Hin as (b & Hb & Hin).
      assert (b = a).
      { rewrite <- (H3 b) by (right; auto). rewrite Hb. apply H3; left; auto. }
      subst; contradiction.
    + apply IH. intros b Hb; apply H3; right; auto.
  - exact Hl'.
  - intros b; split; intros Hb.
    + apply in_map_iff in Hb. destruct Hb as (a & <- & Ha). auto.
    + apply in_map_iff. exists (psi b). split; auto.
Qed.

Lemma rsum_involution {A} (l : list A) (phi : A -> A) (F : A -> R) :
  NoDup l ->
  (forall a, In a l -> In (phi a) l) ->
  (forall a, In a l -> phi (phi a) = a) ->
  rsum l F = rsum l (fun a => F (phi a)).
Proof. intros. apply (rsum_bij l l phi phi F); auto. Qed.

Section Prods.
  Context {A B : Type}.
  Lemma rprod_ext (l : list A) (f g : A -> R) :
    (forall a, In a l -> f a = g a) -> rprod l f = rprod l g.
  Proof.
    induction l as [|a l IH]; simpl; intros H; [reflexivity|].
    rewrite (H a) by auto. rewrite IH; [reflexivity|]. intros b Hb; apply H; auto.
  Qed.
  Lemma rprod_mult (l : list A) (f g : A -> R) :
    rprod l (fun a => f a * g a) = rprod l f * rprod l g.
  Proof. induction l as [|a l IH]; simpl; [lra|]. rewrite IH; lra. Qed.
  Lemma rprod_app (l1 l2 : list A) (f : A -> R) :
    rprod (l1 ++ l2) f = rprod l1 f * rprod l2 f.
  Proof. induction l1 as [|a l IH]; simpl; [lra|]. rewrite IH; lra. Qed.
  Lemma rprod_map (l : list B) (h : B -> A) (f : A -> R) :
    rprod (map h l) f = rprod l (fun b => f (h b)).
  Proof. induction l as [|a l IH]; simpl; [reflexivity|]. rewrite IH; reflexivity. Qed.
  Lemma rprod_pos (l : list A) (f : A -> R) :
    (forall a, In a l -> 0 < f a) -> 0 < rprod l f.
  Proof.
    induction l as [|a l IH]; simpl; intros H; [lra|].
    apply Rmult_lt_0_compat; [apply H; auto|apply IH; intros b Hb; apply H; auto].
  Qed.
  Lemma rprod_nonneg (l : list A) (f : A -> R) :
    (forall a, In a l -> 0 <= f a) -> 0 <= rprod l f.
  Proof.
    induction l as [|a l IH]; simpl; intros H; [lra|].
    apply Rmult_le_pos; [apply H; auto|apply IH; intros b Hb; apply H; auto].
  Qed.
  Lemma rprod_perm (l1 l2 : list A) (f : A -> R) :
    Permutation l1 l2 -> rprod l1 f = rprod l2 f.
  Proof.
    induction 1; simpl; auto; try (rewrite IHPermutation; auto); try lra.
  Qed.
  Lemma rprod_const1 (l : list A) (f : A -> R) :
    (forall a, In a l -> f a = 1) -> rprod l f = 1.
  Proof.
    induction l as [|a l IH]; simpl; intros H; [reflexivity|].
    rewrite (H a) by auto. rewrite IH; [lra|]. intros b Hb; apply H; auto.
  Qed.
  Lemma exp_rsum (l : list A) (f : A -> R) : exp (rsum l f) = rprod l (fun a => exp (f a)).
  Proof. induction l as [|a l IH]; simpl; [apply exp_0|]. rewrite exp_plus, IH. reflexivity. Qed.
  Lemma ln_rprod (l : list A) (f : A -> R) :
    (forall a, In a l -> 0 < f a) -> ln (rprod l f) = rsum l (fun a => ln (f a)).
  Proof.
    induction l as [|a l IH]; simpl; intros H; [apply ln_1|].
    rewrite ln_mult; [|apply H; auto|apply rprod_pos; intros b Hb; apply H; auto].
    rewrite IH; [reflexivity|]. intros b Hb; apply H; auto.
  Qed.
End Prods.

Lemma NoDup_app_intro {A} (l1 l2 : list A) :
  NoDup l1 -> NoDup l2 -> (forall x, In x l1 -> ~ In x l2) -> NoDup (l1 ++ l2).
Proof.
  intros H1 H2 Hd. induction H1 as [|a l Hni Hl IH]; simpl; [exact H2|].
  constructor.
  - rewrite in_app_iff. intros [H|H]; [contradiction|]. apply (Hd a); simpl; auto.
  - apply IH. intros x Hx. apply Hd; right; auto.
Qed.

Lemma NoDup_map_inj {A B} (f : A -> B) (l : list A) :
  (forall x y, In x l -> In y l -> f x = f y -> x = y) -> NoDup l -> NoDup (map f l).
Proof.
  intros Hinj Hl. induction Hl as [|a l Hni Hl IH]; simpl; constructor.
  - intros Hin. apply in_map_iff in Hin. destruct Hin as (b & Hb & Hin).
    apply Hinj in Hb; [subst; contradiction|right; auto|left; auto].
  - apply IH. intros x y Hx Hy. apply Hinj; right; auto.
Qed.

Lemma NoDup_list_prod {A B} (l1 : list A) (l2 : list B) :
  NoDup l1 -> NoDup l2 -> NoDup (list_prod l1 l2).
Proof.
  intros H1 H2. induction H1 as [|a l1 Hni H1 IH]; simpl; [constructor|].
  apply NoDup_app_intro; auto.
  - apply NoDup_map_inj; auto. intros x y _ _ H; inversion H; auto.
  - intros p Hp Hq. apply in_map_iff in Hp. destruct Hp as (b & <- & _).
    apply in_prod_iff in Hq. tauto.
Qed.

(** Sum/product over positions of a list. *)
Lemma rsum_seq_shift (n s : nat) (f : nat -> R) :
  rsum (seq (S s) n) f = rsum (seq s n) (fun i => f (S i)).
Proof. rewrite <- seq_shift, rsum_map. reflexivity. Qed.

Lemma rsum_nth {A} (l : list A) (d : A) (f : A -> R) :
  rsum l f = rsum (seq 0 (length l)) (fun i => f (nth i l d)).
Proof.
  induction l as [|a l IH]; simpl; [reflexivity|].
  rewrite rsum_seq_shift, IH. reflexivity.
Qed.
