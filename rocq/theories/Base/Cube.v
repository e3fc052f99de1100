(** Finite product spaces: all lists of a given length over a finite alphabet, list
    update, and sums over such spaces. No code of the repository is modelled here,
    except that [upd] is the list form of the functional array update. *)
From Coq Require Import Reals List Lra Lia Permutation Arith.
From Verif.Base Require Import RSum.
Import ListNotations.
Local Open Scope R_scope.

(** All lists of length [n] over [vals]. *)
Fixpoint lists_over {A} (vals : list A) (n : nat) : list (list A) :=
  match n with
  | O => [[]]
  | S n' => flat_map (fun v => map (cons v) (lists_over vals n')) vals
  end.

(** State space of [d] sites with categories [0..C-1]. *)
Definition states (d C : nat) : list (list nat) := lists_over (seq 0 C) d.

Lemma in_lists_over {A} (vals : list A) n l :
  In l (lists_over vals n) <-> length l = n /\ Forall (fun v => In v vals) l.
Proof.
  revert l; induction n as [|n IH]; intros l; simpl.
  - split.
    + intros [<-|[]]. split; auto.
    + intros [H _]. destruct l; simpl in *; [auto|discriminate].
  - rewrite in_flat_map. split.
    + intros (v & Hv & Hin). apply in_map_iff in Hin. destruct Hin as (l' & <- & Hl').
      apply IH in Hl'. destruct Hl' as [<- HF]. simpl; split; auto.
    + intros [Hlen HF]. destruct l as [|v l]; simpl in *; [discriminate|].
      inversion HF; subst. exists v; split; auto. apply in_map. apply IH; split; auto; lia.
Qed.

Lemma NoDup_flat_map {A B} (h : A -> list B) (l : list A) :
  NoDup l -> (forall a, In a l -> NoDup (h a)) ->
  (forall a a' b, In a l -> In a' l -> In b (h a) -> In b (h a') -> a = a') ->
  NoDup (flat_map h l).
Proof.
  intros Hl Hh Hd. induction Hl as [|a l Hni Hl IH]; simpl; [constructor|].
  apply NoDup_app_intro.
  - apply Hh; left; auto.
  - apply IH; intros; [apply Hh; right; auto|]. eapply Hd; eauto; right; auto.
  - intros b Hb Hb'. apply in_flat_map in Hb'. destruct Hb' as (a' & Ha' & Hb').
    assert (a = a') by (eapply Hd; eauto; [left; auto|right; auto]). subst; contradiction.
Qed.

Lemma NoDup_lists_over {A} (vals : list A) n : NoDup vals -> NoDup (lists_over vals n).
Proof.
  intros Hv. induction n as [|n IH]; simpl.
  - constructor; [simpl; tauto|constructor].
  - apply NoDup_flat_map; auto.
    + intros a _. apply NoDup_map_inj; auto. intros x y _ _ H; inversion H; auto.
    + intros a a' b _ _ Hb Hb'. apply in_map_iff in Hb, Hb'.
      destruct Hb as (x & <- & _). destruct Hb' as (y & H & _). inversion H; auto.
Qed.

Lemma NoDup_states d C : NoDup (states d C).
Proof. apply NoDup_lists_over, seq_NoDup. Qed.

Lemma in_states d C x :
  In x (states d C) <-> length x = d /\ Forall (fun v => (v < C)%nat) x.
Proof.
  unfold states. rewrite in_lists_over.
  split; intros [H1 H2]; split; auto; eapply Forall_impl; try exact H2; simpl; intros a Ha; rewrite ?in_seq in *; lia.
Qed.

Lemma length_lists_over {A} (vals : list A) n :
  length (lists_over vals n) = (length vals ^ n)%nat.
Proof.
  induction n as [|n IH]; simpl; [reflexivity|].
  rewrite <- IH. generalize (lists_over vals n) as L. intros L.
  clear IH. induction vals as [|v vals IHv]; simpl; [reflexivity|].
  rewrite app_length, map_length, IHv. lia.
Qed.

(** A sum over the product space of a product of one-site weights factorises. *)
Fixpoint prod_at {A} (fs : list (A -> R)) (l : list A) : R :=
  match fs, l with
  | f :: fs', a :: l' => f a * prod_at fs' l'
  | _, _ => 1
  end.

Lemma rsum_lists_over_cons {A} (vals : list A) n (F : list A -> R) :
  rsum (lists_over vals (S n)) F
  = rsum vals (fun v => rsum (lists_over vals n) (fun l => F (v :: l))).
Proof. simpl. rewrite rsum_flat_map. apply rsum_ext; intros v _. rewrite rsum_map. reflexivity. Qed.

Lemma rsum_prod_at {A} (vals : list A) (fs : list (A -> R)) :
  rsum (lists_over vals (length fs)) (prod_at fs) = rprod fs (fun f => rsum vals f).
Proof.
  induction fs as [|f fs IH]; [simpl; lra|].
  cbn [length]. rewrite rsum_lists_over_cons. cbn [prod_at rprod].
  rewrite <- IH, rsum_mult. apply rsum_ext; intros v _. reflexivity.
Qed.

(** ** Functional array update: scatter with out-of-bounds writes dropped. *)
Fixpoint upd {A} (i : nat) (v : A) (l : list A) : list A :=
  match l, i with
  | [], _ => []
  | _ :: l', O => v :: l'
  | a :: l', S i' => a :: upd i' v l'
  end.

Lemma upd_length {A} i (v : A) l : length (upd i v l) = length l.
Proof. revert i; induction l as [|a l IH]; intros [|i]; simpl; auto. Qed.

Lemma nth_upd_eq {A} i (v d : A) l : (i < length l)%nat -> nth i (upd i v l) d = v.
Proof. revert i; induction l as [|a l IH]; intros [|i]; simpl; intros; try lia; auto. apply IH; lia. Qed.

Lemma nth_upd_neq {A} i j (v d : A) l : i <> j -> nth j (upd i v l) d = nth j l d.
Proof.
  revert i j; induction l as [|a l IH]; intros [|i] [|j] H; simpl; auto; try congruence.
Qed.

Lemma upd_oob {A} i (v : A) l : (length l <= i)%nat -> upd i v l = l.
Proof. revert i; induction l as [|a l IH]; intros [|i]; simpl; intros; try lia; auto. rewrite IH; auto; lia. Qed.

Lemma nth_error_upd_eq {A} i (v : A) l : (i < length l)%nat -> nth_error (upd i v l) i = Some v.
Proof. revert i; induction l as [|a l IH]; intros [|i]; simpl; intros; try lia; auto. apply IH; lia. Qed.

Lemma nth_error_upd_neq {A} i j (v : A) l : i <> j -> nth_error (upd i v l) j = nth_error l j.
Proof. revert i j; induction l as [|a l IH]; intros [|i] [|j] H; simpl; auto; try congruence. Qed.

Lemma upd_upd {A} i (v w : A) l : upd i v (upd i w l) = upd i v l.
Proof. revert i; induction l as [|a l IH]; intros [|i]; simpl; auto. rewrite IH; auto. Qed.

Lemma upd_nth_same {A} i (d : A) l : upd i (nth i l d) l = l.
Proof. revert i; induction l as [|a l IH]; intros [|i]; simpl; auto. rewrite IH; auto. Qed.

Lemma upd_comm {A} i j (v w : A) l : i <> j -> upd i v (upd j w l) = upd j w (upd i v l).
Proof.
  revert i j; induction l as [|a l IH]; intros [|i] [|j] H; simpl; auto; try congruence.
  rewrite IH; auto.
Qed.

Lemma Forall_upd {A} (P : A -> Prop) i v l : P v -> Forall P l -> Forall P (upd i v l).
Proof.
  intros Hv Hl; revert i; induction Hl as [|a l Ha Hl IH]; intros [|i]; simpl; constructor; auto.
Qed.

Lemma list_eq_nth {A} (d : A) (l1 l2 : list A) :
  length l1 = length l2 -> (forall i, (i < length l1)%nat -> nth i l1 d = nth i l2 d) -> l1 = l2.
Proof.
  revert l2; induction l1 as [|a l1 IH]; intros [|b l2] Hlen H; simpl in *; try discriminate; auto.
  f_equal; [apply (H 0%nat); lia|]. apply IH; [lia|]. intros i Hi. apply (H (S i)); lia.
Qed.

Lemma Forall_nth_iff {A} (P : A -> Prop) (d : A) l :
  Forall P l <-> (forall i, (i < length l)%nat -> P (nth i l d)).
Proof.
  split.
  - intros H. induction H as [|a l Ha Hl IH]; simpl; intros i Hi; [lia|]. destruct i; auto. apply IH; lia.
  - induction l as [|a l IH]; intros H; constructor.
    + apply (H 0%nat); simpl; lia.
    + apply IH. intros i Hi. apply (H (S i)); simpl; lia.
Qed.
