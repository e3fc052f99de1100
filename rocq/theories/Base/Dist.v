(** Finite distributions as weighted lists of outcomes: the "law" level of the
    models of randomised code.  No code of the repository is modelled here. *)
From Coq Require Import Reals List Lra Lia.
From Verif.Base Require Import RSum Cube.
Import ListNotations.
Local Open Scope R_scope.

Definition dist (A : Type) : Type := list (A * R).

(** Expectation of a test function. *)
Definition E {A} (d : dist A) (f : A -> R) : R := rsum d (fun p => snd p * f (fst p)).

Definition mass {A} (d : dist A) : R := E d (fun _ => 1).

Definition ret {A} (a : A) : dist A := [(a, 1)].

Definition bind {A B} (d : dist A) (k : A -> dist B) : dist B :=
  flat_map (fun p => map (fun q => (fst q, snd p * snd q)) (k (fst p))) d.

Definition dmap {A B} (h : A -> B) (d : dist A) : dist B :=
  map (fun p => (h (fst p), snd p)) d.

(** A genuine probability distribution. *)
Definition is_prob {A} (d : dist A) : Prop :=
  (forall p, In p d -> 0 <= snd p) /\ mass d = 1.

(** Outcomes [l] weighted by [w]. *)
Definition weighted {A} (l : list A) (w : A -> R) : dist A := map (fun a => (a, w a)) l.

(** Independent draws from a list of distributions. *)
Fixpoint indep {A} (ds : list (dist A)) : dist (list A) :=
  match ds with
  | [] => ret []
  | d :: ds' => bind d (fun a => dmap (cons a) (indep ds'))
  end.

Lemma E_ext {A} (d : dist A) f g : (forall a, f a = g a) -> E d f = E d g.
Proof. intros H. unfold E. apply rsum_ext. intros p _. rewrite H; reflexivity. Qed.

Lemma E_ext_in {A} (d : dist A) f g :
  (forall a w, In (a, w) d -> f a = g a) -> E d f = E d g.
Proof. intros H. unfold E. apply rsum_ext. intros [a w] Hp; simpl. rewrite (H a w Hp); reflexivity. Qed.

Lemma E_ret {A} (a : A) f : E (ret a) f = f a.
Proof. unfold E, ret; simpl; lra. Qed.

Lemma E_bind {A B} (d : dist A) (k : A -> dist B) f :
  E (bind d k) f = E d (fun a => E (k a) f).
Proof.
  unfold E, bind. rewrite rsum_flat_map. apply rsum_ext. intros p _.
  rewrite rsum_map. simpl. rewrite <- rsum_scal. apply rsum_ext. intros q _. lra.
Qed.

Lemma E_dmap {A B} (h : A -> B) (d : dist A) f : E (dmap h d) f = E d (fun a => f (h a)).
Proof. unfold E, dmap. rewrite rsum_map. reflexivity. Qed.

Lemma E_plus {A} (d : dist A) f g : E d (fun a => f a + g a) = E d f + E d g.
Proof. unfold E. rewrite <- rsum_plus. apply rsum_ext; intros; lra. Qed.

Lemma E_scal {A} (d : dist A) c f : E d (fun a => c * f a) = c * E d f.
Proof. unfold E. rewrite <- rsum_scal. apply rsum_ext; intros; lra. Qed.

Lemma E_minus {A} (d : dist A) f g : E d (fun a => f a - g a) = E d f - E d g.
Proof. unfold E. rewrite <- rsum_minus. apply rsum_ext; intros; lra. Qed.

Lemma E_weighted {A} (l : list A) w f : E (weighted l w) f = rsum l (fun a => w a * f a).
Proof. unfold E, weighted. rewrite rsum_map. reflexivity. Qed.

Lemma E_const {A} (d : dist A) c : E d (fun _ => c) = mass d * c.
Proof.
  unfold mass. rewrite (E_ext d (fun _ => c) (fun _ => c * 1)) by (intros; lra).
  rewrite E_scal; lra.
Qed.

Lemma E_abs_le {A} (d : dist A) f M :
  (forall p, In p d -> 0 <= snd p) -> (forall a, Rabs (f a) <= M) ->
  Rabs (E d f) <= mass d * M.
Proof.
  intros Hp Hf. unfold E. eapply Rle_trans; [apply rsum_abs|].
  rewrite <- E_const. unfold E. apply rsum_le. intros p Hin.
  rewrite Rabs_mult, (Rabs_pos_eq (snd p)) by (apply Hp; auto).
  apply Rmult_le_compat_l; [apply Hp; auto|apply Hf].
Qed.

Lemma mass_ret {A} (a : A) : mass (ret a) = 1.
Proof. unfold mass; rewrite E_ret; reflexivity. Qed.

Lemma mass_dmap {A B} (h : A -> B) d : mass (dmap h d) = mass d.
Proof. unfold mass. rewrite E_dmap. reflexivity. Qed.

Lemma is_prob_ret {A} (a : A) : is_prob (ret a).
Proof. split; [intros p [<-|[]]; simpl; lra|apply mass_ret]. Qed.

Lemma is_prob_dmap {A B} (h : A -> B) d : is_prob d -> is_prob (dmap h d).
Proof.
  intros [H1 H2]. split; [|rewrite mass_dmap; auto].
  intros p Hp. apply in_map_iff in Hp. destruct Hp as (q & <- & Hq). simpl. auto.
Qed.

Lemma is_prob_bind {A B} (d : dist A) (k : A -> dist B) :
  is_prob d -> (forall a w, In (a, w) d -> is_prob (k a)) -> is_prob (bind d k).
Proof.
  intros [H1 H2] Hk. split.
  - intros p Hp. apply in_flat_map in Hp. destruct Hp as ([a w] & Ha & Hp).
    apply in_map_iff in Hp. destruct Hp as (q & <- & Hq). simpl in *.
    apply Rmult_le_pos; [apply (H1 (a,w) Ha)|apply (proj1 (Hk a w Ha)); auto].
  - unfold mass. rewrite E_bind. transitivity (mass d); [|exact H2]. apply E_ext_in.
    intros a w Ha. apply (Hk a w Ha).
Qed.

Lemma is_prob_weighted {A} (l : list A) w :
  (forall a, In a l -> 0 <= w a) -> rsum l w = 1 -> is_prob (weighted l w).
Proof.
  intros H1 H2. split.
  - intros p Hp. apply in_map_iff in Hp. destruct Hp as (a & <- & Ha). simpl; auto.
  - unfold mass. rewrite E_weighted. transitivity (rsum l w); [|exact H2]. apply rsum_ext; intros; lra.
Qed.

Lemma is_prob_indep {A} (ds : list (dist A)) :
  (forall d, In d ds -> is_prob d) -> is_prob (indep ds).
Proof.
  induction ds as [|d ds IH]; simpl; intros H; [apply is_prob_ret|].
  apply is_prob_bind; [apply H; auto|]. intros a w _. apply is_prob_dmap, IH. intros d' Hd'; apply H; auto.
Qed.

(** The joint law of independent weighted draws over a common outcome list. *)
Lemma E_indep_weighted {A} (vals : list A) (ws : list (A -> R)) f :
  E (indep (map (weighted vals) ws)) f
  = rsum (lists_over vals (length ws)) (fun l => prod_at ws l * f l).
Proof.
  revert f; induction ws as [|w ws IH]; intros f.
  - simpl. rewrite E_ret. lra.
  - cbn [map indep length]. rewrite E_bind, E_weighted, rsum_lists_over_cons.
    apply rsum_ext. intros v _. rewrite E_dmap, IH, <- rsum_scal.
    apply rsum_ext. intros l _. cbn [prod_at]. lra.
Qed.

(** ** Primitive draws *)

(** Bernoulli draw with success probability [p]. *)
Definition bernoulli (p : R) : dist bool := [(true, p); (false, 1 - p)].

Lemma E_bernoulli p f : E (bernoulli p) f = p * f true + (1 - p) * f false.
Proof. unfold E, bernoulli; simpl; lra. Qed.

Lemma is_prob_bernoulli p : 0 <= p <= 1 -> is_prob (bernoulli p).
Proof.
  intros H. split; [|unfold mass; rewrite E_bernoulli; lra].
  intros q [<-|[<-|[]]]; simpl; lra.
Qed.

(** Uniform draw from a list. *)
Definition uniform {A} (l : list A) : dist A := weighted l (fun _ => / INR (length l)).

Lemma is_prob_uniform {A} (l : list A) : l <> [] -> is_prob (uniform l).
Proof.
  intros H. assert (0 < INR (length l)) by (apply lt_0_INR; destruct l; simpl; [congruence|lia]).
  apply is_prob_weighted.
  - intros; left; apply Rinv_0_lt_compat; auto.
  - rewrite rsum_const. field. lra.
Qed.

(** Draw of an index with probabilities softmax(logits) (the law of
    [jax.random.categorical]). *)
Definition sumexp (logits : list R) : R := rsum logits exp.

Definition categorical (logits : list R) : dist nat :=
  weighted (seq 0 (length logits)) (fun i => exp (nth i logits 0) / sumexp logits).

Lemma sumexp_pos l : l <> [] -> 0 < sumexp l.
Proof. intros H. apply rsum_pos; auto. intros; apply exp_pos. Qed.

Lemma is_prob_categorical l : l <> [] -> is_prob (categorical l).
Proof.
  intros H. pose proof (sumexp_pos l H). apply is_prob_weighted.
  - intros i _. left. apply Rdiv_lt_0_compat; [apply exp_pos|auto].
  - unfold Rdiv. rewrite rsum_scal_r, <- (rsum_nth l 0 exp). fold (sumexp l). field. lra.
Qed.

Lemma E_categorical l f :
  E (categorical l) f = rsum (seq 0 (length l)) (fun i => exp (nth i l 0) / sumexp l * f i).
Proof. apply E_weighted. Qed.
