(** Specification vocabulary for text-infilling runs. *)
From Coq Require Import Reals List Arith Ascii Permutation Sorting.Sorted.
From Verif.Base Require Import RSum Cube Dist.
From Verif.Spec Require Import InfillSpec.
From Verif.Model Require Import FullRun InfillRun.
Import ListNotations.
Local Open Scope R_scope.

(** Positions inside the sentence, each once; position 1 is the first token ([CLS] is 0). *)
Definition placed (e : text) : Prop := NoDup (x_pos e) /\ Forall (fun p => (1 <= p <= length (x_tokens e))%nat) (x_pos e).
(** [ys] is the sentence with the tokens [x] at its positions, in this order, and nothing else changed. *)
Definition completes (e : text) (x ys : list nat) : Prop :=
  length ys = length (x_tokens e) /\
  (forall i, (i < length (x_pos e))%nat -> nth_error ys (nth i (x_pos e) 0%nat - 1) = nth_error x i) /\
  (forall j, (j < length (x_tokens e))%nat -> ~ In (S j) (x_pos e) -> nth_error ys j = nth_error (x_tokens e) j).
(** One logit per category. *)
Definition well_shaped (lm : language) : Prop := forall ids pos rows i, length (lm_logits lm ids pos rows i) = lm_C lm.
(** The law with weights [pi] on the fills of [d] positions. *)
Definition target_law (d C : nat) (pi : list nat -> R) : dist (list nat) := map (fun x => (x, pi x / rsum (states d C) pi)) (states d C).
(** The first ten sentences as they are, a blank before the others. *)
Definition blank_after_ten (sents : list (list Ascii.ascii)) : list (list Ascii.ascii) :=
  map (fun ie => if Nat.ltb (fst ie) 10 then snd ie else " "%char :: snd ie) (combine (seq 0 (length sents)) sents).
(** [top]: the [q] best of the scored sentences, in ascending order. *)
Definition best_of (q : nat) (scored : list (list Ascii.ascii * R)) (top : list (list Ascii.ascii)) : Prop :=
  exists rest best, Permutation scored (rest ++ best) /\ map fst best = top /\ length best = Nat.min q (length scored) /\
    (forall a b, In a rest -> In b best -> snd a <= snd b) /\ StronglySorted (fun a b => snd a <= snd b) best.
(** The product of the probabilities the network gives to each filled token, its position shown as the all-zero row (text_infilling.py 124-126). *)
Definition fill_weight (lm : language) (e : text) (x : list nat) : R :=
  rprod (seq 0 (length x)) (fun i => softmax_prob (net_of lm e (show_at (repeat 0 (lm_C lm)) (map (fun v => map (fun c => if Nat.eqb c v then 1 else 0) (seq 0 (lm_C lm))) x) i) i) (nth i x 0%nat)).
Definition logits_within (lm : language) (M : R) : Prop := forall ids pos rows i v, Rabs (nth v (lm_logits lm ids pos rows i) 0) <= M.
(** One if the first two sentences are the same, else zero. *)
Definition same (sents : list (list Ascii.ascii)) : R := if list_eq_dec Ascii.ascii_dec (nth 0 sents []) (nth 1 sents []) then 1 else 0.
(** Long chains of the object: any number of resampled sentences is, jointly, as close as desired to as many independent draws from the
    network's law (in total variation). *)
Definition near_independent (g dg : R) (random_init : bool) (lm : language) (d : nat) (e : text) (k : sampler) : Prop :=
  forall m eps, 0 < eps -> exists N, forall L F, (N <= L)%nat -> (forall l, Rabs (F l) <= 1) ->
    Rabs (E (fill_entry g dg random_init lm d k L m None e) (fun o => F (fst o))
          - E (indep (repeat (target_law d (lm_C lm) (fill_weight lm e)) m)) (fun fills => F (map (sentence_of lm e) fills))) <= eps.
