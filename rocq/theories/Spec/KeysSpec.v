(** What it means for the draws of a run to be independent: a generator answers every key with a random word of its own, the same word whenever the key comes again. *)
From Coq Require Import List Reals Arith Bool.
From Verif.Base Require Import Dist.
From Verif.Model Require Import Utils Keys.
Import ListNotations.
Local Open Scope R_scope.

Definition label_dec (a b : label) : {a = b} + {a <> b}.
Proof. decide equality; apply Nat.eq_dec. Defined.
Definition name_dec (a b : nat * list label) : {a = b} + {a <> b}.
Proof. decide equality; [apply (list_eq_dec label_dec)|apply Nat.eq_dec]. Defined.
Fixpoint recall {A} (n : nat * list label) (answers : list ((nat * list label) * A)) : option A :=
  match answers with [] => None | (n', a) :: rest => if name_dec n n' then Some a else recall n rest end.
(** The words a generator answers to a list of keys, a new key getting a word of law [d]. *)
Fixpoint words {A} (m : derivation) (d : dist A) (answers : list ((nat * list label) * A)) (ks : list key) : dist (list A) :=
  match ks with
  | [] => ret []
  | k :: ks' =>
      match recall (name m k) answers with
      | Some a => dmap (cons a) (words m d answers ks')
      | None => bind d (fun a => dmap (cons a) (words m d ((name m k, a) :: answers) ks'))
      end
  end.
(** The draws with the keys [ks] are jointly independent. *)
Definition independent (m : derivation) (ks : list key) : Prop :=
  forall A (d : dist A) (f : list A -> R), is_prob d -> E (words m d [] ks) f = E (indep (repeat d (length ks))) f.

(** [k] is [a] or derived from it. *)
Definition derived (m : derivation) (a k : key) : Prop := seed k = seed a /\ exists l, path m k = l ++ path m a.
(** No key is drawn with twice, nor drawn with and used to derive the key of another draw (the rule of the JAX documentation). *)
Definition disciplined (m : derivation) (ks : list key) : Prop :=
  forall i j a b, i <> j -> nth_error ks i = Some a -> nth_error ks j = Some b -> ~ derived m a b.
(** Samplers that split the key of a step in two and draw with the halves or what they derive from them. *)
Definition two_way (s : stepper) : bool := match s with KRandomWalk | KGwg | KAdaptiveGwg | KPathAux _ | KDmala | KDlmc | KRbmGibbs => true | _ => false end.
