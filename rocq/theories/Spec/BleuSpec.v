(** BLEU of a corpus, by positions: no counters. *)
From Coq Require Import String Ascii List Reals Arith Bool.
From Verif.Base Require Import RSum.
Import ListNotations.
Local Open Scope R_scope.

Section Spec.
Variable word : Type.
Variable word_dec : forall a b : word, {a = b} + {a <> b}.
Notation sent := (list word).
(** The n-gram that starts at a position, and the positions where one starts. *)
Definition at_pos (n : nat) (s : sent) (i : nat) : sent := firstn n (skipn i s).
Definition starts (n : nat) (s : sent) : list nat := filter (fun i => (i + n <=? length s)%nat) (seq 0 (length s)).
(** How often a non-empty sequence of words occurs in a sentence; up to and including the occurrence that starts at [i]. *)
Definition same (a b : sent) : bool := if list_eq_dec word_dec a b then true else false.
Definition times (g s : sent) : nat := length (filter (fun i => same (at_pos (length g) s i) g) (starts (length g) s)).
Definition times_to (g s : sent) (j : nat) : nat := length (filter (fun i => same (at_pos (length g) s i) g && (i <=? j)%nat) (starts (length g) s)).
(** A position counts when some reference has the n-gram at least as often as it occurred so far. *)
Definition credited (n : nat) (refs : list sent) (h : sent) (i : nat) : bool := existsb (fun r => (times_to (at_pos n h i) h i <=? times (at_pos n h i) r)%nat) refs.
Definition matched (n : nat) (refs : list sent) (h : sent) : nat := length (filter (credited n refs h) (starts n h)).

(** A corpus: sentences with their references. *)
Definition corpus := list (list sent * sent).
Definition hits (n : nat) (c : corpus) : nat := list_sum (map (fun p => matched n (fst p) (snd p)) c).
Definition tries (n : nat) (c : corpus) : nat := list_sum (map (fun p => Nat.max 1 (length (starts n (snd p)))) c).
Definition precision (n : nat) (c : corpus) : R := INR (hits n c) / INR (tries n c).
(** The length of the reference closest in length, the shorter of two equally close ones. *)
Definition distance (a b : nat) : nat := (Nat.max a b - Nat.min a b)%nat.
Definition closest (refs : list sent) (hl rl : nat) : Prop :=
  In rl (map (@length word) refs) /\ forall r, In r refs -> (distance rl hl < distance (length r) hl \/ (distance rl hl = distance (length r) hl /\ rl <= length r))%nat.
(** [b] is the brevity penalty of the corpus. *)
Definition penalty (c : corpus) (b : R) : Prop :=
  exists rls, Forall2 (fun p rl => closest (fst p) (length (snd p)) rl) c rls /\
    let rl := list_sum rls in let hl := list_sum (map (fun p => length (snd p)) c) in
    ((rl <= hl)%nat /\ (0 < hl)%nat /\ b = 1) \/ ((hl < rl)%nat /\ (0 < hl)%nat /\ b = exp (1 - INR rl / INR hl)) \/ (hl = 0%nat /\ b = 0).
Definition against (references generated : list sent) : corpus := map (fun h => (references, h)) generated.
End Spec.

(** ** Text *)
Definition white (c : ascii) : Prop := In (nat_of_ascii c) [9; 10; 11; 12; 13; 28; 29; 30; 31; 32]%nat.
Definition no_white (s : string) : Prop := forall c, In c (list_ascii_of_string s) -> ~ white c.
Definition no_capital (s : string) : Prop := forall c, In c (list_ascii_of_string s) -> ~ (65 <= nat_of_ascii c <= 90)%nat.
