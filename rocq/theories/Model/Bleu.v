(** Model of the sentence scores of text infilling: reading of the reference corpora, the three calls of nltk's corpus_bleu, self-BLEU and
    the table of results (evaluators/lm_eval.py 13-55, 87-119).

    nltk.translate.bleu_score (corpus_bleu, modified_precision, closest_ref_length, brevity_penalty, SmoothingFunction.method0) is not part
    of the repository; it is modelled from its published source (nltk 3.7 and later, the versions that accept a list of weight tuples).
    Simplifications: words are split at ASCII white space and lower-cased as ASCII; real arithmetic. *)
From Coq Require Import String Ascii List Bool Reals Arith.
From Verif.Base Require Import RSum.
From Verif.Model Require Tools.
Import ListNotations.
Local Open Scope R_scope.

Section Bleu.
Variable word : Type.
Variable word_dec : forall a b : word, {a = b} + {a <> b}.
Notation sent := (list word).
Notation gram_dec := (Tools.gram_dec word word_dec).
Notation ngrams := (Tools.ngrams word).

(** nltk modified_precision: max_counts, the clipped counts and the two numbers of the Fraction; [None] is the KeyError of max_counts when
    there are no references but the hypothesis has n-grams. *)
Definition max_count (n : nat) (refs : list sent) (g : sent) : nat := fold_right Nat.max 0%nat (map (fun r => count_occ gram_dec (ngrams n r) g) refs).
Definition clipped (n : nat) (refs : list sent) (h : sent) : nat :=
  list_sum (map (fun g => Nat.min (count_occ gram_dec (ngrams n h) g) (max_count n refs g)) (nodup gram_dec (ngrams n h))).
Definition modified_precision (refs : list sent) (h : sent) (n : nat) : option (nat * nat) :=
  match refs, ngrams n h with
  | [], _ :: _ => None
  | _, _ => Some (clipped n refs h, Nat.max 1 (length (ngrams n h)))
  end.
(** nltk closest_ref_length: min over the lengths with key (|length - hyp_len|, length); [None] is the ValueError of min on nothing. *)
Definition gap (a b : nat) : nat := (a - b + (b - a))%nat.
Definition closer (hl a b : nat) : bool := (gap a hl <? gap b hl)%nat || ((gap a hl =? gap b hl)%nat && (a <? b)%nat).
Definition closest_ref (refs : list sent) (hl : nat) : option nat :=
  match map (@length word) refs with [] => None | r :: rs => Some (fold_left (fun b a => if closer hl a b then a else b) rs r) end.
(** nltk brevity_penalty. *)
Definition brevity (rl hl : nat) : R := if (rl <? hl)%nat then 1 else if (hl =? 0)%nat then 0 else exp (1 - INR rl / INR hl).
(** nltk SmoothingFunction.method0: sys.float_info.min replaces a precision with numerator zero. *)
Definition float_min : R := / 2 ^ 1022.
Definition smoothed (nd : nat * nat) : R := if (fst nd =? 0)%nat then float_min else INR (fst nd) / INR (snd nd).

Fixpoint all_some {A} (l : list (option A)) : option (list A) :=
  match l with [] => Some [] | Some a :: t => option_map (cons a) (all_some t) | None :: _ => None end.
Definition add2 (a b : nat * nat) : nat * nat := (fst a + fst b, snd a + snd b)%nat.
(** nltk corpus_bleu without smoothing function or reweighting, for pairs (references, hypothesis); weights is a list of tuples. [None]: an
    exception of the helpers, or the ZeroDivisionError of Fraction(0, 0) when there is no hypothesis. *)
Definition bleu_scores (pairs : list (list sent * sent)) (weights : list (list R)) : option (list R) :=
  let N := fold_right Nat.max 0%nat (map (@length R) weights) in
  match all_some (map (fun n => option_map (fold_right add2 (0, 0)%nat) (all_some (map (fun p => modified_precision (fst p) (snd p) n) pairs))) (seq 1 N)),
        all_some (map (fun p => closest_ref (fst p) (length (snd p))) pairs) with
  | Some nds, Some rls =>
      if existsb (fun nd => (snd nd =? 0)%nat) nds then None
      else if (match nds with nd :: _ => fst nd =? 0 | [] => true end)%nat then Some (map (fun _ => 0) weights)
      else
        let bp := brevity (list_sum rls) (list_sum (map (fun p => length (snd p)) pairs)) in
        Some (map (fun w => bp * exp (rsum (combine w (map smoothed nds)) (fun wp => fst wp * ln (snd wp)))) weights)
  | _, _ => None
  end.

(** lm_eval.py 33-46: the three printed numbers; the last is returned. *)
Definition bleu_weights : list (list R) := [[1 / 2; 1 / 2]; [1 / 3; 1 / 3]; [1 / 4; 1 / 4; 1 / 4; 1 / 4]].
Definition corpus_bleu3 (generated references : list sent) : option (R * R * R) :=
  match bleu_scores (map (fun h => (references, h)) generated) bleu_weights with Some [b2; b3; b4] => Some (b2, b3, b4) | _ => None end.
Definition corpus_bleu (generated references : list sent) : option R := option_map snd (corpus_bleu3 generated references).
(** lm_eval.py 48-55: each sentence against the others; nltk's default weights. *)
Definition others (sents : list sent) (i : nat) : list sent := firstn i sents ++ skipn (S i) sents.
Definition self_bleu (sents : list sent) : option R :=
  match bleu_scores (combine (map (others sents) (seq 0 (length sents))) sents) [[1 / 4; 1 / 4; 1 / 4; 1 / 4]] with Some [b] => Some b | _ => None end.
End Bleu.

(** str.split() (after str.strip()): the maximal runs without white space. *)
Definition is_space (c : ascii) : bool := let n := nat_of_ascii c in ((9 <=? n)%nat && (n <=? 13)%nat) || ((28 <=? n)%nat && (n <=? 32)%nat).
Fixpoint split_ws (cur : string) (s : string) : list string :=
  match s with
  | EmptyString => if String.eqb cur "" then [] else [cur]
  | String c s' => if is_space c then (if String.eqb cur "" then split_ws "" s' else cur :: split_ws "" s') else split_ws (cur ++ String c "") s'
  end.
Definition words (s : string) : list string := split_ws "" s.
(** str.lower. *)
Definition lower_char (c : ascii) : ascii := let n := nat_of_ascii c in if (65 <=? n)%nat && (n <=? 90)%nat then ascii_of_nat (n + 32) else c.
Fixpoint lower (s : string) : string := match s with EmptyString => EmptyString | String c s' => String (lower_char c) (lower s') end.
(** lm_eval.py 13-21: one pass over the corpus for each replacement. *)
Definition prepare_data (lines : list string) (replacements : list (string * string)) (uncased : bool) : list (list string) :=
  let data := map words lines in
  let data := if uncased then map (map lower) data else data in
  fold_left (fun d kv => map (map (fun t => if String.eqb t (fst kv) then snd kv else t)) d) replacements data.
(** lm_eval.py 23-31. *)
Definition prepare_wiki (lines : list string) : list (list string) := prepare_data lines [("@@unknown@@", "[UNK]")]%string true.
Definition quote : string := String (ascii_of_nat 34) "".
Definition prepare_tbc (lines : list string) : list (list string) := prepare_data lines [("``", quote); ("''", quote)]%string true.

(** lm_eval.py 87-119: what the table of results holds besides the sentences themselves; n-gram scores by size. *)
Record lm_results := { tbc_bleu : R; wiki_bleu : R; tbc_wiki_bleu : R; self_bleu_entry : option R;
                       unique_wiki : list (nat * R); unique_tbc : list (nat * R); unique_self : list (nat * R) }.
Definition lm_evaluate (max_n : nat) (wiki_lines tbc_lines sentences : list string) : option lm_results :=
  let wiki := prepare_wiki wiki_lines in let tbc := prepare_tbc tbc_lines in
  let sents := map words sentences in
  match corpus_bleu string string_dec sents tbc, corpus_bleu string string_dec sents wiki, corpus_bleu string string_dec sents (tbc ++ wiki) with
  | Some a, Some b, Some c =>
      match (if (1 <? length sents)%nat then option_map Some (self_bleu string string_dec sents) else Some None) with
      | Some s =>
          match Tools.ref_unique_ngrams string string_dec sents wiki max_n, Tools.ref_unique_ngrams string string_dec sents tbc max_n,
                Tools.self_unique_ngrams string string_dec sents max_n with
          | Some u, Some v, Some w => Some {| tbc_bleu := a; wiki_bleu := b; tbc_wiki_bleu := c; self_bleu_entry := s; unique_wiki := u; unique_tbc := v; unique_self := w |}
          | _, _, _ => None
          end
      | None => None
      end
  | _, _, _ => None
  end.
