(** Model of text infilling: discs/common/utils.py 208-316 [create_infill_dataset], discs/models/text_infilling.py,
    discs/experiment/sampling.py 349-475 [Text_Infilling_Experiment]. *)
From Coq Require Import String Reals List Arith Bool Ascii Decimal DecimalString.
From Verif.Base Require Import RSum.
From Verif.Model Require Import Utils.
Import ListNotations.
Local Open Scope nat_scope.

(** ** The data set, utils.py 208-316 *)
Section Dataset.
Variables line word token : Type.
(** The word '[MASK]' and the token '[MASK]'; [is_mask] is the comparison of lines 252 and 297. *)
Variable MASK : word.
Variable is_mask : token -> bool.
(** The textual replacements and split(' ') of 234-237 (278-282 for the other corpus). *)
Variable clean : line -> list word.
(** tokenizer.tokenize on the joined words (external). *)
Variable tokenize : list word -> list token.

(** utils.py 246-247: list assignment at each drawn position ([set_at] does nothing out of range; the drawn positions are in range). *)
Fixpoint set_at {A} (i : nat) (v : A) (l : list A) : list A :=
  match l, i with [], _ => [] | _ :: l', O => v :: l' | a :: l', S i' => a :: set_at i' v l' end.
Definition mask_words (ws : list word) (drawn : list nat) : list word := fold_left (fun ws p => set_at p MASK ws) drawn ws.
(** utils.py 249-253: positions of the mask tokens, counted after the leading [CLS]. *)
Definition mask_positions (toks : list token) : list nat := map (fun i => i + 1) (filter (fun i => match nth_error toks i with Some t => is_mask t | None => false end) (seq 0 (List.length toks))).
(** utils.py 255-259. *)
Record entry := Entry { gt_sentence : list word; sentence : list word; infill_pos : list nat }.
Definition make_entry (ws : list word) (drawn : list nat) : entry :=
  let m := mask_words ws drawn in Entry ws m (mask_positions (tokenize m)).
(** utils.py 232-263 (and 276-308): one pass over a shuffled corpus.  [todo] holds each line with the positions that random.choice would draw for it; numpy raises
    ValueError ([None]) when more positions are wanted than there are. *)
Fixpoint collect_entries (limit min_length max_length num_masks : nat) (todo : list (line * list nat)) (data : list entry) (refs : list line) : option (list entry * list line) :=
  match todo with
  | [] => Some (data, refs)
  | (l, drawn) :: todo' =>
      if Nat.ltb (List.length data) limit then
        let ws := clean l in
        if Nat.leb (List.length ws) max_length && Nat.leb min_length (List.length ws) then
          if Nat.ltb (List.length ws - 2) num_masks then None
          else collect_entries limit min_length max_length num_masks todo' (data ++ [make_entry ws drawn]) refs
        else collect_entries limit min_length max_length num_masks todo' data (refs ++ [l])
      else collect_entries limit min_length max_length num_masks todo' data (refs ++ [l])
  end.
End Dataset.
(** utils.py 223-308: both corpora; the second continues the data of the first up to 2 * num_of_sentences.  The corpora have cleaning functions of their own. *)
Definition create_infill_dataset {line word token} (MASK : word) (is_mask : token -> bool) (clean_tbc clean_wiki : line -> list word) (tokenize : list word -> list token)
    (num_masks num_sentences min_length max_length : nat) (tbc wiki : list (line * list nat)) : option (list (entry word) * list line * list line) :=
  match collect_entries line word token MASK is_mask clean_tbc tokenize num_sentences min_length max_length num_masks tbc [] [] with
  | None => None
  | Some (data, tbc_refs) =>
      match collect_entries line word token MASK is_mask clean_wiki tokenize (2 * num_sentences) min_length max_length num_masks wiki data [] with
      | None => None
      | Some (data', wiki_refs) => Some (data', tbc_refs, wiki_refs)
      end
  end.

(** ** Decoding, text_infilling.py 46-51 and 65-66 *)
(** tokenizer(sentence): [CLS], the tokens, [SEP]. *)
Definition input_ids {T} (cls sep : T) (toks : list T) : list T := cls :: toks ++ [sep].
(** 49: .at[:, infill_pos].set(x), one token per position in order. *)
Definition put_tokens {T} (ids : list T) (pos : list nat) (x : list T) : list T := fold_left (fun ids pt => set_at (fst pt) (snd pt) ids) (combine pos x) ids.
(** 50: token_ids[0, 1:-1], the ids handed to tokenizer.decode. *)
Definition decode_ids {T} (ids : list T) (pos : list nat) (x : list T) : list T := removelast (tl (put_tokens ids pos x)).

(** ** Energy, text_infilling.py 119-143 *)
(** jnp.ndarray.at[i, j].set(v): an index out of bounds drops the update (JAX documentation). *)
Definition at_set2 (a : list (list R)) (i j : nat) (v : R) : list (list R) :=
  match nth_error a i with Some row => set_at i (set_at j v row) a | None => a end.
(** jax.nn.one_hot. *)
Definition one_hot (C v : nat) : list R := map (fun c => if Nat.eqb c v then 1%R else 0%R) (seq 0 C).
Definition mask_token : nat := 103.
(** 124-125: zeros([1, C]).at[1, mask_token].set(1.0). *)
Definition mask_dummy_array (C : nat) : list (list R) := at_set2 [repeat 0%R C] 1 mask_token 1%R.
(** 128: x.at[:, i, :].set(mask_dummy_array), the single row broadcast. *)
Definition mask_out (C : nat) (x : list (list R)) (i : nat) : list (list R) := set_at i (hd [] (mask_dummy_array C)) x.
(** jax.nn.log_softmax, entry [v]. *)
Definition log_softmax (logits : list R) (v : nat) : R := (nth v logits 0 - ln (rsum logits exp))%R.
(** 126-141 for one chain: [net rows i] are the logits at the i-th infill position when the infill one-hots are [rows] (the network and the rest of the sentence are fixed). *)
Definition single_forward (C : nat) (net : list (list R) -> nat -> list R) (x : list (list R)) : R :=
  rsum (seq 0 (List.length x)) (fun i => rsum (seq 0 C) (fun v => (log_softmax (net (mask_out C x i) i) v * nth v (nth i x []) 0)%R)).
(** 120-121: integer states are one-hot encoded first. *)
Definition forward_tokens (C : nat) (net : list (list R) -> nat -> list R) (xs : list nat) : R := single_forward C net (map (one_hot C) xs).

(** ** The experiment, sampling.py 349-407 *)
(** str(i). *)
Definition str_nat (i : nat) : list ascii := list_ascii_of_string (NilEmpty.string_of_uint (Nat.to_uint i)).
(** 392-397: the tagged sentences. *)
Definition tagged (sents : list (list ascii)) : list (list ascii) := map (fun ie => str_nat (fst ie) ++ " "%char :: snd ie) (combine (seq 0 (List.length sents)) sents).
(** dict(zip(...)): a repeated key keeps its place and takes the new value. *)
Fixpoint dict_put {V} (k : list ascii) (v : V) (d : list (list ascii * V)) : list (list ascii * V) :=
  match d with [] => [(k, v)] | (k', v') :: d' => if list_eq_dec ascii_dec k' k then (k', v) :: d' else (k', v') :: dict_put k v d' end.
Definition dict_of {V} (items : list (list ascii * V)) : list (list ascii * V) := fold_left (fun d kv => dict_put (fst kv) (snd kv) d) items [].
(** sorted(..., key=value): stable, ascending. *)
Fixpoint insert {A} (e : A * R) (l : list (A * R)) : list (A * R) :=
  match l with [] => [e] | e' :: l' => if Rle_dec (snd e) (snd e') then e :: l else e' :: insert e l' end.
Definition sort_by {A} (l : list (A * R)) : list (A * R) := fold_right insert [] l.
(** l[-k:]: for k = 0 this is l[0:], the whole list. *)
Definition last_k {A} (k : nat) (l : list A) : list A := if Nat.eqb k 0 then l else skipn (List.length l - k) l.
(** 400-412 with use_topk: (sentences, topk_sentences). *)
Definition topk (k : nat) (sents : list (list ascii)) (loglikes : list R) : list (list ascii) * list (list ascii) :=
  let keys := tagged sents in
  let sorted := sort_by (dict_of (combine keys loglikes)) in
  (map (skipn 2) keys, map (skipn 2) (last_k k (map fst sorted))).

(** 376-397, 432-461: the key from which sentence [s] (a call of [_get_chains_and_evaluations] with rnd_key = s), resample [m], step [t] draws: [preprocess] is called with
    rnd_key=0; the key is folded at every step of every resample. *)
Fixpoint fold_steps (k : key) (t : nat) : key := match t with O => k | S t' => FoldIn (fold_steps k t') t end.
Fixpoint resample_start (L : nat) (k : key) (m : nat) : key := match m with O => k | S m' => fold_steps (resample_start L k m') L end.
Definition preprocess_key (rnd_key : nat) : key := Root rnd_key.
Definition chain_key (L : nat) (s m t : nat) : key := fold_steps (resample_start L (preprocess_key 0) m) t.

(** 352, 368: arguments of a jitted function; strings are no JAX types, the call raises TypeError ([None]). *)
Inductive pyarg := PStr (s : list ascii) | PArr (v : R) | PList (l : list pyarg).
Fixpoint jax_type (a : pyarg) : bool := match a with PStr _ => false | PArr _ => true | PList l => forallb jax_type l end.
Definition jit_call {B} (f : list pyarg -> B) (args : list pyarg) : option B := if forallb jax_type args then Some (f args) else None.
(** 368-376: evaluate the sentences and save; [None] when nothing is saved. *)
Definition save_lm {B} (evaluate : list pyarg -> B) (sents : list (list ascii)) (data_root : list ascii) : option B := jit_call evaluate [PList (map PStr sents); PStr data_root].
