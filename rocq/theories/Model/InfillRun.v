(** Model of a whole run of Text_Infilling_Experiment (experiment/sampling.py 349-475): for every entry of the data set the masked tokens
    are sampled [num_same_resample] times by any sampler object and written into the sentence. *)
From Coq Require Import Reals List Arith Ascii.
From Verif.Base Require Import RSum Dist.
From Verif.Model Require Import MathUtil FullRun Infill.
Import ListNotations.

(** An entry of infilling_task.json (text_infilling.py 31-44, 53-72) after tokenizer(sentence): the tokens without [CLS] and [SEP], and
    infill_pos. *)
Record text := { x_tokens : list nat; x_pos : list nat }.
(** What the loaded files fix (text_infilling.py 16-29): the number of categories, the ids of [CLS] and [SEP], the logits of the network
    at the i-th infill position for given input ids, positions and infill one-hots, the gradient array, tokenizer.decode. *)
Record language := { lm_C : nat; lm_cls : nat; lm_sep : nat; lm_logits : list nat -> list nat -> list (list R) -> nat -> list R;
                     lm_grad : text -> list nat -> nat -> R; lm_decode : list nat -> list ascii }.
Definition ids_of (lm : language) (e : text) : list nat := input_ids (lm_cls lm) (lm_sep lm) (x_tokens e).
Definition net_of (lm : language) (e : text) : list (list R) -> nat -> list R := lm_logits lm (ids_of lm e) (x_pos e).

(** text_infilling.py 107-143 for the current sentence; [d]: prod(config.model.shape), abstractsampler.py and the samplers read it. *)
Definition fill_target (lm : language) (d : nat) (e : text) : target :=
  {| t_fw := forward_tokens (lm_C lm) (net_of lm e); t_grad := lm_grad lm e; t_lr := fun _ _ => 0%R; t_sig := None; t_mask := None; t_dim := d; t_C := lm_C lm |}.
(** text_infilling.py 74-105: uniform, or from the network with all positions shown as [MASK] (92-93: this array is written correctly). *)
Definition fill_start (random_init : bool) (lm : language) (e : text) : dist (list nat) :=
  if random_init then init_randint (length (x_pos e)) (lm_C lm)
  else indep (map (fun i => categorical (net_of lm e (repeat (one_hot (lm_C lm) mask_token) (length (x_pos e))) i)) (seq 0 (length (x_pos e)))).
(** text_infilling.py 46-51. *)
Definition sentence_of (lm : language) (e : text) (x : list nat) : list ascii := lm_decode lm (decode_ids (ids_of lm e) (x_pos e) x).

(** sampling.py 411-475: [L] steps from the sample and state that preprocess made; the sentence and its log-likelihood. *)
Definition fill_once (guard dg : R) (lm : language) (d : nat) (k : sampler) (L : nat) (e : text) (x0 : list nat) : dist (list ascii * R) :=
  dmap (fun o => let x := hd [] (fst o) in (sentence_of lm e x, t_fw (fill_target lm d e) x)) (sampler_run guard dg (fill_target lm d e) k L ([x0], init_state k)).
(** sampling.py 378-409: one initial sample (166-184), [m] resamples which all start from it; [keep] = topk_num with use_topk.  The reshape
    to config.model.shape (60-61, 96) fails when the number of positions differs. *)
Definition fill_entry (guard dg : R) (random_init : bool) (lm : language) (d : nat) (k : sampler) (L m : nat) (keep : option nat) (e : text)
    : dist (list (list ascii) * list (list ascii)) :=
  if Nat.eqb (length (x_pos e)) d then
    bind (fill_start random_init lm e) (fun x0 =>
      dmap (fun rs => match keep with Some q => topk q (map fst rs) (map snd rs) | None => (map fst rs, []) end)
           (indep (repeat (fill_once guard dg lm d k L e x0) m)))
  else [].

(** sampling.py 352-367: the loop over the entries.  [fill s e]: what happens for entry [e] when the key of preprocess is PRNGKey(s); 380-382
    passes 0 whatever the running [rnd_key] is. *)
Fixpoint get_results (fill : nat -> text -> list (list ascii) * list (list ascii)) (rnd_key : nat) (data : list text) : list (list ascii) * list (list ascii) :=
  match data with
  | [] => ([], [])
  | e :: data' => let r := fill 0 e in let rs := get_results fill (S rnd_key) data' in (fst r ++ fst rs, snd r ++ snd rs)
  end.
