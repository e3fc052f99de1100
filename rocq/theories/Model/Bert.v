(** Model of the network of discs/common/customized_huggingface_flax_bert.py as called by discs/models/text_infilling.py (one
    sentence, evaluation mode: dropout is the identity).  Real numbers; nn.Dense, nn.LayerNorm and dot_product_attention_weights are
    written out after the flax documentation; the activation is an arbitrary function.  Arrays are functions of their indices. *)
From Coq Require Import Reals List Arith.
From Verif.Base Require Import RSum.
Import ListNotations.
Local Open Scope R_scope.

(** nn.Dense with [n] inputs. *)
Definition dense (n : nat) (W : nat -> nat -> R) (b : nat -> R) (x : nat -> R) : nat -> R := fun j => rsum (seq 0 n) (fun i => x i * W i j) + b j.

(** nn.LayerNorm over [n] features. *)
Definition mean_of (n : nat) (x : nat -> R) : R := rsum (seq 0 n) x / INR n.
Definition var_of (n : nat) (x : nat -> R) : R := mean_of n (fun i => x i * x i) - mean_of n x * mean_of n x.
Definition normalise (n : nat) (eps : R) (x : nat -> R) : nat -> R := fun j => (x j - mean_of n x) / sqrt (var_of n x + eps).
Definition layer_norm (n : nat) (eps : R) (scale bias x : nat -> R) : nat -> R := fun j => normalise n eps x j * scale j + bias j.

Record layer := {
  qW : nat -> nat -> R; qb : nat -> R; kW : nat -> nat -> R; kb : nat -> R; vW : nat -> nat -> R; vb : nat -> R;   (* 209-221 *)
  oW : nat -> nat -> R; ob : nat -> R; o_scale : nat -> R; o_bias : nat -> R;                                     (* 275-282 *)
  iW : nat -> nat -> R; ib : nat -> R;                                                                            (* 321-327 *)
  fW : nat -> nat -> R; fb : nat -> R; f_scale : nat -> R; f_bias : nat -> R                                      (* 339-346 *)
}.
Record bert := {
  vocab : nat; hidden : nat; heads : nat; inter : nat; eps : R; act : R -> R; tie : bool;
  word : nat -> nat -> R; posn : nat -> nat -> R; ttype : nat -> nat -> R; e_scale : nat -> R; e_bias : nat -> R;  (* 151-171 *)
  layers : list layer;                                                                                            (* 384-387 *)
  tW : nat -> nat -> R; tb : nat -> R; t_scale : nat -> R; t_bias : nat -> R;                                      (* 474-477 *)
  decoder : nat -> nat -> R; d_bias : nat -> R                                                                    (* 490-493 *)
}.
(** 201-205: the hidden size has to be a multiple of the number of heads. *)
Definition bert_ok (B : bert) : bool := negb (Nat.eqb (heads B) 0) && Nat.eqb (hidden B mod heads B) 0.

Section Net.
  Variable B : bert.
  Variable L : nat.                  (* number of tokens of the sentence *)
  Let H := hidden B.
  Let hd := (H / heads B)%nat.       (* 224 *)

  (** 173-175 [one_hot_embeddings]. *)
  Definition one_hot_embedding (row : list R) (j : nat) : R := rsum (seq 0 (vocab B)) (fun v => nth v row 0 * word B v j).
  (** inputs_embeds.at[:, infill_pos, :].set(infill_embeds): the row whose position is [p]. *)
  Fixpoint infill_row (pos : list nat) (rows : list (list R)) (p : nat) : option (list R) :=
    match pos, rows with q :: pos', r :: rows' => if Nat.eqb q p then Some r else infill_row pos' rows' p | _, _ => None end.
  (** 177-193 [FlaxBertEmbeddings.__call__]; 595-596: the position ids are 0, 1, ... *)
  Definition embeddings (ids types : nat -> nat) (pos : list nat) (rows : list (list R)) (p : nat) : nat -> R :=
    let e := match infill_row pos rows p with Some r => one_hot_embedding r | None => word B (ids p) end in
    layer_norm H (eps B) (e_scale B) (e_bias B) (fun j => e j + ttype B (types p) j + posn B p j).

  (** 223-268 [FlaxBertSelfAttention.__call__]: head [a] owns the features a * hd, ..., a * hd + hd - 1. *)
  Definition attention_bias (mask : nat -> nat) (k : nat) : R := if Nat.ltb 0 (mask k) then 0 else - 10 ^ 10.
  Definition score (l : layer) (mask : nat -> nat) (h : nat -> nat -> R) (a q k : nat) : R :=
    rsum (seq (a * hd) hd) (fun j => dense H (qW l) (qb l) (h q) j / sqrt (INR hd) * dense H (kW l) (kb l) (h k) j) + attention_bias mask k.
  Definition weight (l : layer) (mask : nat -> nat) (h : nat -> nat -> R) (a q k : nat) : R :=
    exp (score l mask h a q k) / rsum (seq 0 L) (fun k' => exp (score l mask h a q k')).
  Definition self_attention (l : layer) (mask : nat -> nat) (h : nat -> nat -> R) (q : nat) : nat -> R :=
    fun j => rsum (seq 0 L) (fun k => weight l mask h (j / hd) q k * dense H (vW l) (vb l) (h k) j).
  (** 284-288, 299-314. *)
  Definition attention_block (l : layer) (mask : nat -> nat) (h : nat -> nat -> R) (q : nat) : nat -> R :=
    layer_norm H (eps B) (o_scale l) (o_bias l) (fun j => dense H (oW l) (ob l) (self_attention l mask h q) j + h q j).
  (** 329-332, 348-352, 364-377 [FlaxBertLayer.__call__]. *)
  Definition bert_layer (mask : nat -> nat) (l : layer) (h : nat -> nat -> R) (q : nat) : nat -> R :=
    let a := attention_block l mask h q in
    layer_norm H (eps B) (f_scale l) (f_bias l) (fun j => dense (inter B) (fW l) (fb l) (fun i => act B (dense H (iW l) (ib l) a i)) j + a j).
  (** 389-424: the layers in turn. *)
  Definition encoder (mask : nat -> nat) (h : nat -> nat -> R) : nat -> nat -> R := fold_left (fun h l => bert_layer mask l h) (layers B) h.
  (** 479-482 [FlaxBertPredictionHeadTransform], 495-504 [FlaxBertLMPredictionHead]. *)
  Definition transform (x : nat -> R) : nat -> R := layer_norm H (eps B) (t_scale B) (t_bias B) (fun j => act B (dense H (tW B) (tb B) x j)).
  Definition kernel (j v : nat) : R := if tie B then word B v j else decoder B j v.
  Definition lm_head (x : nat -> R) (v : nat) : R := rsum (seq 0 H) (fun j => transform x j * kernel j v) + d_bias B v.
  (** 793-837 [FlaxBertForMaskedLMModule_Infilling.__call__]: logit of token [v] at position [p]. *)
  Definition logits (ids types mask : nat -> nat) (pos : list nat) (rows : list (list R)) (p v : nat) : R :=
    lm_head (encoder mask (embeddings ids types pos rows) p) v.
  (** text_infilling.py 129-138: the logits at the i-th infill position. *)
  Definition infill_net (ids types mask : nat -> nat) (pos : list nat) (rows : list (list R)) (i : nat) : list R :=
    map (logits ids types mask pos rows (nth i pos 0%nat)) (seq 0 (vocab B)).
End Net.
