(** Model of discs/common/math_util.py (and the weight functions' numeric helpers).
    All line numbers refer to /repo/discs/common/math_util.py unless stated. *)
From Coq Require Import Reals List Lra Lia Arith.
From Verif.Base Require Import RSum Cube Dist XFloat.
Import ListNotations.
Local Open Scope R_scope.

(** math_util.py 8-9 [comb].  The code divides floats and truncates; with exact reals the quotient
    of factorials is an integer, so natural-number division is the same function. *)
Definition comb (x y : nat) : nat := (fact x / (fact y * fact (x - y)))%nat.

(** math_util.py 12-16 [prod]. *)
Definition prod (it : list nat) : nat := fold_left Nat.mul it 1%nat.

(** math_util.py 30-34 [log1mexp]: x := -|x|; where(x > -0.693, log(-expm1 x), log1p(-exp x)). *)
Definition log1mexp (x : xf) : xf :=
  let x' := xneg (xabs x) in
  if xltb (Fin (- (693 / 1000))) x' then xlog (xneg (xexpm1 x')) else xlog1p (xneg (xexp x')).

(** Maximum of a list (jnp.max); [None] on the empty axis, which JAX rejects. *)
Fixpoint rmax_list (l : list R) : option R :=
  match l with
  | [] => None
  | a :: l' => match rmax_list l' with None => Some a | Some m => Some (Rmax a m) end
  end.

(** jnp.cumsum starting from accumulator [acc]. *)
Fixpoint cumsum (acc : R) (l : list R) : list R :=
  match l with
  | [] => []
  | a :: l' => (acc + a) :: cumsum (acc + a) l'
  end.

(** math_util.py 37-42 [noreplacement_sampling_renormalize] on one row of finite log-probabilities. *)
Definition renormalize (ll_idx : list R) : option (list xf) :=
  match rmax_list ll_idx with
  | None => None
  | Some ll_base =>
      let prob_idx := map (fun l => exp (l - ll_base)) ll_idx in
      let ll_delta :=
        map (fun cp => xadd (xlog (Fin (fst cp - snd cp))) (Fin ll_base))
            (combine (cumsum 0 prob_idx) prob_idx) in
      Some (map (fun ld => xmin (xsub (Fin (fst ld)) (log1mexp (snd ld))) (Fin 0))
                (combine ll_idx ll_delta))
  end.

(** jax.nn.log_softmax on one row (used throughout the samplers). *)
Definition log_softmax (l : list R) : list R := map (fun a => a - ln (sumexp l)) l.

(** math_util.py 152-154 [bernoulli_logp]: log(noise + 1e-24) < log_prob. *)
Definition acc_guard : R := / 10 ^ 24.
Definition bernoulli_logp (noise : R) (log_prob : xf) : bool :=
  xltb (xlog (Fin (noise + acc_guard))) log_prob.

(** math_util.py 157-166 [mh_step]: one noise value and one log-acceptance per chain;
    [where] selects whole chains (use_new_sample is expanded over the sample axes). *)
Definition mh_step1 {A} (noise : R) (log_prob : xf) (cur new : A) : A * bool :=
  let use_new := bernoulli_logp noise log_prob in
  ((if use_new then new else cur), use_new).

Fixpoint mh_step {A} (noise : list R) (log_prob : list xf) (cur new : list A) : list (A * bool) :=
  match noise, log_prob, cur, new with
  | u :: noise', l :: lp', c :: cur', n :: new' => mh_step1 u l c n :: mh_step noise' lp' cur' new'
  | _, _, _, _ => []
  end.

(** Law of [mh_step] for one chain with a finite log-acceptance [la] and uniform noise on [0,1):
    the probability of acceptance is the length of {u in [0,1) : u + guard < exp la}.
    The code has [guard = acc_guard] (line 154); [guard = 0] is the idealised rule. *)
Definition accept_prob (guard la : R) : R := Rmax 0 (Rmin 1 (exp la - guard)).

Definition mh_law {A} (guard la : R) (cur new : A) : dist A :=
  bind (bernoulli (accept_prob guard la)) (fun b : bool => ret (if b then new else cur)).

(** ** [multinomial] (45-149) *)

(** 75-90, constant count with replacement: [num_samples] independent categorical draws; the indices are the
    draws themselves and ll is gathered from log_prob (85-88). [draws] are the values returned
    by jax.random.categorical. *)
Definition multinomial_const_repl (log_prob : list R) (draws : list nat) : list nat * list R :=
  (draws, map (fun i => nth i log_prob 0) draws).

(** Law of the draws. *)
Definition multinomial_repl_law (log_prob : list R) (num_samples : nat) : dist (list nat) :=
  indep (repeat (categorical log_prob) num_samples).

(** 92-118, traced count with replacement, one row.  One iteration draws [batch_size] categories
    (97-99), masks those at or beyond num_samples (101), adds the one-hots (104). *)
Definition onehot (n i : nat) : list nat := map (fun j => if Nat.eqb j i then 1%nat else 0%nat) (seq 0 n).

Definition vadd (a b : list nat) : list nat := map (fun p => (fst p + snd p)%nat) (combine a b).

(** Masked draws of one iteration, position [k] of the batch counted from [cnt]. *)
Fixpoint add_masked (n num_samples pos : nat) (idx : list nat) (total : list nat) : list nat :=
  match idx with
  | [] => total
  | i :: idx' =>
      add_masked n num_samples (S pos) idx'
        (if Nat.ltb pos num_samples then vadd total (onehot n i) else total)
  end.

(** The while loop 113-117; [draw it] are the [batch_size] draws of iteration [it].  Fuel exhaustion is
    [None]. *)
Fixpoint multinomial_loop (fuel n num_samples batch_size : nat) (draw : nat -> list nat)
         (it cnt : nat) (total : list nat) : option (list nat) :=
  if Nat.ltb cnt num_samples then
    match fuel with
    | O => None
    | S fuel' =>
        multinomial_loop fuel' n num_samples batch_size draw (S it) (cnt + batch_size)
          (add_masked n num_samples cnt (draw it) total)
    end
  else Some total.

Definition multinomial_counts (fuel n num_samples batch_size : nat) (draw : nat -> list nat) : option (list nat) :=
  multinomial_loop fuel n num_samples batch_size draw 0 0 (repeat 0%nat n).

(** 118: ll_selected = log_prob * selected. *)
Definition counts_ll (log_prob : list R) (selected : list nat) : list R :=
  map (fun p => fst p * INR (snd p)) (combine log_prob selected).

(** 119-132, without replacement, traced count: keep the entries at or above the
    (num_classes - num_samples)-th order statistic of the perturbed scores. *)
Fixpoint insert_sorted (a : R) (l : list R) : list R :=
  match l with
  | [] => [a]
  | b :: l' => if Rle_dec a b then a :: l else b :: insert_sorted a l'
  end.
Fixpoint sort_asc (l : list R) : list R :=
  match l with [] => [] | a :: l' => insert_sorted a (sort_asc l') end.

(** Line 122 reads [sorted_ll[num_classes - num_samples]]; defined when 1 <= num_samples <= n
    ([None] otherwise: the samplers clip the count into this range). *)
Definition select_mask (perturbed : list R) (num_samples : nat) : option (list bool) :=
  if Nat.ltb 0 num_samples then
    match nth_error (sort_asc perturbed) (length perturbed - num_samples) with
    | None => None
    | Some thr => Some (map (fun p => if Rle_dec thr p then true else false) perturbed)
    end
  else None.

(** Law of the first [k] indices of Gumbel-perturbed scores in decreasing order (79-81 top_k; 134 argsort):
    sequential sampling without replacement with weights [w] (trusted fact about Gumbel-top-k). *)
Fixpoint remove_nat (i : nat) (l : list nat) : list nat :=
  match l with
  | [] => []
  | j :: l' => if Nat.eqb i j then l' else j :: remove_nat i l'
  end.

Fixpoint norepl_law (w : nat -> R) (k : nat) (avail : list nat) : dist (list nat) :=
  match k with
  | O => ret []
  | S k' =>
      bind (weighted avail (fun i => w i / rsum avail w))
           (fun i => dmap (cons i) (norepl_law w k' (remove_nat i avail)))
  end.
