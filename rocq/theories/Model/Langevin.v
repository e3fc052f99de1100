(** Model of discs/samplers/dmala.py and discs/samplers/dlmc.py.
    [lr x j] is the array ll_delta (dmala.py 58-66, dlmc.py 50-57) read at flat position [j]: an arbitrary
    function in the theorems; its two instances are [paf_lr_grad_bin] / [paf_lr_grad_cat] of Model/PathAux.v
    (same formulas). *)
From Coq Require Import String Reals List Lra Lia Arith ZArith.
From Verif.Base Require Import RSum Cube Dist XFloat.
From Verif.Model Require Import MathUtil RandomWalk LocallyBalanced PathAux.
Import ListNotations.
Local Open Scope R_scope.

(** The 1e-32 inside the logarithms (dmala.py 137, dlmc.py 141). *)
Definition log_guard : R := / 10 ^ 32.

(** ** Proposal probabilities, binary *)

(** dmala.py 123-128: t = log_tau + weight; t -= logaddexp(t, 0); exp(clip(t, max 0)). *)
Definition dmala_p (log_tau w : R) : R :=
  let t := log_tau + w in exp (Rmin (t - ln (exp t + exp 0)) 0).

Definition dmala_ps (log_tau : R) (wf : R -> R) (lr : list nat -> nat -> R) (x : list nat) : option (list R) :=
  Some (map (fun i => dmala_p log_tau (wf (lr x i))) (seq 0 (length x))).

(** dlmc.py 124-131, 152-159: the log transition probability before normalisation, for both solvers;
    [None] is the ValueError for another solver name. *)
Definition dlmc_thr (solver : string) (log_tau w log_nu : R) : option xf :=
  if String.eqb solver "interpolate" then
    Some (xadd (Fin log_nu) (log1mexp (Fin (- exp (log_tau + w - log_nu)))))
  else if String.eqb solver "euler_forward" then Some (Fin (log_tau + w))
  else None.

(** dlmc.py 120-132: log_nu = log_sigmoid(delta); exp(clip(threshold, max log_nu)). *)
Definition dlmc_p (solver : string) (log_tau w delta : R) : option R :=
  let log_nu := log_sigmoid delta in
  match dlmc_thr solver log_tau w log_nu with
  | Some t => match xexp (xmin t (Fin log_nu)) with Fin p => Some p | _ => None end
  | None => None
  end.

Fixpoint all_some {A} (l : list (option A)) : option (list A) :=
  match l with
  | [] => Some []
  | Some a :: l' => match all_some l' with Some r => Some (a :: r) | None => None end
  | None :: _ => None
  end.

Definition dlmc_ps (solver : string) (log_tau : R) (wf : R -> R) (lr : list nat -> nat -> R) (x : list nat) : option (list R) :=
  all_some (map (fun i => dlmc_p solver log_tau (wf (lr x i)) (lr x i)) (seq 0 (length x))).

(** ** Binary step (dmala.py 84-117 with 130-139; dlmc.py 76-114 with 134-143) *)

(** y = x * (1 - flip) + flip * (1 - x). *)
Definition flip_bits (flips : list bool) (x : list nat) : list nat :=
  map (fun p : bool * nat => let f := if fst p then 1%nat else 0%nat in (snd p * (1 - f) + f * (1 - snd p))%nat)
      (combine flips x).

(** sum(log(dist + 1e-32) * aux + log(1 - dist + 1e-32) * (1 - aux)); [dg] is the 1e-32. *)
Definition bern_ll (dg : R) (ps : list R) (flips : list bool) : R :=
  rsum (combine ps flips) (fun p : R * bool =>
    let a := if snd p then 1 else 0 in ln (fst p + dg) * a + ln (1 - fst p + dg) * (1 - a)).

(** The aux handed to the backward ll is the same flip array (dmala.py 110, dlmc.py 107, for num_categories = 2). *)
Definition bern_step (guard dg : R) (fw : list nat -> R) (ps : list nat -> option (list R)) (x : list nat) : dist (list nat) :=
  match ps x with
  | None => []
  | Some p =>
      bind (indep (map bernoulli p)) (fun flips =>
        let y := flip_bits flips x in
        match ps y with
        | None => []
        | Some q => mh_law guard (fw y + bern_ll dg q flips - fw x - bern_ll dg p flips) x y
        end)
  end.

(** [log_tau] may depend on the state: constant for fixed step size, and the local estimate (below) for
    co_opt_prob with a single chain, where the backward direction uses the estimate at y (dmala.py 106-108). *)
Definition dmala_bin_step (guard dg : R) (fw : list nat -> R) (log_tau : list nat -> R) wf lr : list nat -> dist (list nat) :=
  bern_step guard dg fw (fun x => dmala_ps (log_tau x) wf lr x).
Definition dlmc_bin_step (guard dg : R) (fw : list nat -> R) (solver : string) (log_tau : list nat -> R) wf lr : list nat -> dist (list nat) :=
  bern_step guard dg fw (fun x => dlmc_ps solver (log_tau x) wf lr x).

(** ** Categorical rows *)

(** dmala.py 145-150: (log_tau + weight) * (1 - x), log_softmax over the categories. *)
Definition dmala_row (log_tau : R) (wf : R -> R) (lr : list nat -> nat -> R) (C : nat) (x : list nat) (i : nat) : option (list R) :=
  Some (log_softmax (map (fun c => let xc := if Nat.eqb c (nth i x 0%nat) then 1 else 0 in
                                   (log_tau + wf (lr x (i * C + c)%nat)) * (1 - xc)) (seq 0 C))).

(** dlmc.py 149-172: off-diagonal entries as the solver says; own entry
    clip(log1p(-clip(sum_{c<>x} exp(off_c), max 1-1e-12)), min log_nu). *)
Definition dlmc_row (solver : string) (log_tau : R) (wf : R -> R) (lr : list nat -> nat -> R) (C : nat) (x : list nat) (i : nat) : option (list R) :=
  let log_nu := log_softmax (map (fun c => lr x (i * C + c)%nat) (seq 0 C)) in
  match all_some (map (fun c => match dlmc_thr solver log_tau (wf (lr x (i * C + c)%nat)) (nth c log_nu 0) with
                                | Some (Fin t) => Some t | _ => None end) (seq 0 C)) with
  | None => None
  | Some post =>
      let xc := fun c => if Nat.eqb c (nth i x 0%nat) then 1 else 0 in
      let s := rsum (seq 0 C) (fun c => exp (nth c post 0) * (1 - xc c)) in
      Some (map (fun c => nth c post 0 * (1 - xc c)
                          + xc c * Rmax (ln (1 + - Rmin s (1 - / 10 ^ 12))) (nth c log_nu 0)) (seq 0 C))
  end.

(** ** Categorical step (dmala.py 152-160, dlmc.py 174-182): draw each site from its row (logits), score with
    log_softmax of the row; backward aux is x. *)
Definition row_ll (rows : list (list R)) (y : list nat) : R :=
  rsum (combine rows y) (fun p : list R * nat => nth (snd p) (log_softmax (fst p)) 0).

Definition cat_step (guard : R) (fw : list nat -> R) (rows : list nat -> option (list (list R))) (x : list nat) : dist (list nat) :=
  match rows x with
  | None => []
  | Some rx =>
      bind (indep (map categorical rx)) (fun y =>
        match rows y with
        | None => []
        | Some ry => mh_law guard (fw y + row_ll ry x - fw x - row_ll rx y) x y
        end)
  end.

Definition dmala_cat_step (guard : R) (fw : list nat -> R) (log_tau : list nat -> R) wf lr C : list nat -> dist (list nat) :=
  cat_step guard fw (fun x => all_some (map (dmala_row (log_tau x) wf lr C x) (seq 0 (length x)))).
Definition dlmc_cat_step (guard : R) (fw : list nat -> R) (solver : string) (log_tau : list nat -> R) wf lr C : list nat -> dist (list nat) :=
  cat_step guard fw (fun x => all_some (map (dlmc_row solver (log_tau x) wf lr C x) (seq 0 (length x)))).

(** ** Step size and state *)

(** dmala.py 99: without adaptation log_tau = -1 / (2 * step_size). *)
Definition dmala_fixed_log_tau (step_size : R) : R := - 1 / (2 * step_size).

(** dmala.py 44-56 [set_z], [reset_stats]: log of the batch mean of sum(exp(log_rates)), tau = 3 / Z;
    dlmc.py 43-48: logsumexp over the whole batch - log(bsize), tau = n / Z.  [rates] = flat log-weights per chain. *)
Definition dmala_log_z (rates : list (list R)) : R := ln (rsum rates sumexp / INR (length rates)).
Definition dlmc_log_z (rates : list (list R)) : R := ln (sumexp (concat rates)) - ln (INR (length rates)).
Definition local_log_tau (n log_z : R) : R := ln n - log_z.

Record lstate := { l_steps : nat; l_calls : nat; l_log_tau : xf; l_log_z : xf }.
(** dmala.py 78-82, dlmc.py 70-74. *)
Definition l_init : lstate := {| l_steps := 0; l_calls := 0; l_log_tau := Fin 0; l_log_z := Fin 0 |}.

(** Configuration read in __init__ (dmala.py 68-76, dlmc.py 59-68). *)
Record lconf := { lc_adaptive : bool; lc_co_opt : bool; lc_target : R; lc_schedule : nat; lc_reset : Z }.

(** The normaliser estimate used by the update (dmala.py 19-26, dlmc.py 19-26); cur = steps, already
    incremented by select_sample. *)
Definition l_new_log_z (c : lconf) (cur : nat) (local_z state_z : xf) : xf :=
  let log_z := if (0 <? lc_reset c)%Z then
                 (if (Z.of_nat cur mod lc_reset c =? 0)%Z then local_z else state_z)
               else (if Nat.eqb cur 1 then local_z else state_z) in
  let ema := if Nat.ltb cur (lc_schedule c) then 0 else 1 in
  xadd (xmul (Fin ema) log_z) (xmul (Fin (1 - ema)) local_z).

(** dmala.py 14-32, 34-42; dlmc.py 14-31, 33-41. *)
Definition l_update (c : lconf) (acc : xf) (local_z : xf) (s : lstate) : lstate :=
  let cur := S (l_steps s) in
  if orb (negb (lc_adaptive c)) (lc_co_opt c) then
    {| l_steps := cur; l_calls := l_calls s + 4; l_log_tau := l_log_tau s; l_log_z := l_log_z s |}
  else
    let log_z := l_new_log_z c cur local_z (l_log_z s) in
    let n := xadd (xexp (xadd (l_log_tau s) log_z)) (xmul (Fin 3) (xsub acc (Fin (lc_target c)))) in
    {| l_steps := cur; l_calls := l_calls s + 4;
       l_log_tau := xmax (xsub (xlog n) log_z) (xneg log_z); l_log_z := log_z |}.

(** log_tau used by the step (dmala.py 91-96, dlmc.py 83-89, adaptive case). *)
Definition l_used_log_tau (c : lconf) (n : R) (local_z : xf) (s : lstate) : xf :=
  let local_tau := xsub (Fin (ln n)) local_z in
  let t := if Nat.eqb (l_steps s) 0 then local_tau else l_log_tau s in
  if lc_co_opt c then local_tau else t.

(** ** The whole adaptive step on a batch, binary case (dmala.py 84-117, dlmc.py 76-114): samples and state.
    [pfun log_tau x] are the flip probabilities, [rates x] the log-weights of a chain, [lz] the normaliser
    estimate, [n] the 3 (DMALA) or self.n (DLMC).  When the step size is not finite every flip probability is NaN:
    jax.random.bernoulli compares uniform < NaN, so nothing flips; log_acc is NaN, mh_step compares
    uniform < NaN, so nothing is accepted; the recorded acceptance is NaN. *)
Definition bern_log_acc (dg : R) (fw : list nat -> R) (p q : list R) (x : list nat) (flips : list bool) : R :=
  fw (flip_bits flips x) + bern_ll dg q flips - fw x - bern_ll dg p flips.

Definition bin_batch_step (guard dg : R) (fw : list nat -> R) (pfun : R -> list nat -> list R)
    (rates : list nat -> list R) (lz : list (list R) -> R) (n : R) (c : lconf) (s : lstate) (xs : list (list nat))
    : dist (list (list nat) * lstate) :=
  let z := lz (map rates xs) in
  match l_used_log_tau c n (Fin z) s with
  | Fin lt =>
      bind (indep (map (fun x => indep (map bernoulli (pfun lt x))) xs)) (fun flipss =>
        let ys := map (fun fx => flip_bits (fst fx) (snd fx)) (combine flipss xs) in
        let zy := if lc_co_opt c then lz (map rates ys) else z in
        let lt' := if lc_co_opt c then local_log_tau n zy else lt in
        let la := fun fx : list bool * list nat =>
                    bern_log_acc dg fw (pfun lt (snd fx)) (pfun lt' (flip_bits (fst fx) (snd fx))) (snd fx) (fst fx) in
        let las := map la (combine flipss xs) in
        let acc := rsum las (fun l => exp (Rmin l 0)) / INR (length las) in
        dmap (fun ns => (ns, l_update c (Fin acc) (Fin zy) s))
             (indep (map (fun fx => mh_law guard (la fx) (snd fx) (flip_bits (fst fx) (snd fx))) (combine flipss xs))))
  | _ => ret (xs, l_update c NaN (Fin z) s)
  end.

Definition dmala_pfun (wf : R -> R) (lr : list nat -> nat -> R) (lt : R) (x : list nat) : list R :=
  map (fun i => dmala_p lt (wf (lr x i))) (seq 0 (length x)).
Definition chain_rates (wf : R -> R) (lr : list nat -> nat -> R) (x : list nat) : list R :=
  map (fun i => wf (lr x i)) (seq 0 (length x)).
(** An unknown solver raises (see [dlmc_ps]); the theorems about batches use known ones. *)
Definition dlmc_pfun (solver : string) (wf : R -> R) (lr : list nat -> nat -> R) (lt : R) (x : list nat) : list R :=
  match dlmc_ps solver lt wf lr x with Some p => p | None => [] end.
