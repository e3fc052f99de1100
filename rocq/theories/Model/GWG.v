(** Model of discs/samplers/gwg.py.  Line numbers refer to that file unless stated.
    [fw] is the model's log-density, [grad x i] the gradient array at [x] read at flat position [i]
    (model.get_value_and_grad, line 28/33; an arbitrary function here), [wf] the log-scale balancing function
    (locallybalanced.py 52-63; an arbitrary function here). *)
From Coq Require Import Reals List Lra Lia Arith ZArith.
From Verif.Base Require Import RSum Cube Dist.
From Verif.Model Require Import MathUtil RandomWalk.
Import ListNotations.
Local Open Scope R_scope.

(** 60-61: score * mask + -1e9 * (1 - mask), when a mask is given. *)
Definition mask_score (mask : option (nat -> R)) (i : nat) (s : R) : R :=
  match mask with None => s | Some m => s * m i + - (10 ^ 9) * (1 - m i) end.

(** 56-63 [BinaryGWGSampler.get_dist_at]. *)
Definition gwg_dist_at (wf : R -> R) (grad : list nat -> nat -> R) (mask : option (nat -> R)) (x : list nat) : list R :=
  log_softmax (map (fun i => mask_score mask i (wf ((1 - 2 * INR (nth i x 0%nat)) * grad x i))) (seq 0 (length x))).

(** 74-75: x.at[rows, idx].set(1 - x[rows, idx]); the values written are read from the old x. *)
Definition flip_idx (idx : list nat) (x : list nat) : list nat :=
  fold_left (fun y i => upd i (1 - nth i x 0)%nat y) idx x.

(** 49-54 [get_ll_onestep]. *)
Definition gwg_ll (dist_ : list R) (idx : list nat) : R := rsum idx (fun i => nth i dist_ 0).

(** 23-39 [step] for BinaryGWGSampler with num_flips flips (65-77: constant count, with replacement). *)
Definition gwg_log_acc (fw : list nat -> R) wf grad mask (x : list nat) (idx : list nat) : R :=
  let y := flip_idx idx x in
  fw y + gwg_ll (gwg_dist_at wf grad mask y) idx - fw x - gwg_ll (gwg_dist_at wf grad mask x) idx.

Definition gwg_step (guard : R) (fw : list nat -> R) wf grad mask (num_flips : nat) (x : list nat) : dist (list nat) :=
  bind (multinomial_repl_law (gwg_dist_at wf grad mask x) num_flips)
       (fun idx => mh_law guard (gwg_log_acc fw wf grad mask x idx) x (flip_idx idx x)).

(** ** AdaptiveGWGSampler (80-122) *)

(** jnp.round: nearest integer, ties to even. *)
Definition round_even (r : R) : Z :=
  let z := Int_part r in
  let f := r - IZR z in
  if Rlt_dec f (/ 2) then z
  else if Rlt_dec (/ 2) f then (z + 1)%Z
  else if Z.even z then z else (z + 1)%Z.

(** 109-113: clip(round(radius), 1, dim), an integer. *)
Definition num_sites (dim : nat) (radius : R) : nat :=
  Z.to_nat (Z.min (Z.max (round_even radius) 1) (Z.of_nat dim)).

(** 117-120: indicator = selected > 0; y = x * (1 - ind) + ind * (1 - x). *)
Definition flip_counts (counts x : list nat) : list nat :=
  map (fun p : nat * nat => let ind := if Nat.ltb 0 (snd p) then 1%nat else 0%nat in
                            (fst p * (1 - ind) + ind * (1 - fst p))%nat) (combine x counts).

(** 103-106: sum(dist * counts). *)
Definition gwg_ll_counts (dist_ : list R) (counts : list nat) : R :=
  rsum (counts_ll dist_ counts) (fun v => v).

Definition agwg_log_acc (fw : list nat -> R) wf grad mask (x counts : list nat) : R :=
  let y := flip_counts counts x in
  fw y + gwg_ll_counts (gwg_dist_at wf grad mask y) counts - fw x - gwg_ll_counts (gwg_dist_at wf grad mask x) counts.

(** Counts drawn by math_util.multinomial 92-118 (batch_size 1): [num] independent categorical draws. *)
Definition agwg_counts (d num : nat) (draws : list nat) : option (list nat) :=
  multinomial_counts num d num 1 (fun it => [nth it draws 0%nat]).

Definition agwg_step (guard : R) (fw : list nat -> R) wf grad mask (radius : R) (x : list nat) : dist (list nat) :=
  let ns := num_sites (length x) radius in
  bind (multinomial_repl_law (gwg_dist_at wf grad mask x) ns)
       (fun draws => match agwg_counts (length x) ns draws with
                     | Some counts => mh_law guard (agwg_log_acc fw wf grad mask x counts) x (flip_counts counts x)
                     | None => [] (* loop out of fuel: excluded by the theorems, mass would be lost *)
                     end).

(** Sampler state: steps and num_ll_calls (14-21: +4; locallybalanced.py 28-37: steps + 1), radius
    (87-90 initially 1; 92-101 adapted). *)
Record gwgstate := { gwg_steps : nat; gwg_calls : nat; gwg_radius : R }.
Definition gwg_init : gwgstate := {| gwg_steps := 0; gwg_calls := 0; gwg_radius := 1 |}.
Definition gwg_update (s : gwgstate) : gwgstate :=
  {| gwg_steps := S (gwg_steps s); gwg_calls := (gwg_calls s + 4)%nat; gwg_radius := gwg_radius s |}.
Definition agwg_update (dim : nat) (target : R) (log_acc : list R) (s : gwgstate) : gwgstate :=
  let s' := gwg_update s in
  {| gwg_steps := gwg_steps s'; gwg_calls := gwg_calls s';
     gwg_radius := clip 1 (INR dim) (gwg_radius s + mean_acc log_acc - target) |}.

(** ** CategoricalGWGSampler (125-170), on a whole batch *)

(** 137-143 [get_dist_at]: position j = site * C + category; delta = grad - grad at the current category;
    the current category of each site is penalised by 1e9. *)
Definition cgwg_dist_at (wf : R -> R) (grad : list nat -> nat -> R) (C : nat) (x : list nat) : list R :=
  log_softmax (map (fun j =>
      let i := (j / C)%nat in let c := (j mod C)%nat in let xi := nth i x 0%nat in
      wf (grad x j - grad x (i * C + xi)%nat) - (if Nat.eqb c xi then 10 ^ 9 else 0))
    (seq 0 (length x * C))).

(** 156-158: idx_c = idx mod C, idx_i = idx div C, set. *)
Definition cgwg_y (C : nat) (x : list nat) (j : nat) : list nat := upd (j / C) (j mod C) x.

(** 159-160: idx_y2x. *)
Definition cgwg_back (C : nat) (x y : list nat) (j : nat) : nat :=
  (j / C * C + list_sum (map (fun p : nat * nat => if Nat.eqb (fst p) (snd p) then 0 else fst p) (combine x y)))%nat.

(** 165-170 [get_ll_onestep]: dist is [B, d*C]; the row index has shape [B,1] and aux has shape [B], so the
    gather broadcasts to [B,B] and row b sums dist[b][aux[b']] over ALL chains b'. *)
Definition cgwg_ll (dist_b : list R) (aux : list nat) : R := rsum aux (fun j => nth j dist_b 0).

(** 23-39 for the batch [xs] with drawn indices [js]: log acceptance of one chain [x] with proposal [y]. *)
Definition cgwg_ys (C : nat) (xs : list (list nat)) (js : list nat) : list (list nat) :=
  map (fun p : list nat * nat => cgwg_y C (fst p) (snd p)) (combine xs js).
Definition cgwg_backs (C : nat) (xs : list (list nat)) (js : list nat) : list nat :=
  map (fun p : list nat * nat => cgwg_back C (fst p) (cgwg_y C (fst p) (snd p)) (snd p)) (combine xs js).
Definition cgwg_log_acc (fw : list nat -> R) wf grad C (xs : list (list nat)) (js : list nat) (x y : list nat) : R :=
  fw y + cgwg_ll (cgwg_dist_at wf grad C y) (cgwg_backs C xs js)
  - fw x - cgwg_ll (cgwg_dist_at wf grad C x) js.

(** The batch step: one index per chain (145-152, independent draws), then one accept/reject per chain. *)
Definition cgwg_batch_step (guard : R) (fw : list nat -> R) wf grad C (xs : list (list nat)) : dist (list (list nat)) :=
  bind (indep (map (fun x => categorical (cgwg_dist_at wf grad C x)) xs))
       (fun js => indep (map (fun p : list nat * list nat =>
                                mh_law guard (cgwg_log_acc fw wf grad C xs js (fst p) (snd p)) (fst p) (snd p))
                             (combine xs (cgwg_ys C xs js)))).
