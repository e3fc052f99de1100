(** Model of discs/samplers/path_auxiliary.py.  Line numbers refer to that file unless stated.
    [lr x j] is the log-ratio array of [get_local_dist] read at flat position [j] (site for binary
    samples, site * C + category for categorical ones); an arbitrary function in the theorems, with the two
    instances of lines 71-83 given first. *)
From Coq Require Import Reals List Lra Lia Arith ZArith.
From Verif.Base Require Import RSum Cube Dist XFloat.
From Verif.Model Require Import MathUtil RandomWalk GWG.
Import ListNotations.
Local Open Scope R_scope.

(** 71-77 approx_with_grad: (1 - 2x) * grad, or grad - grad at the current category. *)
Definition paf_lr_grad_bin (grad : list nat -> nat -> R) (x : list nat) (i : nat) : R :=
  (1 - 2 * INR (nth i x 0%nat)) * grad x i.
Definition paf_lr_grad_cat (grad : list nat -> nat -> R) (C : nat) (x : list nat) (j : nat) : R :=
  grad x j - grad x (j / C * C + nth (j / C) x 0)%nat.

(** 84-88, binary: weight function, mask, log_softmax over the flat axis. *)
Definition paf_dist (wf : R -> R) (lr : list nat -> nat -> R) (mask : option (nat -> R)) (x : list nat) : list R :=
  log_softmax (map (fun i => mask_score mask i (wf (lr x i))) (seq 0 (length x))).

(** 84-88, categorical: the mask is expanded over the categories (16-18); then logits*(1-x) + x*(-1e9). *)
Definition pafc_dist (wf : R -> R) (lr : list nat -> nat -> R) (mask : option (nat -> R)) (C : nat) (x : list nat) : list R :=
  log_softmax (map (fun j =>
      let i := (j / C)%nat in
      if Nat.eqb (j mod C) (nth i x 0%nat) then - 10 ^ 9 else mask_score mask i (wf (lr x j)))
    (seq 0 (length x * C))).

(** 101-105, 141-145: per-site log-probability (logsumexp over categories) and conditional log-probabilities
    of the categories of a site (log_softmax of the block). *)
Definition blk (C : nat) (lp : list R) (i : nat) : list R := map (fun c => nth (i * C + c) lp 0) (seq 0 C).
Definition site_lp (C : nat) (lp : list R) (i : nat) : R := ln (sumexp (blk C lp i)).
Definition cond_lp (C : nat) (lp : list R) (i : nat) : list R := log_softmax (blk C lp i).

(** Sum of a row; [None] when some entry is not a finite number (excluded by the theorems). *)
Fixpoint fin_sum (l : list xf) : option R :=
  match l with
  | [] => Some 0
  | Fin a :: l' => match fin_sum l' with Some s => Some (a + s) | None => None end
  | _ :: _ => None
  end.

(** math_util.py 78-90 (constant count, no replacement, return_ll): ll of the drawn path; renormalised
    only when num_samples > 1 (line 86). *)
Definition fwd_ll (l : nat -> R) (path : list nat) : option R :=
  if Nat.ltb 1 (length path) then
    match renormalize (map l path) with Some v => fin_sum v | None => None end
  else fin_sum (map Fin (map l path)).

(** 158-160, 170: flip the trajectory, gather, renormalise, sum. *)
Definition bwd_ll (l : nat -> R) (path : list nat) : option R :=
  match renormalize (map l (rev path)) with Some v => fin_sum v | None => None end.

Definition oplus (a b : option R) : option R :=
  match a, b with Some u, Some v => Some (u + v) | _, _ => None end.
Definition osub (a b : option R) : option R :=
  match a, b with Some u, Some v => Some (u - v) | _, _ => None end.

(** Accept/reject with a possibly undefined log-acceptance; the undefined case loses all mass, so that
    it cannot go unnoticed in the theorems. *)
Definition omh_law {A} (guard : R) (la : option R) (x y : A) : dist A :=
  match la with Some l => mh_law guard l x y | None => [] end.

(** ** Binary, constant number of sites (14-33 with 90-136, 138-172) *)
Definition pafs_log_acc (fw : list nat -> R) wf lr mask (x path : list nat) : option R :=
  let y := flip_idx path x in
  let lx := paf_dist wf lr mask x in
  let ly := paf_dist wf lr mask y in
  osub (oplus (Some (fw y)) (bwd_ll (fun i => nth i ly 0) path))
       (oplus (Some (fw x)) (fwd_ll (fun i => nth i lx 0) path)).

Definition pafs_step (guard : R) (fw : list nat -> R) wf lr mask (num_flips : nat) (x : list nat) : dist (list nat) :=
  bind (norepl_law (fun i => exp (nth i (paf_dist wf lr mask x) 0)) num_flips (seq 0 (length x)))
       (fun path => omh_law guard (pafs_log_acc fw wf lr mask x path) x (flip_idx path x)).

(** ** Categorical, constant number of sites.  The new values are drawn for the selected sites (124-128);
    NOTE: the returned ll_x2y (132) is the site part only, the log-probability of the drawn values is not
    added, while ll_y2x (163-171) does add the log-probability of the original values. *)
Definition set_all (path vals x : list nat) : list nat :=
  fold_left (fun y (p : nat * nat) => upd (fst p) (snd p) y) (combine path vals) x.

Definition val_ll (C : nat) (lp : list R) (path vals : list nat) : R :=
  rsum (combine path vals) (fun p => nth (snd p) (cond_lp C lp (fst p)) 0).

Definition pafsc_log_acc (fw : list nat -> R) wf lr mask C (x path vals : list nat) : option R :=
  let y := set_all path vals x in
  let lx := pafc_dist wf lr mask C x in
  let ly := pafc_dist wf lr mask C y in
  let back := rev path in
  osub (oplus (Some (fw y)) (oplus (bwd_ll (site_lp C ly) path)
                                   (Some (val_ll C ly back (map (fun i => nth i x 0%nat) back)))))
       (oplus (Some (fw x)) (fwd_ll (site_lp C lx) path)).

Definition pafsc_step (guard : R) (fw : list nat -> R) wf lr mask C (num_flips : nat) (x : list nat) : dist (list nat) :=
  let lx := pafc_dist wf lr mask C x in
  bind (norepl_law (fun i => exp (site_lp C lx i)) num_flips (seq 0 (length x)))
       (fun path => bind (indep (map (fun i => categorical (cond_lp C lx i)) path))
         (fun vals => omh_law guard (pafsc_log_acc fw wf lr mask C x path vals) x (set_all path vals x))).

(** ** Adaptive: traced number of sites.  The draw is the decreasing order [order] of all perturbed scores
    (math_util.py 120, 135); the mask selects the first num_sites of it (121-126; see C16 for the threshold). *)
Definition in_sel (k : nat) (order : list nat) (i : nat) : bool :=
  existsb (Nat.eqb i) (firstn k order).

(** math_util.py 134-146: renormalise the log-probabilities of ALL sites in decreasing order, scatter
    back, multiply by the mask, sum (= sum over the first k of the order). *)
Definition fwd_ll_adapt (l : nat -> R) (k : nat) (order : list nat) : option R :=
  match renormalize (map l order) with Some v => fin_sum (firstn k v) | None => None end.

(** 152-156: ascending order; unselected entries are set to -1e18, whose exponential is exactly 0 in
    float arithmetic: modelled by weight 0.  [renormalize_sel] is math_util.py 37-42 with such entries,
    followed by the where(mask, ., 0) of line 156. *)
Definition renormalize_sel (ls : list (R * bool)) : option (list xf) :=
  match rmax_list (map fst (filter (fun p : R * bool => snd p) ls)) with
  | None => None
  | Some ll_base =>
      let prob_idx := map (fun p : R * bool => if snd p then exp (fst p - ll_base) else 0) ls in
      let ll_delta := map (fun cp => xadd (xlog (Fin (fst cp - snd cp))) (Fin ll_base))
                          (combine (cumsum 0 prob_idx) prob_idx) in
      Some (map (fun ld : (R * bool) * xf =>
                   if snd (fst ld) then xmin (xsub (Fin (fst (fst ld))) (log1mexp (snd ld))) (Fin 0) else Fin 0)
                (combine ls ll_delta))
  end.

Definition bwd_ll_adapt (l : nat -> R) (k : nat) (order : list nat) : option R :=
  match renormalize_sel (map (fun i => (l i, in_sel k order i)) (rev order)) with
  | Some v => fin_sum v | None => None end.

(** 121: y = x * (1 - mask) + mask * new_val. *)
Definition mask_apply (k : nat) (order : list nat) (x new_val : list nat) : list nat :=
  map (fun i => if in_sel k order i then nth i new_val 0%nat else nth i x 0%nat) (seq 0 (length x)).

(** Binary adaptive: new_val = 1 - x (120). *)
Definition apafs_log_acc (fw : list nat -> R) wf lr mask (k : nat) (x order : list nat) : option R :=
  let y := mask_apply k order x (map (fun v => (1 - v)%nat) x) in
  let lx := paf_dist wf lr mask x in
  let ly := paf_dist wf lr mask y in
  osub (oplus (Some (fw y)) (bwd_ll_adapt (fun i => nth i ly 0) k order))
       (oplus (Some (fw x)) (fwd_ll_adapt (fun i => nth i lx 0) k order)).

Definition apafs_step (guard : R) (fw : list nat -> R) wf lr mask (radius : R) (x : list nat) : dist (list nat) :=
  let d := length x in
  let k := num_sites d radius in
  bind (norepl_law (fun i => exp (nth i (paf_dist wf lr mask x) 0)) d (seq 0 d))
       (fun order => omh_law guard (apafs_log_acc fw wf lr mask k x order) x
                             (mask_apply k order x (map (fun v => (1 - v)%nat) x))).

(** Categorical adaptive: a new value is drawn for EVERY site (113), ll_val masked (115), added (118);
    backward 149-151, 171. *)
Definition val_ll_mask (C : nat) (lp : list R) (k : nat) (order vals : list nat) : R :=
  rsum (seq 0 (length vals)) (fun i => if in_sel k order i then nth (nth i vals 0%nat) (cond_lp C lp i) 0 else 0).

Definition apafsc_log_acc (fw : list nat -> R) wf lr mask C (k : nat) (x order new_val : list nat) : option R :=
  let y := mask_apply k order x new_val in
  let lx := pafc_dist wf lr mask C x in
  let ly := pafc_dist wf lr mask C y in
  osub (oplus (Some (fw y)) (oplus (bwd_ll_adapt (site_lp C ly) k order) (Some (val_ll_mask C ly k order x))))
       (oplus (Some (fw x)) (oplus (fwd_ll_adapt (site_lp C lx) k order) (Some (val_ll_mask C lx k order new_val)))).

Definition apafsc_step (guard : R) (fw : list nat -> R) wf lr mask C (radius : R) (x : list nat) : dist (list nat) :=
  let d := length x in
  let k := num_sites d radius in
  let lx := pafc_dist wf lr mask C x in
  bind (norepl_law (fun i => exp (site_lp C lx i)) d (seq 0 d))
       (fun order => bind (indep (map (fun i => categorical (cond_lp C lx i)) (seq 0 d)))
         (fun new_val => omh_law guard (apafsc_log_acc fw wf lr mask C k x order new_val) x
                                 (mask_apply k order x new_val))).

(** Sampler state (35-40, 54-68): steps + 1 (locallybalanced.py 28-37), num_ll_calls + calls of both directions
    (num_calls = 2 each with the gradient, 78), radius initially num_flips, adapted as in 59-62. *)
Record pafstate := { paf_steps : nat; paf_calls : nat; paf_radius : R }.
Definition paf_init (num_flips : nat) : pafstate :=
  {| paf_steps := 0; paf_calls := 0; paf_radius := INR num_flips |}.
Definition paf_update (adaptive : bool) (dim : nat) (target : R) (calls : nat) (log_acc : list R) (s : pafstate) : pafstate :=
  {| paf_steps := S (paf_steps s); paf_calls := (paf_calls s + calls)%nat;
     paf_radius := if adaptive then clip 1 (INR dim) (paf_radius s + mean_acc log_acc - target) else paf_radius s |}.

(** 79-83: with approx_with_grad = False the code unpacks FOUR values from model.logratio_in_neighborhood;
    a model returning a tuple of another length raises ValueError. *)
Definition paf_unpack4 {A} (ret : list A) : option (A * A * A * A) :=
  match ret with [a; b; c; d] => Some (a, b, c, d) | _ => None end.
