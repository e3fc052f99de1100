(** Model of discs/samplers/randomwalk.py, per chain. *)
From Coq Require Import Reals List Lra Lia Arith.
From Verif.Base Require Import RSum Cube Dist.
From Verif.Model Require Import MathUtil.
Import ListNotations.
Local Open Scope R_scope.

(** randomwalk.py 37-49 [sample_from_proposal]: per site an indicator bernoulli(radius/dim) (40-42)
    and an integer in [1, C) (43-48); result (indicator * value + x) mod C (49). *)
Definition rw_apply (C : nat) (x : list nat) (draws : list (bool * nat)) : list nat :=
  map (fun p : nat * (bool * nat) => (((if fst (snd p) then 1 else 0) * snd (snd p) + fst p) mod C)%nat) (combine x draws).

Definition rw_site (p : R) (C : nat) : dist (bool * nat) :=
  bind (bernoulli p) (fun b => dmap (fun v => (b, v)) (uniform (seq 1 (C - 1)))).

Definition rw_draws (radius : R) (dim C : nat) : dist (list (bool * nat)) :=
  indep (repeat (rw_site (radius / INR dim) C) dim).

(** randomwalk.py 26-35 [step] (51-60 [RWSampler.select_sample] is mh_step). *)
Definition rw_step (guard : R) (forward : list nat -> R) (radius : R) (dim C : nat) (x : list nat) : dist (list nat) :=
  bind (rw_draws radius dim C) (fun dr =>
    let y := rw_apply C x dr in
    mh_law guard (forward y - forward x) x y).

(** State: abstractsampler.py 34-38 and randomwalk.py 20-24. *)
Record rwstate := { rw_steps : nat; rw_ll : nat; rw_radius : R }.
Definition rw_init : rwstate := {| rw_steps := 0; rw_ll := 0; rw_radius := 1 |}.

(** jnp.mean of exp(clip(log_acc, max 0)) over the batch (randomwalk.py 71). *)
Definition mean_acc (log_acc : list R) : R :=
  rsum log_acc (fun a => exp (Rmin a 0)) / INR (length log_acc).

(** randomwalk.py 54-60: num_ll_calls += 2; 'steps' is not touched. *)
Definition rw_select_state (s : rwstate) : rwstate :=
  {| rw_steps := rw_steps s; rw_ll := (rw_ll s + 2)%nat; rw_radius := rw_radius s |}.

(** jnp.clip(r, a_min, a_max) = minimum(maximum(r, a_min), a_max). *)
Definition clip (lo hi r : R) : R := Rmin (Rmax r lo) hi.

(** randomwalk.py 65-74 [AdaptiveRWSampler.select_sample]. *)
Definition rw_adapt_state (dim : nat) (target : R) (log_acc : list R) (s : rwstate) : rwstate :=
  let s' := rw_select_state s in
  {| rw_steps := rw_steps s'; rw_ll := rw_ll s';
     rw_radius := clip 1 (INR dim) (rw_radius s + mean_acc log_acc - target) |}.
