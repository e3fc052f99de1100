(** Specification vocabulary for complete sampler runs: legal batches, the counters and tuning parameters after [n] steps,
    and which sampler objects are usable. *)
From Coq Require Import String Reals List Arith.
From Verif.Base Require Import RSum Cube Dist XFloat.
From Verif.Model Require Import Gibbs RandomWalk GWG LocallyBalanced PathAux Langevin FullRun.
Import ListNotations.
Local Open Scope R_scope.

(** [B] chains, each of [d] sites with categories below [C]. *)
Definition legal (d C B : nat) (xs : list (list nat)) : Prop :=
  length xs = B /\ Forall (fun x => length x = d /\ Forall (fun v => (v < C)%nat) x) xs.

Definition radius_ok (d : nat) (r : R) : Prop := 1 <= r <= INR d.
Definition number (x : xf) : Prop := exists r, x = Fin r.

(** The state after [n] steps: 'steps', 'num_ll_calls', scan index, radius, step size. *)
Definition state_at (d C : nat) (k : sampler) (n : nat) (s : sstate) : Prop :=
  match k, s with
  | SGibbs, TG s => g_steps s = n /\ g_ll s = (n * C)%nat /\ g_index s = (n mod d)%nat
  | SBlock b, TG s => g_steps s = n /\ g_ll s = (n * C ^ b)%nat /\ g_index s = ((n * b) mod d)%nat
  | SHamming b, TG s => g_steps s = n /\ g_ll s = (n * (1 + b * (C - 1)))%nat /\ g_index s = ((n * b) mod d)%nat
  | SWalk rate, TR s => rw_steps s = 0%nat /\ rw_ll s = (2 * n)%nat /\ radius_ok d (rw_radius s) /\ (rate = None -> rw_radius s = 1)
  | SGwg _ _, TW s | SGwgCat _, TW s => gwg_steps s = n /\ gwg_calls s = (4 * n)%nat
  | SGwgAdapt _ _, TW s => gwg_steps s = n /\ gwg_calls s = (4 * n)%nat /\ radius_ok d (gwg_radius s)
  | SPath _ approx nf rate, TP s =>
      paf_steps s = n /\ paf_calls s = ((if approx then 4 else 2) * n)%nat /\
      match rate with
      | None => paf_radius s = INR nf
      | Some _ => paf_radius s = INR nf /\ n = 0%nat \/ (0 < n)%nat /\ radius_ok d (paf_radius s)
      end
  | SDmala _ _ _, TL s | SDlmc _ _ _ _, TL s =>
      l_steps s = n /\ l_calls s = (4 * n)%nat /\ number (l_log_z s) /\ (number (l_log_tau s) \/ l_log_tau s = NaN)
  | _, _ => False
  end.

(** The objects that can step: known balancing function and solver, fixed path length within the number of sites, the
    classes for binary data on binary data, exact ratios only where the model returns four values. *)
Definition balancing (ty : string) : Prop := In ty ["SQRT"; "RATIO"; "MAX"; "MIN"]%string.
Definition usable (T : target) (k : sampler) : Prop :=
  match k with
  | SGibbs | SBlock _ | SWalk _ => True
  | SHamming b => (1 <= b)%nat
  | SGwg ty _ | SGwgAdapt ty _ => balancing ty /\ t_C T = 2%nat
  | SGwgCat ty => balancing ty
  | SPath ty approx nf rate =>
      balancing ty /\ (rate = None -> (1 <= nf <= t_dim T)%nat) /\
      (approx = false -> exists sg, t_sig T = Some sg /\ lr_values sg = 4%nat)
  | SDmala ty _ _ => balancing ty
  | SDlmc ty _ _ solver => balancing ty /\ (solver = "interpolate" \/ solver = "euler_forward")%string
  | SLocal _ => False
  end.

(** The objects whose step, in a given state, is expected to keep the target for all chains at once: not the Hamming ball,
    not the categorical path of fixed length, not categorical GWG, no co_opt_prob, and a step size chosen before the step. *)
Definition tuned_before (c : lconf) (s : lstate) : Prop := lc_co_opt c = false /\ (0 < l_steps s)%nat.
Definition keeps_target (T : target) (k : sampler) (s : sstate) : Prop :=
  match k, s with
  | SGibbs, TG _ | SBlock _, TG _ | SWalk _, TR _ | SGwg _ _, TW _ | SGwgAdapt _ _, TW _ => True
  | SPath _ _ _ rate, TP _ => rate = None -> t_C T = 2%nat
  | SDmala _ c _, TL s => lc_adaptive c = false \/ tuned_before c s
  | SDlmc _ c _ _, TL s => lc_adaptive c = false /\ (0 < l_steps s)%nat \/ tuned_before c s
  | _, _ => False
  end.

(** A law of initial samples that is even on the sample space, and one that stays in it. *)
Definition starts_in (d C : nat) (law : dist (list nat)) : Prop :=
  is_prob law /\ forall x w, In (x, w) law -> length x = d /\ Forall (fun v => (v < C)%nat) x.
Definition even_start (d C : nat) (law : dist (list nat)) : Prop :=
  starts_in d C law /\ forall f, E law f = rsum (states d C) f / INR (C ^ d).

(** The objects without adaptation whose whole run is expected to keep the target. *)
Definition fixed_rule (T : target) (k : sampler) : Prop :=
  match k with
  | SGibbs | SBlock _ | SGwg _ _ => True
  | SWalk rate => rate = None
  | SPath _ _ _ rate => rate = None /\ t_C T = 2%nat
  | SDmala _ c _ => lc_adaptive c = false
  | _ => False
  end.

(** What the 1e-32 inside the logarithms of the binary Langevin samplers ([dg]) can contribute per chain and step. *)
Definition log_error (T : target) (k : sampler) (dg : R) : R :=
  match k with
  | SDmala _ _ _ | SDlmc _ _ _ _ => if Nat.eqb (t_C T) 2 then 2 * ((1 + 2 * dg) ^ t_dim T - 1) else 0
  | _ => 0
  end.

(** The tuning parameters of a state: radius, or logarithms of step size and normaliser. *)
Definition tuning (s : sstate) : list xf :=
  match s with
  | TG _ | TD _ => []
  | TR s => [Fin (rw_radius s)]
  | TW s => [Fin (gwg_radius s)]
  | TP s => [Fin (paf_radius s)]
  | TL s => [l_log_tau s; l_log_z s]
  end.
(** DLMC without adaptation chooses its step size in the first step. *)
Definition started (k : sampler) (s : sstate) : Prop := match k, s with SDlmc _ _ _ _, TL s => (0 < l_steps s)%nat | _, _ => True end.

(** The Langevin samplers that adapt under co_opt_prob. *)
Definition co_sampler (k : sampler) : Prop :=
  match k with SDmala _ c _ | SDlmc _ c _ _ => lc_adaptive c = true /\ lc_co_opt c = true | _ => False end.
