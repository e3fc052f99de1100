(** Property theorem C07 (randomwalk.py). *)
From Coq Require Import Reals List Lra Lia Arith.
From Verif.Base Require Import RSum Cube Dist MH.
From Verif.Spec Require Import Chain.
From Verif.Model Require Import MathUtil RandomWalk.
From Verif.Proof Require Import MathUtilProof RandomWalkProof ChainProof.
Import ListNotations.
Local Open Scope R_scope.

(** Exactly reversible when the 1e-24 inside the acceptance test is idealised to 0. *)
Theorem C07_rw_reversible : forall (fw : list nat -> R) d C radius,
  (2 <= C)%nat -> 0 <= radius <= INR d -> (0 < d)%nat ->
  reversible (states d C) (fun x => exp (fw x)) (rw_step 0 fw radius d C).
Proof. exact rw_reversible. Qed.
Print Assumptions C07_rw_reversible.

(** The step of the code (guard 1e-24): invariant up to total variation 2e-24 per step. *)
Theorem C07_rw_invariant_upto : forall (fw : list nat -> R) d C radius,
  (2 <= C)%nat -> 0 <= radius <= INR d -> (0 < d)%nat ->
  invariant_upto (2 * / 10 ^ 24) (states d C) (fun x => exp (fw x)) (rw_step acc_guard fw radius d C).
Proof.
  intros fw d C radius HC Hr Hd. exact (rw_invariant_upto fw d C radius HC Hr Hd acc_guard (Rlt_le _ _ acc_guard_pos)).
Qed.
Print Assumptions C07_rw_invariant_upto.

Theorem C07_rw_symmetric : forall d C radius,
  (2 <= C)%nat -> 0 <= radius <= INR d -> (0 < d)%nat -> forall x y, In x (states d C) -> In y (states d C) ->
  E (rw_draws radius d C) (fun dr => if list_eq_dec Nat.eq_dec (rw_apply C x dr) y then 1 else 0)
  = E (rw_draws radius d C) (fun dr => if list_eq_dec Nat.eq_dec (rw_apply C y dr) x then 1 else 0).
Proof. exact (rw_symmetric (fun _ => 0)). Qed.
Print Assumptions C07_rw_symmetric.

Theorem C07_rw_support : forall (fw : list nat -> R) d C radius,
  (2 <= C)%nat -> (0 < d)%nat -> forall g x y w, In x (states d C) -> In (y, w) (rw_step g fw radius d C x) -> In y (states d C).
Proof. exact rw_support. Qed.
Example C07_ex : (2 <= 3)%nat /\ 0 <= 3 / 2 <= INR 4 /\ (0 < 4)%nat /\ In [0; 1; 2; 1]%nat (states 4 3).
Proof. repeat split; try lia; try (simpl; lra). apply in_states. split; [reflexivity|repeat constructor]. Qed.
Print Assumptions C07_rw_support.

(** Any number of steps of the code, for any radii used along the way. *)
Theorem C07_rw_run : forall (fw : list nat -> R) d C (radius : nat -> R) n,
  (2 <= C)%nat -> (forall t, 0 <= radius t <= INR d) -> (0 < d)%nat ->
  invariant_upto (INR n * (2 * / 10 ^ 24)) (states d C) (fun x => exp (fw x))
    (run_seq (fun t => rw_step acc_guard fw (radius t) d C) n 0).
Proof. exact rw_run. Qed.
Print Assumptions C07_rw_run.
