(** Model of a step of the adaptive random-walk sampler on a whole batch: samples and radius together
    (samplers/randomwalk.py 26-74). *)
From Coq Require Import Reals List Arith.
From Verif.Base Require Import RSum Cube Dist.
From Verif.Model Require Import MathUtil RandomWalk.
Import ListNotations.
Local Open Scope R_scope.

(** randomwalk.py 26-35 with 65-74: proposals at the radius of the state (30), log-ratios (29-32), one accept/reject
    draw per chain (69-71), new radius from the mean acceptance of the whole batch (72-74).  The two counters of the
    state do not influence the samples and are left out. *)
Definition arw_step (guard : R) (fw : list nat -> R) (dim C : nat) (target : R)
    (s : R * list (list nat)) : dist (R * list (list nat)) :=
  let r := fst s in let xs := snd s in
  bind (indep (repeat (rw_draws r dim C) (length xs))) (fun drs =>
    let ys := map (fun p => rw_apply C (fst p) (snd p)) (combine xs drs) in
    let log_acc := map (fun p => fw (snd p) - fw (fst p)) (combine xs ys) in
    bind (indep (map (fun p => mh_law guard (fw (snd p) - fw (fst p)) (fst p) (snd p)) (combine xs ys))) (fun xs' =>
      ret (rw_radius (rw_adapt_state dim target log_acc {| rw_steps := 0; rw_ll := 0; rw_radius := r |}), xs'))).
