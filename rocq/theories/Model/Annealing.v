(** Model of a whole combinatorial-optimisation run (discs/experiment/sampling.py 524-657) for one instance. *)
From Coq Require Import Reals List Arith.
From Verif.Base Require Import RSum Cube Dist.
From Verif.Spec Require Import Chain.
From Verif.Model Require Import MathUtil Gibbs RandomWalk LocallyBalanced GWG PathAux Experiment.
Import ListNotations.
Local Open Scope R_scope.

(** sampling.py 555-566, 601 and 603-615, 650 (burn-in and main loop together: steps 1 .. chain_length): the states of the batch after steps [t], [t+1], ... ([n] steps), with their
    step numbers; [K s] is the sampler step number [s] (its scan position and the temperature of that step). *)
Fixpoint co_path {A} (K : nat -> list A -> dist (list A)) (n t : nat) (xs : list A) : dist (list (nat * list A)) :=
  match n with
  | O => ret []
  | S n' => bind (K t xs) (fun ys => dmap (cons (t, ys)) (co_path K n' (S t) ys))
  end.

(** 568-575, 617-624, 654-656 and 659-670: the best ratio that is saved, [obj] being the evaluation of one chain. *)
Definition co_report {A} (obj : A -> R) (ref : R) (zeros : A) (log_every : nat) (path : list (nat * list A)) : R :=
  fst (co_run ref zeros log_every (map (fun p => (fst p, (map obj (snd p), snd p))) path)).

(** comb_ebm.py 26-29: the log-density at temperature [T]. *)
Definition tempered {A} (obj : A -> R) (T : R) (x : A) : R := obj x / T.

(** Step number [s] (from 1, line 555) of the Gibbs sampler, gibbs.py 17-58, at temperature [T s] (556-557). *)
Definition gibbs_anneal (obj : list nat -> R) (T : nat -> R) (d C s : nat) : list nat -> dist (list nat) :=
  gibbs_step (tempered obj (T s)) C (g_index (Nat.iter (s - 1) (gibbs_update d C) g_init)).

(** ... and of the random-walk sampler with a fixed radius, randomwalk.py 26-57. *)
Definition rw_anneal (guard : R) (obj : list nat -> R) (T : nat -> R) (radius : R) (d C s : nat) : list nat -> dist (list nat) :=
  rw_step guard (tempered obj (T s)) radius d C.

(** The gradient of a multilinear energy at a binary point: site [i] of the gradient is the change from 0 to 1, i.e.
    (1 - 2 x_i) times the change of a flip (comb_ebm.py 31-39, gradient of the forward pass).  SIMPLIFIED: the energies that
    are not multilinear (normcut) have another gradient. *)
Definition flip_grad (fw : list nat -> R) (x : list nat) (i : nat) : R := (1 - 2 * INR (nth i x 0%nat)) * (fw (neighbor x i) - fw x).

(** Step [s] of the binary GWG sampler (gwg.py 23-77) with the square-root balancing function (locallybalanced.py 52-63). *)
Definition gwg_anneal (guard : R) (obj : list nat -> R) (T : nat -> R) mask (num_flips s : nat) : list nat -> dist (list nat) :=
  gwg_step guard (tempered obj (T s)) (fun t => t / 2) (flip_grad (tempered obj (T s))) mask num_flips.

(** ... and of the path-auxiliary sampler with a fixed number of flips (path_auxiliary.py 90-171), the log-ratios taken from
    the same gradient (71-77). *)
Definition pafs_anneal (guard : R) (obj : list nat -> R) (T : nat -> R) mask (num_flips s : nat) : list nat -> dist (list nat) :=
  pafs_step guard (tempered obj (T s)) (fun t => t / 2) (paf_lr_grad_bin (flip_grad (tempered obj (T s)))) mask num_flips.
