(** Model of the choice and recording of saved chains in experiment/sampling.py (Sampling_Experiment).

    The random choice without replacement is the first entries of a permutation of the chain numbers, which is an
    argument (the draw). *)
From Coq Require Import String Reals List Arith.
From Verif.Model Require Import Experiment.
Import ListNotations.

(** sampling.py 22: config.get('nun_saved_samples', 4) on the whole configuration (its numeric top-level keys). *)
Fixpoint top_get (k : string) (top : list (string * nat)) : option nat :=
  match top with [] => None | (k', v) :: top' => if String.eqb k k' then Some v else top_get k top' end.
Definition num_saved_samples (top : list (string * nat)) : nat :=
  match top_get "nun_saved_samples" top with Some n => n | None => 4 end.

(** sampling.py 233-238: jax.random.choice(arange(batch_size), shape=(k,), replace=False); [None] is the
    exception raised when k exceeds the batch size. *)
Definition select_chains (perm : list nat) (batch_size k : nat) : option (list nat) :=
  if k <=? batch_size then Some (firstn k perm) else None.

(** sampling.py 251-255 and 277-281: chains[selected_chains]. *)
Definition save_row {X} (x0 : X) (chains : list X) (sel : list nat) : list X := map (fun i => nth i chains x0) sel.

(** sampling.py 209-319: the list of saved arrays of a whole run; [trace s] are the chains after step [s]. *)
Definition saved_samples {X} (x0 : X) (top : list (string * nat)) (perm : list nat) (batch_size L save_every : nat) (ess_ratio : R)
    (save_samples get_estimation_error : bool) (trace : nat -> list X) : option (list (list X)) :=
  match select_chains perm batch_size (num_saved_samples top) with
  | None => None
  | Some sel =>
      Some (if (save_samples || get_estimation_error)%bool
            then map (fun s => save_row x0 (trace s) sel) (saved_steps L save_every ess_ratio) else [])
  end.
