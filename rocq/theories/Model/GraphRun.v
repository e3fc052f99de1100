(** Model of a whole run of CO_Experiment, experiment/sampling.py 478-680 with 26-104: the settings read from the configuration, the
    arrays of a group of instances on the devices, the bookkeeping of the best values, and what is written for every group.

    Arrays are flat lists (jnp.reshape keeps the row-major order), so an array of shape bshape + (n,) + model shape is a list of
    samples in blocks of n, a block for every entry of bshape.  What the sampler visits is given: [visits s] are all samples after
    step s.  Times, acceptance ratios and hops are left out. *)
From Coq Require Import String List Bool ZArith Reals Arith.
From Verif.Model Require Import Launch Start CombOpt GraphIter Experiment Loaders.
Import ListNotations.
Local Open Scope string_scope.

(** ** Settings *)
(** sampling.py 504-523 [_build_temperature_schedule]; [None] is the ValueError. *)
Definition schedule_of (kind : string) (init final decay : R) (L : nat) : option (nat -> R) :=
  if String.eqb kind "constant" then Some (constant_schedule init)
  else if String.eqb kind "linear" then Some (linear_schedule init final L)
  else if String.eqb kind "exp_decay" then Some (exp_schedule init final decay L)
  else None.
(** The settings CO_Experiment reads, sampling.py 23-24, 32, 45, 504-523, 553-556, 568, 581, 655; [k_group] is config.model.num_models of
    common/utils.py 204. *)
Record co_conf := { k_schedule : nat -> R; k_length : nat; k_ratio : R; k_log : nat; k_models : nat; k_batch : nat; k_parallel : bool;
                    k_samples : bool; k_mis : bool; k_group : nat }.
Definition co_settings (c : lconfig) : option co_conf :=
  let e := l_exp c in
  match as_str (look "t_schedule" e), as_real (look "init_temperature" e), as_real (look "final_temperature" e), as_real (look "decay_rate" e),
        as_nat (look "chain_length" e), as_real (look "ess_ratio" e), as_nat (look "log_every_steps" e), as_nat (look "num_models" e) with
  | Some t, Some i, Some f, Some r, Some L, Some er, Some lg, Some nm =>
      match schedule_of t i f r L, as_nat (look "batch_size" e), as_bool (look "run_parallel" e), as_bool (look "save_samples" e),
            as_str (look "name" (l_model c)), as_nat (look "num_models" (l_model c)) with
      | Some sch, Some b, Some par, Some sv, Some n, Some gr =>
          Some {| k_schedule := sch; k_length := L; k_ratio := er; k_log := lg; k_models := nm; k_batch := b; k_parallel := par;
                  k_samples := (sv || String.eqb n "normcut")%bool; k_mis := String.eqb n "mis"; k_group := gr |}
      | _, _, _, _, _, _ => None
      end
  | _, _, _, _, _, _, _, _ => None
  end.
(** mis.py 15, maxclique.py 15. *)
Definition penalty_of (m : table lit) : option R := match look "penalty" m with None => Some 2%R | o => as_real o end.
(** The sizes the model section asks for, as the constructors of Model/Loaders.v read them (e.g. maxcut_loader.py 39-46): num_instances
    is read only if the other two are positive. *)
Definition asked_sizes (m : table lit) : option sizes :=
  match as_nat (look "max_num_nodes" m), as_nat (look "max_num_edges" m), as_nat (look "num_instances" m) with
  | Some n, Some e, Some i => Some {| max_nodes := n; max_edges := e; instances := i |}
  | Some n, Some e, None => if (Nat.ltb 0 n && Nat.ltb 0 e)%bool then None else Some {| max_nodes := n; max_edges := e; instances := 0 |}
  | _, _, _ => None
  end.
(** model.evaluate (comb_ebm.py 26-42) of the three node-selection models on 0/1 samples, for one instance at temperature [T]:
    mis.py 24-40, maxclique.py 24-41, maxcut.py 29-38 on the arrays of utils.py 143-181. *)
Definition numbers (x : nat -> bool) : nat -> R := fun i => if x i then 1%R else 0%R.
Definition mis_at (coeff : R) (z : sizes) (g : graph) (T : R) (x : nat -> bool) : R :=
  comb_evaluate (mis_objective (max_nodes z) (graph2edges (max_edges z) 0 g)) (mis_penalty coeff (graph2edges (max_edges z) 0 g)) T (numbers x).
Definition clique_at (coeff : R) (z : sizes) (g : graph) (T : R) (x : nat -> bool) : R :=
  comb_evaluate (mis_objective (max_nodes z) (graph2edges (max_edges z) 0 g)) (clique_penalty (max_nodes z) coeff (graph2edges (max_edges z) 0 g)) T (numbers x).
Definition cut_at (z : sizes) (g : graph) (T : R) (x : nat -> bool) : R :=
  comb_evaluate (maxcut_objective (graph2edges (max_edges z) 0 g)) no_penalty T (numbers x).

(** ** Devices *)
(** The first dimensions of the arrays: for every block of samples the instance whose parameters it is stepped and evaluated with, and
    the samples in a block. *)
Record layout := { block_of : list nat; block_size : nat }.
(** sampling.py 23-24 and 67-104 for [d] local devices; [None] is a failing assertion.  With at least as many instances as devices the
    instances are dealt out to the devices; otherwise every device gets all instances (device_put_replicated) and a part of the chains. *)
Definition arrange (d : nat) (par : bool) (batch models : nat) : option layout :=
  if (par && negb (Nat.eqb d 1))%bool then
    if Nat.leb d models then if Nat.eqb (models mod d) 0 then Some {| block_of := seq 0 models; block_size := batch |} else None
    else if Nat.eqb (batch mod d) 0 then Some {| block_of := concat (repeat (seq 0 models) d); block_size := batch / d |} else None
  else Some {| block_of := seq 0 models; block_size := batch |}.
(** `if self.sample_idx:` for an array: its only element is tested; several elements raise (a ValueError), no element is false. *)
Definition truth (ids : list Z) : option bool := match ids with [] => Some false | [z] => Some (negb (Z.eqb z 0)) | _ => None end.
(** sampling.py 84-88: self.sample_idx after _prepare_data. *)
Definition device_ids (d : nat) (par : bool) (models : nat) (ids : list Z) : option (list Z) :=
  if (par && negb (Nat.eqb d 1) && Nat.ltb models d)%bool then
    match truth ids with
    | None => None
    | Some false => Some ids
    | Some true => Some (concat (repeat ids (d / models)))
    end
  else Some ids.
(** 661 and 574 / 624: sample_mask, reshaped to the shape of best_ratio; [None]: the sizes differ. *)
Definition sample_mask (models : nat) (ids : list Z) : option (list bool) := if Nat.eqb (length ids) models then Some (map (Z.leb 0) ids) else None.

(** ** One group *)
(** What is written: experiment_saver.py 121-129 (without the mean and the time). *)
Record saved (X : Type) := { s_trajectory : list (list R); s_best : list R; s_samples : list X }.
Arguments s_trajectory {X}. Arguments s_best {X}. Arguments s_samples {X}. Arguments Build_saved {X}.
(** x.reshape(rows, -1)[i] for rows of n entries. *)
Definition row {Y} (n i : nat) (l : list Y) : list Y := firstn n (skipn (i * n) l).
(** a[mask] *)
Definition masked {Y} (mask : list bool) (l : list Y) : list Y := map snd (filter fst (combine mask l)).

Section Group.
Variables A X : Type.
(** evaluator.evaluate of one sample with the parameters of one instance at a temperature; the zero sample of 668. *)
Variable value : A -> R -> X -> R.
Variable zeros : X.
(** get_dummy_sample and the reference value with it (common.py 128-134). *)
Variable dummy : A * R.

Definition slot (e : entry (A * R)) : A * R := match e with Real _ a => a | Dummy => dummy end.
Definition slot_id (e : entry (A * R)) : Z := match e with Real i _ => Z.of_nat i | Dummy => (-1)%Z end.
(** 500-502: obj_fn over all blocks. *)
Fixpoint evaluations (slots : list (A * R)) (T : R) (blocks : list nat) (n : nat) (xs : list X) : list R :=
  match blocks with
  | [] => []
  | i :: bs => match nth_error slots i with Some a => map (value (fst a) T) (firstn n xs) | None => [] end ++ evaluations slots T bs n (skipn n xs)
  end.
(** 553-557, 560-572 and 606-622: the steps with the values and samples of the [i]-th instance. *)
Definition instance_steps (k : co_conf) (l : layout) (slots : list (A * R)) (visits : nat -> list X) (i : nat) : list (nat * (list R * list X)) :=
  map (fun s => (s, (row (k_batch k) i (evaluations slots (k_schedule k s) (block_of l) (block_size l) (visits s)), row (k_batch k) i (visits s))))
      (map fst (sampling_steps (k_length k) (k_ratio k))).
(** 496-498. *)
Definition slot_ref (k : co_conf) (a : A * R) : R := if k_mis k then 1%R else snd a.
(** _compute_chain 525-657 for one group; [None] is an exception. *)
Definition run_group (d : nat) (k : co_conf) (group : list (entry (A * R))) (visits : nat -> list X) : option (saved X) :=
  match arrange d (k_parallel k) (k_batch k) (k_models k), device_ids d (k_parallel k) (k_models k) (map slot_id group) with
  | Some l, Some ids =>
      match sample_mask (k_models k) ids with
      | Some mask =>
          let slots := map slot group in
          let steps := instance_steps k l slots visits in
          let final := map (fun p => co_run (slot_ref k (snd p)) zeros (k_log k) (steps (fst p))) (combine (seq 0 (length slots)) slots) in
          let trace := map (fun p => co_trace (slot_ref k (snd p)) zeros (co_init zeros) (co_logged (k_log k) (steps (fst p))))
                           (combine (seq 0 (length slots)) slots) in
          let logged := length (co_logged (k_log k) (map (fun s => (s, ([] : list R, [] : list X))) (map fst (sampling_steps (k_length k) (k_ratio k))))) in
          Some {| s_trajectory := map (fun t => masked mask (map (fun tr => nth t tr 0%R) trace)) (seq 0 logged);
                  s_best := masked mask (map fst final);
                  s_samples := if k_samples k then map snd final else [] |}
      | None => None
      end
  | _, _ => None
  end.

(** ** All groups: get_results 481-484.  [visits q s]: the samples of the q-th group.  The directory, and whether the loop came to its end
    (otherwise the exception of a group ended the program). *)
Fixpoint run_groups (d : nat) (k : co_conf) (groups : list (list (entry (A * R)))) (visits : nat -> nat -> list X) (dir : dir (saved X)) :
    Experiment.dir (saved X) * bool :=
  match groups with
  | [] => (dir, true)
  | g :: gs => match run_group d k g (visits 0) with
               | Some s => run_groups d k gs (fun q => visits (S q)) (dump dir "results" s)
               | None => (dir, false)
               end
  end.
(** The job: the instances of the data set in groups of config.model.num_models (common/utils.py 201-205). *)
Definition run_job (d : nat) (k : co_conf) (num_instances : nat) (gs : list (A * R)) (visits : nat -> nat -> list X) : option (Experiment.dir (saved X) * bool) :=
  match get_iterator num_instances (k_group k) 1 0 gs with
  | Some groups => Some (run_groups d k groups visits (fun _ => None))
  | None => None
  end.
End Group.
Arguments slot {A}. Arguments slot_id {A}. Arguments evaluations {A X}. Arguments instance_steps {A X}. Arguments slot_ref {A}.
Arguments run_group {A X}. Arguments run_groups {A X}. Arguments run_job {A X}.
