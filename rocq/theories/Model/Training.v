(** Model of the training tools: discs/learning/replay_buffer.py, discs/learning/train.py, discs/common/utils.py 24-25 [apply_ema]. *)
From Coq Require Import Reals List Arith ZArith.
From Verif.Base Require Import RSum.
From Verif.Model Require Import Experiment.
Import ListNotations.
Local Open Scope R_scope.

(** ** Replay buffer *)
(** A stored sample: its cells, flattened. *)
Definition row := list Z.
(** replay_buffer.py 16-17, one cell: the mean of the training data, squeezed away from 0 and 1. *)
Definition init_mean (column : list R) : R := rsum column (fun v => v) / INR (length column) * (1 - 2 * (1 / 100)) + 1 / 100.
(** 10-29: the attribute [self.buffer]; it is only assigned in the binary branch (19-27), [None] is "no such attribute".
    [rows] are the [buffer_size] initial draws. *)
Definition new_buffer (num_categories : nat) (rows : list row) : option (list row) := if Nat.ltb 2 num_categories then None else Some rows.
(** 35: self.buffer[buffer_inds]; [None] is an IndexError. *)
Fixpoint gather_rows (buffer : list row) (inds : list nat) : option (list row) :=
  match inds with
  | [] => Some []
  | i :: inds' => match nth_error buffer i, gather_rows buffer inds' with Some r, Some rs => Some (r :: rs) | _, _ => None end
  end.
(** 43: x_reinit * reinit + x_buffer * (1 - reinit), one row. *)
Definition mix_row (r : Z) (fresh stored : row) : row := map (fun ab => (fst ab * r + snd ab * (1 - r))%Z) (combine fresh stored).
Fixpoint mix_rows (rs : list Z) (fresh stored : list row) : list row :=
  match rs, fresh, stored with r :: rs', f :: fresh', s :: stored' => mix_row r f s :: mix_rows rs' fresh' stored' | _, _, _ => [] end.
(** 31-44.  Draws: [inds], sorted and without repetition (33-34); [reinit] one 0/1 number per row (41); [fresh] new initial rows (39).
    [None]: no buffer, or more rows asked for than there are (np.random.choice raises). *)
Definition rb_sample (buffer : option (list row)) (inds : list nat) (reinit : list Z) (fresh : list row) : option (list row * list nat) :=
  match buffer with
  | None => None
  | Some b => if Nat.ltb (length b) (length inds) then None
              else match gather_rows b inds with Some st => Some (mix_rows reinit fresh st, inds) | None => None end
  end.
(** 46-47: self.buffer[buffer_inds] = x, assignments in order; a single row is broadcast. *)
Fixpoint set_nth {A} (i : nat) (v : A) (l : list A) : list A :=
  match l, i with [], _ => [] | _ :: l', O => v :: l' | a :: l', S i' => a :: set_nth i' v l' end.
Definition rb_update (buffer : option (list row)) (x : list row) (inds : list nat) : option (list row) :=
  match buffer with
  | None => None
  | Some b =>
      if forallb (fun i => Nat.ltb i (length b)) inds then
        let xs := match x with [v] => repeat v (length inds) | _ => x end in
        if Nat.eqb (length xs) (length inds) then Some (fold_left (fun b iv => set_nth (fst iv) (snd iv) b) (combine inds xs) b) else None
      else None
  end.
(** Any history of updates (sampling does not change the buffer). *)
Fixpoint rb_run (buffer : option (list row)) (ops : list (list row * list nat)) : option (list row) :=
  match ops with [] => buffer | (x, inds) :: ops' => match buffer with Some _ => rb_run (rb_update buffer x inds) ops' | None => None end end.

(** ** Exponential moving average *)
(** utils.py 24-25, one parameter. *)
Definition apply_ema (decay avg new : R) : R := decay * avg + (1 - decay) * new.
(** train.py 134-139: one update; [step] is the step before the update. *)
Definition ema_update (ema_decay : R) (step : nat) (avg new : R) : R := apply_ema (if Nat.eqb step 0 then 0 else ema_decay) avg new.
(** A run starting at step 0 with the initial average [avg] (train.py 26-33) and new parameter values [ps]. *)
Fixpoint ema_run (ema_decay : R) (step : nat) (avg : R) (ps : list R) : R :=
  match ps with [] => avg | p :: ps' => ema_run ema_decay (S step) (ema_update ema_decay step avg p) ps' end.

(** ** Learning-rate schedules, train.py 59-79 *)
(** optax.join_schedules with one boundary. *)
Definition join2 (f g : nat -> R) (boundary step : nat) : R := if Nat.ltb step boundary then f step else g (step - boundary)%nat.
(** 64 and 70. *)
Definition warmup_steps (warmup_frac : R) (total : nat) : nat := int_of (warmup_frac * INR total).
(** 61-62. *)
Definition lr_constant (lr : R) (step : nat) : R := INR step * 0 + lr.
(** 63-68. *)
Definition lr_updown (lr warmup_frac : R) (total step : nat) : R :=
  let w := warmup_steps warmup_frac total in join2 (linear_schedule 0 lr w) (linear_schedule lr (lr * (1 / 100)) (total - w)) w step.
(** 69-75: optax.warmup_exponential_decay_schedule by its documentation. *)
Definition lr_up_exp_down (lr warmup_frac : R) (total step : nat) : R :=
  let w := warmup_steps warmup_frac total in join2 (linear_schedule 0 lr w) (exp_schedule lr (1 / 1000000) (9 / 10) 20000) w step.

(** ** The training loop, train.py 145-183 *)
(** The loop steps executed when the loader yields [available] batches (165-168). *)
Definition loop_steps (init_step total available : nat) : list nat := firstn available (range (init_step + 1) (total + 1)).
(** state.step after the loop (141). *)
Definition final_step (init_step total available : nat) : nat := fold_left (fun st _ => S st) (loop_steps init_step total available) init_step.
(** Steps at which a checkpoint is written (180-181), and what state.step it holds. *)
Definition checkpoints (init_step total available save_every : nat) : list (nat * nat) :=
  filter (fun sc => Nat.eqb (fst sc mod save_every) 0)
    (combine (loop_steps init_step total available) (map (fun i => (init_step + S i)%nat) (seq 0 (length (loop_steps init_step total available))))).
(** The rate an update uses: optax's schedule count is the number of updates done before (the optimiser was initialised at
    step 0); the rate written to the log at loop step [s] (176). *)
Definition used_lr (schedule : nat -> R) (s : nat) : R := schedule (s - 1)%nat.
Definition logged_lr (schedule : nat -> R) (s : nat) : R := schedule s.

(** ** Data mean, train.py 46-56, one pixel *)
Definition clip (lo hi v : R) : R := Rmin (Rmax v lo) hi.
Definition data_mean (pixels : list R) : R := clip (1 / 100) (99 / 100) (rsum pixels (fun v => v) / INR (length pixels) / 255).
