(** Model of discs/samplers/locallybalanced.py: weight functions and sample selection. *)
From Coq Require Import String Reals List Arith.
From Verif.Base Require Import RSum Cube Dist XFloat.
From Verif.Model Require Import MathUtil.
Import ListNotations.
Local Open Scope R_scope.

(** locallybalanced.py 39-50 [apply_weight_function]; [None] is the ValueError of line 50. *)
Definition apply_weight_function (ty : string) (t : R) : option R :=
  if String.eqb ty "SQRT" then Some (sqrt t)
  else if String.eqb ty "RATIO" then Some (t / (t + 1))
  else if String.eqb ty "MAX" then Some (Rmax t 1)
  else if String.eqb ty "MIN" then Some (Rmin t 1)
  else None.

(** jax.nn.log_sigmoid x = -log(1 + exp(-x)). *)
Definition log_sigmoid (x : R) : R := - ln (1 + exp (- x)).

(** locallybalanced.py 52-63 [apply_weight_function_logscale]. *)
Definition apply_weight_function_logscale (ty : string) (logt : R) : option R :=
  if String.eqb ty "SQRT" then Some (logt / 2)
  else if String.eqb ty "RATIO" then Some (log_sigmoid logt)
  else if String.eqb ty "MAX" then Some (Rmax logt 0)
  else if String.eqb ty "MIN" then Some (Rmin logt 0)
  else None.

(** What model.logratio_in_neighborhood returns, as far as the callers see it: the number of values of the
    tuple and the number of positional arguments (besides self) of the returned neighbour function; [None] for
    the function of normcut.py 117.  bernoulli.py 49, 61; mis.py 55; maxcut.py 58; normcut.py 117; comb_ebm.py 53. *)
Record lr_sig := { lr_values : nat; lr_nbr_args : option nat }.
Definition bernoulli_sig : lr_sig := {| lr_values := 3; lr_nbr_args := Some 2%nat |}.
Definition mis_sig : lr_sig := {| lr_values := 3; lr_nbr_args := Some 3%nat |}.
Definition maxcut_sig : lr_sig := {| lr_values := 4; lr_nbr_args := Some 3%nat |}.
Definition normcut_sig : lr_sig := {| lr_values := 4; lr_nbr_args := None |}.

(** comb_ebm.py 53-57 [get_neighbor_fn] on one row. *)
Definition neighbor (x : list nat) (i : nat) : list nat := upd i (1 - nth i x 0)%nat x.

(** locallybalanced.py 65-77 [step], one chain: draw a neighbour in proportion to the balanced ratio; there is no
    accept/reject.  [lr x i] is the log-ratio array at [x]. *)
Definition lb_move (wf : R -> R) (lr : list nat -> nat -> R) (x : list nat) : dist (list nat) :=
  dmap (neighbor x) (categorical (map (fun i => wf (lr x i)) (seq 0 (length x)))).

(** Same, with the exceptions: [None] when the method is missing (67-68), when the tuple has not four values
    (69-70), when the balancing function is unknown (63), or when the neighbour function cannot be called with
    three arguments (73). *)
Definition lb_step (sig : option lr_sig) (ty : string) (lr : list nat -> nat -> R) (x : list nat) : option (dist (list nat)) :=
  match sig with
  | None => None
  | Some s =>
      if negb (Nat.eqb (lr_values s) 4) then None
      else match apply_weight_function_logscale ty 0 with
           | None => None
           | Some _ => match lr_nbr_args s with
                       | Some 3%nat => Some (lb_move (fun t => match apply_weight_function_logscale ty t with Some w => w | None => 0 end) lr x)
                       | _ => None
                       end
           end
  end.

(** Sampler state as a dictionary. *)
Definition sdict := list (string * nat).
Fixpoint dget (k : string) (s : sdict) : option nat :=
  match s with [] => None | (k', v) :: s' => if String.eqb k k' then Some v else dget k s' end.

(** abstractsampler.py 34-38. *)
Definition abstract_init : sdict := [("num_ll_calls"%string, 0%nat); ("steps"%string, 0%nat)].
(** locallybalanced.py 74-76; [None] is a KeyError. *)
Definition lb_new_state (num_calls : nat) (s : sdict) : option sdict :=
  match dget "num_ll_calls" s with Some n => Some [("num_ll_calls"%string, (n + num_calls)%nat)] | None => None end.
