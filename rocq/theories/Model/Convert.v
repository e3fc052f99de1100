(** Model of learning/binary_ebm/pt2params.py: conversion of a torch checkpoint to network parameters.

    Simplifications: dotted parameter names are lists of their components (a torch name splits at its dots in one
    way); an array is its shape and its entries by index; int() of a character is modelled for the ten digits. *)
From Coq Require Import Reals String Ascii List Arith Bool.
From Verif.Base Require Import RSum.
Import ListNotations.
Local Open Scope string_scope.

(** Arrays (numpy / jax): shape and entries. *)
Record arr := mk_arr { shape : list nat; at_ : list nat -> R }.

(** pt2params.py 64-69: np.transpose(val, (2, 3, 1, 0)) and jnp.transpose(val, (1, 0)). *)
Definition transpose4 (a : arr) : arr :=
  mk_arr (match shape a with [o; i; h; w] => [h; w; i; o] | s => s end)
         (fun ix => match ix with [h; w; i; o] => at_ a [o; i; h; w] | _ => 0%R end).
Definition transpose2 (a : arr) : arr :=
  mk_arr (match shape a with [o; i] => [i; o] | s => s end)
         (fun ix => match ix with [i; o] => at_ a [o; i] | _ => 0%R end).

(** int(mod[-1]) - 1 printed with %d (50); [None] is an exception. *)
Definition digit_names : list string := ["-1"; "0"; "1"; "2"; "3"; "4"; "5"; "6"; "7"; "8"].
Fixpoint last_char (s : string) : option ascii :=
  match s with EmptyString => None | String c EmptyString => Some c | String _ s' => last_char s' end.
Definition conv_name (mod_ : string) : option string :=
  match last_char mod_ with
  | None => None
  | Some c => match nth_error digit_names (nat_of_ascii c - 48) with
              | Some d => if (48 <=? nat_of_ascii c)%nat then Some ("Conv_" ++ d) else None
              | None => None
              end
  end.

(** 'kernel' if p == 'weight' else 'bias', after the assertion (51-54, 57-62). *)
Definition leaf (p : string) : option string :=
  if String.eqb p "weight" then Some "kernel" else if String.eqb p "bias" then Some "bias" else None.

(** pt2params.py 43-62: the name of the parameter of the network that a torch name stands for; [None] is a failed
    assertion or an exception. *)
Definition param_key (key : list string) : option (list string) :=
  match key with
  | "net" :: rest =>
      match rest with
      | ["net"] => None
      | "net" :: rest' =>
          match rest' with
          | [layer; mod_; p] =>
              match (if String.eqb mod_ "shortcut_conv" then Some "shortcut_conv" else conv_name mod_), leaf p with
              | Some pm, Some l => Some ["BasicBlock_" ++ layer; pm; l]
              | _, _ => None
              end
          | _ => None
          end
      | [mod_; p] =>
          match leaf p with
          | Some l => if String.eqb mod_ "proj" then Some ["Conv_0"; l]
                      else if String.eqb mod_ "energy_linear" then Some ["Dense_0"; l] else None
          | None => None
          end
      | _ => None
      end
  | _ => None
  end.

(** A flattened parameter dictionary (34). *)
Definition params := list (list string * arr).
Definition key_eqb (a b : list string) : bool := if list_eq_dec string_dec a b then true else false.
Fixpoint lookup (k : list string) (ps : params) : option arr :=
  match ps with [] => None | (k', v) :: ps' => if key_eqb k' k then Some v else lookup k ps' end.
Fixpoint replace (k : list string) (v : arr) (ps : params) : params :=
  match ps with [] => [] | (k', v') :: ps' => if key_eqb k' k then (k', v) :: ps' else (k', v') :: replace k v ps' end.

Definition shape_eqb (a b : list nat) : bool := if list_eq_dec Nat.eq_dec a b then true else false.

(** 64-69: a kernel must have four or two axes. *)
Definition converted (pk : list string) (v : arr) : option arr :=
  if String.eqb (last pk "") "kernel" then
    match length (shape v) with 4 => Some (transpose4 v) | 2 => Some (transpose2 v) | _ => None end
  else Some v.

(** 43-72: one torch parameter. *)
Definition store (key : list string) (v : arr) (ps : params) : option params :=
  match param_key key with
  | None => None
  | Some pk =>
      match lookup pk ps, converted pk v with
      | Some old, Some new => if shape_eqb (shape old) (shape new) then Some (replace pk new ps) else None
      | _, _ => None
      end
  end.

(** 37-72: all of them; 'mean' is the data mean. *)
Fixpoint convert_loop (th : list (list string * arr)) (ps : params) (mean : option arr) : option (params * option arr) :=
  match th with
  | [] => Some (ps, mean)
  | (key, v) :: th' =>
      if key_eqb key ["mean"] then convert_loop th' ps (Some v)
      else match store key v ps with Some ps' => convert_loop th' ps' mean | None => None end
  end.

(** 34-75, with the count check of 35. *)
Definition convert (th : list (list string * arr)) (ps : params) : option (params * option arr) :=
  if Nat.eqb (length ps + 1) (length th) then convert_loop th ps None else None.
