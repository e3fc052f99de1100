(** Specification vocabulary for the image network: the torch network of the checkpoints, parameter shapes, a bound on the energy. *)
From Coq Require Import Reals String List Arith.
From Verif.Base Require Import RSum.
From Verif.Model Require Import Convert.
From Verif.Spec Require Import ConvertSpec.
Import ListNotations.
Local Open Scope R_scope.

(** ** The torch network: images by channel, row, column; [None]: a name is missing. *)
Fixpoint entry (k : list string) (th : list (list string * arr)) : option arr :=
  match th with [] => None | (k', v) :: th' => if list_eq_dec string_dec k' k then Some v else entry k th' end.
Definition sigmoid_unit (v : R) : R := v / (1 + exp (- v)).
Definition conv_layer (th : list (list string * arr)) (path : list string) (I K H W stride pad : nat) (img : nat -> nat -> nat -> R)
    : option (nat -> nat -> nat -> R) :=
  match entry (path ++ ["weight"%string]) th, entry (path ++ ["bias"%string]) th with
  | Some w, Some b => Some (torch_conv I K K H W stride pad (fun o i h w' => at_ w [o; i; h; w']) (fun o => at_ b [o]) img)
  | _, _ => None
  end.
(** Number of positions after a step of size [stride]. *)
Definition shrunk (stride n : nat) : nat := ((n - 1) / stride + 1)%nat.
(** A residual block: conv1, unit, conv2, plus the input (through the 1x1 shortcut when the block shrinks the image), unit. *)
Definition torch_block (th : list (list string * arr)) (layer : string) (C stride H W : nat) (img : nat -> nat -> nat -> R)
    : option (nat -> nat -> nat -> R) :=
  match conv_layer th ["net"; "net"; layer; "conv1"]%string C 3 H W stride 1 img with
  | None => None
  | Some h =>
      match conv_layer th ["net"; "net"; layer; "conv2"]%string C 3 (shrunk stride H) (shrunk stride W) 1 1 (fun o r c => sigmoid_unit (h o r c)),
            (if Nat.eqb stride 1 then Some img else conv_layer th ["net"; "net"; layer; "shortcut_conv"]%string C 1 H W stride 0 img) with
      | Some a, Some s => Some (fun o r c => sigmoid_unit (a o r c + s o r c))
      | _, _ => None
      end
  end.
Fixpoint torch_blocks (th : list (list string * arr)) (C : nat) (pl : list (string * nat)) (H W : nat) (img : nat -> nat -> nat -> R)
    : option (nat * nat * (nat -> nat -> nat -> R)) :=
  match pl with
  | [] => Some (H, W, img)
  | (layer, stride) :: pl' =>
      match torch_block th layer C stride H W img with Some y => torch_blocks th C pl' (shrunk stride H) (shrunk stride W) y | None => None end
  end.
Definition torch_plan : list (string * nat) := [("0", 2); ("1", 2); ("2", 1); ("3", 1); ("4", 1); ("5", 1); ("6", 1); ("7", 1)]%string%nat.
Definition torch_energy (th : list (list string * arr)) (C H W : nat) (x : list R) : option R :=
  match conv_layer th ["net"; "proj"]%string 1 3 H W 1 1 (fun _ r c => nth (r * W + c) x 0) with
  | None => None
  | Some y =>
      match torch_blocks th C torch_plan H W y, entry ["net"; "energy_linear"; "weight"]%string th, entry ["net"; "energy_linear"; "bias"]%string th with
      | Some (H', W', z), Some w, Some b =>
          Some (torch_linear C (fun o i => at_ w [o; i]) (fun o => at_ b [o])
                  (fun i => rsum (seq 0 H') (fun r => rsum (seq 0 W') (fun c => z i r c)) / (INR H' * INR W')) 0)
      | _, _, _ => None
      end
  end.

(** ** Shapes *)
Definition has (ps : params) (k : list string) (s : list nat) : Prop := exists a, lookup k ps = Some a /\ shape a = s.
Definition conv_shape (ps : params) (path : list string) (k I O : nat) : Prop :=
  has ps (path ++ ["kernel"%string]) [k; k; I; O] /\ has ps (path ++ ["bias"%string]) [O].
Definition net_shapes (ps : params) (C : nat) : Prop :=
  conv_shape ps ["Conv_0"%string] 3 1 C /\
  (forall b, In b ["0"; "1"; "2"; "3"; "4"; "5"; "6"; "7"]%string ->
     conv_shape ps [("BasicBlock_" ++ b)%string; "Conv_0"%string] 3 C C /\ conv_shape ps [("BasicBlock_" ++ b)%string; "Conv_1"%string] 3 C C) /\
  (forall b, In b ["0"; "1"]%string -> conv_shape ps [("BasicBlock_" ++ b)%string; "shortcut_conv"%string] 1 C C) /\
  has ps ["Dense_0"; "kernel"]%string [C; 1%nat] /\ has ps ["Dense_0"; "bias"]%string [1%nat].

(** ** A bound on the energy from the sums of the absolute parameters *)
Fixpoint indices (s : list nat) : list (list nat) :=
  match s with [] => [[]] | n :: s' => flat_map (fun i => map (cons i) (indices s')) (seq 0 n) end.
Definition total (ps : params) (k : list string) : R :=
  match lookup k ps with Some a => rsum (indices (shape a)) (fun ix => Rabs (at_ a ix)) | None => 0 end.
Definition conv_bound (ps : params) (path : list string) (M : R) : R := total ps (path ++ ["kernel"%string]) * M + total ps (path ++ ["bias"%string]).
Definition block_bound (ps : params) (shrinks : bool) (name : string) (M : R) : R :=
  conv_bound ps [name; "Conv_1"%string] (conv_bound ps [name; "Conv_0"%string] M) + (if shrinks then conv_bound ps [name; "shortcut_conv"%string] M else M).
Definition energy_bound (ps : params) : R :=
  let first := conv_bound ps ["Conv_0"%string] 1 in
  let two := block_bound ps true "BasicBlock_1" (block_bound ps true "BasicBlock_0" first) in
  let all := fold_left (fun M b => block_bound ps false b M)
    ["BasicBlock_2"; "BasicBlock_3"; "BasicBlock_4"; "BasicBlock_5"; "BasicBlock_6"; "BasicBlock_7"]%string two in
  total ps ["Dense_0"; "kernel"]%string * all + total ps ["Dense_0"; "bias"]%string.
