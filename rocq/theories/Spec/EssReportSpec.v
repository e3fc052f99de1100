(** What the report should show of the effective sample sizes of a run. *)
From Coq Require Import Reals String Ascii List Bool ZArith Arith.
From Verif.Model Require Import Launch Report.
From Verif.Spec Require Import ReportSpec.
Import ListNotations.
Local Open Scope string_scope.

(** A printed number: something without white space. *)
Definition solid (s : string) : Prop := s <> "" /\ forall c, In c (list_ascii_of_string s) -> ~ In c (map ascii_of_nat [32; 9; 10; 11; 12; 13]).
Definition spaces (s : string) : Prop := forall c, In c (list_ascii_of_string s) -> c = " "%char.
(** The row shows two numbers, padded with spaces in any way. *)
Definition two_numbers (row a b : string) : Prop :=
  solid a /\ solid b /\ exists l p r, spaces l /\ spaces p /\ spaces r /\ row = l ++ a ++ " " ++ p ++ b ++ r.
(** [v] is [x] up to the relative error [delta]. *)
Definition near (delta x v : R) : Prop := (Rabs (v - x) <= delta * Rabs x)%R.
(** The row shows the numbers [x] up to [delta], and reading them gives [v]. *)
Definition shows_pair (to_num : string -> option R) (delta : R) (x : R * R) (row : string) (v : R * R) : Prop :=
  exists a b, two_numbers row a b /\ to_num a = Some (fst v) /\ to_num b = Some (snd v) /\ near delta (fst x) (fst v) /\ near delta (snd x) (snd v).
(** Effective sample size over the likelihood evaluations a step makes on average. *)
Definition per_step_calls (ess : R) (calls L : nat) : R := (ess / (INR calls / INR L))%R.
(** The length of the chain is written in the settings, or is the usual one. *)
Definition tells_length (to_num : string -> option R) (d : table string) (L : nat) : Prop :=
  match look "chain_length" d with Some t => solid t /\ to_num t = Some (INR L) | None => L = Nat.pow 10 5 end.
(** The value of decimal texts without sign and exponent. *)
Definition decimal (s : string) : option R :=
  match split "." s with
  | [w] => option_map IZR (whole 0 (list_ascii_of_string w))
  | [w; p] => match whole 0 (list_ascii_of_string w), whole 0 (list_ascii_of_string p) with
              | Some x, Some y => Some (IZR x + IZR y / 10 ^ String.length p)%R
              | _, _ => None
              end
  | _ => None
  end.
