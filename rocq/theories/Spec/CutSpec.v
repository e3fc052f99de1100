(** Specification vocabulary for the table of normalised-cut runs. *)
From Coq Require Import Reals String Ascii List Bool.
From Verif.Base Require Import RSum.
From Verif.Spec Require Import LaunchSpec ToolSpec ReportSpec.
From Verif.Model Require Import Launch.
Import ListNotations.
Local Open Scope string_scope.

(** The short names of this table differ from those of the other reports for random walk and path auxiliary. *)
Definition cut_short (n : string) : string :=
  match look n [("hammingball", "hb-10-1"); ("blockgibbs", "bg-2"); ("randomwalk", "rmw"); ("path_auxiliary", "pafs")] with Some s => s | None => n end.
Definition cut_text (d : table string) : string :=
  cut_short (or_empty (look "name" d))
  ++ (if String.eqb (or_empty (look "solver" d)) "euler_forward" then "f" else "")
  ++ (match look "adaptive" d with
      | Some a => (if String.eqb a "False" then "-nA" else "") ++ or_empty (look "step_size" d)
                  ++ or_empty (option_map (append "-") (look "n" d)) ++ or_empty (option_map (append "-") (look "num_flips" d))
      | None => ""
      end)
  ++ (match look "balancing_fn_type" d with Some b => lbf_text b | None => "" end).
(** Groups of the nodes, from the saved partition. *)
Definition part_of (x : list nat) (i : nat) : nat := nth i x 0.
(** How far the sizes of [k] groups of [n] nodes are from equal. *)
Definition imbalance (x : list nat) (n k : nat) : R :=
  (rsum (seq 0 k) (fun g => (INR k * INR (group_size (part_of x) n g) - INR n) ^ 2) / (INR k * (INR k - 1) * INR n ^ 2))%R.
