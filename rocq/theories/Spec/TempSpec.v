(** What the temperature figure should show. *)
From Coq Require Import Reals String Ascii List Bool ZArith Arith.
From Verif.Model Require Import Launch Report CutReport.
From Verif.Spec Require Import LaunchSpec ReportSpec.
Import ListNotations.
Local Open Scope string_scope.

(** Order of decimal texts with at most six decimals and without sign and exponent: the value in millionths. *)
Definition millionths (s : string) : option Z :=
  match split "." s with
  | [w; p] => if (String.length p <=? 6)%nat then whole 0 (list_ascii_of_string (w ++ p) ++ repeat "0"%char (6 - String.length p)) else None
  | [w] => option_map (Z.mul 1000000) (whole 0 (list_ascii_of_string w))
  | _ => None
  end.
(** The four results of a run, as saved by name and as a point of the figure. *)
Definition result_keys : list string := ["ess_ee"; "ess_ee_std"; "ess_clock"; "ess_clock_std"].
Definition four {X} (r : string -> X) : table X := map (fun k => (k, r k)) result_keys.
Definition quad {X} (r : string -> X) : X * X * (X * X) := (r "ess_ee", r "ess_ee_std", (r "ess_clock", r "ess_clock_std")).
(** The row of a sampler begins with the run [r]. *)
Definition begins {X} (row : table (list X)) (r : string -> X) : Prop := forall k, In k result_keys -> exists l, look k row = Some (r k :: l).
(** A title whose last setting is [v]. *)
Definition ends_with (v t : string) : Prop :=
  exists d k, t = title (d ++ [(k, v)])%list /\ free_of "=" k /\ free_of "=" v /\ forall k' v', In (k', v') (d ++ [(k, v)])%list -> free_of "," k' /\ free_of "," v'.
(** Display name in this figure of a run without the setting 'adaptive'. *)
Definition temp_name (d : table string) : string :=
  (match look "name" d with Some "path_auxiliary" => "pas" | Some "randomwalk" => "rmw" | Some "hammingball" => "hb-10-1" | Some "blockgibbs" => "bg-2" | Some n => n | None => "" end) ++
  (match look "solver" d with Some "euler_forward" => "f" | _ => "" end) ++
  match look "balancing_fn_type" d with Some "SQRT" => "(s)" | Some "RATIO" => "(r)" | Some "MIN" => "(min)" | Some "MAX" => "(max)" | _ => "" end.
(** The points of the line [n] are the runs [fs], one after the other: each has the name [n], stands at its temperature and shows its results. *)
Definition is_line {X} (g : string -> string -> X) (n : string) (fs : list string) (pts : list (string * (X * X * (X * X)))) : Prop :=
  Forall2 (fun f p => exists d, cut_settings f = Some d /\ look "adaptive" d = None /\ temp_name d = n /\ look "lambdaa" d = Some (fst p) /\ snd p = quad (g f)) fs pts.
