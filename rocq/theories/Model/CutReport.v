(** Model of discs/common/normcut_evaluator.py 73-211: the table of normalised-cut runs.
    Simplified: node labels are natural numbers and the partition found by a run is a list of natural numbers (line 193 casts floats
    to integers); the printed message (line 103-105) is left out; the graph, the listing and the pickles are inputs. *)
From Coq Require Import Reals String Ascii List Bool ZArith Arith.
From Verif.Base Require Import RSum.
From Verif.Model Require Import Launch Tools Report.
Import ListNotations.
Local Open Scope string_scope.

(** ** Settings from the name of a folder *)
(** normcut_evaluator.py 115-124, from the part [parts] on: a part that is not of the form key=value repeats the key and the value of the
    part before it; [None] is the UnboundLocalError when there is none, or the IndexError of value[0] on an empty value. *)
Fixpoint cut_parts (prev : option (string * string)) (parts : list string) : option (table string) :=
  match parts with
  | [] => Some []
  | part :: rest =>
      match match split "=" part with
            | [k; v] => match unquote v with Some v' => Some (k, v') | None => None end
            | _ => prev
            end with
      | None => None
      | Some kv => option_map (cons (List.last (split "." (fst kv)) "", snd kv)) (cut_parts (Some kv) rest)
      end
  end.
(** normcut_evaluator.py 110-125 [get_experiment_config]. *)
Definition cut_settings (folder : string) : option (table string) := option_map (put_all []) (cut_parts None (split "," (past "_" folder))).

(** ** Name of the sampler *)
(** normcut_evaluator.py 129-136. *)
Definition cut_base (n : string) : string :=
  if String.eqb n "hammingball" then "hb-10-1" else if String.eqb n "blockgibbs" then "bg-2"
  else if String.eqb n "randomwalk" then "rmw" else if String.eqb n "path_auxiliary" then "pafs" else n.
(** normcut_evaluator.py 128-168 [process_keys]; lines 138-141, 143-155 and 157-167 repeat plot_utils.py 33-36, 41-55 and 57-67. *)
Definition cut_process (d : table string) : option (table string) :=
  match look "name" d with
  | None => None
  | Some n => Some (name_balancing (name_adaptive (name_solver (put "name" (cut_base n) d))))
  end.

(** ** Scores *)
(** networkx.to_numpy_array: rows and columns follow the order in which the graph lists its nodes (normcut_evaluator.py 194). *)
Definition matrix (order : list nat) (es : list (nat * nat * R)) (i j : nat) : R := adj_matrix es (nth i order 0) (nth j order 0).
(** normcut_evaluator.py 22-25: sizes of the groups that occur in the whole array. *)
Definition bins (x : list nat) : list nat :=
  filter (fun c => negb (Nat.eqb c 0)) (map (fun g => List.length (filter (Nat.eqb g) x)) (seq 0 (S (list_max x)))).
(** normcut_evaluator.py 99-102. *)
Definition balance (x : list nat) (n ng : nat) : R :=
  let b := bins x in
  let ix := seq 0 (List.length b) in
  (rsum ix (fun s => rsum ix (fun t => if Nat.eqb s t then 0 else INR (nth s b 0%nat) * INR (nth t b 0%nat))) * INR ng
   / ((INR ng - 1) * INR n ^ 2))%R.
(** normcut_evaluator.py 73-108 [evaluate] as called in line 195; [None] is an exception: a node without a group (groups[i], line 60), a group outside
    volumes (line 69), or the division by the degrees of a graph without edges (line 97, both sides are Python numbers). *)
Definition cut_evaluate (ng : nat) (order : list nat) (es : list (nat * nat * R)) (x : list nat) : option (R * R) :=
  let n := List.length order in
  if (List.length x <? n)%nat then None
  else if existsb (fun g => (ng <=? g)%nat) (firstn n x) then None
  else match es with
       | [] => None
       | _ => Some (cut_ratio (fun i => nth i x 0) n (2 * INR (List.length es)) (matrix order es), balance x n ng)
       end.

(** ** The tool *)
(** normcut_evaluator.py 184-203: one folder; [load] gives best_samples[0], [None] when there is no such file or entry. *)
Definition cut_row (ng : nat) (order : list nat) (es : list (nat * nat * R)) (load : string -> option (list nat)) (folder : string) : option (string * (R * R)) :=
  match cut_settings folder with
  | None => None
  | Some d =>
      match cut_process d with
      | None => None
      | Some d' =>
          match load folder with
          | None => None
          | Some x => match cut_evaluate ng order es x, look "name" d' with Some r, Some n => Some (n, r) | _, _ => None end
          end
      end
  end.
(** normcut_evaluator.py 175-211 with ng = 3 (line 175): the header and the rows of res.csv; [None] when the tool ends with an exception. *)
Definition cut_report (order : list nat) (es : list (nat * nat * R)) (load : string -> option (list nat)) (listing : list string)
  : option (list string * list (string * (R * R))) :=
  option_map (pair ["sampler"; "cut ratio"; "balanceness"]) (all_or_none (map (cut_row 3 order es load) (sort_by String.leb listing))).
(** normcut_evaluator.py 205-209: where the table is written for the results in [path]. *)
Definition cut_csv (path : string) : string := "./discs/common/normcut_csv/" ++ List.last (split "/" path) "" ++ "/res.csv".
