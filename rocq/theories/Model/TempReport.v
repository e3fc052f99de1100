(** Model of discs/plot_results/plot_ising_temp.py 157-274, 348-387 and 390-464: effective sample size against temperature.
    Simplified: the printed messages, the ticks (line 271, not used) and the drawing (lines 82-154) are left out; temperatures
    stay texts, so float() of line 357 and its ValueError are left out; the order of floats is
    given by whole numbers (the input [rank]); results.csv and the listing of the directory are inputs. *)
From Coq Require Import Reals String Ascii List Bool ZArith Arith.
From Verif.Model Require Import Launch Tools Report EssReport CutReport.
Import ListNotations.
Local Open Scope string_scope.

(** ** Settings of a run *)
(** plot_ising_temp.py 176-183. *)
Definition temp_base (n : string) : string :=
  if String.eqb n "hammingball" then "hb-10-1" else if String.eqb n "blockgibbs" then "bg-2"
  else if String.eqb n "randomwalk" then "rmw" else if String.eqb n "path_auxiliary" then "pas" else n.
(** plot_ising_temp.py 175-217 [process_keys]; lines 185-188, 190-205 and 207-216 repeat plot_utils.py 33-36, 41-55 and 57-67. *)
Definition temp_process (d : table string) : option (table string) :=
  match look "name" d with
  | None => None
  | Some n => Some (name_balancing (name_adaptive (name_solver (put "name" (temp_base n) d))))
  end.
(** plot_ising_temp.py 402-407; lines 157-172 [get_experiment_config] repeat normcut_evaluator.py 110-125. *)
Definition temp_settings (folder : string) : option (table string) :=
  match cut_settings folder with Some d => option_map (del "save_samples") (temp_process d) | None => None end.

(** ** Results of a run *)
Section Reading.
(** float() on a text without white space around it, as in [EssReport.py_float]. *)
Context (to_num : string -> option R).
(** plot_ising_temp.py 425-445: [2:gap] and [gap+1:-2], where gap is the place of the first space. *)
Definition temp_pair (s : string) : option (R * R) :=
  let r := past " " s in
  match py_float to_num (from 2 (upto " " s)), py_float to_num (substring 0 (String.length r - 2) r) with
  | Some a, Some b => Some (a, b)
  | _, _ => None
  end.
(** plot_ising_temp.py 430-445: one row of results.csv; the second number of ESS_EE is divided by 10. *)
Definition temp_row (d : table string) (acc : option (table R)) (row : string * string) : option (table R) :=
  match acc, temp_pair (fst row), ess_scale to_num d, temp_pair (snd row) with
  | Some r, Some e, Some f, Some t =>
      Some (put "ess_clock_std" (snd t) (put "ess_clock" (fst t) (put "ess_ee_std" (snd e / 10 * f)%R (put "ess_ee" (fst e * f)%R r))))
  | _, _, _, _ => None
  end.
(** plot_ising_temp.py 411-447: without the file two of the four results are 0. *)
Definition temp_results (d : table string) (csv : option (list (string * string))) : option (table R) :=
  match csv with
  | None => Some [("ess_ee", 0%R); ("ess_clock", 0%R)]
  | Some rows => fold_left (temp_row d) rows (Some [])
  end.
End Reading.

(** ** The figure *)
(** plot_ising_temp.py 253-274 [sort_based_on_key] with the key 'lambdaa'; [None] is the TypeError of sorting numbers with texts. *)
Definition temp_sort (rank : string -> option Z) (folders : list string) : option (list string) :=
  let vals := map (tick_of rank "lambdaa") folders in
  if mixed vals then None else Some (map fst (sort_by (fun a b => tick_le (snd a) (snd b)) (combine folders vals))).
(** plot_ising_temp.py 348-357 [map_temp], before float(); [None] is an IndexError. *)
Definition temp_text (save_title : string) : option string :=
  let parts := split "," save_title in
  if (List.length parts <? 2)%nat then None else Some (List.last (split "=" (nth (List.length parts - 2) parts "")) "").
Section Figure.
Variable X : Type.
(** plot_ising_temp.py 365-368, 373-384: the four results of one sampler at one temperature, in the order ess_ee, ess_ee_std, ess_clock,
    ess_clock_std; [None] is a KeyError or an IndexError. *)
Definition first_entry (key : string) (row : table (list X)) : option X := match look key row with Some (x :: _) => Some x | _ => None end.
Definition temp_values (n : string) (sh : sheet X) : option (X * X * (X * X)) :=
  match look n (sh_rows sh) with
  | None => None
  | Some row =>
      match first_entry "ess_ee" row, first_entry "ess_ee_std" row, first_entry "ess_clock" row, first_entry "ess_clock_std" row with
      | Some a, Some b, Some c, Some d => Some (a, b, (c, d))
      | _, _, _, _ => None
      end
  end.
(** plot_ising_temp.py 370-384: one further temperature. *)
Definition temp_point (n : string) (sh : sheet X) : option (string * (X * X * (X * X))) :=
  match temp_text (sh_title sh), temp_values n sh with Some x, Some v => Some (x, v) | _, _ => None end.
(** plot_ising_temp.py 360-387 [prepare_for_ising]: per sampler of the first cluster its points; at the first of them stands 0.1607 (line 369).  [None] is an
    exception; without clusters all_mapped_names[0] is an IndexError. *)
Definition temp_prepare (shs : list (sheet X)) : option (table (list (string * (X * X * (X * X))))) :=
  match shs with
  | [] => None
  | sh :: rest =>
      all_or_none (map (fun nr =>
        match temp_values (fst nr) sh, all_or_none (map (temp_point (fst nr)) rest) with
        | Some v, Some ps => Some (fst nr, ("0.1607", v) :: ps)
        | _, _ => None
        end) (sh_rows sh))
  end.
(** plot_ising_temp.py 390-464 with the key 'name': the lines of the figure, temperatures as texts. *)
Definition temp_lines (rank : string -> option Z) (load : string -> option (table X)) (listing : list string)
  : option (table (list (string * (X * X * (X * X))))) :=
  match temp_sort rank (sort_by String.leb listing) with
  | None => None
  | Some folders =>
      match all_or_none (map (fun f => match temp_settings f, load f with Some d, Some r => Some (d, r) | _, _ => None end) folders) with
      | None => None
      | Some es =>
          match organize "name" (get_clusters String.eqb "name" (map fst es)) es with
          | None => None
          | Some shs => temp_prepare (map sort_sheet shs)
          end
      end
  end.
End Figure.
