(** Model of the report tool: discs/plot_results/plot_results.py 291-370 and 380-459 and discs/plot_results/plot_utils.py
    10-94, 124-195 - how the folders of finished runs are read back, named, grouped and turned into tables and bars.

    Simplifications: texts are lists of 8-bit characters; the results of a run are an ordered dictionary of values that are
    only copied, kept beside the settings and not under the key 'results' of the same dictionary; reading the files of a run
    (plot_results.py 405-442) and int(float(text)) are parameters; the title of the model, file paths, colours and the
    decoration of the figures play no part.  The figures have the one tick 'samplers' with the key 'name' (448-449), which is
    left out. *)
From Coq Require DecimalString.
From Coq Require Import String Ascii List Bool ZArith Arith.
From Verif.Model Require Import Utils Tools Launch.
Import ListNotations.
Local Open Scope string_scope.

(** ** Texts *)
(** Python's repr of the swept values (xm_launcher.py 167, f'{k}={v!r}'): texts in single quotes (texts without quotes,
    backslashes and unprintable characters), integers in decimal, truth values, tuples, and floats with the shortest digits,
    with an exponent below 10^-4.  Floats of 10^16 and more, which Python also prints with an exponent, are outside. *)
Definition dec (n : nat) : string := DecimalString.NilZero.string_of_uint (Nat.to_uint n).
Definition dec_Z (z : Z) : string := DecimalString.NilZero.string_of_int (Z.to_int z).
Fixpoint strip0 (l : list ascii) : list ascii := match l with c :: l' => if Ascii.eqb c "0" then strip0 l' else l | [] => [] end.
Definition strip_right (l : list ascii) : list ascii := rev (strip0 (rev l)).
Definition float_digits (z : Z) (s : nat) : string :=
  let ds := list_ascii_of_string (dec_Z (Z.abs z)) in
  let len := List.length ds in
  if Z.eqb z 0 then "0.0"
  else if (len + 3 <? s)%nat then
    match strip_right ds with
    | [] => "0.0"
    | [d] => string_of_list_ascii [d] ++ "e-" ++ (if (s - len + 1 <? 10)%nat then "0" else "") ++ dec (s - len + 1)
    | d :: ds' => string_of_list_ascii (d :: "."%char :: ds') ++ "e-" ++ (if (s - len + 1 <? 10)%nat then "0" else "") ++ dec (s - len + 1)
    end
  else
    let full := (repeat "0"%char (s + 1 - len) ++ ds)%list in
    let whole := firstn (List.length full - s) full in
    let part := strip_right (skipn (List.length full - s) full) in
    string_of_list_ascii (whole ++ "."%char :: (match part with [] => ["0"%char] | _ => part end))%list.
Definition py_repr (v : lit) : string :=
  match v with
  | LStr s => "'" ++ s ++ "'"
  | LInt z => dec_Z z
  | LFloat z s => (if (z <? 0)%Z then "-" else "") ++ float_digits z s
  | LBool b => if b then "True" else "False"
  | LTuple [n] => "(" ++ dec_Z n ++ ",)"
  | LTuple l => "(" ++ String.concat ", " (map dec_Z l) ++ ")"
  end.

(** s.split(c), with a one-character c. *)
Definition split (c : ascii) (s : string) : list string := map string_of_list_ascii (split_on c (list_ascii_of_string s)).
(** s[n:]. *)
Definition from (n : nat) (s : string) : string := substring n (String.length s - n) s.
(** s[1 + s.find(p):]; find gives -1 when p does not occur. *)
Definition past (p s : string) : string := from (match index 0 p s with Some n => Datatypes.S n | None => 0 end) s.
(** s[0:s.find(p)]: without p in s this is s[0:-1]. *)
Definition upto (p s : string) : string := substring 0 (match index 0 p s with Some n => n | None => String.length s - 1 end) s.
Definition contains (p s : string) : bool := match index 0 p s with Some _ => true | None => false end.
Fixpoint last_char (s : string) : option ascii := match s with EmptyString => None | String c EmptyString => Some c | String _ s' => last_char s' end.

(** ** Settings of a run from the name of its folder, plot_utils.py 71-94 *)
(** plot_utils.py 79-83: a value without its quotes, or without the first two characters of the text of a tuple; [None] is the
    IndexError of value[0]. *)
Definition unquote (v : string) : option string :=
  match v with
  | EmptyString => None
  | String a r =>
      if Ascii.eqb a "'" && match last_char v with Some z => Ascii.eqb z "'" | None => false end then Some (substring 1 (String.length v - 2) v)
      else if match r with String b _ => Ascii.eqb b "(" | EmptyString => false end then Some (from 2 v) else Some v
  end.
(** plot_utils.py 76-86: one part between commas; a part that has not exactly one '=' is passed over. *)
Definition read_part (part : string) : option (table string) :=
  match split "=" part with
  | [k; v] =>
      match unquote v with
      | None => None
      | Some v' => if String.eqb k "cfg_str" then Some [] else Some [(List.last (split "." k) "", v')]
      end
  | _ => Some []
  end.
(** plot_utils.py 87-92: the text after cfg_str='r-, up to a quote and up to a comma. *)
Definition read_cfg (s : string) : table string :=
  match index 0 "cfg_str" s with
  | None => []
  | Some i => [("cfg_str", List.hd "" (split "," (List.hd "" (split "'" (from (7 + i + 4) s)))))]
  end.
(** plot_utils.py 71-94 [get_experiment_config]; a later entry with the same key replaces the value (dict(zip(..))). *)
Definition get_experiment_config (folder : string) : option (table string) :=
  let s := past "_" folder in
  match all_or_none (map read_part (split "," s)) with
  | None => None
  | Some ps => Some (put_all [] (concat ps ++ read_cfg s)%list)
  end.

(** ** Name of the sampler, plot_utils.py 19-68 *)
(** del d[k]. *)
Definition del {V} (k : string) (d : table V) : table V := filter (fun kv => negb (String.eqb (fst kv) k)) d.
Definition has_key {V} (k : string) (d : table V) : bool := match look k d with Some _ => true | None => false end.
(** d['name'] = str(d['name']) + suffix. *)
Definition name_add (suffix : string) (d : table string) : table string :=
  match look "name" d with Some n => put "name" (n ++ suffix) d | None => d end.
(** plot_utils.py 24-31. *)
Definition base_name (n : string) : string :=
  if String.eqb n "hammingball" then "hb-10-1" else if String.eqb n "blockgibbs" then "bg-2"
  else if String.eqb n "randomwalk" then "rwm" else if String.eqb n "path_auxiliary" then "pas" else n.
(** plot_utils.py 33-36. *)
Definition name_solver (d : table string) : table string :=
  match look "solver" d with
  | Some s => del "solver" (if String.eqb s "euler_forward" then name_add "f" d else d)
  | None => d
  end.
(** plot_utils.py 44-54: step size, path length and number of flips are named only below 'adaptive'. *)
Definition name_setting (key glue : string) (d : table string) : table string :=
  match look key d with Some v => del key (name_add (glue ++ v) d) | None => d end.
(** plot_utils.py 41-54. *)
Definition name_adaptive (d : table string) : table string :=
  match look "adaptive" d with
  | Some a => name_setting "num_flips" "-" (name_setting "n" "-" (name_setting "step_size" "" (del "adaptive" (if String.eqb a "False" then name_add "-nA" d else d))))
  | None => d
  end.
(** plot_utils.py 56-67. *)
Definition fn_suffix (b : string) : string :=
  if String.eqb b "SQRT" then "(s)" else if String.eqb b "RATIO" then "(r)" else if String.eqb b "MIN" then "(min)"
  else if String.eqb b "MAX" then "(max)" else "".
Definition name_balancing (d : table string) : table string :=
  match look "balancing_fn_type" d with Some b => del "balancing_fn_type" (name_add (fn_suffix b) d) | None => d end.
(** plot_utils.py 19-68 [process_keys]; [None] is the KeyError without 'name'. *)
Definition process_keys (d : table string) : option (table string) :=
  match look "name" d with
  | None => None
  | Some n => Some (name_balancing (name_adaptive (del "approx_with_grad" (name_solver (put "name" (base_name n) d)))))
  end.

(** ** Order of the folders, plot_results.py 324-348 *)
(** A tick: a whole number, or a text. *)
Inductive tick := TInt (z : Z) | TStr (s : string).
(** sorted with a key, which is stable (plot_results.py 344-346, plot_utils.py 171-174). *)
Fixpoint insert_by {A} (le : A -> A -> bool) (a : A) (l : list A) : list A :=
  match l with [] => [a] | b :: l' => if le a b then a :: l else b :: insert_by le a l' end.
Definition sort_by {A} (le : A -> A -> bool) (l : list A) : list A := fold_right (insert_by le) [] l.
Definition tick_le (a b : tick) : bool :=
  match a, b with TInt x, TInt y => (x <=? y)%Z | TStr x, TStr y => String.leb x y | TInt _, TStr _ => true | TStr _, TInt _ => false end.
Definition tick_eqb (a b : tick) : bool :=
  match a, b with TInt x, TInt y => (x =? y)%Z | TStr x, TStr y => String.eqb x y | _, _ => false end.
(** sorted of numbers and texts together is a TypeError (plot_results.py 342). *)
Definition mixed (l : list tick) : bool :=
  existsb (fun t => match t with TInt _ => true | _ => false end) l && existsb (fun t => match t with TStr _ => true | _ => false end) l.
(** np.unique of a sorted list (plot_results.py 347). *)
Fixpoint unique (l : list tick) : list tick :=
  match l with a :: (b :: _) as l' => if tick_eqb a b then unique l' else a :: unique l' | _ => l end.
(** plot_results.py 330, folder[-3:]. *)
Definition is_figure (folder : string) : bool :=
  let e := from (String.length folder - 3) folder in String.eqb e "png" || String.eqb e "pdf".
(** plot_results.py 332-340; [to_int] is int(float(..)), [None] its ValueError. *)
Definition tick_of (to_int : string -> option Z) (key folder : string) : tick :=
  let v := from (match index 0 key folder with Some n => 1 + n | None => 0 end + String.length key) folder in
  let v := if contains "," v then upto "," v else v in
  let v := if contains "(" v then past "(" v else v in
  match to_int v with Some z => TInt z | None => TStr v end.
(** plot_utils.py 124-135 [process_ticks], called with the key 'balancing_fn_type' (plot_results.py 450-451); the formulas as names. *)
Definition process_ticks (ticks : list tick) : list string :=
  flat_map (fun t => match t with
                     | TStr s => if String.eqb s "'SQRT'" then ["sqrt t"] else if String.eqb s "'RATIO'" then ["t/(t+1)"]
                                 else if String.eqb s "'MIN'" then ["min 1 t"] else if String.eqb s "'MAX'" then ["max 1 t"] else []
                     | TInt _ => []
                     end) ticks.
(** plot_results.py 324-348; the values of the folders that are not figures are paired with all folders in order (zip). *)
Definition get_ticks (to_int : string -> option Z) (key : string) (folders : list string) : option (list string * list tick) :=
  let vals := map (tick_of to_int key) (filter (fun f => negb (is_figure f)) folders) in
  if mixed vals then None
  else Some (map fst (sort_by (fun a b => tick_le (snd a) (snd b)) (combine folders vals)), unique (sort_by tick_le vals)).

(** ** Tables of a cluster, plot_results.py 291-321 *)
Section Sheets.
Variable X : Type.
(** A loaded run: its settings after process_keys and its results. *)
Definition experiment : Type := table string * table X.
(** name_mapped_index: the entry 'save_title' and, per name, the lists of values (the entry 'model' plays no part). *)
Record sheet := { sh_title : string; sh_rows : table (table (list X)) }.
(** plot_results.py 297-302. *)
Definition title (d : table string) : string := String.concat "" (map (fun kv => fst kv ++ "=" ++ snd kv ++ ",") d).
(** plot_results.py 307-309. *)
Definition row_name (key_diff : string) (d : table string) : option string :=
  option_map (fun n => if String.eqb key_diff "balancing_fn_type" then upto "(" n else n) (look "name" d).
(** plot_results.py 314-317: every result is appended to the list of its name; [None] is a KeyError. *)
Fixpoint append_all (res : table X) (row : table (list X)) : option (table (list X)) :=
  match res with
  | [] => Some row
  | (k, x) :: res' => match look k row with Some l => append_all res' (put k (l ++ [x])%list row) | None => None end
  end.
(** plot_results.py 306-317: one run; a name 'save_title' or 'model' meets a text instead of a dictionary (TypeError). *)
Definition add_run (key_diff : string) (e : experiment) (rows : table (table (list X))) : option (table (table (list X))) :=
  match row_name key_diff (fst e) with
  | None => None
  | Some n =>
      if String.eqb n "save_title" || String.eqb n "model" then None
      else
        let row := match look n rows with Some r => r | None => put_all [] (map (fun kx => (fst kx, [])) (snd e)) end in
        option_map (fun r => put n r rows) (append_all (snd e) row)
  end.
Fixpoint add_runs (key_diff : string) (es : list experiment) (rows : table (table (list X))) : option (table (table (list X))) :=
  match es with [] => Some rows | e :: es' => match add_run key_diff e rows with Some r => add_runs key_diff es' r | None => None end end.
(** plot_results.py 294-319: one cluster. *)
Definition make_sheet (key_diff : string) (es : list experiment) : option sheet :=
  option_map (fun rows => {| sh_title := title (fst (List.hd ([], []) es)); sh_rows := rows |}) (add_runs key_diff es []).
(** plot_results.py 291-321 [organize_experiments]. *)
Definition organize (key_diff : string) (clusters : list (list nat)) (es : list experiment) : option (list sheet) :=
  all_or_none (map (fun c => make_sheet key_diff (map (fun i => nth i es ([], [])) c)) clusters).

(** ** Order of the samplers, plot_utils.py 138-183 *)
(** plot_utils.py 140-163. *)
Definition sampler_list : list string :=
  ["h"; "b"; "r"; "gwg(s"; "gwg(r"; "gwg"; "dmala-"; "dmala(s"; "dmala(r"; "dmala"; "pas-"; "pas(s"; "pas(r"; "pas";
   "dlmcf-"; "dlmcf(s"; "dlmcf(r"; "dlmcf"; "dlmc-"; "dlmc(s"; "dlmc(r"; "dlmc"].
(** plot_utils.py 168-171: the first entry that begins the name; [None] when there is none. *)
Fixpoint place_from (i : nat) (ps : list string) (n : string) : option nat :=
  match ps with [] => None | p :: ps' => if prefix p n then Some i else place_from (Datatypes.S i) ps' n end.
Definition place (n : string) : option nat := place_from 0 sampler_list n.
(** plot_utils.py 164-183 [sort_based_on_samplers] on one cluster. *)
Definition sort_sheet (sh : sheet) : sheet :=
  let known := flat_map (fun nr => match place (fst nr) with Some i => [(i, nr)] | None => [] end) (sh_rows sh) in
  {| sh_title := sh_title sh; sh_rows := map snd (sort_by (fun a b => fst a <=? fst b)%nat known) |}.

(** ** The whole tool, plot_results.py 380-459 *)
(** plot_results.py 394-442: one folder; [load] gives the results, [Some None] is a run passed over because its file is
    missing (424-427), [None] an exception. *)
Definition load_run (load : string -> option (option (table X))) (folder : string) : option (list experiment) :=
  match get_experiment_config folder with
  | None => None
  | Some d =>
      match process_keys d with
      | None => None
      | Some d' => match load folder with None => None | Some None => Some [] | Some (Some r) => Some [(del "save_samples" d', r)] end
      end
  end.
(** plot_results.py 384-387: with the key 'balancing_fn_type' the runs are grouped by 'name'. *)
Definition group_key (key_diff : string) : string := if String.eqb key_diff "balancing_fn_type" then "name" else key_diff.
(** plot_results.py 380-449: the tables, in the order of the clusters, and the ticks.  [None] is an exception; without any
    cluster all_mapped_names[0] is an IndexError (447). *)
Definition report (to_int : string -> option Z) (key_diff : string) (load : string -> option (option (table X))) (listing : list string)
  : option (list sheet * list tick) :=
  match get_ticks to_int key_diff (sort_by String.leb listing) with
  | None => None
  | Some (folders, ticks) =>
      match all_or_none (map (load_run load) folders) with
      | None => None
      | Some ess =>
          let es := concat ess in
          match organize key_diff (get_clusters String.eqb (group_key key_diff) (map fst es)) es with
          | None | Some [] => None
          | Some shs => Some (map sort_sheet shs, ticks)
          end
      end
  end.

(** plot_results.py 350-370 [save_result_as_csv] on one table: the column names and, per row, the cells; [None] is an
    exception (no row, or a row with a column that the first row has not). *)
Definition csv_rows (sh : sheet) : option (list string * list (string * list (option (list X)))) :=
  match sh_rows sh with
  | [] => None
  | (_, r0) :: _ =>
      let cols := map fst r0 in
      if forallb (fun nr => forallb (fun k => existsb (String.eqb k) cols) (map fst (snd nr))) (sh_rows sh)
      then Some ("sampler" :: cols, map (fun nr => (fst nr, map (fun k => look k (snd nr)) cols)) (sh_rows sh))
      else None
  end.

(** plot_results.py 58-62, 99-119: the bars of one table over the ticks: as many places as the first row has values, which
    must be as many as there are ticks; rows with fewer values get zeros at the end; more values are an error of plt.bar. *)
Definition bars (zero : X) (ticks : list tick) (res_key : string) (sh : sheet) : option (list (string * list (tick * X))) :=
  match all_or_none (map (fun nr => option_map (fun l => (fst nr, l)) (look res_key (snd nr))) (sh_rows sh)) with
  | None | Some [] => None
  | Some ((n0, l0) :: rows) =>
      if (List.length l0 =? List.length ticks)%nat && forallb (fun nl => (List.length (snd nl) <=? List.length ticks)%nat) rows
      then Some (map (fun nl => (fst nl, combine ticks (snd nl ++ repeat zero (List.length ticks - List.length (snd nl)))%list)) ((n0, l0) :: rows))
      else None
  end.
End Sheets.
Arguments sh_title {X} s. Arguments sh_rows {X} s. Arguments Build_sheet {X} sh_title sh_rows.
Arguments append_all {X} res row. Arguments add_run {X} key_diff e rows. Arguments add_runs {X} key_diff es rows.
Arguments make_sheet {X} key_diff es. Arguments organize {X} key_diff clusters es. Arguments sort_sheet {X} sh.
Arguments load_run {X} load folder. Arguments report {X} to_int key_diff load listing. Arguments csv_rows {X} sh.
Arguments bars {X} zero ticks res_key sh.

(** plot_utils.py 10-16 [get_color]; [None] is the KeyError. *)
Definition get_color (n : string) : option string :=
  if prefix "dlmc" n then Some (if prefix "dlmcf" n then "gray" else "pink")
  else look (substring 0 3 n) [("rwm", "green"); ("pas", "saddlebrown"); ("gwg", "red"); ("bg-", "orange"); ("dma", "purple"); ("hb-", "blue")].
