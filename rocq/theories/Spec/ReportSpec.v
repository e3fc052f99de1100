(** Specification vocabulary for the report tool. *)
From Coq Require Import String Ascii List ZArith Bool.
From Verif.Spec Require Import LaunchSpec.
From Verif.Model Require Import Launch Report.
Import ListNotations.
Local Open Scope string_scope.

(** ** Names of folders *)
(** None of the characters in a text. *)
Definition free (cs : list ascii) (s : string) : Prop := forall c, In c cs -> free_of c s.
(** [p] occurs in [s]. *)
Definition occurs (p s : string) : Prop := exists a b, s = a ++ p ++ b.
(** A setting that survives being written into the name of a folder: the key and the printed value have no separators, texts are
    printed in single quotes, other values without quotes and parentheses. *)
Definition plain (repr : lit -> string) (k : string) (v : lit) : Prop :=
  free [","; "="; "."; "/"]%char (short_key k) /\ free [","; "="]%char (repr v) /\
  match v with LStr s => repr v = "'" ++ s ++ "'" | _ => free ["'"; "("]%char (repr v) /\ repr v <> "" end.
(** The value as the report shows it: a text without its quotes, with dashes for slashes. *)
Definition told (repr : lit -> string) (v : lit) : string := dashes (match v with LStr s => s | _ => repr v end).
(** The report read the setting [kv] of a run as [kd]. *)
Definition read_as (repr : lit -> string) (kv : string * lit) (kd : string * string) : Prop :=
  fst kd = short_key (fst kv) /\ exists v, short_value (snd kv) = Some v /\ snd kd = told repr v.
(** The same for every setting of the shipped sweeps: of the text of a tuple the first number is read, of cfg_str what follows "r-". *)
Definition read_shipped (repr : lit -> string) (kv : string * lit) (kd : string * string) : Prop :=
  fst kd = short_key (fst kv) /\
  match snd kv with
  | LStr s => match s with
              | String "(" r => exists a b, r = a ++ "," ++ b /\ free [","]%char a /\ snd kd = a
              | String "r" (String "-" r) => if String.eqb (fst kd) "cfg_str" then snd kd = r else snd kd = dashes s
              | _ => exists v, short_value (LStr s) = Some v /\ snd kd = told repr v
              end
  | v => snd kd = repr v
  end.

(** ** Names of samplers *)
Definition or_empty (o : option string) : string := match o with Some s => s | None => "" end.
(** Short names of samplers and of balancing functions. *)
Definition short_sampler (n : string) : string :=
  match look n [("hammingball", "hb-10-1"); ("blockgibbs", "bg-2"); ("randomwalk", "rwm"); ("path_auxiliary", "pas")] with Some s => s | None => n end.
Definition lbf_text (b : string) : string := or_empty (look b [("SQRT", "(s)"); ("RATIO", "(r)"); ("MIN", "(min)"); ("MAX", "(max)")]).
(** The name a report gives to the settings [d] of a run: sampler, "f" for the forward Euler solver, "-nA" without adaptation, and, when the
    folder says whether the run adapts, step size, path length and number of flips, then the balancing function. *)
Definition sampler_text (d : table string) : string :=
  short_sampler (or_empty (look "name" d))
  ++ (if String.eqb (or_empty (look "solver" d)) "euler_forward" then "f" else "")
  ++ (match look "adaptive" d with
      | Some a => (if String.eqb a "False" then "-nA" else "") ++ or_empty (look "step_size" d)
                  ++ or_empty (option_map (append "-") (look "n" d)) ++ or_empty (option_map (append "-") (look "num_flips" d))
      | None => ""
      end)
  ++ (match look "balancing_fn_type" d with Some b => lbf_text b | None => "" end).
(** The settings that go into the name and are dropped as settings. *)
Definition into_name (d : table string) (k : string) : Prop :=
  In k ["solver"; "approx_with_grad"; "adaptive"; "balancing_fn_type"] \/
  (In k ["step_size"; "n"; "num_flips"] /\ look "adaptive" d <> None).

(** ** Tables *)
Section Tables.
Context {X : Type}.
(** The families of samplers a report shows, in order. *)
Definition families : list string := ["h"; "b"; "r"; "gwg"; "dmala"; "pas"; "dlmcf"; "dlmc"].
Definition known (n : string) : Prop := exists p, In p families /\ prefix p n = true.
Fixpoint family_from (i : nat) (ps : list string) (n : string) : nat :=
  match ps with [] => i | p :: ps' => if prefix p n then i else family_from (Datatypes.S i) ps' n end.
Definition family (n : string) : nat := family_from 0 families n.

(** A run as the report sees it: settings and results. *)
Definition run : Type := table string * table X.
(** The results [k] of the runs of a group that are shown under the name [n], in the order of the runs. *)
Definition column (key n k : string) (g : list run) : list X :=
  flat_map (fun e => match row_name key (fst e), look k (snd e) with
                     | Some n', Some x => if String.eqb n' n then [x] else []
                     | _, _ => []
                     end) g.
(** The table [sh] shows the group [g] of runs. *)
Definition shows (key : string) (g : list run) (sh : sheet X) : Prop :=
  sh_title sh = title (fst (List.hd ([], []) g)) /\
  NoDup (map fst (sh_rows sh)) /\
  (forall n, In n (map fst (sh_rows sh)) <-> known n /\ exists e, In e g /\ row_name key (fst e) = Some n) /\
  (forall n row k l, look n (sh_rows sh) = Some row -> (look k row = Some l <-> column key n k g = l /\ l <> [])).
(** The runs of a group agree with the first one on its settings, apart from [key] and the name. *)
Definition alike (key : string) (g : list run) : Prop :=
  forall e, In e g -> forall k v, look k (fst (List.hd ([], []) g)) = Some v -> k <> key -> k <> "name" -> k <> "results" -> look k (fst e) = Some v.

(** What the tool takes a folder for. *)
Definition read_run (load : string -> option (option (table X))) (f : string) (e : run) : Prop :=
  exists d d', get_experiment_config f = Some d /\ process_keys d = Some d' /\ fst e = del "save_samples" d' /\ load f = Some (Some (snd e)).
(** All finished runs of a directory that have the setting [key]: the group [es] lists them, each once. *)
Definition runs_with (load : string -> option (option (table X))) (key : string) (listing : list string) (es : list run) : Prop :=
  exists fs, Permutation.Permutation fs (filter (fun f => match load f with Some (Some _) => true | _ => false end) listing) /\
  exists all, Forall2 (read_run load) fs all /\ es = filter (fun e => has_key key (fst e)) all.
End Tables.

(** The folders below [root] in which the jobs of an experiment save. *)
Definition job_folders (root : string) (jobs : list (table lit)) (fs : list string) : Prop :=
  Forall2 (fun a f => look "config.experiment.save_root" a = Some (LStr (root ++ "/" ++ f))) jobs fs.

(** int(float(s)) on decimal texts without sign and exponent. *)
Fixpoint whole (acc : Z) (l : list ascii) : option Z :=
  match l with [] => Some acc | c :: l' => match Launch.digit c with Some d => whole (10 * acc + d)%Z l' | None => None end end.
Definition py_int (s : string) : option Z :=
  match split "." s with
  | [w] => match w with "" => None | _ => whole 0 (list_ascii_of_string w) end
  | [w; p] => match w with "" => None | _ => match whole 0 (list_ascii_of_string p) with Some _ => whole 0 (list_ascii_of_string w) | None => None end end
  | _ => None
  end.
(** Results that say from which folder they are; all runs finished, or all but those listed. *)
Definition signed (f : string) : option (option (table string)) := Some (Some [("ess_ee", f)]).
Definition unfinished (fs : list string) (f : string) : option (option (table string)) := if existsb (String.eqb f) fs then Some None else signed f.
(** In the text [s], [p] first begins after [a]. *)
Definition first_after (a p s : string) : Prop := (exists r, s = a ++ p ++ r) /\ forall x y, s = x ++ p ++ y -> String.length a <= String.length x.
