(** Specification vocabulary for sweeps and command lines. *)
From Coq Require Import String Ascii List ZArith.
From Coq Require DecimalString.
From Verif.Spec Require Import ConfigSpec.
From Verif.Model Require Import Config Launch.
Import ListNotations.
Local Open Scope string_scope.

(** A tuple of natural numbers as Python writes it: "(a, b, c)", and "(a,)" for one number. *)
Definition nat_text (n : nat) : string := DecimalString.NilZero.string_of_uint (Nat.to_uint n).
Fixpoint more_numbers (l : list nat) : string := match l with [] => ")" | n :: l' => ", " ++ nat_text n ++ more_numbers l' end.
Definition tuple_text (l : list nat) : string :=
  match l with [] => "()" | [n] => "(" ++ nat_text n ++ ",)" | n :: l' => "(" ++ nat_text n ++ more_numbers l' end.

(** The value [w] in the configuration is the value [v] written on the command line: the same number, string or truth value; the
    text of a number, truth value or tuple [v] where the file has a text; the tuple a text shows. *)
Definition reads (repr : lit -> string) (v w : lit) : Prop :=
  to_val w = to_val v \/ ((forall s, v <> LStr s) /\ w = LStr (repr v)) \/ (exists s l, v = LStr s /\ w = LTuple l /\ tuple_of s = Some l).

(** Same value, integers and floats not distinguished. *)
Definition same (a b : option lit) : Prop := option_map to_val a = option_map to_val b.

(** No character [a] in a text. *)
Definition free_of (a : ascii) (s : string) : Prop := ~ In a (list_ascii_of_string s).

(** A key of the configuration: the value asked for on the command line when there is one, otherwise that of the files. *)
Definition kept (repr : lit -> string) (asked files got : option lit) : Prop :=
  match asked with Some v => exists w, got = Some w /\ reads repr v w | None => same got files end.

(** The configuration carries the argument [k] = [v]. *)
Definition carried (repr : lit -> string) (c : lconfig) (k : string) (v : lit) : Prop :=
  (forall r, k = ("model_config." ++ r)%string -> exists w, look r (l_model c) = Some w /\ reads repr v w) /\
  (forall r, k = ("sampler_config." ++ r)%string -> exists w, look r (l_sampler c) = Some w /\ reads repr v w) /\
  (forall r, k = ("config.experiment." ++ r)%string -> exists w, look r (l_exp c) = Some w /\ reads repr v w).

(** The settings stored with a checkpoint of an image model with [C] categories. *)
Definition stored (name : string) (C visible hidden : Z) (shape image : list Z) : table lit :=
  [("name", LStr name); ("num_visible", LInt visible); ("num_hidden", LInt hidden); ("num_categories", LInt C); ("shape", LTuple shape);
   ("n_channels", LInt hidden); ("image_shape", LTuple image)].

(** The text an argument asks for, or a default. *)
Definition asked (k : string) (a : table lit) (d : string) : string := match look k a with Some (LStr s) => s | _ => d end.
(** The experiment and evaluator a sweep file is meant for. *)
Definition kind (j : job_config) : string * string :=
  match j_graph j with
  | Some g => if String.eqb g "" then ("Sampling_Experiment", "ess_eval") else ("CO_Experiment", "co_eval")
  | None => if String.eqb (j_model j) "text_infilling" then ("Text_Infilling_Experiment", "lm_eval") else ("Sampling_Experiment", "ess_eval")
  end.
(** Keys occur once in every section of the files. *)
Definition dict_files (f : flagged) : Prop :=
  dict (g_model f) /\ dict (g_sampler f) /\ dict (l_model (g_conf f)) /\ dict (l_sampler (g_conf f)) /\ dict (l_exp (g_conf f)).

(** A value on the command line that suits a key holding [old] in the file. *)
Definition fits (old v : lit) : Prop :=
  match old with
  | LStr _ => True
  | LInt _ => exists z, v = LInt z
  | LFloat _ _ => (exists z, v = LInt z) \/ exists z s, v = LFloat z s
  | LBool _ => exists b, v = LBool b
  | LTuple _ => (exists l, v = LTuple l) \/ exists s l, v = LStr s /\ tuple_of s = Some l
  end.
Definition names_a_file (k : string) : Prop := In k ["config"; "model_config"; "sampler_config"].
(** An argument for a key of the files, of its type. *)
Definition acceptable (f : flagged) (k : string) (v : lit) : Prop :=
  names_a_file k \/
  exists p t r old, In (p, t) [("model_config.", g_model f); ("sampler_config.", g_sampler f); ("config.experiment.", l_exp (g_conf f));
                               ("config.model.", l_model (g_conf f)); ("config.sampler.", l_sampler (g_conf f))] /\
    k = p ++ r /\ look r t = Some old /\ fits old v.

(** A file value [v] for a key that holds [old]: of the same type, or a whole number for a float. *)
Definition suits (old v : lit) : Prop :=
  match old, v with
  | LStr _, LStr _ | LInt _, LInt _ | LFloat _ _, LFloat _ _ | LBool _, LBool _ | LTuple _, LTuple _ | LFloat _ _, LInt _ => True
  | _, _ => False
  end.
Definition all_suit (s o : table lit) : Prop := forall k old v, look k s = Some old -> look k o = Some v -> suits old v.
