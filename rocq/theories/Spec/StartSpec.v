(** What the settings of a configuration mean for the sampler that a program runs. *)
From Coq Require Import String List ZArith Reals.
From Verif.Model Require Import Launch Langevin FullRun.
Import ListNotations.
Local Open Scope string_scope.

(** The setting is the number [x]; the setting, or the default when it is not given, is [n] / [z] / [b] / [x] / [w]. *)
Definition is_number (o : option lit) (x : R) : Prop :=
  match o with Some (LInt z) => x = IZR z | Some (LFloat z s) => (x * 10 ^ s = IZR z)%R | _ => False end.
Definition nat_or (o : option lit) (d n : nat) : Prop := match o with Some (LInt z) => n = Z.to_nat z | _ => n = d end.
Definition int_or (o : option lit) (d z : Z) : Prop := match o with Some (LInt z') => z = z' | _ => z = d end.
Definition bool_or (o : option lit) (d b : bool) : Prop := match o with Some (LBool b') => b = b' | _ => b = d end.
Definition number_or (o : option lit) (d x : R) : Prop := match o with Some (LInt _) | Some (LFloat _ _) => is_number o x | _ => x = d end.
Definition word_or (o : option lit) (d w : string) : Prop := match o with Some (LStr w') => w = w' | _ => w = d end.

(** Sampler section [s], experiment section [e]: [k] is the sampler asked for there. *)
Definition reflects (s e : table lit) (k : sampler) : Prop :=
  let name n := look "name" s = Some (LStr n) in
  let balancing ty := look "balancing_fn_type" s = Some (LStr ty) in
  let adaptive b := look "adaptive" s = Some (LBool b) in
  let target t := is_number (look "target_acceptance_rate" s) t in
  let rate (o : option R) := match o with Some t => adaptive true /\ target t | None => look "adaptive" s <> Some (LBool true) end in
  let common (c : lconf) := adaptive (lc_adaptive c) /\ look "co_opt_prob" e = Some (LBool (lc_co_opt c)) /\ (lc_adaptive c = true -> target (lc_target c)) in
  match k with
  | SGibbs => name "gibbs"
  | SBlock b => name "blockgibbs" /\ exists z, look "block_size" s = Some (LInt z) /\ b = Z.to_nat z
  | SHamming b => name "hammingball" /\ exists z, look "block_size" s = Some (LInt z) /\ b = Z.to_nat z
  | SWalk o => name "randomwalk" /\ rate o /\ (o = None -> adaptive false)
  | SGwg ty nf => name "gwg" /\ balancing ty /\ rate None /\ nat_or (look "num_flips" s) 1 nf
  | SGwgAdapt ty t => name "gwg" /\ balancing ty /\ rate (Some t)
  | SGwgCat ty => name "gwg" /\ balancing ty
  | SPath ty approx nf o =>
      name "path_auxiliary" /\ balancing ty /\ look "use_fast_path" s = Some (LBool true) /\ bool_or (look "approx_with_grad" s) true approx /\
      nat_or (look "num_flips" s) 1 nf /\ rate o
  | SDmala ty c step =>
      name "dmala" /\ balancing ty /\ common c /\ nat_or (look "schedule_step" s) 100 (lc_schedule c) /\ int_or (look "reset_z_est" s) 20 (lc_reset c) /\
      number_or (look "step_size" s) (3 / 10) step
  | SDlmc ty c n solver =>
      name "dlmc" /\ balancing ty /\ common c /\ (lc_adaptive c = true -> exists z, look "schedule_step" s = Some (LInt z) /\ lc_schedule c = Z.to_nat z) /\
      int_or (look "reset_z_est" s) (-1) (lc_reset c) /\ number_or (look "n" s) 3 n /\ word_or (look "solver" s) "interpolate" solver
  | SLocal ty => name "locallybalanced" /\ balancing ty
  end.
