(** Model of complete sampler objects: how a configuration selects the class (build_sampler of every file in
    discs/samplers), the state dictionary (make_init_state) and one call of [step] on a whole batch, samples and state
    together; and of the initial samples of the models (get_init_samples).
    An exception or an undefined number loses its probability mass: a law of total mass 1 never raises. *)
From Coq Require Import String Reals List Arith ZArith.
From Verif.Base Require Import RSum Cube Dist XFloat.
From Verif.Model Require Import MathUtil Gibbs HammingBall RandomWalk GWG LocallyBalanced PathAux Langevin.
Import ListNotations.
Local Open Scope R_scope.

(** What a sampler sees of a model: log-density (forward), gradient array (get_value_and_grad), the array and the
    signature of logratio_in_neighborhood, the mask given to [step], number of sites math.prod(shape), num_categories. *)
Record target := { t_fw : list nat -> R; t_grad : list nat -> nat -> R; t_lr : list nat -> nat -> R; t_sig : option lr_sig;
                   t_mask : option (nat -> R); t_dim : nat; t_C : nat }.

(** ** Configuration and dispatch *)

(** config.sampler as read by the constructors; [None] = key absent.  [sc_co_opt] is config.experiment.co_opt_prob
    (common/configs.py 34). *)
Record sconf := { sc_name : string; sc_adaptive : option bool; sc_target : option R; sc_num_flips : option nat;
  sc_block_size : option nat; sc_balancing : option string; sc_fast_path : option bool; sc_approx : option bool;
  sc_step_size : option R; sc_schedule : option nat; sc_reset : option Z; sc_n : option R; sc_solver : option string;
  sc_co_opt : bool }.

(** The objects; [target] rates are present when the object adapts. *)
Inductive sampler :=
| SGibbs
| SBlock (b : nat)
| SHamming (b : nat)
| SWalk (rate : option R)
| SGwg (ty : string) (num_flips : nat)
| SGwgAdapt (ty : string) (rate : R)
| SGwgCat (ty : string)
| SPath (ty : string) (approx : bool) (num_flips : nat) (rate : option R)
| SDmala (ty : string) (c : lconf) (step_size : R)
| SDlmc (ty : string) (c : lconf) (n : R) (solver : string)
| SLocal (ty : string).

Definition odef {A} (o : option A) (d : A) : A := match o with Some a => a | None => d end.
Definition obind {A B} (o : option A) (k : A -> option B) : option B := match o with Some a => k a | None => None end.

(** randomwalk.py 14-18, 77-81: adaptive and target_acceptance_rate are read in both cases. *)
Definition build_randomwalk (c : sconf) : option sampler :=
  obind (sc_adaptive c) (fun a => obind (sc_target c) (fun t => Some (SWalk (if a then Some t else None)))).

(** gwg.py 173-180 with 46-47, 83-85 and locallybalanced.py 22-26. *)
Definition build_gwg (c : sconf) (C : nat) : option sampler :=
  obind (sc_balancing c) (fun ty =>
    if Nat.eqb C 2 then
      if odef (sc_adaptive c) false then obind (sc_target c) (fun t => Some (SGwgAdapt ty t))
      else Some (SGwg ty (odef (sc_num_flips c) 1%nat))
    else Some (SGwgCat ty)).

(** path_auxiliary.py 175-179 with 46-52: use_fast_path must be there and true. *)
Definition build_path (c : sconf) : option sampler :=
  obind (sc_fast_path c) (fun fast => if fast then
    obind (sc_balancing c) (fun ty =>
      let mk := fun t => Some (SPath ty (odef (sc_approx c) true) (odef (sc_num_flips c) 1%nat) t) in
      if odef (sc_adaptive c) false then obind (sc_target c) (fun t => mk (Some t)) else mk None)
  else None).

(** dmala.py 68-76; the adaptive settings are read only when adaptive (otherwise they are not used). *)
Definition build_dmala (c : sconf) : option sampler :=
  obind (sc_balancing c) (fun ty => obind (sc_adaptive c) (fun a =>
    let mk := fun t => Some (SDmala ty {| lc_adaptive := a; lc_co_opt := sc_co_opt c; lc_target := t;
                 lc_schedule := odef (sc_schedule c) 100%nat; lc_reset := odef (sc_reset c) 20%Z |} (odef (sc_step_size c) (3 / 10))) in
    if a then obind (sc_target c) mk else mk 0)).

(** dlmc.py 59-68: schedule_step has no default. *)
Definition build_dlmc (c : sconf) : option sampler :=
  obind (sc_balancing c) (fun ty => obind (sc_adaptive c) (fun a =>
    let mk := fun t sch => Some (SDlmc ty {| lc_adaptive := a; lc_co_opt := sc_co_opt c; lc_target := t;
                 lc_schedule := sch; lc_reset := odef (sc_reset c) (-1)%Z |} (odef (sc_n c) 3) (odef (sc_solver c) "interpolate"%string)) in
    if a then obind (sc_target c) (fun t => obind (sc_schedule c) (fun sch => mk t sch)) else mk 0 0%nat)).

(** gibbs.py 61-62, blockgibbs.py 88-89, hammingball.py 126-127, locallybalanced.py 80-81; the module is imported by name
    (main_sampling.py 66-69), an unknown one raises. *)
Definition build_sampler (c : sconf) (C : nat) : option sampler :=
  if String.eqb (sc_name c) "gibbs" then Some SGibbs
  else if String.eqb (sc_name c) "blockgibbs" then obind (sc_block_size c) (fun b => Some (SBlock b))
  else if String.eqb (sc_name c) "hammingball" then obind (sc_block_size c) (fun b => Some (SHamming b))
  else if String.eqb (sc_name c) "randomwalk" then build_randomwalk c
  else if String.eqb (sc_name c) "gwg" then build_gwg c C
  else if String.eqb (sc_name c) "path_auxiliary" then build_path c
  else if String.eqb (sc_name c) "dmala" then build_dmala c
  else if String.eqb (sc_name c) "dlmc" then build_dlmc c
  else if String.eqb (sc_name c) "locallybalanced" then obind (sc_balancing c) (fun ty => Some (SLocal ty))
  else None.

(** The shipped configurations, samplers/configs/*_config.py, and the experiment flag. *)
Definition empty_conf (name : string) (co : bool) : sconf :=
  {| sc_name := name; sc_adaptive := None; sc_target := None; sc_num_flips := None; sc_block_size := None; sc_balancing := None;
     sc_fast_path := None; sc_approx := None; sc_step_size := None; sc_schedule := None; sc_reset := None; sc_n := None;
     sc_solver := None; sc_co_opt := co |}.
(** gibbs_config.py 5-9, blockgibbs_config.py 5-10, hammingball_config.py 5-10. *)
Definition gibbs_conf := empty_conf "gibbs".
Definition block_conf (name : string) (b : nat) (co : bool) : sconf :=
  {| sc_name := name; sc_adaptive := None; sc_target := None; sc_num_flips := None; sc_block_size := Some b; sc_balancing := None;
     sc_fast_path := None; sc_approx := None; sc_step_size := None; sc_schedule := None; sc_reset := None; sc_n := None;
     sc_solver := None; sc_co_opt := co |}.
(** randomwalk_config.py 5-11. *)
Definition walk_conf (co : bool) : sconf :=
  {| sc_name := "randomwalk"; sc_adaptive := Some true; sc_target := Some (237 / 1000); sc_num_flips := None; sc_block_size := None;
     sc_balancing := None; sc_fast_path := None; sc_approx := None; sc_step_size := None; sc_schedule := None; sc_reset := None;
     sc_n := None; sc_solver := None; sc_co_opt := co |}.
(** gwg_config.py 5-13. *)
Definition gwg_conf (co : bool) : sconf :=
  {| sc_name := "gwg"; sc_adaptive := Some true; sc_target := Some (574 / 1000); sc_num_flips := Some 1%nat; sc_block_size := None;
     sc_balancing := Some "SQRT"%string; sc_fast_path := None; sc_approx := None; sc_step_size := None; sc_schedule := None;
     sc_reset := None; sc_n := None; sc_solver := None; sc_co_opt := co |}.
(** path_auxiliary_config.py 6-16. *)
Definition path_conf (co : bool) : sconf :=
  {| sc_name := "path_auxiliary"; sc_adaptive := Some true; sc_target := Some (574 / 1000); sc_num_flips := Some 1%nat;
     sc_block_size := None; sc_balancing := Some "SQRT"%string; sc_fast_path := Some true; sc_approx := Some true;
     sc_step_size := None; sc_schedule := None; sc_reset := None; sc_n := None; sc_solver := None; sc_co_opt := co |}.
(** dmala_config.py 5-15. *)
Definition dmala_conf (co : bool) : sconf :=
  {| sc_name := "dmala"; sc_adaptive := Some true; sc_target := Some (574 / 1000); sc_num_flips := None; sc_block_size := None;
     sc_balancing := Some "SQRT"%string; sc_fast_path := None; sc_approx := None; sc_step_size := Some (2 / 10);
     sc_schedule := Some 100%nat; sc_reset := Some 20%Z; sc_n := None; sc_solver := None; sc_co_opt := co |}.
(** dlmc_config.py 5-16. *)
Definition dlmc_conf (co : bool) : sconf :=
  {| sc_name := "dlmc"; sc_adaptive := Some true; sc_target := Some (574 / 1000); sc_num_flips := None; sc_block_size := None;
     sc_balancing := Some "SQRT"%string; sc_fast_path := None; sc_approx := None; sc_step_size := None;
     sc_schedule := Some 200%nat; sc_reset := Some 20%Z; sc_n := Some 3; sc_solver := Some "interpolate"%string; sc_co_opt := co |}.
(** locallybalanced_config.py 5-10. *)
Definition local_conf (co : bool) : sconf :=
  {| sc_name := "locallybalanced"; sc_adaptive := None; sc_target := None; sc_num_flips := None; sc_block_size := None;
     sc_balancing := Some "SQRT"%string; sc_fast_path := None; sc_approx := None; sc_step_size := None; sc_schedule := None;
     sc_reset := None; sc_n := None; sc_solver := None; sc_co_opt := co |}.
Definition shipped (co : bool) : list sconf :=
  [gibbs_conf co; block_conf "blockgibbs" 2 co; block_conf "hammingball" 10 co; walk_conf co; gwg_conf co; path_conf co;
   dmala_conf co; dlmc_conf co; local_conf co].

(** ** State *)
Inductive sstate := TG (s : gstate) | TR (s : rwstate) | TW (s : gwgstate) | TP (s : pafstate) | TL (s : lstate) | TD (s : sdict).

(** make_init_state: gibbs.py 18-22, blockgibbs.py 26-30, hammingball.py 48-51, randomwalk.py 20-24, gwg.py 87-90 (the radius
    exists only in the adaptive class), path_auxiliary.py 65-68, dmala.py 78-82, dlmc.py 70-74, abstractsampler.py 34-38. *)
Definition init_state (k : sampler) : sstate :=
  match k with
  | SGibbs | SBlock _ | SHamming _ => TG g_init
  | SWalk _ => TR rw_init
  | SGwg _ _ | SGwgAdapt _ _ | SGwgCat _ => TW gwg_init
  | SPath _ _ num_flips _ => TP (paf_init num_flips)
  | SDmala _ _ _ | SDlmc _ _ _ _ => TL l_init
  | SLocal _ => TD abstract_init
  end.

(** ** A batch of proposals with one accept/reject draw per chain (math_util.py 157-166 for the batch).
    [prop x]: law of the auxiliary draw of a chain, [app x p]: its proposal, [la batch x p]: its log-acceptance (it may
    depend on all chains), [new batch las]: the new state from the log-acceptances of the batch. *)
Definition mh_batch {P S : Type} (guard : R) (prop : list nat -> dist P) (app : list nat -> P -> list nat)
    (la : list (P * list nat) -> list nat -> P -> option R) (new : list (P * list nat) -> list R -> S) (xs : list (list nat))
    : dist (list (list nat) * S) :=
  bind (indep (map prop xs)) (fun ps =>
    let ax := combine ps xs in
    match all_some (map (fun a => la ax (snd a) (fst a)) ax) with
    | None => []
    | Some las =>
        dmap (fun ns => (ns, new ax las))
             (indep (map (fun t : R * (P * list nat) => mh_law guard (fst t) (snd (snd t)) (app (snd (snd t)) (fst (snd t)))) (combine las ax)))
    end).

(** randomwalk.py 26-35, 51-74. *)
Definition walk_batch guard (T : target) (rate : option R) (s : rwstate) (xs : list (list nat)) : dist (list (list nat) * rwstate) :=
  mh_batch guard (fun _ => rw_draws (rw_radius s) (t_dim T) (t_C T)) (rw_apply (t_C T))
    (fun _ x p => Some (t_fw T (rw_apply (t_C T) x p) - t_fw T x))
    (fun _ las => match rate with Some t => rw_adapt_state (t_dim T) t las s | None => rw_select_state s end) xs.

(** gwg.py 23-40, 49-77. *)
Definition gwg_batch guard (T : target) (wf : R -> R) (num_flips : nat) (s : gwgstate) (xs : list (list nat)) : dist (list (list nat) * gwgstate) :=
  mh_batch guard (fun x => multinomial_repl_law (gwg_dist_at wf (t_grad T) (t_mask T) x) num_flips) (fun x p => flip_idx p x)
    (fun _ x p => Some (gwg_log_acc (t_fw T) wf (t_grad T) (t_mask T) x p)) (fun _ _ => gwg_update s) xs.

(** gwg.py 23-40, 92-122; the counts are those of the draws ([agwg_counts]). *)
Definition agwg_batch guard (T : target) (wf : R -> R) (rate : R) (s : gwgstate) (xs : list (list nat)) : dist (list (list nat) * gwgstate) :=
  let counts := fun x p => agwg_counts (length x) (num_sites (length x) (gwg_radius s)) p in
  mh_batch guard (fun x => multinomial_repl_law (gwg_dist_at wf (t_grad T) (t_mask T) x) (num_sites (length x) (gwg_radius s)))
    (fun x p => match counts x p with Some c => flip_counts c x | None => x end)
    (fun _ x p => match counts x p with Some c => Some (agwg_log_acc (t_fw T) wf (t_grad T) (t_mask T) x c) | None => None end)
    (fun _ las => agwg_update (t_dim T) rate las s) xs.

(** gwg.py 23-40, 125-170: the log-acceptance of a chain gathers the indices of ALL chains. *)
Definition cgwg_batch guard (T : target) (wf : R -> R) (s : gwgstate) (xs : list (list nat)) : dist (list (list nat) * gwgstate) :=
  mh_batch guard (fun x => categorical (cgwg_dist_at wf (t_grad T) (t_C T) x)) (cgwg_y (t_C T))
    (fun ax x p => Some (cgwg_log_acc (t_fw T) wf (t_grad T) (t_C T) (map snd ax) (map fst ax) x (cgwg_y (t_C T) x p)))
    (fun _ _ => gwg_update s) xs.

(** path_auxiliary.py 14-33, 54-172; [calls]: both directions, 2 each with the gradient (78), 1 each from
    logratio_in_neighborhood (80; every model returns 1: bernoulli.py 61, mis.py 55, maxcut.py 58, normcut.py 117). *)
Definition path_batch guard (T : target) (wf : R -> R) (lr : list nat -> nat -> R) (calls num_flips : nat) (rate : option R)
    (s : pafstate) (xs : list (list nat)) : dist (list (list nat) * pafstate) :=
  let fw := t_fw T in let mask := t_mask T in let C := t_C T in
  let up := fun las => match rate with
                       | Some t => paf_update true (t_dim T) t calls las s
                       | None => paf_update false (t_dim T) 0 calls las s end in
  match rate, Nat.eqb C 2 with
  | None, true =>
      mh_batch guard (fun x => norepl_law (fun i => exp (nth i (paf_dist wf lr mask x) 0)) num_flips (seq 0 (length x)))
        (fun x p => flip_idx p x) (fun _ x p => pafs_log_acc fw wf lr mask x p) (fun _ => up) xs
  | Some _, true =>
      mh_batch guard (fun x => norepl_law (fun i => exp (nth i (paf_dist wf lr mask x) 0)) (length x) (seq 0 (length x)))
        (fun x o => mask_apply (num_sites (length x) (paf_radius s)) o x (map (fun v => (1 - v)%nat) x))
        (fun _ x o => apafs_log_acc fw wf lr mask (num_sites (length x) (paf_radius s)) x o) (fun _ => up) xs
  | None, false =>
      mh_batch guard (fun x => let lx := pafc_dist wf lr mask C x in
          bind (norepl_law (fun i => exp (site_lp C lx i)) num_flips (seq 0 (length x)))
               (fun path => dmap (pair path) (indep (map (fun i => categorical (cond_lp C lx i)) path))))
        (fun x pv => set_all (fst pv) (snd pv) x) (fun _ x pv => pafsc_log_acc fw wf lr mask C x (fst pv) (snd pv)) (fun _ => up) xs
  | Some _, false =>
      mh_batch guard (fun x => let lx := pafc_dist wf lr mask C x in
          bind (norepl_law (fun i => exp (site_lp C lx i)) (length x) (seq 0 (length x)))
               (fun order => dmap (pair order) (indep (map (fun i => categorical (cond_lp C lx i)) (seq 0 (length x))))))
        (fun x ov => mask_apply (num_sites (length x) (paf_radius s)) (fst ov) x (snd ov))
        (fun _ x ov => apafsc_log_acc fw wf lr mask C (num_sites (length x) (paf_radius s)) x (fst ov) (snd ov)) (fun _ => up) xs
  end.

(** dmala.py 84-117, dlmc.py 76-114 at the step size [used]; a step size that is not a number freezes the batch (see
    [bin_batch_step]).  [prop lt], [la lt lt']: proposal law and log-acceptance with forward and backward step sizes. *)
Definition lang_batch {P : Type} (guard : R) (prop : R -> list nat -> dist P) (app : list nat -> P -> list nat)
    (la : R -> R -> list nat -> P -> option R) (rates : list nat -> list R) (lz : list (list R) -> R) (n : R) (c : lconf)
    (used : xf) (s : lstate) (xs : list (list nat)) : dist (list (list nat) * lstate) :=
  let z := lz (map rates xs) in
  match used with
  | Fin lt =>
      let co := andb (lc_adaptive c) (lc_co_opt c) in
      let zy := fun ax : list (P * list nat) => if co then lz (map rates (map (fun a => app (snd a) (fst a)) ax)) else z in
      mh_batch guard (prop lt) app (fun ax => la lt (if co then local_log_tau n (zy ax) else lt))
        (fun ax las => l_update c (Fin (mean_acc las)) (Fin (zy ax)) s) xs
  | _ => ret (xs, l_update c NaN (Fin z) s)
  end.

(** Binary classes: dmala.py 120-139, dlmc.py 117-143. *)
Definition lang_bin guard dg (T : target) (pfun : R -> list nat -> option (list R)) :=
  lang_batch guard (fun lt x => match pfun lt x with Some p => indep (map bernoulli p) | None => [] end) (fun x fl => flip_bits fl x)
    (fun lt lt' x fl => match pfun lt x, pfun lt' (flip_bits fl x) with
                        | Some p, Some q => Some (bern_log_acc dg (t_fw T) p q x fl) | _, _ => None end).
(** Categorical classes: dmala.py 142-160, dlmc.py 146-182. *)
Definition lang_cat guard (T : target) (rows : R -> list nat -> option (list (list R))) :=
  lang_batch guard (fun lt x => match rows lt x with Some r => indep (map categorical r) | None => [] end) (fun _ y => y)
    (fun lt lt' x y => match rows lt x, rows lt' y with
                       | Some rx, Some ry => Some (t_fw T y + row_ll ry x - t_fw T x - row_ll rx y) | _, _ => None end).

(** Log-weights of a chain: one per site (binary) or per site and category (dmala.py 44-51, dlmc.py 43-46). *)
Definition rates_of (T : target) (wf : R -> R) (lr : list nat -> nat -> R) (x : list nat) : list R :=
  if Nat.eqb (t_C T) 2 then chain_rates wf lr x else map (fun j => wf (lr x j)) (seq 0 (length x * t_C T)).
(** ll_delta from the gradient (dmala.py 58-66, dlmc.py 50-57, path_auxiliary.py 71-77). *)
Definition lr_of (T : target) : list nat -> nat -> R :=
  if Nat.eqb (t_C T) 2 then paf_lr_grad_bin (t_grad T) else paf_lr_grad_cat (t_grad T) (t_C T).

Definition dmala_batch guard dg (T : target) (wf : R -> R) (c : lconf) (step_size : R) (s : lstate) (xs : list (list nat)) :=
  let rates := rates_of T wf (lr_of T) in
  let used := if lc_adaptive c then l_used_log_tau c 3 (Fin (dmala_log_z (map rates xs))) s else Fin (dmala_fixed_log_tau step_size) in
  if Nat.eqb (t_C T) 2 then lang_bin guard dg T (fun lt x => dmala_ps lt wf (lr_of T) x) rates dmala_log_z 3 c used s xs
  else lang_cat guard T (fun lt x => all_some (map (dmala_row lt wf (lr_of T) (t_C T) x) (seq 0 (length x)))) rates dmala_log_z 3 c used s xs.

(** dlmc.py 83-97: without adaptation the step size of the first step is stored and kept. *)
Definition dlmc_batch guard dg (T : target) (wf : R -> R) (c : lconf) (n : R) (solver : string) (s : lstate) (xs : list (list nat)) :=
  let rates := rates_of T wf (lr_of T) in
  let z := dlmc_log_z (map rates xs) in
  let kept := if Nat.eqb (l_steps s) 0 then Fin (local_log_tau n z) else l_log_tau s in
  let used := if lc_adaptive c then l_used_log_tau c n (Fin z) s else kept in
  let s' := if lc_adaptive c then s else {| l_steps := l_steps s; l_calls := l_calls s; l_log_tau := kept; l_log_z := l_log_z s |} in
  if Nat.eqb (t_C T) 2 then lang_bin guard dg T (fun lt x => dlmc_ps solver lt wf (lr_of T) x) rates dlmc_log_z n c used s' xs
  else lang_cat guard T (fun lt x => all_some (map (dlmc_row solver lt wf (lr_of T) (t_C T) x) (seq 0 (length x)))) rates dlmc_log_z n c used s' xs.

(** locallybalanced.py 52-63: the balancing function by name, [None] raises. *)
Definition wf_of (ty : string) : option (R -> R) :=
  match apply_weight_function_logscale ty 0 with
  | None => None
  | Some _ => Some (fun t => match apply_weight_function_logscale ty t with Some w => w | None => 0 end)
  end.

Definition lift {S} (mk : S -> sstate) (d : dist (list (list nat) * S)) : dist (list (list nat) * sstate) := dmap (fun o => (fst o, mk (snd o))) d.
Definition with_wf {A} (ty : string) (k : (R -> R) -> dist A) : dist A := match wf_of ty with Some wf => k wf | None => [] end.

(** One call of sampler.step, unpacked into three values by the experiments (experiment/sampling.py 245, 270, 435, 453,
    560, 609, 762).  locallybalanced.py 77 returns two values, so the unpacking raises. *)
Definition sampler_step (guard dg : R) (T : target) (k : sampler) (o : list (list nat) * sstate) : dist (list (list nat) * sstate) :=
  let xs := fst o in
  match k, snd o with
  | SGibbs, TG s => dmap (fun ns => (ns, TG (gibbs_update (t_dim T) (t_C T) s))) (indep (map (gibbs_step (t_fw T) (t_C T) (g_index s)) xs))
  | SBlock b, TG s => dmap (fun ns => (ns, TG (block_update (t_dim T) (t_C T) b s))) (indep (map (block_step (t_fw T) (t_C T) b (g_index s)) xs))
  | SHamming b, TG s => dmap (fun ns => (ns, TG (hb_update (t_dim T) (t_C T) b s)))
                             (hb_batch_step (hamming_logit b (t_C T)) (t_fw T) (t_C T) b (g_index s) xs)
  | SWalk rate, TR s => lift TR (walk_batch guard T rate s xs)
  | SGwg ty nf, TW s => with_wf ty (fun wf => lift TW (gwg_batch guard T wf nf s xs))
  | SGwgAdapt ty rate, TW s => with_wf ty (fun wf => lift TW (agwg_batch guard T wf rate s xs))
  | SGwgCat ty, TW s => with_wf ty (fun wf => lift TW (cgwg_batch guard T wf s xs))
  | SPath ty approx nf rate, TP s =>
      with_wf ty (fun wf =>
        if approx then lift TP (path_batch guard T wf (lr_of T) 4 nf rate s xs)
        else match t_sig T with
             | Some sg => if Nat.eqb (lr_values sg) 4 then lift TP (path_batch guard T wf (t_lr T) 2 nf rate s xs) else []
             | None => [] end)
  | SDmala ty c step_size, TL s => with_wf ty (fun wf => lift TL (dmala_batch guard dg T wf c step_size s xs))
  | SDlmc ty c n solver, TL s => with_wf ty (fun wf => lift TL (dlmc_batch guard dg T wf c n solver s xs))
  | _, _ => []
  end.

(** [n] steps from a batch, with the initial state. *)
Fixpoint sampler_run (guard dg : R) (T : target) (k : sampler) (n : nat) (o : list (list nat) * sstate) : dist (list (list nat) * sstate) :=
  match n with
  | O => ret o
  | S n' => bind (sampler_step guard dg T k o) (sampler_run guard dg T k n')
  end.

(** ** Initial samples, one chain of [d] sites *)
(** jax.random.randint(minval 0, maxval C): bernoulli.py 23-31 (C = 2), categorical.py 26-35, potts.py 49-57,
    text_infilling.py 79-87 (random_init_sample). *)
Definition init_randint (d C : nat) : dist (list nat) := indep (repeat (uniform (seq 0 C)) d).
(** jax.random.bernoulli with p = 0.5: ising.py 39-44, comb_ebm.py 48-51, maxcut.py 24-27, fhmm.py 66-71, rbm.py 174-177 and
    resnet.py 146-149 without data mean. *)
Definition init_half (d : nat) : dist (list nat) := indep (repeat (dmap (fun b : bool => if b then 1%nat else 0%nat) (bernoulli (/ 2))) d).
(** jax.random.categorical of log(ones): fhmm.py 104-111. *)
Definition init_logits (d C : nat) : dist (list nat) := indep (repeat (categorical (map ln (repeat 1 C))) d).
(** jax.random.categorical of log(data_mean): rbm.py 199-203, for positive means. *)
Definition init_cat_mean (mean : list (list R)) : dist (list nat) := indep (map (fun row => categorical (map ln row)) mean).
(** num_samples chains. *)
Definition init_batch (B : nat) (law : dist (list nat)) : dist (list (list nat)) := indep (repeat law B).
