(** Model of what a started program samples when its model is one of the classical ones: model.make_init_params
    (experiment/sampling.py 48-104 calls it for every model), the log-density the sampler object evaluates and the initial samples,
    all read from the model section of the configuration (models/bernoulli.py, categorical.py, ising.py, potts.py, fhmm.py).

    Simplifications: one set of parameters (num_models = 1 for these models); the random numbers of make_init_params are given; the
    gradient array is given (any function). *)
From Coq Require Import String List Bool ZArith Reals Arith.
From Verif.Base Require Import RSum Cube Dist.
From Verif.Model Require Import Launch FullRun Start LocallyBalanced Lattice LatticeRun Factorised.
From Verif.Model Require FHMM.
Import ListNotations.
Local Open Scope R_scope.

(** The random numbers of make_init_params: [d_field], normal (bernoulli.py 18-20, categorical.py 20-23) or uniform (ising.py 24-26,
    potts.py 34-36); of the factorial hidden Markov model (fhmm.py 38-49, 113-130) [d_w] and [d_b] normal, [d_alpha] uniform, [d_path] the
    hidden path of sample_X and [d_noise] the normal numbers of sample_Y. *)
Record draws := { d_field : nat -> nat -> nat -> R; d_w : nat -> nat -> R; d_b : R; d_alpha : nat -> R; d_path : list (list nat); d_noise : nat -> R }.

(** config.model.shape; math.prod(shape) (gibbs.py 17, gwg.py 17 and the other constructors). *)
Definition shape_of (m : table lit) : option (list nat) := match look "shape" m with Some (LTuple l) => Some (map Z.to_nat l) | _ => None end.
Definition sites (sh : list nat) : nat := fold_right Nat.mul 1%nat sh.
(** The samplers that call [model.forward] on the int32 sample (gibbs.py 34/40, blockgibbs.py 49, hammingball.py 102, randomwalk.py 29/31);
    the others call get_value_and_grad. *)
Definition on_ints (k : sampler) : bool := match k with SGibbs | SBlock _ | SHamming _ | SWalk _ => true | _ => false end.

(** bernoulli.py 16-21. *)
Definition bern_params (d : nat) (sigma : R) (p : draws) : list R := map (fun i => d_field p i 0%nat 0%nat * sigma) (seq 0 d).
(** categorical.py 18-24. *)
Definition cat_params (d C : nat) (sigma : R) (p : draws) : list (list R) :=
  map (fun i => map (fun c => d_field p i c 0%nat * sigma) (seq 0 C)) (seq 0 d).
(** A flat row of l * k sites as l rows of k (row-major reshape; gibbs.py 35, fhmm.py 170). *)
Fixpoint rows_of (l k : nat) (x : list nat) : list (list nat) := match l with O => [] | S l' => firstn k x :: rows_of l' k (skipn k x) end.
(** fhmm.py 60-61 and 147-152. *)
Definition bin_obs (l : nat) (sigma : R) (w : list R) (p : draws) : list R :=
  map (fun t => d_noise p t * sigma + rsum (combine (nth t (d_path p) []) w) (fun xw => INR (fst xw) * snd xw) + d_b p) (seq 0 l).
Definition cat_obs (l k C : nat) (sigma : R) (p : draws) : list R :=
  map (fun t => d_noise p t * sigma
        + rsum (seq 0 k) (fun i => rsum (seq 0 C) (fun c => INR (FHMM.hotn (nth i (nth t (d_path p) []) 0%nat) c) * d_w p i c)) + d_b p) (seq 0 l).

(** The log-density the sampler [k] evaluates on a flat sample; [None] is an exception (missing or ill-typed setting, lattice or hidden
    Markov model whose shape is not a pair). *)
Definition run_fw (name : string) (m : table lit) (p : draws) (k : sampler) : option (list nat -> R) :=
  let num s := as_real (look s m) in
  match shape_of m, as_nat (look "num_categories" m) with
  | Some sh, Some C =>
      if String.eqb name "bernoulli" then
        match num "init_sigma"%string with Some sigma => Some (bern_forward_int (bern_params (sites sh) sigma p)) | None => None end
      else if String.eqb name "categorical" then
        match num "init_sigma"%string with Some sigma => Some (cat_forward C (cat_params (sites sh) C sigma p)) | None => None end
      else if String.eqb name "ising" then
        match sh, num "lambdaa"%string, num "init_sigma"%string, num "mu"%string with
        | [h; w], Some la, Some sigma, Some mu =>
            let b := ising_b h w sigma mu (fun i j => d_field p i j 0%nat) in
            Some (if on_ints k then ising_ll_forward h w (ising_wh la) (ising_wh la) b else ising_ll_value_and_grad h w (ising_wh la) (ising_wh la) b)
        | _, _, _, _ => None
        end
      else if String.eqb name "potts" then
        match sh, num "lambdaa"%string, num "init_sigma"%string, num "mu"%string with
        | [h; w], Some la, Some sigma, Some mu =>
            let b := potts_b h w sigma mu (d_field p) in
            Some (if on_ints k then potts_ll_forward h w C (potts_w la) (potts_w la) b else potts_ll_value_and_grad h w C (potts_w la) (potts_w la) b)
        | _, _, _, _ => None
        end
      else if String.eqb name "fhmm" then
        match sh, num "sigma"%string, num "alpha"%string, num "beta"%string with
        | [l; kk], Some sigma, Some alpha, Some beta =>
            if Nat.eqb C 2 then
              let w := map (fun i => d_w p i 0%nat) (seq 0 kk) in
              Some (fun x => FHMM.bin_forward alpha beta sigma (d_b p) w (bin_obs l sigma w p) (rows_of l kk x))
            else
              Some (fun x => FHMM.cat_forward C (fun c => ln (FHMM.init_alpha C alpha (d_alpha p) c)) beta sigma (d_b p) (d_w p) kk
                               (cat_obs l kk C sigma p) (rows_of l kk x))
        | _, _, _, _ => None
        end
      else None
  | _, _ => None
  end.

(** What the sampler object sees (sampling.py 120-140); only bernoulli.py 57-61 has logratio_in_neighborhood; no mask. *)
Definition run_target (name : string) (m : table lit) (p : draws) (grad : list nat -> nat -> R) (k : sampler) : option target :=
  match run_fw name m p k, shape_of m, as_nat (look "num_categories" m) with
  | Some fw, Some sh, Some C =>
      let bern := String.eqb name "bernoulli" in
      let sigma := match as_real (look "init_sigma" m) with Some s => s | None => 0 end in
      Some {| t_fw := fw; t_grad := grad;
              t_lr := fun x i => if bern then nth i (bern_logratio (bern_params (sites sh) sigma p) x) 0 else 0;
              t_sig := if bern then Some bernoulli_sig else None; t_mask := None; t_dim := sites sh; t_C := C |}
  | _, _, _ => None
  end.

(** get_init_samples, one chain: bernoulli.py 23-31, categorical.py 26-35, ising.py 39-44, potts.py 49-57, fhmm.py 66-71 and 104-111. *)
Definition start_law (name : string) (d C : nat) : dist (list nat) :=
  if String.eqb name "ising" then init_half d
  else if String.eqb name "fhmm" then (if Nat.eqb C 2 then init_half d else init_logits d C)
  else if String.eqb name "bernoulli" then init_randint d 2 else init_randint d C.
