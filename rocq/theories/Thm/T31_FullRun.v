(** C88, C89: complete runs of every configured sampler. *)
From Coq Require Import String Reals List Lra Lia Arith ZArith.
From Verif.Base Require Import RSum Cube Dist XFloat.
From Verif.Spec Require Import Chain SamplerRun.
From Verif.Model Require Import Gibbs RandomWalk GWG LocallyBalanced PathAux Langevin FullRun.
From Verif.Proof Require Import FullRunProof FullRunInvar CoOptRun.
Import ListNotations.
Local Open Scope R_scope.

(** ** C88 *)
(** Every usable object, every model, any number of steps from any legal batch: the run is a probability law (nothing raises,
    no mass is lost), every chain stays in the sample space, and the state has exactly the counters, scan index, radius and
    step size described by [state_at]. *)
Theorem C88_run : forall guard dg T k n B xs, (0 < t_dim T)%nat -> (2 <= t_C T)%nat -> usable T k -> legal (t_dim T) (t_C T) B xs ->
  is_prob (sampler_run guard dg T k n (xs, init_state k)) /\
  forall o w, In (o, w) (sampler_run guard dg T k n (xs, init_state k)) ->
    legal (t_dim T) (t_C T) B (fst o) /\ state_at (t_dim T) (t_C T) k n (snd o).
Proof. intros guard dg T k n B xs Hd HC Hu Hx. exact (run_legal guard dg T k n B xs Hd HC Hu Hx). Qed.
Print Assumptions C88_run.

(** ... together with the law of the initial samples. *)
Theorem C88_whole_run : forall guard dg T k n B law, (0 < t_dim T)%nat -> (2 <= t_C T)%nat -> usable T k -> starts_in (t_dim T) (t_C T) law ->
  let run := bind (init_batch B law) (fun xs => sampler_run guard dg T k n (xs, init_state k)) in
  is_prob run /\ forall o w, In (o, w) run -> legal (t_dim T) (t_C T) B (fst o) /\ state_at (t_dim T) (t_C T) k n (snd o).
Proof. intros guard dg T k n B law Hd HC Hu Hl. exact (whole_run_legal guard dg T k n B law Hd HC Hu Hl). Qed.
Print Assumptions C88_whole_run.

(** The initial samples of the models: even on the sample space (randint, bernoulli(0.5), categorical of log ones), or in it
    (categorical of the log of the data mean). *)
Theorem C88_initial : (forall d C, (0 < C)%nat -> even_start d C (init_randint d C)) /\ (forall d, even_start d 2 (init_half d)) /\
  (forall d C, (0 < C)%nat -> even_start d C (init_logits d C)) /\
  (forall d C mean, (0 < C)%nat -> length mean = d -> Forall (fun row => length row = C) mean -> starts_in d C (init_cat_mean mean)).
Proof. split; [exact randint_even|]. split; [exact half_even|]. split; [exact logits_even|exact cat_mean_in]. Qed.
Print Assumptions C88_initial.

(** Every shipped configuration except locallybalanced builds a usable object for every model ... *)
Theorem C88_shipped : forall co T c, (2 <= t_C T)%nat -> In c (shipped co) -> sc_name c <> "locallybalanced"%string ->
  exists k, build_sampler c (t_C T) = Some k /\ usable T k.
Proof. exact shipped_usable. Qed.
Print Assumptions C88_shipped.

(** With adaptive = False no run changes the radius or the step size (of DLMC: from its second step on) ... *)
Theorem C88_not_adaptive : forall guard dg T c C k n xs s o w, build_sampler c C = Some k -> sc_adaptive c = Some false -> started k s ->
  In (o, w) (sampler_run guard dg T k n (xs, s)) -> tuning (snd o) = tuning s.
Proof. intros guard dg T c C k n xs s o w Hb Ha Hs. apply run_tuning; [exact (built_unadapted c C k Hb Ha)|exact Hs]. Qed.
Print Assumptions C88_not_adaptive.
(** ... and with adaptive = True the random walk adapts: accepted proposals enlarge the radius by the distance to the target. *)
Theorem C88_adaptive : forall T c C t dg s x o w, sc_name c = "randomwalk"%string -> sc_adaptive c = Some true -> sc_target c = Some t ->
  (forall y, t_fw T y = 0) -> 1 <= rw_radius s + 1 - t <= INR (t_dim T) ->
  exists k, build_sampler c C = Some k /\ (In (o, w) (sampler_step 0 dg T k ([x], TR s)) -> tuning (snd o) = [Fin (rw_radius s + (1 - t))]).
Proof.
  intros T c C t dg s x o w Hn Ha Ht Hf Hr. exists (SWalk (Some t)). split; [unfold build_sampler, build_randomwalk, obind; rewrite Hn, Ha, Ht; reflexivity|].
  apply flat_walk_adapts; auto.
Qed.
Print Assumptions C88_adaptive.
(** Settings left out: path_auxiliary then uses the gradient and works for models without exact ratios; adaptive DLMC needs
    schedule_step, DMALA does not. *)
Theorem C88_path_default : forall c C ty, sc_name c = "path_auxiliary"%string -> sc_fast_path c = Some true -> sc_balancing c = Some ty -> balancing ty ->
  sc_approx c = None -> sc_adaptive c = Some true -> (exists t, sc_target c = Some t) -> exists k, build_sampler c C = Some k /\ forall T, usable T k.
Proof.
  intros c C ty Hn Hf Hb Hty Hap Had [t Ht]. exists (SPath ty true (odef (sc_num_flips c) 1%nat) (Some t)). split.
  - unfold build_sampler, build_path, obind. rewrite Hn, Hf, Hb, Hap, Had, Ht. reflexivity.
  - intros T. split; [exact Hty|]. split; discriminate.
Qed.
Print Assumptions C88_path_default.
Theorem C88_schedule : forall c C ty t, sc_balancing c = Some ty -> sc_adaptive c = Some true -> sc_target c = Some t -> sc_schedule c = None ->
  (sc_name c = "dlmc"%string -> build_sampler c C = None) /\ (sc_name c = "dmala"%string -> build_sampler c C <> None).
Proof.
  intros c C ty t Hb Ha Ht Hs. unfold build_sampler. split; intros Hn; rewrite Hn; cbn [String.eqb Ascii.eqb Bool.eqb]; unfold build_dlmc, build_dmala, obind; rewrite Hb, Ha, Ht, ?Hs; [reflexivity|discriminate].
Qed.
Print Assumptions C88_schedule.
Example C88_settings_case : let c := {| sc_name := "dlmc"; sc_adaptive := Some false; sc_target := None; sc_num_flips := None; sc_block_size := None;
     sc_balancing := Some "SQRT"%string; sc_fast_path := None; sc_approx := None; sc_step_size := None;
     sc_schedule := None; sc_reset := None; sc_n := Some 3; sc_solver := None; sc_co_opt := false |} in
  (exists k, build_sampler c 2 = Some k /\ started k (TL {| l_steps := 1; l_calls := 4; l_log_tau := Fin 2; l_log_z := Fin 0 |})) /\
  1 <= rw_radius rw_init + 1 - 237 / 1000 <= INR 4 /\ (sc_name (walk_conf false) = "randomwalk"%string /\ sc_adaptive (walk_conf false) = Some true) /\
  (sc_name (path_conf false) = "path_auxiliary"%string /\ sc_fast_path (path_conf false) = Some true /\ balancing "SQRT").
Proof. split; [eexists; split; [reflexivity|cbn; lia]|]. split; [cbn; lra|]. repeat split. left; reflexivity. Qed.

(** ... and the object of the shipped locallybalanced configuration raises at every step of every experiment. *)
Theorem C88_local_refuted : exists c k, In c (shipped false) /\ (forall C, build_sampler c C = Some k) /\
  forall guard dg T xs s, sampler_step guard dg T k (xs, s) = [].
Proof.
  exists (local_conf false), (SLocal "SQRT"). split; [cbn; tauto|]. split; [reflexivity|]. intros guard dg T xs s. unfold sampler_step. cbn. destruct s; reflexivity.
Qed.
Print Assumptions C88_local_refuted.

(** A balancing function of another name raises at the first step, not when the object is built. *)
Theorem C88_unknown_balancing : forall guard dg T xs s ty nf r, ~ balancing ty ->
  sampler_step guard dg T (SGwg ty nf) (xs, s) = [] /\ sampler_step guard dg T (SGwgAdapt ty r) (xs, s) = [] /\ sampler_step guard dg T (SGwgCat ty) (xs, s) = [].
Proof. exact unknown_balancing_raises. Qed.
Print Assumptions C88_unknown_balancing.

(** Exact ratios (approx_with_grad off) need a model whose logratio_in_neighborhood returns four values; with any other model every
    step raises. *)
Theorem C88_exact_ratios : forall guard dg T ty nf rate xs s, (forall sg, t_sig T = Some sg -> lr_values sg <> 4%nat) ->
  sampler_step guard dg T (SPath ty false nf rate) (xs, s) = [].
Proof. exact exact_path_raises. Qed.
Print Assumptions C88_exact_ratios.
Example C88_exact_ratios_case : lr_values bernoulli_sig <> 4%nat /\ lr_values mis_sig <> 4%nat /\ lr_values maxcut_sig = 4%nat.
Proof. repeat split; discriminate. Qed.

(** Dispatch: gwg with other than two categories ignores adaptive, target and num_flips; path_auxiliary without
    use_fast_path = True has no class. *)
Theorem C88_gwg_categories : forall c C ty, sc_balancing c = Some ty -> C <> 2%nat -> build_gwg c C = Some (SGwgCat ty).
Proof. intros c C ty H HC. unfold build_gwg. rewrite H. cbn. destruct (Nat.eqb_spec C 2); [contradiction|reflexivity]. Qed.
Print Assumptions C88_gwg_categories.

Theorem C88_fast_path : forall c, sc_fast_path c <> Some true -> build_path c = None.
Proof. intros c H. unfold build_path. destruct (sc_fast_path c) as [[|]|]; [exfalso; auto|reflexivity|reflexivity]. Qed.
Print Assumptions C88_fast_path.

(** Three sites with three categories and two chains: the shipped DMALA configuration on a model with interaction. *)
Example C88_ex : exists k, build_sampler (dmala_conf false) (t_C ex_target) = Some k /\ usable ex_target k /\ (0 < t_dim ex_target)%nat /\ (2 <= t_C ex_target)%nat
  /\ legal (t_dim ex_target) (t_C ex_target) 2 [[0; 1; 2]; [2; 2; 0]]%nat /\ starts_in 3 3 (init_randint 3 3) /\ ~ balancing "CUBE".
Proof.
  eexists. split; [reflexivity|]. split; [left; reflexivity|]. split; [cbn; lia|]. split; [cbn; lia|]. split.
  - split; [reflexivity|]. repeat constructor.
  - split; [apply randint_even; lia|]. intros [H|[H|[H|[H|[]]]]]; discriminate.
Qed.

(** ** C89 *)
(** In any state a run can reach, one step of the objects in [keeps_target] keeps the joint target of all chains of the batch:
    single-site and block Gibbs, random walk, binary GWG (adaptive or not), binary and adaptive categorical path auxiliary,
    and the Langevin samplers with a step size chosen before the step; a step size that became NaN freezes the batch. *)
Theorem C89_step : forall T k n s B, (0 < t_dim T)%nat -> (2 <= t_C T)%nat -> usable T k -> state_at (t_dim T) (t_C T) k n s -> keeps_target T k s ->
  invariant (lists_over (states (t_dim T) (t_C T)) B) (batch_pi (fun x => exp (t_fw T x))) (fun xs => dmap fst (sampler_step 0 0 T k (xs, s))).
Proof. intros T k n s B Hd HC Hu Hs Hk. exact (step_invariant T k n s B Hd HC Hu Hs Hk). Qed.
Print Assumptions C89_step.

(** Without adaptation the whole run keeps it. *)
Theorem C89_run : forall T k n B, (0 < t_dim T)%nat -> (2 <= t_C T)%nat -> usable T k -> fixed_rule T k ->
  invariant (lists_over (states (t_dim T) (t_C T)) B) (batch_pi (fun x => exp (t_fw T x))) (fun xs => dmap fst (sampler_run 0 0 T k n (xs, init_state k))).
Proof. intros T k n B Hd HC Hu Hf. exact (run_invariant_from T k B Hd HC Hu Hf n 0 (init_state k) (init_at T k Hd Hu)). Qed.
Print Assumptions C89_run.

(** Under co_opt_prob (the combinatorial experiments) a whole run of one chain of adaptive DMALA or DLMC keeps the target, for binary
    and categorical data: each direction uses the step size of its own starting point.  (With several chains: C87.) *)
Theorem C89_co_one_chain : forall T k n, (0 < t_dim T)%nat -> (2 <= t_C T)%nat -> usable T k -> co_sampler k -> forall f,
  rsum (states (t_dim T) (t_C T)) (fun x => exp (t_fw T x) * E (sampler_run 0 0 T k n ([x], init_state k)) (fun o => f (fst o)))
  = rsum (states (t_dim T) (t_C T)) (fun x => exp (t_fw T x) * f [x]).
Proof. exact co_one_run. Qed.
Print Assumptions C89_co_one_chain.
Example C89_co_case : forall c, In c [dmala_conf true; dlmc_conf true] -> exists k, build_sampler c (t_C ex_target) = Some k /\ usable ex_target k /\ co_sampler k.
Proof.
  intros c [<-|[<-|[]]]; eexists; (split; [reflexivity|]); (split; [|split; reflexivity]); cbn [usable]; [left; reflexivity|].
  split; [left; reflexivity|left; reflexivity].
Qed.

(** Adaptive DMALA after its first step, and non-adaptive DMALA and Gibbs, on the model above. *)
Example C89_ex : let s := TL {| l_steps := 5; l_calls := 20; l_log_tau := Fin 1; l_log_z := Fin 2 |} in
  let c := fun a => {| lc_adaptive := a; lc_co_opt := false; lc_target := 574 / 1000; lc_schedule := 100; lc_reset := 20 |} in
  usable ex_target (SDmala "SQRT" (c true) (2 / 10)) /\ state_at 3 3 (SDmala "SQRT" (c true) (2 / 10)) 5 s /\ keeps_target ex_target (SDmala "SQRT" (c true) (2 / 10)) s
  /\ fixed_rule ex_target (SDmala "SQRT" (c false) (2 / 10)) /\ usable ex_target SGibbs /\ fixed_rule ex_target SGibbs.
Proof.
  cbv zeta. split; [left; reflexivity|]. split.
  - cbn. repeat split; [exists 2; reflexivity|left; exists 1; reflexivity].
  - split; [right; split; [reflexivity|cbn; lia]|]. repeat split.
Qed.
