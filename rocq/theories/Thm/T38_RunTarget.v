(** C96: a job of a classical sweep samples the distribution its configuration describes. *)
From Coq Require Import String List Bool ZArith Reals Lra Lia Arith.
From Verif.Base Require Import RSum Cube Dist.
From Verif.Spec Require Import Chain LaunchSpec SamplerRun RunTargetSpec.
From Verif.Model Require Import MathUtil Config Launch RunConfigs Start FullRun RunTarget.
From Verif.Proof Require Import LaunchProof LaunchShipped RunTargetProof RunTargetShipped RunTargetRefuted.
Import ListNotations.
Local Open Scope string_scope.
Local Open Scope R_scope.

(** ** The density a sampler sees *)
(** With a well-formed model section it exists; its sites and categories are those of the section. *)
Theorem C96_target name m p grad k : classical name -> well_formed name m ->
  exists T, run_target name m p grad k = Some T /\ t_dim T = fold_right Nat.mul 1%nat (shape m) /\ t_C T = categories m /\ t_grad T = grad /\ t_mask T = None.
Proof. intros Hc W. destruct (run_target_some name m p grad k Hc W) as (T & A & B & C & D & E & _). exists T. auto. Qed.
(** Its exponential is the weight the section describes, for integer samples of an Ising model only when the coupling is whole, for hidden
    chains only with two categories. *)
Theorem C96_weight name m p grad k T x : classical name -> well_formed name m -> drawn m p -> faithful name m k ->
  run_target name m p grad k = Some T -> In x (states (t_dim T) (t_C T)) -> exp (t_fw T x) = weight name m p x.
Proof. intros Hc W Hp Hf E Hx. destruct (run_target_some name m p grad k Hc W) as (T' & A & _ & _ & _ & _ & H & _). rewrite A in E. injection E as <-. auto. Qed.
(** A coupling below one is lost by the samplers that evaluate integer samples: what remains is the field. *)
Theorem C96_ising_lost m p grad k T x h w : well_formed "ising" m -> shape m = [h; w] -> match k with SGibbs | SBlock _ | SHamming _ | SWalk _ => True | _ => False end ->
  Rabs (setting m "lambdaa") < 1 -> run_target "ising" m p grad k = Some T -> In x (states (t_dim T) (t_C T)) ->
  exp (t_fw T x) = spins (d_field p) h w 0 (setting m "mu") (setting m "init_sigma") x.
Proof.
  intros W Hs Hk Hl E Hx. destruct (run_target_some "ising" m p grad k ltac:(do 2 right; left; reflexivity) W) as (T' & A & _ & _ & _ & _ & _ & H & _). rewrite A in E. injection E as <-.
  destruct (H eq_refl ltac:(destruct k; try contradiction; reflexivity) Hl x Hx) as (h' & w' & E & R). rewrite Hs in E. injection E as <- <-. exact R.
Qed.
(** Hidden chains with more than two categories keep their value with another probability than [beta]. *)
Theorem C96_fhmm_categories m p grad k T l n : well_formed "fhmm" m -> drawn m p -> shape m = [l; n] -> (2 < categories m)%nat -> run_target "fhmm" m p grad k = Some T ->
  exists c, 0 < c /\ forall x, In x (states (t_dim T) (t_C T)) ->
    exp (t_fw T x) = c * paths (categories m) l n (setting m "sigma") (setting m "alpha") (effective_stay (categories m) (setting m "beta")) p x.
Proof.
  intros W Hp Hs Hn E. destruct (run_target_some "fhmm" m p grad k ltac:(do 4 right; left; reflexivity) W) as (T' & A & _ & _ & _ & _ & _ & _ & H). rewrite A in E. injection E as <-.
  destruct (H eq_refl ltac:(lia) Hp) as (l' & n' & E & R). rewrite Hs in E. injection E as <- <-. exact R.
Qed.
(** Only the Bernoulli model has likelihood ratios of its own, and they are those of the described distribution; but it returns three values
    where the exact path-auxiliary samplers unpack four, so none of these samplers can make a step on any classical model. *)
Theorem C96_ratios name m p grad k T : classical name -> well_formed name m -> run_target name m p grad k = Some T ->
  (t_sig T <> None <-> name = "bernoulli") /\
  (name = "bernoulli" -> forall x i, In x (states (t_dim T) (t_C T)) -> (i < length x)%nat -> exp (t_lr T x i) = weight name m p (upd i (1 - nth i x 0)%nat x) / weight name m p x) /\
  (forall g dg ty nf rate o, sampler_step g dg T (SPath ty false nf rate) o = []).
Proof.
  intros Hc W E. destruct (run_target_ratios name m p grad k T Hc W E) as [H1 H2]. destruct (string_dec name "bernoulli") as [e|n].
  - destruct (H2 e) as [H3 H4]. split; [split; [auto|intros _; rewrite H3; discriminate]|]. split; [auto|].
    intros g dg ty nf rate [xs s]. unfold sampler_step, with_wf. cbn [fst snd]. rewrite H3. destruct s, (wf_of ty); reflexivity.
  - specialize (H1 n). split; [split; [congruence|contradiction]|]. split; [contradiction|].
    intros g dg ty nf rate [xs s]. unfold sampler_step, with_wf. cbn [fst snd]. rewrite H1. destruct s, (wf_of ty); reflexivity.
Qed.
Example C96_ratios_case :
  let m := [("init_sigma", LInt 2); ("shape", LTuple [3]%Z); ("num_categories", LInt 2)] in
  let p := {| d_field := fun i j c => INR i; d_w := fun i c => 0; d_b := 0; d_alpha := fun c => 1; d_path := []; d_noise := fun t => 0 |} in
  classical "bernoulli" /\ well_formed "bernoulli" m /\ weight "bernoulli" m p [0; 1; 0]%nat = exp 2 /\ weight "bernoulli" m p [0; 0; 0]%nat = 1.
Proof.
  cbv zeta. split; [left; reflexivity|]. split; [apply formedb_ok; vm_compute; reflexivity|].
  unfold weight, coins. cbn [String.eqb Ascii.eqb Bool.eqb]. unfold shape, setting. cbn [look String.eqb Ascii.eqb Bool.eqb map length seq rprod nth Nat.eqb d_field INR].
  split; [rewrite Rmult_1_l, Rmult_1_r, Rmult_1_r; f_equal; lra|ring].
Qed.
Example C96_target_case :
  let m := [("lambdaa", LFloat 5 1); ("mu", LInt 0); ("init_sigma", LInt 0); ("shape", LTuple [3; 2]%Z); ("num_categories", LInt 2)] in
  let p := {| d_field := fun i j c => / INR (S (i + j + c)); d_w := fun i c => INR i; d_b := 1; d_alpha := fun c => / INR (S c); d_path := []; d_noise := fun t => INR t |} in
  classical "ising" /\ well_formed "ising" m /\ drawn m p /\ faithful "ising" m (SGwg "SQRT" 1) /\ ~ faithful "ising" m SGibbs /\
  shape m = [3; 2]%nat /\ Rabs (setting m "lambdaa") < 1 /\
  weight "ising" m p [1; 1; 1; 1; 1; 1]%nat = exp (1 / 2 * 7) /\ weight "ising" m p [0; 1; 1; 1; 1; 1]%nat = exp (1 / 2 * (5 - 2)).
Proof.
  cbv zeta. split; [do 2 right; left; reflexivity|]. split; [apply formedb_ok; vm_compute; reflexivity|]. split.
  { split; [|constructor]. intros c. cbn [d_alpha]. apply Rinv_0_lt_compat, lt_0_INR. lia. }
  split; [split; [intros _; exact I|discriminate]|]. split.
  { intros [H _]. destruct (H eq_refl) as [z Hz]. cbn in Hz. assert (E : 1 = 2 * IZR z) by lra. rewrite <- mult_IZR in E. apply eq_IZR in E. lia. }
  split; [reflexivity|]. split; [cbn; rewrite Rabs_pos_eq; lra|].
  split; unfold weight, spins; cbn [String.eqb Ascii.eqb Bool.eqb]; unfold shape, setting; cbn [look String.eqb Ascii.eqb Bool.eqb map]; change (Z.to_nat 3) with 3%nat; change (Z.to_nat 2) with 2%nat.
  - rewrite rsum_const0 by (intros c _; unfold field; destruct Rlt_dec; ring).
    match goal with |- exp (_ * (INR ?a - INR ?b) - 0) = _ => replace a with 7%nat by reflexivity; replace b with 0%nat by reflexivity end. f_equal. cbn [INR]. lra.
  - rewrite rsum_const0 by (intros c _; unfold field; destruct Rlt_dec; ring).
    match goal with |- exp (_ * (INR ?a - INR ?b) - 0) = _ => replace a with 5%nat by reflexivity; replace b with 2%nat by reflexivity end. f_equal. cbn [INR]. lra.
Qed.
Example C96_fhmm_case :
  let m := [("sigma", LInt 2); ("alpha", LFloat 1 1); ("beta", LFloat 8 1); ("shape", LTuple [3; 2]%Z); ("num_categories", LInt 4)] in
  let p := {| d_field := fun i j c => 0; d_w := fun i c => INR i - INR c; d_b := 1; d_alpha := fun c => / INR (S c); d_path := [[0; 1]; [0; 3]; [2; 3]]%nat; d_noise := fun t => INR t |} in
  classical "fhmm" /\ well_formed "fhmm" m /\ drawn m p /\ shape m = [3; 2]%nat /\ (2 < categories m)%nat /\ effective_stay (categories m) (setting m "beta") = 37 / 82.
Proof.
  cbv zeta. split; [do 4 right; left; reflexivity|]. split; [apply formedb_ok; vm_compute; reflexivity|]. split.
  { split; [|unfold categories; cbn; repeat constructor]. intros c. cbn [d_alpha]. apply Rinv_0_lt_compat, lt_0_INR. lia. }
  split; [reflexivity|]. split; [unfold categories; cbn; lia|]. unfold categories, setting. cbn [look String.eqb Ascii.eqb Bool.eqb]. change (Z.to_nat 4) with 4%nat. unfold effective_stay.
  assert (I4 : INR 4 = 4) by (cbn; lra). rewrite I4. field.
Qed.

(** ** Jobs of the shipped sweeps *)
(** Every job of every shipped sweep of a classical model starts; its settings reach the model; the run from the model's initial samples
    stays within the model's states; and outside the exceptions of [faithful] and the two samplers that need not keep any target each
    step after the first keeps the described distribution up to 3e-24 per chain, with the constants of the code. *)
Theorem C96_shipped repr root nm j jobs a : In (nm, j) shipped_sweeps -> classical (j_model j) -> launch repr j [] root = Some jobs -> In a jobs -> forall ck,
  exists c r, configure repr shipped_modules (shipped_files "/workdir/") a = Some c /\ start ck (gpus j) c = Some r /\ r_model r = j_model j /\
    r_experiment r = asked "config.experiment.name" a "Sampling_Experiment" /\
    (forall k v, In ("model_config." ++ k, v) a -> exists w, look k (r_section r) = Some w /\ reads repr v w) /\
    well_formed (r_model r) (r_section r) /\
    forall p grad, exists T, run_target (r_model r) (r_section r) p grad (r_sampler r) = Some T /\
      t_dim T = fold_right Nat.mul 1%nat (shape (r_section r)) /\ t_C T = categories (r_section r) /\
      (forall n B, let run := bind (init_batch B (start_law (r_model r) (t_dim T) (t_C T))) (fun xs => sampler_run acc_guard (/ 10 ^ 32) T (r_sampler r) n (xs, init_state (r_sampler r))) in
         is_prob run /\ forall o w, In (o, w) run -> legal (t_dim T) (t_C T) B (fst o) /\ state_at (t_dim T) (t_C T) (r_sampler r) n (snd o)) /\
      (drawn (r_section r) p -> faithful (r_model r) (r_section r) (r_sampler r) -> ~ biased (r_sampler r) -> forall n s B, (0 < n)%nat -> state_at (t_dim T) (t_C T) (r_sampler r) n s ->
         invariant_upto (INR B * (3 * / 10 ^ 24)) (lists_over (states (t_dim T) (t_C T)) B) (batch_pi (weight (r_model r) (r_section r) p))
           (fun xs => dmap fst (sampler_step acc_guard (/ 10 ^ 32) T (r_sampler r) (xs, s)))).
Proof.
  intros Hi Hc Hl Ha ck. destruct (shipped_classical repr root nm j jobs a Hi Hc Hl Ha ck) as (c & r & E1 & E2 & E3 & E4 & E5 & W & S & U). exists c, r.
  do 6 (split; [assumption|]). intros p grad. assert (Hc' : classical (r_model r)) by (rewrite E3; exact Hc).
  destruct (classical_run (r_model r) (r_section r) (r_sampler r) p grad Hc' W S (fun T HT Hd => proj1 (U T HT Hd))) as (T & A & B & C & D & F). exists T. do 4 (split; [assumption|]).
  intros Hp Hf Nb n s K Hn Hs. apply (F Hp Hf n s K Hs). apply (U T C) with (n := n); try assumption. rewrite B. destruct W as (_ & _ & _ & _ & _ & _ & G & _). exact G.
Qed.
(** The couplings of the shipped temperature sweeps of the Ising model are not sampled by random walk. *)
Theorem C96_ising_refuted repr root ck : exists nm j jobs a c r, In (nm, j) shipped_sweeps /\ launch repr j [] root = Some jobs /\ In a jobs /\
  configure repr shipped_modules (shipped_files "/workdir/") a = Some c /\ start ck (gpus j) c = Some r /\ r_model r = "ising" /\ setting (r_section r) "lambdaa" = 1607 / 10 ^ 4 /\
  forall p grad, exists T, run_target (r_model r) (r_section r) p grad (r_sampler r) = Some T /\
    (forall x y, In x (states (t_dim T) (t_C T)) -> In y (states (t_dim T) (t_C T)) -> exp (t_fw T x) = exp (t_fw T y)) /\
    exists x y, In x (states (t_dim T) (t_C T)) /\ In y (states (t_dim T) (t_C T)) /\ weight (r_model r) (r_section r) p x <> weight (r_model r) (r_section r) p y.
Proof.
  exists "classical_models/ising/lamdasweep_bigger", ising_lamdasweep_bigger. destruct (ising_shipped_lost repr root ck) as (jobs & a & c & r & H). exists jobs, a, c, r.
  split; [apply (nth_error_In _ 13); reflexivity|exact H].
Qed.
(** The persistence 0.8 of the shipped four-category hidden chains is not what is sampled. *)
Theorem C96_fhmm_refuted repr root ck : exists nm j jobs a c r, In (nm, j) shipped_sweeps /\ launch repr j [] root = Some jobs /\ In a jobs /\
  configure repr shipped_modules (shipped_files "/workdir/") a = Some c /\ start ck (gpus j) c = Some r /\ r_model r = "fhmm" /\
  categories (r_section r) = 4%nat /\ setting (r_section r) "beta" = 8 / 10 /\
  forall p grad, drawn (r_section r) p -> exists T, run_target (r_model r) (r_section r) p grad (r_sampler r) = Some T /\
    exists x y, In x (states (t_dim T) (t_C T)) /\ In y (states (t_dim T) (t_C T)) /\
      exp (t_fw T x) * weight (r_model r) (r_section r) p y <> exp (t_fw T y) * weight (r_model r) (r_section r) p x.
Proof.
  exists "classical_models/fhmm/categ_sweep", fhmm_categ_sweep. destruct (fhmm_shipped_wrong repr root ck) as (jobs & a & c & r & H). exists jobs, a, c, r.
  split; [apply (nth_error_In _ 11); reflexivity|exact H].
Qed.
(** A shipped job to which the theorem applies in full. *)
Example C96_shipped_case repr ck : exists jobs a c r, launch repr bernoulli_model_config_sweep [] "/results" = Some jobs /\ In a jobs /\ classical (j_model bernoulli_model_config_sweep) /\
  configure repr shipped_modules (shipped_files "/workdir/") a = Some c /\ start ck (gpus bernoulli_model_config_sweep) c = Some r /\
  faithful (r_model r) (r_section r) (r_sampler r) /\ ~ biased (r_sampler r) /\ setting (r_section r) "init_sigma" = 3 / 2.
Proof.
  eexists. eexists. eexists. eexists. split; [vm_compute; reflexivity|]. split; [do 13 right; left; reflexivity|]. split; [left; reflexivity|].
  split; [vm_compute; reflexivity|]. split; [vm_compute; reflexivity|]. split; [split; discriminate|]. split; [cbn; tauto|]. cbn. lra.
Qed.

Print Assumptions C96_target.
Print Assumptions C96_weight.
Print Assumptions C96_ratios.
Print Assumptions C96_ising_lost.
Print Assumptions C96_fhmm_categories.
Print Assumptions C96_shipped.
Print Assumptions C96_ising_refuted.
Print Assumptions C96_fhmm_refuted.
