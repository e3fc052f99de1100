(** Proofs for Spec/StartSpec.v. *)
From Coq Require Import String List Bool ZArith Reals Lra Arith.
From Verif.Spec Require Import StartSpec.
From Verif.Model Require Import Launch Langevin FullRun Start.
Import ListNotations.
Local Open Scope string_scope.

Lemma as_str_some o w : as_str o = Some w -> o = Some (LStr w).
Proof. destruct o as [[]|]; cbn; congruence. Qed.
Lemma as_bool_some o b : as_bool o = Some b -> o = Some (LBool b).
Proof. destruct o as [[]|]; cbn; congruence. Qed.
Lemma as_nat_some o n : as_nat o = Some n -> exists z, o = Some (LInt z) /\ n = Z.to_nat z.
Proof. destruct o as [[]|]; cbn; try discriminate. intros H. injection H as <-. eauto. Qed.
Lemma as_real_some o x : as_real o = Some x -> is_number o x.
Proof.
  destruct o as [[]|]; cbn; try discriminate; intros H; injection H as <-; try reflexivity. unfold real_of. field. apply pow_nonzero. lra.
Qed.
Lemma or_nat o d : nat_or o d (odef (as_nat o) d).
Proof. destruct o as [[]|]; reflexivity. Qed.
Lemma or_int o d : int_or o d (odef (as_int o) d).
Proof. destruct o as [[]|]; reflexivity. Qed.
Lemma or_bool o d : bool_or o d (odef (as_bool o) d).
Proof. destruct o as [[]|]; reflexivity. Qed.
Lemma or_number o d : number_or o d (odef (as_real o) d).
Proof. destruct o as [[]|]; try reflexivity. apply (as_real_some (Some (LFloat _ _))). reflexivity. Qed.
Lemma or_word o d : word_or o d (odef (as_str o) d).
Proof. destruct o as [[]|]; reflexivity. Qed.
Lemma not_true o : odef (as_bool o) false = false -> o <> Some (LBool true).
Proof. intros H E. subst o. discriminate. Qed.
Lemma is_true o : odef (as_bool o) false = true -> o = Some (LBool true).
Proof. destruct o as [[| | |[]|]|]; cbn; congruence. Qed.
Lemma obind_some {A B} (o : option A) (k : A -> option B) b : obind o k = Some b -> exists a, o = Some a /\ k a = Some b.
Proof. destruct o; [eauto|discriminate]. Qed.

Lemma start_sampler ck d c r : start ck d c = Some r ->
  exists sc m C, sampler_settings c = Some sc /\ as_nat (look "num_categories" m) = Some C /\ r_section r = m /\ build_sampler sc C = Some (r_sampler r).
Proof.
  unfold start. destruct (as_str (look "name" (l_model c))) as [n|]; [|discriminate]. destruct (build_model ck (l_model c)) as [[m cl]|]; [|discriminate].
  destruct (sampler_settings c) as [sc|]; [|discriminate]. destruct (as_str (look "name" (l_exp c))) as [x|]; [|discriminate]. destruct (as_str (look "evaluator" (l_exp c))) as [ev|]; [|discriminate].
  destruct (as_nat (look "num_categories" m)) as [C|] eqn:EC; [|discriminate]. destruct (look "shape" m); [|discriminate]. destruct (build_sampler sc C) as [k|] eqn:EK; [|discriminate].
  destruct (experiment_keys x); [|discriminate]. destruct (evaluator_keys ev); [|discriminate]. destruct (has_keys _ _ && _ && _)%bool; [|discriminate]. intros H. injection H as <-. exists sc, m, C. auto.
Qed.

Ltac opened := repeat match goal with H : obind _ _ = Some _ |- _ => apply obind_some in H; let a := fresh "a" in let E := fresh "E" in let G := fresh "G" in destruct H as (a & E & G) end;
  repeat match goal with H : as_str _ = Some _ |- _ => apply as_str_some in H | H : as_bool _ = Some _ |- _ => apply as_bool_some in H | H : as_real _ = Some _ |- _ => apply as_real_some in H | H : as_nat _ = Some _ |- _ => apply as_nat_some in H end.
Lemma reflected c sc C k : sampler_settings c = Some sc -> build_sampler sc C = Some k ->
  reflects (l_sampler c) (l_exp c) k /\ (forall ty nf, k = SGwg ty nf -> C = 2%nat) /\ (forall ty t, k = SGwgAdapt ty t -> C = 2%nat) /\ (forall ty, k = SGwgCat ty -> C <> 2%nat).
Proof.
  intros Hs Hk. unfold sampler_settings in Hs. destruct (as_str (look "name" (l_sampler c))) as [n|] eqn:En; [|discriminate]. destruct (as_bool (look "co_opt_prob" (l_exp c))) as [co|] eqn:Eco; [|discriminate].
  injection Hs as <-. apply as_str_some in En. apply as_bool_some in Eco.
  assert (T : forall P : Prop, reflects (l_sampler c) (l_exp c) k -> (match k with SGwg _ _ | SGwgAdapt _ _ | SGwgCat _ => False | _ => True end) ->
    reflects (l_sampler c) (l_exp c) k /\ (forall ty nf, k = SGwg ty nf -> C = 2%nat) /\ (forall ty t, k = SGwgAdapt ty t -> C = 2%nat) /\ (forall ty, k = SGwgCat ty -> C <> 2%nat)).
  { intros _ R H. split; [exact R|]. repeat split; intros; subst k; destruct H. }
  unfold build_sampler in Hk. cbn [sc_name] in Hk.
  destruct (String.eqb_spec n "gibbs") as [->|N1]. { injection Hk as <-. apply (T True); [exact En|exact I]. }
  destruct (String.eqb_spec n "blockgibbs") as [->|N2]. { cbn [sc_block_size] in Hk. opened. destruct E as (z & E & ->). injection G as <-. apply (T True); [split; [exact En|eauto]|exact I]. }
  destruct (String.eqb_spec n "hammingball") as [->|N3]. { cbn [sc_block_size] in Hk. opened. destruct E as (z & E & ->). injection G as <-. apply (T True); [split; [exact En|eauto]|exact I]. }
  destruct (String.eqb_spec n "randomwalk") as [->|N4].
  { unfold build_randomwalk in Hk. cbn [sc_adaptive sc_target] in Hk. opened. injection G0 as <-. apply (T True); [|exact I]. split; [exact En|]. destruct a; cbn.
    - split; [split; assumption|discriminate].
    - split; [rewrite E; discriminate|intros _; exact E]. }
  destruct (String.eqb_spec n "gwg") as [->|N5].
  { unfold build_gwg in Hk. cbn [sc_balancing sc_adaptive sc_target sc_num_flips] in Hk. opened. destruct (Nat.eqb_spec C 2) as [HC|HC].
    - destruct (odef (as_bool (look "adaptive" (l_sampler c))) false) eqn:Ea.
      + opened. injection G0 as <-. apply is_true in Ea. split; [cbn; auto|]. split; [discriminate|]. split; [auto|discriminate].
      + injection G as <-. apply not_true in Ea. split; [cbn; split; [exact En|split; [exact E|split; [exact Ea|apply or_nat]]]|]. split; [auto|]. split; discriminate.
    - injection G as <-. split; [cbn; auto|]. split; [discriminate|]. split; [discriminate|auto]. }
  destruct (String.eqb_spec n "path_auxiliary") as [->|N6].
  { unfold build_path in Hk. cbn [sc_fast_path sc_balancing sc_adaptive sc_target sc_num_flips sc_approx] in Hk. opened. destruct a; [|discriminate]. opened.
    destruct (odef (as_bool (look "adaptive" (l_sampler c))) false) eqn:Ea.
    - opened. injection G as <-. apply is_true in Ea. apply (T True); [|exact I]. cbn. split; [exact En|]. split; [exact E0|]. split; [exact E|]. split; [apply or_bool|]. split; [apply or_nat|auto].
    - injection G0 as <-. apply not_true in Ea. apply (T True); [|exact I]. cbn. split; [exact En|]. split; [exact E0|]. split; [exact E|]. split; [apply or_bool|]. split; [apply or_nat|auto]. }
  destruct (String.eqb_spec n "dmala") as [->|N7].
  { unfold build_dmala in Hk. cbn [sc_balancing sc_adaptive sc_target sc_schedule sc_reset sc_step_size sc_co_opt] in Hk. opened. destruct a0.
    - opened. injection G as <-. apply (T True); [|exact I]. cbn. split; [exact En|]. split; [exact E|]. split; [auto|]. split; [apply or_nat|]. split; [apply or_int|apply or_number].
    - injection G0 as <-. apply (T True); [|exact I]. cbn. split; [exact En|]. split; [exact E|]. split; [split; [exact E0|split; [exact Eco|discriminate]]|]. split; [apply or_nat|]. split; [apply or_int|apply or_number]. }
  destruct (String.eqb_spec n "dlmc") as [->|N8].
  { unfold build_dlmc in Hk. cbn [sc_balancing sc_adaptive sc_target sc_schedule sc_reset sc_n sc_solver sc_co_opt] in Hk. opened. destruct a0.
    - opened. injection G0 as <-. apply (T True); [|exact I]. cbn. split; [exact En|]. split; [exact E|]. split; [auto|]. split; [auto|]. split; [apply or_int|]. split; [apply or_number|apply or_word].
    - injection G0 as <-. apply (T True); [|exact I]. cbn. split; [exact En|]. split; [exact E|]. split; [split; [exact E0|split; [exact Eco|discriminate]]|]. split; [discriminate|]. split; [apply or_int|]. split; [apply or_number|apply or_word]. }
  destruct (String.eqb_spec n "locallybalanced") as [->|N9]. { cbn [sc_balancing] in Hk. opened. injection G as <-. apply (T True); [split; assumption|exact I]. }
  discriminate.
Qed.
Lemma start_devices ck d c r : start ck d c = Some r -> (1 < d)%nat -> look "run_parallel" (l_exp c) = Some (LBool true) ->
  exists b m, look "batch_size" (l_exp c) = Some (LInt b) /\ look "num_models" (l_exp c) = Some (LInt m) /\
    exists q, (if (String.eqb (r_evaluator r) "co_eval" && negb (String.eqb (r_experiment r) "EBM_Experiment") && Nat.leb d (Z.to_nat m))%bool then Z.to_nat m else Z.to_nat b) = (q * d)%nat.
Proof.
  intros H Hd Hp. unfold start in H. destruct (as_str (look "name" (l_model c))) as [n|]; [|discriminate]. destruct (build_model ck (l_model c)) as [[m cl]|]; [|discriminate].
  destruct (sampler_settings c) as [sc|]; [|discriminate]. destruct (as_str (look "name" (l_exp c))) as [x|]; [|discriminate]. destruct (as_str (look "evaluator" (l_exp c))) as [ev|] eqn:Eev; [|discriminate].
  destruct (as_nat (look "num_categories" m)) as [C|]; [|discriminate]. destruct (look "shape" m); [|discriminate]. destruct (build_sampler sc C) as [k|]; [|discriminate].
  destruct (experiment_keys x); [|discriminate]. destruct (evaluator_keys ev); [|discriminate]. destruct (has_keys _ _ && has_keys _ _ && devices_fit d x (l_exp c))%bool eqn:E; [|discriminate]. injection H as <-.
  cbn [r_evaluator r_experiment]. apply andb_prop in E. destruct E as [_ E]. unfold devices_fit in E. rewrite Hp, Eev in E. cbn [as_bool] in E.
  destruct (as_nat (look "batch_size" (l_exp c))) as [b|] eqn:Eb; [|discriminate]. destruct (as_nat (look "num_models" (l_exp c))) as [g|] eqn:Eg; [|discriminate].
  apply as_nat_some in Eb. apply as_nat_some in Eg. destruct Eb as (b' & Eb & ->). destruct Eg as (m' & Em & ->). exists b', m'. split; [exact Eb|]. split; [exact Em|].
  destruct (Nat.eqb_spec d 1) as [->|N]; [destruct (Nat.lt_irrefl _ Hd)|]. cbn [orb negb] in E. rewrite (andb_comm (negb _)) in E.
  destruct (String.eqb ev "co_eval" && negb (String.eqb x "EBM_Experiment") && Nat.leb d (Z.to_nat m'))%bool; apply Nat.eqb_eq in E;
    [exists (Z.to_nat m' / d)%nat|exists (Z.to_nat b' / d)%nat]; rewrite Nat.mul_comm, (Nat.div_mod_eq _ d) at 1; rewrite E; apply Nat.add_0_r.
Qed.
