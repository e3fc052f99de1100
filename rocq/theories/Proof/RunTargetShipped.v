From Coq Require Import String List Bool ZArith Reals Lra Lia Arith.
From Verif.Base Require Import RSum Cube Dist.
From Verif.Spec Require Import Chain LaunchSpec SamplerRun RunTargetSpec.
From Verif.Model Require Import MathUtil Gibbs RandomWalk GWG PathAux Langevin Config Launch RunConfigs Start FullRun RunTarget.
From Verif.Proof Require Import MathUtilProof FullRunProof FullRunInvar GuardRun LaunchProof LaunchShipped RunTargetProof.
Import ListNotations.
Local Open Scope string_scope.

Definition classicalb (n : string) : bool := existsb (String.eqb n) ["bernoulli"; "categorical"; "ising"; "potts"; "fhmm"].
Lemma classicalb_ok n : classicalb n = true <-> classical n.
Proof.
  unfold classicalb, classical. rewrite existsb_exists. split.
  - intros (x & Hi & E). apply String.eqb_eq in E. subst. exact Hi.
  - intros H. exists n. split; [exact H|apply String.eqb_refl].
Qed.
Definition numb (m : table lit) (k : string) : bool := match look k m with Some (LFloat _ _) | Some (LInt _) => true | _ => false end.
Lemma numb_ok m k : numb m k = true -> is_number m k.
Proof. unfold numb, is_number. destruct (look k m) as [[]|]; try discriminate; intros _; eauto. Unshelve. exact 0%nat. Qed.
Definition fracb (m : table lit) (k : string) : bool := match look k m with Some (LFloat z s) => (Z.ltb 0 z && Z.ltb z (10 ^ Z.of_nat s))%bool | _ => false end.
Lemma fracb_ok m k : fracb m k = true -> (0 < setting m k < 1)%R.
Proof.
  unfold fracb, setting. destruct (look k m) as [[]|]; try discriminate. intros H. apply andb_prop in H. destruct H as [H1 H2]. apply Z.ltb_lt in H1, H2.
  assert (P : (0 < 10 ^ scale)%R) by (apply pow_lt; lra). apply IZR_lt in H1, H2. rewrite <- pow_IZR in H2. split; [apply Rdiv_lt_0_compat; assumption|].
  apply (Rmult_lt_reg_r (10 ^ scale)); [exact P|]. unfold Rdiv. rewrite Rmult_assoc, Rinv_l, Rmult_1_r, Rmult_1_l by lra. exact H2.
Qed.
Definition shapeb (m : table lit) : bool :=
  match look "shape" m with Some (LTuple l) => let z := fold_right Z.mul 1%Z l in (forallb (Z.leb 0) l && Z.leb 2 z && Z.leb z 1000000)%bool | _ => false end.
Lemma prod_nat l : forallb (Z.leb 0) l = true -> Z.of_nat (fold_right Nat.mul 1%nat (map Z.to_nat l)) = fold_right Z.mul 1%Z l.
Proof.
  induction l as [|z l IH]; cbn [forallb map fold_right]; [reflexivity|]. intros H. apply andb_prop in H. destruct H as [H1 H2]. apply Z.leb_le in H1.
  rewrite Nat2Z.inj_mul, (IH H2), Z2Nat.id by exact H1. reflexivity.
Qed.
Lemma shapeb_ok m : shapeb m = true -> (exists l, look "shape" m = Some (LTuple l)) /\ 2 <= fold_right Nat.mul 1%nat (shape m) /\ (Z.of_nat (fold_right Nat.mul 1%nat (shape m)) <= 1000000)%Z.
Proof.
  unfold shapeb, shape. destruct (look "shape" m) as [[]|]; try discriminate. cbv zeta. intros H. apply andb_prop in H. destruct H as [H H3]. apply andb_prop in H. destruct H as [H1 H2].
  apply Z.leb_le in H2, H3. pose proof (prod_nat l H1) as P. split; [eauto|]. rewrite P. split; [|exact H3]. apply Nat2Z.inj_le. rewrite P. exact H2.
Qed.
Definition formedb (name : string) (m : table lit) : bool :=
  (forallb (numb m) (needed name) && match look "num_categories" m with Some (LInt C) => (Z.leb 2 C && (negb (String.eqb name "bernoulli" || String.eqb name "ising") || Z.eqb C 2))%bool | _ => false end
   && shapeb m && (negb (String.eqb name "ising" || String.eqb name "potts" || String.eqb name "fhmm") || match look "shape" m with Some (LTuple [_; _]) => true | _ => false end)
   && (negb (String.eqb name "fhmm") || (fracb m "alpha" && fracb m "beta")))%bool.
Lemma formedb_ok name m : formedb name m = true -> well_formed name m /\ (Z.of_nat (fold_right Nat.mul 1%nat (shape m)) <= 1000000)%Z.
Proof.
  unfold formedb. intros H. apply andb_prop in H. destruct H as [H H5]. apply andb_prop in H. destruct H as [H H4]. apply andb_prop in H. destruct H as [H H3]. apply andb_prop in H. destruct H as [H1 H2].
  destruct (shapeb_ok m H3) as (S1 & S2 & S3). split; [|exact S3].
  destruct (look "num_categories" m) as [[|C| | |]|] eqn:EC; try discriminate. apply andb_prop in H2. destruct H2 as [H2 H6]. apply Z.leb_le in H2.
  split; [apply Forall_forall; intros k Hk; rewrite forallb_forall in H1; apply numb_ok, H1, Hk|]. split; [eauto|]. split; [exact S1|].
  assert (C2 : name = "bernoulli" \/ name = "ising" -> categories m = 2).
  { intros N. unfold categories. rewrite EC. apply orb_prop in H6. destruct H6 as [H6|H6]; [|apply Z.eqb_eq in H6; subst; reflexivity].
    exfalso. destruct N as [-> | ->]; discriminate. }
  split; [auto|]. split; [auto|]. split; [|split; [exact S2|]].
  - intros N. unfold shape. apply orb_prop in H4. destruct H4 as [H4|H4]; [exfalso; destruct N as [->|[->| ->]]; discriminate|].
    destruct (look "shape" m) as [[| | | |[|? [|? [|? ?]]]]|]; try discriminate. reflexivity.
  - intros ->. cbn [String.eqb Ascii.eqb Bool.eqb negb orb] in H5. apply andb_prop in H5. destruct H5 as [A B]. split; apply fracb_ok; assumption.
Qed.

(** Objects whose every step but the first keeps the target. *)
Definition keeper (C : Z) (k : sampler) : bool :=
  match k with
  | SGibbs | SBlock _ | SWalk _ | SGwg _ _ | SGwgAdapt _ _ | SHamming _ | SGwgCat _ => true
  | SPath _ _ _ (Some _) => true
  | SPath _ _ _ None => Z.eqb C 2
  | SDmala _ c _ | SDlmc _ c _ _ => (negb (lc_adaptive c) || negb (lc_co_opt c))%bool
  | SLocal _ => false
  end.
Lemma keeper_keeps C k T n s : keeper C k = true -> ~ biased k -> Z.of_nat (t_C T) = C -> state_at (t_dim T) (t_C T) k n s -> (0 < n)%nat -> keeps_target T k s.
Proof.
  intros H Nb HC Hs Hn. destruct k, s; cbn [keeps_target state_at keeper biased] in *; try contradiction; try exact I; auto.
  - intros ->. apply Z.eqb_eq in H. lia.
  - unfold tuned_before. destruct Hs as (E & _). rewrite E. destruct (lc_adaptive c), (lc_co_opt c); try discriminate; auto.
  - unfold tuned_before. destruct Hs as (E & _). rewrite E. destruct (lc_adaptive c), (lc_co_opt c); try discriminate; auto.
Qed.
Definition class_ok (repr : lit -> string) (ck : checkpoints) (j : job_config) (a : table lit) : bool :=
  match configure repr shipped_modules (shipped_files "/workdir/") a with
  | Some c => match start ck (gpus j) c with
              | Some r => (forallb (arg_ok {| l_model := r_section r; l_sampler := l_sampler c; l_exp := l_exp c |}) a && String.eqb (r_model r) (j_model j) && formedb (r_model r) (r_section r)
                           && match look "num_categories" (r_section r) with Some (LInt C) => (steps C (r_sampler r) && keeper C (r_sampler r))%bool | _ => false end
                           && String.eqb (r_experiment r) (asked "config.experiment.name" a "Sampling_Experiment"))%bool
              | None => false
              end
  | None => false
  end.
Definition class_sweep (repr : lit -> string) (root : string) (ck : checkpoints) (x : string * job_config) : bool :=
  (negb (classicalb (j_model (snd x))) || match launch repr (snd x) [] root with Some jobs => forallb (class_ok repr ck (snd x)) jobs | None => false end)%bool.
Lemma class_sweeps repr root ck : forallb (class_sweep repr root ck) shipped_sweeps = true.
Proof. vm_compute. reflexivity. Qed.

Lemma start_law_in name d C : classical name -> (2 <= C)%nat -> (name = "bernoulli" \/ name = "ising" -> C = 2%nat) -> starts_in d C (start_law name d C).
Proof.
  intros Hc HC H2. unfold start_law. destruct Hc as [<-|[<-|[<-|[<-|[<-|[]]]]]]; cbn [String.eqb Ascii.eqb Bool.eqb].
  - rewrite (H2 (or_introl eq_refl)). apply randint_even. lia.
  - apply randint_even. lia.
  - rewrite (H2 (or_intror eq_refl)). apply half_even.
  - apply randint_even. lia.
  - destruct (Nat.eqb_spec C 2) as [->|_]; [apply half_even|apply logits_even; lia].
Qed.
Lemma invariant_upto_ext {A} eps eps' (S : list A) (pi pi' : A -> R) step : (forall x, In x S -> pi x = pi' x) -> (0 <= rsum S pi')%R -> (eps <= eps')%R ->
  invariant_upto eps S pi step -> invariant_upto eps' S pi' step.
Proof.
  intros Hp Hn He H f Hf. specialize (H f Hf).
  rewrite (rsum_ext S (fun x => (pi x * E (step x) f)%R) (fun x => (pi' x * E (step x) f)%R)) in H by (intros x Hx; rewrite (Hp x Hx); reflexivity).
  rewrite (rsum_ext S (fun x => (pi x * f x)%R) (fun x => (pi' x * f x)%R)) in H by (intros x Hx; rewrite (Hp x Hx); reflexivity).
  rewrite (rsum_ext S pi pi' Hp) in H. eapply Rle_trans; [exact H|]. apply Rmult_le_compat_r; assumption.
Qed.
Lemma batch_pi_ext {A} (S : list A) (pi pi' : A -> R) B xs : (forall x, In x S -> pi x = pi' x) -> In xs (lists_over S B) -> batch_pi pi xs = batch_pi pi' xs.
Proof. intros H Hx. unfold batch_pi. apply rprod_ext. intros x Hi. apply H. apply in_lists_over in Hx. destruct Hx as [_ F]. rewrite Forall_forall in F. auto. Qed.
Lemma small_sites n : (Z.of_nat n <= 1000000)%Z -> (INR n <= 10 ^ 6)%R.
Proof. intros H. apply IZR_le in H. rewrite <- INR_IZR_INZ in H. eapply Rle_trans; [exact H|]. lra. Qed.

Lemma shipped_classical repr root nm j jobs a : In (nm, j) shipped_sweeps -> classical (j_model j) -> launch repr j [] root = Some jobs -> In a jobs -> forall ck,
  exists c r, configure repr shipped_modules (shipped_files "/workdir/") a = Some c /\ start ck (gpus j) c = Some r /\ r_model r = j_model j /\
    r_experiment r = asked "config.experiment.name" a "Sampling_Experiment" /\
    (forall k v, In ("model_config." ++ k, v) a -> exists w, look k (r_section r) = Some w /\ reads repr v w) /\
    well_formed (r_model r) (r_section r) /\ (Z.of_nat (fold_right Nat.mul 1%nat (shape (r_section r))) <= 1000000)%Z /\
    (forall T, t_C T = categories (r_section r) -> (2 <= t_dim T)%nat -> usable T (r_sampler r) /\
       forall n s, ~ biased (r_sampler r) -> state_at (t_dim T) (t_C T) (r_sampler r) n s -> (0 < n)%nat -> keeps_target T (r_sampler r) s).
Proof.
  intros Hi Hc Hl Ha ck. pose proof (class_sweeps repr root ck) as K. rewrite forallb_forall in K. specialize (K (nm, j) Hi). unfold class_sweep in K. cbn [snd] in K.
  rewrite (proj2 (classicalb_ok _) Hc), Hl in K. cbn [negb orb] in K. rewrite forallb_forall in K. specialize (K a Ha). unfold class_ok in K.
  destruct (configure repr shipped_modules (shipped_files "/workdir/") a) as [c|]; [|discriminate]. destruct (start ck (gpus j) c) as [r|] eqn:Es; [|discriminate]. exists c, r.
  split; [reflexivity|]. split; [exact Es|].
  apply andb_prop in K. destruct K as [K K5]. apply andb_prop in K. destruct K as [K K4]. apply andb_prop in K. destruct K as [K K3]. apply andb_prop in K. destruct K as [K1 K2].
  apply String.eqb_eq in K2, K5. split; [exact K2|]. split; [exact K5|]. destruct (formedb_ok _ _ K3) as [W S]. split.
  - intros k v Hk. rewrite forallb_forall in K1. specialize (K1 _ Hk). assert (N : "model_config." ++ k <> "config.experiment.save_root") by discriminate.
    destruct (arg_ok_carried repr _ _ _ K1 N) as [Q _]. exact (Q k eq_refl).
  - split; [exact W|]. split; [exact S|]. intros T HT Hd. destruct (look "num_categories" (r_section r)) as [[|C| | |]|] eqn:EC; try discriminate.
    apply andb_prop in K4. destruct K4 as [K4 K6]. assert (EZ : Z.of_nat (t_C T) = C).
    { destruct W as (_ & (C' & E' & G) & _). rewrite EC in E'. injection E' as <-. rewrite HT. unfold categories. rewrite EC. lia. }
    split; [apply (steps_usable C); assumption|]. intros n s Nb Hs Hn. apply (keeper_keeps C (r_sampler r) T n s); assumption.
Qed.

(** The whole of it, for any program started with a well-formed section. *)
Lemma classical_run name m k p grad : classical name -> well_formed name m -> (Z.of_nat (fold_right Nat.mul 1%nat (shape m)) <= 1000000)%Z ->
  (forall T, t_C T = categories m -> (2 <= t_dim T)%nat -> usable T k) ->
  exists T, run_target name m p grad k = Some T /\ t_dim T = fold_right Nat.mul 1%nat (shape m) /\ t_C T = categories m /\
    (forall n B, let run := bind (init_batch B (start_law name (t_dim T) (t_C T))) (fun xs => sampler_run acc_guard (/ 10 ^ 32) T k n (xs, init_state k)) in
       is_prob run /\ forall o w, In (o, w) run -> legal (t_dim T) (t_C T) B (fst o) /\ state_at (t_dim T) (t_C T) k n (snd o)) /\
    (drawn m p -> faithful name m k -> forall n s B, state_at (t_dim T) (t_C T) k n s -> keeps_target T k s ->
       invariant_upto (INR B * (3 * / 10 ^ 24)) (lists_over (states (t_dim T) (t_C T)) B) (batch_pi (weight name m p))
         (fun xs => dmap fst (sampler_step acc_guard (/ 10 ^ 32) T k (xs, s)))).
Proof.
  intros Hc W S U. destruct (run_target_some name m p grad k Hc W) as (T & ET & ED & EC & _ & _ & Hw & _).
  pose proof W as (_ & (C & LC & GC) & _ & Hb & Hi & _ & Hd & _).
  assert (GC2 : (2 <= t_C T)%nat) by (rewrite EC; unfold categories; rewrite LC; lia). assert (GD : (2 <= t_dim T)%nat) by (rewrite ED; exact Hd).
  specialize (U T EC GD). exists T. split; [exact ET|]. split; [exact ED|]. split; [exact EC|]. split.
  - intros n B. cbv zeta. apply whole_run_legal; [lia|exact GC2|exact U|]. apply start_law_in; [exact Hc|exact GC2|]. rewrite EC. intros [N|N]; auto.
  - intros Hp Hf n s B Hs Hk. eapply invariant_upto_ext; [| | |apply (step_upto acc_guard (/ 10 ^ 32) T k n s B); auto].
    + intros xs Hx. apply (batch_pi_ext (states (t_dim T) (t_C T)) _ _ B); [|exact Hx]. intros x Hxi. apply Hw; auto.
    + rewrite <- (rsum_ext _ (batch_pi (fun x => exp (t_fw T x)))).
      * apply rsum_nonneg. intros xs _. unfold batch_pi. apply rprod_nonneg. intros x _. apply Rlt_le, exp_pos.
      * intros xs Hx. apply (batch_pi_ext (states (t_dim T) (t_C T)) _ _ B); [|exact Hx]. intros x Hxi. apply Hw; auto.
    + apply Rmult_le_compat_l; [apply pos_INR|]. pose proof (log_error_small T k) as L. rewrite ED in L at 1. specialize (L (small_sites _ S)). unfold acc_guard. lra.
    + apply Rlt_le, acc_guard_pos.
    + apply Rlt_le, Rinv_0_lt_compat, pow_lt. lra.
    + lia.
Qed.
