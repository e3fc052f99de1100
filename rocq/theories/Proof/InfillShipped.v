(** The shipped text-infilling sweeps: what their jobs start. *)
From Coq Require Import String List Bool ZArith Reals Lra Lia Arith.
From Verif.Base Require Import RSum Cube Dist.
From Verif.Spec Require Import LaunchSpec SamplerRun.
From Verif.Model Require Import MathUtil Gibbs RandomWalk GWG PathAux Langevin Config Launch RunConfigs Start FullRun InfillRun.
From Verif.Proof Require Import LaunchProof LaunchShipped.
Import ListNotations.
Local Open Scope string_scope.

Definition balancingb (ty : string) : bool := (String.eqb ty "SQRT" || String.eqb ty "RATIO")%bool.
(** Objects usable for four positions of more than two categories. *)
Definition lm_sampler (k : sampler) : bool :=
  match k with
  | SWalk _ => true
  | SGwgCat ty => balancingb ty
  | SPath ty true nf rate => (balancingb ty && Nat.leb 1 nf && Nat.leb nf 4)%bool
  | SDmala ty _ _ => balancingb ty
  | SDlmc ty _ _ solver => (balancingb ty && (String.eqb solver "interpolate" || String.eqb solver "euler_forward"))%bool
  | _ => false
  end.
Lemma balancingb_ok ty : balancingb ty = true -> balancing ty.
Proof. unfold balancingb, balancing. intros H. apply orb_prop in H. destruct H as [H|H]; apply String.eqb_eq in H; subst; cbn; auto. Qed.
Lemma lm_sampler_ok k lm e : lm_sampler k = true -> usable (fill_target lm 4 e) k.
Proof.
  destruct k as [| b | b | rate | ty nf | ty rate | ty | ty approx nf rate | ty c ss | ty c nn solver | ty]; cbn [lm_sampler usable]; try discriminate; auto using balancingb_ok.
  - destruct approx; [|discriminate]. intros H. apply andb_prop in H. destruct H as [H H2]. apply andb_prop in H. destruct H as [H H1]. apply Nat.leb_le in H1, H2.
    split; [apply balancingb_ok, H|]. split; [intros _; cbn; lia|discriminate].
  - intros H. apply andb_prop in H. destruct H as [H H2]. split; [apply balancingb_ok, H|]. apply orb_prop in H2. destruct H2 as [H2|H2]; apply String.eqb_eq in H2; auto.
Qed.
Definition is_int (z : Z) (o : option lit) : bool := match o with Some (LInt y) => Z.eqb y z | _ => false end.
Definition is_bool (b : bool) (o : option lit) : bool := match o with Some (LBool y) => Bool.eqb y b | _ => false end.
Definition is_tuple4 (o : option lit) : bool := match o with Some (LTuple [y]) => Z.eqb y 4 | _ => false end.
Lemma is_int_ok z o : is_int z o = true -> o = Some (LInt z).
Proof. destruct o as [[]|]; cbn; try discriminate. intros H. apply Z.eqb_eq in H. subst. reflexivity. Qed.
Lemma is_bool_ok z o : is_bool z o = true -> o = Some (LBool z).
Proof. destruct o as [[]|]; cbn; try discriminate. intros H. apply Bool.eqb_prop in H. subst. reflexivity. Qed.
Lemma is_tuple4_ok o : is_tuple4 o = true -> o = Some (LTuple [4%Z]).
Proof. destruct o as [[| | | |l]|]; cbn; try discriminate. destruct l as [|y [|]]; try discriminate. intros H. apply Z.eqb_eq in H. subst. reflexivity. Qed.

Definition lm_ok (repr : lit -> string) (a : table lit) : bool :=
  match configure repr shipped_modules (shipped_files "/workdir/") a with
  | Some c =>
      (is_int 50 (look "chain_length" (l_exp c)) && is_bool true (look "use_topk" (l_exp c)) && is_int 25 (look "num_same_resample" (l_exp c)) && is_int 5 (look "topk_num" (l_exp c))
       && is_int 1 (look "batch_size" (l_exp c)) && is_bool false (look "run_parallel" (l_exp c)) && is_tuple4 (look "shape" (l_model c)) && is_int 30522 (look "num_categories" (l_model c))
       && is_bool false (look "random_init_sample" (l_model c))
       && match start (fun _ => None) 1 c with Some r => (String.eqb (r_experiment r) "Text_Infilling_Experiment" && lm_sampler (r_sampler r))%bool | None => false end)%bool
  | None => false
  end.
Definition lm_sweep (j : job_config) (n : nat) : Prop := j = lm_base_bert_sampler_sweep /\ n = 19%nat \/ j = lm_large_bert_sampler_sweep /\ n = 9%nat.
Lemma lm_jobs repr root j n : lm_sweep j n -> match launch repr j [] root with Some jobs => (Nat.eqb (List.length jobs) n && forallb (lm_ok repr) jobs)%bool | None => false end = true.
Proof. intros [[-> ->]|[-> ->]]; vm_compute; reflexivity. Qed.

Theorem lm_started repr root j n : lm_sweep j n -> exists jobs, launch repr j [] root = Some jobs /\ List.length jobs = n /\ forall a, In a jobs ->
  exists c r, configure repr shipped_modules (shipped_files "/workdir/") a = Some c /\
    look "chain_length" (l_exp c) = Some (LInt 50) /\ look "use_topk" (l_exp c) = Some (LBool true) /\ look "num_same_resample" (l_exp c) = Some (LInt 25) /\
    look "topk_num" (l_exp c) = Some (LInt 5) /\ look "batch_size" (l_exp c) = Some (LInt 1) /\ look "run_parallel" (l_exp c) = Some (LBool false) /\
    look "shape" (l_model c) = Some (LTuple [4%Z]) /\ look "num_categories" (l_model c) = Some (LInt 30522) /\ look "random_init_sample" (l_model c) = Some (LBool false) /\
    start (fun _ => None) 1 c = Some r /\ r_experiment r = "Text_Infilling_Experiment" /\ forall lm e, usable (fill_target lm 4 e) (r_sampler r).
Proof.
  intros Hj. pose proof (lm_jobs repr root j n Hj) as H. destruct (launch repr j [] root) as [jobs|]; [|discriminate]. apply andb_prop in H. destruct H as [H1 H2].
  exists jobs. split; [reflexivity|]. split; [apply Nat.eqb_eq, H1|]. intros a Ha. rewrite forallb_forall in H2. specialize (H2 a Ha). unfold lm_ok in H2.
  destruct (configure repr shipped_modules (shipped_files "/workdir/") a) as [c|]; [|discriminate].
  repeat match goal with H : (_ && _)%bool = true |- _ => apply andb_prop in H; destruct H end.
  destruct (start (fun _ => None) 1 c) as [r|] eqn:Er; [|discriminate]. exists c, r. split; [reflexivity|].
  repeat match goal with H : (_ && _)%bool = true |- _ => apply andb_prop in H; destruct H end.
  do 10 (split; [first [apply is_int_ok; assumption|apply is_bool_ok; assumption|apply is_tuple4_ok; assumption|assumption|reflexivity]|]).
  split; [apply String.eqb_eq; assumption|]. intros lm e. apply lm_sampler_ok. assumption.
Qed.
