(** The shipped sweep over annealing runs: what its jobs start, and the size of the error of its block Gibbs jobs. *)
From Coq Require Import String List Bool ZArith Reals Lra Lia Arith.
From Verif.Base Require Import RSum Cube Dist.
From Verif.Spec Require Import Chain LaunchSpec SamplerRun AisRunSpec.
From Verif.Model Require Import MathUtil Gibbs RandomWalk GWG PathAux Langevin Config Launch RunConfigs Start FullRun Experiment AisRun.
From Verif.Proof Require Import LaunchProof LaunchShipped AisBias AisExperiment.
Import ListNotations.
Local Open Scope string_scope.

Definition adaptiveb (k : sampler) : bool :=
  match k with
  | SWalk (Some _) | SGwgAdapt _ _ | SPath _ _ _ (Some _) => true
  | SDmala _ c _ | SDlmc _ c _ _ => lc_adaptive c
  | _ => false
  end.
Lemma adaptiveb_ok k : adaptiveb k = true -> adaptive k.
Proof. destruct k; cbn; try discriminate; auto; destruct rate; try discriminate; intros _ E; discriminate E. Qed.

Definition logz_sampler (name : string) (k : sampler) : bool :=
  if String.eqb name "blockgibbs" then match k with SBlock b => Nat.eqb b 2 | _ => false end
  else if String.eqb name "hammingball" then match k with SHamming b => Nat.eqb b 10 | _ => false end
  else adaptiveb k.
Definition logz_ok (repr : lit -> string) (vis hid : Z) (sh im : list Z) (a : table lit) : bool :=
  match configure repr shipped_modules (shipped_files "/workdir/") a with
  | Some c =>
      match as_int (look "chain_length" (l_exp c)), as_int (look "batch_size" (l_exp c)), as_bool (look "run_parallel" (l_exp c)), start (fun _ => Some (stored "resnet" 2 vis hid sh im)) 4 c with
      | Some L, Some B, Some true, Some r => (Z.eqb L 10000 && Z.eqb B 100 && String.eqb (r_experiment r) "EBM_Experiment" && logz_sampler (asked "sampler_config.name" a "") (r_sampler r))%bool
      | _, _, _, _ => false
      end
  | None => false
  end.
Lemma logz_jobs repr root vis hid sh im : match launch repr binray_ebm_logz [] root with Some jobs => (Nat.eqb (List.length jobs) 24 && forallb (logz_ok repr vis hid sh im) jobs)%bool | None => false end = true.
Proof. vm_compute. reflexivity. Qed.

Lemma logz_count repr root jobs : launch repr binray_ebm_logz [] root = Some jobs -> List.length jobs = 24%nat.
Proof. intros H. pose proof (logz_jobs repr root 0 0 [] []) as K. rewrite H in K. apply andb_prop in K. apply Nat.eqb_eq, K. Qed.
Lemma as_int_look o z : as_int o = Some z -> o = Some (LInt z).
Proof. destruct o as [[]|]; cbn; try discriminate. intros [= ->]. reflexivity. Qed.
Lemma as_bool_look o b : as_bool o = Some b -> o = Some (LBool b).
Proof. destruct o as [[]|]; cbn; try discriminate. intros [= ->]. reflexivity. Qed.

Lemma logz_started repr root jobs a : launch repr binray_ebm_logz [] root = Some jobs -> In a jobs ->
  exists c, configure repr shipped_modules (shipped_files "/workdir/") a = Some c /\ look "chain_length" (l_exp c) = Some (LInt 10000) /\
    look "batch_size" (l_exp c) = Some (LInt 100) /\ look "run_parallel" (l_exp c) = Some (LBool true) /\ gpus binray_ebm_logz = 4%nat /\
    forall ck vis hid sh im, (forall p, ck p = Some (stored "resnet" 2 vis hid sh im)) -> exists r, start ck 4 c = Some r /\ r_experiment r = "EBM_Experiment" /\
      (asked "sampler_config.name" a "" = "blockgibbs" -> r_sampler r = SBlock 2) /\
      (asked "sampler_config.name" a "" = "hammingball" -> r_sampler r = SHamming 10) /\
      (asked "sampler_config.name" a "" <> "blockgibbs" -> asked "sampler_config.name" a "" <> "hammingball" -> adaptive (r_sampler r)).
Proof.
  intros Hl Ha.
  assert (K : forall vis hid sh im, logz_ok repr vis hid sh im a = true).
  { intros vis hid sh im. pose proof (logz_jobs repr root vis hid sh im) as H. rewrite Hl in H. apply andb_prop in H. destruct H as [_ H]. rewrite forallb_forall in H. exact (H a Ha). }
  pose proof (K 0%Z 0%Z [] []) as K0. unfold logz_ok in K, K0. destruct (configure repr shipped_modules (shipped_files "/workdir/") a) as [c|]; [|discriminate].
  exists c. split; [reflexivity|].
  destruct (as_int (look "chain_length" (l_exp c))) as [L|] eqn:EL; [|discriminate]. destruct (as_int (look "batch_size" (l_exp c))) as [B|] eqn:EB; [|discriminate].
  destruct (as_bool (look "run_parallel" (l_exp c))) as [[]|] eqn:EP; try discriminate. apply as_int_look in EL, EB. apply as_bool_look in EP.
  destruct (start _ 4 c) as [r0|] in K0; [|discriminate]. apply andb_prop in K0. destruct K0 as [K0 _]. apply andb_prop in K0. destruct K0 as [K0 _]. apply andb_prop in K0. destruct K0 as [KL KB].
  apply Z.eqb_eq in KL, KB. subst L B. do 4 (split; [assumption || reflexivity|]). intros ck vis hid sh im Hck. specialize (K vis hid sh im).
  rewrite <- (start_ext ck _ 4 c) in K by exact Hck. destruct (start ck 4 c) as [r|]; [|discriminate]. exists r. split; [reflexivity|].
  apply andb_prop in K. destruct K as [K K2]. apply andb_prop in K. destruct K as [_ K1]. apply String.eqb_eq in K1. split; [exact K1|].
  unfold logz_sampler in K2. repeat split.
  - intros E. rewrite E in K2. cbn [String.eqb Ascii.eqb Bool.eqb] in K2. destruct (r_sampler r); try discriminate. apply Nat.eqb_eq in K2. subst. reflexivity.
  - intros E. rewrite E in K2. cbn [String.eqb Ascii.eqb Bool.eqb] in K2. destruct (r_sampler r); try discriminate. apply Nat.eqb_eq in K2. subst. reflexivity.
  - intros N1 N2. apply String.eqb_neq in N1, N2. rewrite N1, N2 in K2. apply adaptiveb_ok, K2.
Qed.

Local Open Scope R_scope.
Lemma one_plus_pow x d : 0 <= x -> INR d * x <= 1 / 2 -> (1 + x) ^ d - 1 <= 2 * (INR d * x).
Proof.
  intros Hx Hd. assert (Hp : (1 + x) ^ d <= exp (INR d * x)).
  { clear Hd. induction d as [|d IH]; [cbn; rewrite Rmult_0_l, exp_0; lra|]. cbn [pow]. rewrite S_INR. replace ((INR d + 1) * x) with (x + INR d * x) by ring. rewrite exp_plus.
    apply Rmult_le_compat; [lra|apply pow_le; lra|apply exp_ineq1_le|exact IH]. }
  set (y := INR d * x) in *. assert (Hy : 0 <= y) by (apply Rmult_le_pos; [apply pos_INR|exact Hx]).
  pose proof (exp_ineq1_le (- y)) as H. rewrite exp_Ropp in H. pose proof (exp_pos y) as He.
  assert (H2 : exp y * (1 - y) <= 1). { apply Rmult_le_compat_l with (r := exp y) in H; [|lra]. rewrite Rinv_r in H by lra. lra. }
  nra.
Qed.

(** At most a million pixels, the constants of the code, ten thousand steps. *)
Lemma shipped_error M d n L : Z.of_nat L = 10000%Z -> INR d <= 10 ^ 6 -> (n <= L)%nat -> ais_error (/ 10 ^ 20) (0 + 2 * / 10 ^ 24) M d n L <= / 10 ^ 12 * exp (INR n / INR L * M).
Proof.
  intros HL Hd Hn. unfold ais_error. apply Rmult_le_compat_r; [left; apply exp_pos|].
  assert (Hn' : INR n <= 10000) by (apply le_INR in Hn; rewrite (INR_IZR_INZ L), HL in Hn; exact Hn). pose proof (pos_INR n). pose proof (pos_INR d).
  assert (Hs : 0 <= mean_shift (/ 10 ^ 20) d <= / 10 ^ 13).
  { unfold mean_shift. split.
    - assert (1 <= (1 + 2 * / 10 ^ 20) ^ d) by (apply pow_R1_Rle; lra). lra.
    - eapply Rle_trans; [apply one_plus_pow; [lra|]|]; lra. }
  set (m := mean_shift _ d) in *. assert (INR n * (0 + 2 * / 10 ^ 24) <= / 10 ^ 19) by lra. assert (0 <= INR n * (0 + 2 * / 10 ^ 24)) by nra.
  set (q := INR n * (0 + 2 * / 10 ^ 24)) in *. assert (q * (1 + m) <= / 10 ^ 19 * 2) by (apply Rmult_le_compat; lra). lra.
Qed.

Lemma block_error net mean grad d M n L : Z.of_nat L = 10000%Z -> image_mean d mean -> bounded_by d net M -> (0 < d)%nat -> INR d <= 10 ^ 6 -> (n < L)%nat ->
  Rabs (E (ais_experiment acc_guard (/ 10 ^ 32) (/ 10 ^ 20) net (Some mean) grad d (SBlock 2) (Some 4%nat) 100 L) (fun zs => exp (nth n zs 0)) - partition mean net (INR (S n) / INR L))
  <= / 10 ^ 12 * exp (INR (S n) / INR L * M).
Proof.
  intros HZ Hm Hb Hd Hd6 Hn. assert (HL : (0 < L)%nat) by lia.
  assert (Hsh : shared (Some 4%nat) 100) by (split; [lia|exists 25%nat; reflexivity]).
  assert (Hg : 0 <= acc_guard) by (unfold acc_guard; lra). assert (Hdg : 0 <= / 10 ^ 32) by lra. assert (Hlg : 0 < / 10 ^ 20) by lra. assert (HB : (0 < 100)%nat) by lia.
  assert (H2 := experiment_mean acc_guard (/ 10 ^ 32) (/ 10 ^ 20) net mean grad d L (SBlock 2) M Hg Hdg (Rlt_le _ _ Hlg) Hm (or_introl Hlg) Hb HL Hd I I (Some 4%nat) 100%nat n Hsh HB Hn).
  eapply Rle_trans; [exact H2|]. cbn [log_error]. unfold acc_guard. apply shipped_error; [exact HZ|exact Hd6|lia].
Qed.
