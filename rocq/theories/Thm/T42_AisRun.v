(** C100: the log partition values an annealing run of an image model saves. *)
From Coq Require Import String Reals List Arith ZArith Lra Lia.
From Verif.Base Require Import RSum Cube Dist.
From Verif.Spec Require Import Chain LaunchSpec SamplerRun AisRunSpec.
From Verif.Model Require Import MathUtil Launch RunConfigs Start FullRun Experiment AisRun.
From Verif.Proof Require Import ErgodicProof LaunchShipped AisChains AisExperiment AisAny AisConsequences AisRefute AisWalk AisShipped.
Import ListNotations.
Local Open Scope R_scope.

(** ** Any sampler object *)
(** Every run saves one number per step; energies within M of zero keep the n-th of L numbers within (n/L) M of zero. *)
Theorem C100_saved g dg lg net mean grad d L B k M devices : match mean with Some m => image_mean d m | None => True end -> bounded_by d net M ->
  (0 < L)%nat -> (0 < d)%nat -> (0 < B)%nat -> usable (ais_target lg net mean grad d L 0) k -> shared devices B ->
  let run := ais_experiment g dg lg net mean grad d k devices B L in
  is_prob run /\ forall zs w, In (zs, w) run -> length zs = L /\ forall n, (n < L)%nat -> Rabs (nth n zs 0) <= INR (S n) / INR L * M.
Proof. intros Hm Hb HL Hd HB Hu Hs. exact (any_experiment g dg lg net mean grad d L B k M devices Hm Hb HL Hd HB Hu Hs). Qed.
Example C100_saved_case : image_mean 3 [1 / 4; 0; 1] /\ bounded_by 3 (fun x => INR (nth 0 x 0%nat)) 1 /\ usable (ais_target 0 (fun _ => 0) (Some [1 / 4; 0; 1]) (fun _ _ _ => 0) 3 5 0) (SHamming 10) /\
  usable (ais_target 0 (fun _ => 0) (Some [1 / 4; 0; 1]) (fun _ _ _ => 0) 3 5 0) (SWalk (Some (1 / 4))) /\ shared (Some 4%nat) 100.
Proof.
  split; [split; [reflexivity|repeat constructor; lra]|]. split.
  - intros x Hx. apply in_states in Hx. destruct Hx as [Hl Hx]. destruct x as [|v x]; [discriminate|]. inversion Hx. subst. cbn [nth]. destruct v as [|[|v]]; [| |lia]; cbn [INR]; [rewrite Rabs_R0|rewrite Rabs_R1]; lra.
  - split; [cbn; lia|]. split; [exact I|]. split; [lia|exists 25%nat; reflexivity].
Qed.

(** A batch that the devices cannot share saves nothing. *)
Theorem C100_unshared g dg lg net mean grad d L B k n o : (0 < n)%nat -> ~ Nat.divide n B -> ~ In o (ais_experiment g dg lg net mean grad d k (Some n) B L).
Proof.
  intros Hn Hd Hin. destruct o as [zs w]. unfold ais_experiment in Hin. apply AdaptiveRunProof.in_bind in Hin. destruct Hin as (xs & v & v' & _ & Hin).
  rewrite (deal_unshared k n B xs Hn Hd) in Hin. exact Hin.
Qed.
Example C100_unshared_case : (0 < 8)%nat /\ ~ Nat.divide 8 100.
Proof. split; [lia|]. intros [q Hq]. lia. Qed.

(** Whatever the sampler object, the exponential of the first number has the right mean, exactly. *)
Theorem C100_first g dg lg net mean grad d L B k M devices : image_mean d mean -> bounded_by d net M -> (0 < L)%nat -> (0 < d)%nat -> (0 < B)%nat ->
  usable (ais_target lg net (Some mean) grad d L 0) k -> shared devices B ->
  E (ais_experiment g dg lg net (Some mean) grad d k devices B L) (fun zs => exp (nth 0 zs 0)) = partition mean net (1 / INR L).
Proof. intros. apply (first_unbiased g dg lg net mean grad d L B k devices M); assumption. Qed.
Example C100_first_case g dg grad : E (ais_experiment g dg 0 (fun x => if Nat.eqb (nth 0 x 0%nat) 1 then ln 3 else 0) (Some [1 / 2]) grad 1 (SHamming 1) (Some 4%nat) 100 1) (fun zs => exp (nth 0 zs 0)) = 2.
Proof.
  rewrite (C100_first g dg 0 _ [1 / 2] grad 1 1 100 (SHamming 1) (ln 3) (Some 4%nat)).
  - unfold partition. cbn. unfold pixels. cbn. replace (1 / 1 * ln 3) with (ln 3) by field. rewrite Rmult_0_r, exp_0, exp_ln by lra. field.
  - split; [reflexivity|repeat constructor; lra].
  - intros x _. assert (0 < ln 3) by (rewrite <- ln_1; apply ln_increasing; lra). destruct (Nat.eqb _ _); [rewrite Rabs_right; lra|rewrite Rabs_R0; lra].
  - lia.
  - lia.
  - lia.
  - cbn. lia.
  - split; [lia|exists 25%nat; reflexivity].
Qed.

(** "The values follow the energies" is false of a model without data mean: the temperature is not used and every number is zero. *)
Theorem C100_no_mean_refuted g dg lg net grad d L B k devices zs w : (0 < L)%nat -> (0 < d)%nat -> (0 < B)%nat -> usable (ais_target lg net None grad d L 0) k -> shared devices B ->
  In (zs, w) (ais_experiment g dg lg net None grad d k devices B L) -> forall n, (n < L)%nat -> nth n zs 0 = 0.
Proof. apply no_mean_zero. Qed.
Example C100_no_mean_case : usable (ais_target 0 (fun _ => 5) None (fun _ _ _ => 0) 3 5 0) (SBlock 2) /\ shared (Some 4%nat) 100 /\ partition (repeat (1 / 2) 1) (fun _ => 5) 1 = exp 5.
Proof. split; [exact I|]. split; [split; [lia|exists 25%nat; reflexivity]|]. unfold partition. cbn. unfold pixels. cbn. rewrite Rmult_1_l. field. Qed.

(** ** Sampler objects with a fixed rule *)
(** The saved list is the list of log-means over the chains, one per step, and the chains are independent copies of one law of L
    log-weights, however many chains there are and however many devices share them. *)
Theorem C100_chains g dg lg net mean grad d L k M : image_mean d mean -> bounded_by d net M -> (0 < L)%nat -> (0 < d)%nat ->
  usable (ais_target lg net (Some mean) grad d L 0) k -> fixed_rule (ais_target lg net (Some mean) grad d L 0) k ->
  exists law : dist (list R), is_prob law /\ (forall r w, In (r, w) law -> length r = L /\ forall n, (n < L)%nat -> Rabs (nth n r 0) <= INR (S n) / INR L * M) /\
    forall devices B F, (0 < B)%nat -> shared devices B ->
      E (ais_experiment g dg lg net (Some mean) grad d k devices B L) F = E (indep (repeat law B)) (fun rows => F (per_step L rows)).
Proof. intros. apply (chain_structure g dg lg net mean grad d L k M); assumption. Qed.

(** The exponential of the n-th number has the partition function at n/L as mean, up to what the small constants of the code contribute. *)
Theorem C100_mean g dg lg net mean grad d L k M devices B n : 0 <= g -> 0 <= dg -> 0 <= lg -> image_mean d mean -> logs_defined lg mean -> bounded_by d net M ->
  (0 < d)%nat -> (0 < B)%nat -> (n < L)%nat -> usable (ais_target lg net (Some mean) grad d L 0) k -> fixed_rule (ais_target lg net (Some mean) grad d L 0) k -> shared devices B ->
  Rabs (E (ais_experiment g dg lg net (Some mean) grad d k devices B L) (fun zs => exp (nth n zs 0)) - partition mean net (INR (S n) / INR L))
  <= ais_error lg (log_error (ais_target lg net (Some mean) grad d L 0) k dg + 2 * g) M d (S n) L.
Proof. intros Hg Hdg Hlg Hm Hl Hb Hd HB Hn Hu Hf Hs. apply experiment_mean; try assumption. lia. Qed.

(** With exact arithmetic, without the constants: exactly. *)
Theorem C100_exact net mean grad d L k M devices B n : image_mean d mean -> Forall (fun m => 0 < m < 1) mean -> bounded_by d net M ->
  (0 < d)%nat -> (0 < B)%nat -> (n < L)%nat -> usable (ais_target 0 net (Some mean) grad d L 0) k -> fixed_rule (ais_target 0 net (Some mean) grad d L 0) k -> shared devices B ->
  E (ais_experiment 0 0 0 net (Some mean) grad d k devices B L) (fun zs => exp (nth n zs 0)) = partition mean net (INR (S n) / INR L).
Proof.
  intros Hm Hi Hb Hd HB Hn Hu Hf Hs. pose proof (C100_mean 0 0 0 net mean grad d L k M devices B n (Rle_refl 0) (Rle_refl 0) (Rle_refl 0) Hm (or_intror (conj eq_refl Hi)) Hb Hd HB Hn Hu Hf Hs) as H.
  rewrite no_error in H. revert H. set (x := E _ _ - _). intros H. apply Rminus_diag_uniq. fold x. pose proof (Rle_abs x). pose proof (Rle_abs (- x)). rewrite Rabs_Ropp in *. lra.
Qed.
Example C100_exact_case grad : E (ais_experiment 0 0 0 (fun x => if Nat.eqb (nth 0 x 0%nat) 1 then ln 4 else 0) (Some [1 / 3]) grad 1 SGibbs (Some 4%nat) 8 7) (fun zs => exp (nth 6 zs 0)) = 2.
Proof.
  rewrite (C100_exact _ [1 / 3] grad 1 7 SGibbs (ln 4) (Some 4%nat) 8 6).
  - replace (INR 7 / INR 7) with 1 by (field; apply not_0_INR; lia). unfold partition. cbn. unfold pixels. cbn. rewrite !Rmult_1_l, ?Rmult_0_r, exp_0, exp_ln by lra. field.
  - split; [reflexivity|repeat constructor; lra].
  - repeat constructor; lra.
  - intros x _. assert (0 < ln 4) by (rewrite <- ln_1; apply ln_increasing; lra). destruct (Nat.eqb _ _); [rewrite Rabs_right; lra|rewrite Rabs_R0; lra].
  - lia.
  - lia.
  - lia.
  - exact I.
  - exact I.
  - split; [lia|exists 2%nat; reflexivity].
Qed.

(** On average the saved number itself is at most the logarithm of the partition function ... *)
Theorem C100_below g dg lg net mean grad d L k M devices B n : 0 <= g -> 0 <= dg -> 0 <= lg -> image_mean d mean -> logs_defined lg mean -> bounded_by d net M ->
  (0 < d)%nat -> (0 < B)%nat -> (n < L)%nat -> usable (ais_target lg net (Some mean) grad d L 0) k -> fixed_rule (ais_target lg net (Some mean) grad d L 0) k -> shared devices B ->
  E (ais_experiment g dg lg net (Some mean) grad d k devices B L) (fun zs => nth n zs 0)
  <= ln (partition mean net (INR (S n) / INR L) + ais_error lg (log_error (ais_target lg net (Some mean) grad d L 0) k dg + 2 * g) M d (S n) L).
Proof. intros Hg Hdg Hlg Hm Hl Hb Hd HB Hn Hu Hf Hs. apply log_below; try assumption. lia. Qed.
(** ... it is above the logarithm of a with probability at most (partition function) / a ... *)
Theorem C100_tail g dg lg net mean grad d L k M devices B n a dec : 0 <= g -> 0 <= dg -> 0 <= lg -> image_mean d mean -> logs_defined lg mean -> bounded_by d net M ->
  (0 < d)%nat -> (0 < B)%nat -> (n < L)%nat -> usable (ais_target lg net (Some mean) grad d L 0) k -> fixed_rule (ais_target lg net (Some mean) grad d L 0) k -> shared devices B -> 0 < a ->
  prob (ais_experiment g dg lg net (Some mean) grad d k devices B L) (fun zs => ln a <= nth n zs 0) dec
  <= (partition mean net (INR (S n) / INR L) + ais_error lg (log_error (ais_target lg net (Some mean) grad d L 0) k dg + 2 * g) M d (S n) L) / a.
Proof. intros Hg Hdg Hlg Hm Hl Hb Hd HB Hn Hu Hf Hs Ha. apply log_tail; try assumption. lia. Qed.
(** ... and its exponential is within delta of the partition function but for a probability that vanishes with the number of chains. *)
Theorem C100_converges g dg lg net mean grad d L k M devices B n delta : let err := ais_error lg (log_error (ais_target lg net (Some mean) grad d L 0) k dg + 2 * g) M d (S n) L in
  0 <= g -> 0 <= dg -> 0 <= lg -> image_mean d mean -> logs_defined lg mean -> bounded_by d net M ->
  (0 < d)%nat -> (0 < B)%nat -> (n < L)%nat -> usable (ais_target lg net (Some mean) grad d L 0) k -> fixed_rule (ais_target lg net (Some mean) grad d L 0) k -> shared devices B -> 0 < delta -> forall dec,
  prob (ais_experiment g dg lg net (Some mean) grad d k devices B L) (fun zs => delta + err <= Rabs (exp (nth n zs 0) - partition mean net (INR (S n) / INR L))) dec
  <= exp (2 * (INR (S n) / INR L * M)) / INR B / delta ^ 2.
Proof. intros err Hg Hdg Hlg Hm Hl Hb Hd HB Hn Hu Hf Hs Hdl dec. apply weight_concentrates; try assumption. lia. Qed.
Example C100_fixed_case : image_mean 3 [1 / 4; 0; 1] /\ logs_defined (/ 10 ^ 20) [1 / 4; 0; 1] /\
  let T := ais_target (/ 10 ^ 20) (fun x => INR (nth 0 x 0%nat)) (Some [1 / 4; 0; 1]) (fun _ _ _ => 0) 3 5 0 in
  Forall (fun k => usable T k /\ fixed_rule T k) [SGibbs; SBlock 2; SWalk None; SGwg "SQRT" 1].
Proof.
  split; [split; [reflexivity|repeat constructor; lra]|]. split; [left; lra|]. cbv zeta. repeat constructor; cbn; auto.
Qed.

(** ** Sampler objects that change their rule or share a draw *)
(** "The exponential of the last number is unbiased" is false of Hamming balls with blocks of at least two: for every block size, image
    size and number of chains there are energies for which its mean is too small, whatever the constants. *)
Theorem C100_hamming_refuted b d : (2 <= b <= d)%nat -> exists net mean M, image_mean d mean /\ Forall (fun m => 0 < m < 1) mean /\ bounded_by d net M /\
  forall g dg lg grad B, 0 <= lg -> (0 < B)%nat ->
    E (ais_experiment g dg lg net (Some mean) grad d (SHamming b) None B 2) (fun zs => exp (nth 1 zs 0)) < partition mean net 1.
Proof.
  intros Hb. exists black_net, (half_mean d), (2 * ln 2). split; [apply half_image|]. split; [apply Forall_forall; intros m Hm; apply repeat_spec in Hm; lra|]. split; [apply black_bounded|].
  intros. apply ball_biased; assumption.
Qed.
(** It is false of the adaptive random walk: two pixels, one chain, three steps, every acceptance target up to a half. *)
Theorem C100_adaptive_refuted : exists net mean M, image_mean 2 mean /\ Forall (fun m => 0 < m < 1) mean /\ bounded_by 2 net M /\
  forall g dg lg grad t, 0 <= g <= 1 / 1000 -> 0 <= lg -> 0 <= t <= 1 / 2 ->
    E (ais_experiment g dg lg net (Some mean) grad 2 (SWalk (Some t)) None 1 3) (fun zs => exp (nth 2 zs 0)) <= partition mean net 1 - 1 / 40.
Proof.
  exists white_net, (half_mean 2), (3 * ln 2). split; [apply half_image|]. split; [repeat constructor; lra|]. split; [apply white_bounded|]. intros. apply walk_biased; assumption.
Qed.
Example C100_adaptive_case : 0 <= acc_guard <= 1 / 1000 /\ 0 <= 234 / 1000 <= 1 / 2.
Proof. unfold acc_guard. lra. Qed.

(** ** The shipped sweep *)
(** Its 24 jobs run ten thousand steps of a hundred chains on four devices: block Gibbs jobs with blocks of two, Hamming balls with
    blocks of ten, and adaptive objects. *)
Theorem C100_shipped repr root : exists jobs, launch repr binray_ebm_logz [] root = Some jobs /\ length jobs = 24%nat /\ forall a, In a jobs ->
  exists c, configure repr shipped_modules (shipped_files "/workdir/") a = Some c /\ look "chain_length" (l_exp c) = Some (LInt 10000) /\
    look "batch_size" (l_exp c) = Some (LInt 100) /\ look "run_parallel" (l_exp c) = Some (LBool true) /\ gpus binray_ebm_logz = 4%nat /\
    forall ck vis hid sh im, (forall p, ck p = Some (stored "resnet" 2 vis hid sh im)) -> exists r, start ck 4 c = Some r /\ r_experiment r = "EBM_Experiment"%string /\
      (asked "sampler_config.name" a "" = "blockgibbs"%string -> r_sampler r = SBlock 2) /\
      (asked "sampler_config.name" a "" = "hammingball"%string -> r_sampler r = SHamming 10) /\
      (asked "sampler_config.name" a "" <> "blockgibbs"%string -> asked "sampler_config.name" a "" <> "hammingball"%string -> adaptive (r_sampler r)).
Proof.
  destruct (launch repr binray_ebm_logz [] root) as [jobs|] eqn:Hl.
  - exists jobs. split; [reflexivity|]. split; [exact (logz_count repr root jobs Hl)|]. intros a Ha. exact (logz_started repr root jobs a Hl Ha).
  - exfalso. pose proof (logz_jobs repr root 0 0 [] []) as H. rewrite Hl in H. discriminate.
Qed.
(** Its block Gibbs jobs, for at most a million pixels, with the constants of the code: right up to 1e-12 times the largest weight. *)
Theorem C100_shipped_block net mean grad d M n L : Z.of_nat L = 10000%Z -> image_mean d mean -> bounded_by d net M -> (0 < d)%nat -> INR d <= 10 ^ 6 -> (n < L)%nat ->
  Rabs (E (ais_experiment acc_guard (/ 10 ^ 32) (/ 10 ^ 20) net (Some mean) grad d (SBlock 2) (Some 4%nat) 100 L) (fun zs => exp (nth n zs 0)) - partition mean net (INR (S n) / INR L))
  <= / 10 ^ 12 * exp (INR (S n) / INR L * M).
Proof. intros. apply block_error; assumption. Qed.
Example C100_shipped_case : exists d L, Z.of_nat L = 10000%Z /\ INR d <= 10 ^ 6 /\ image_mean d (repeat (1 / 10) d) /\ (1 < d)%nat.
Proof.
  exists 784%nat, (Z.to_nat 10000). split; [rewrite Z2Nat.id; lia|]. split; [rewrite INR_IZR_INZ; apply (Rle_trans _ 784); [apply IZR_le; lia|lra]|]. split; [|lia].
  split; [apply repeat_length|]. apply Forall_forall. intros m Hm. apply repeat_spec in Hm. lra.
Qed.

Print Assumptions C100_saved.
Print Assumptions C100_unshared.
Print Assumptions C100_first.
Print Assumptions C100_no_mean_refuted.
Print Assumptions C100_chains.
Print Assumptions C100_mean.
Print Assumptions C100_exact.
Print Assumptions C100_below.
Print Assumptions C100_tail.
Print Assumptions C100_converges.
Print Assumptions C100_hamming_refuted.
Print Assumptions C100_adaptive_refuted.
Print Assumptions C100_shipped.
Print Assumptions C100_shipped_block.
