(** C98: the random keys of the draws of a run. *)
From Coq Require Import List Reals Arith Bool Lia.
From Verif.Base Require Import Dist.
From Verif.Model Require Import Utils Keys.
From Verif.Spec Require Import KeysSpec.
From Verif.Proof Require Import KeysProof KeysRun.
Import ListNotations.
Local Open Scope nat_scope.

(** Draws are independent exactly when their keys are pairwise different numbers. *)
Theorem C98_independent m ks : independent m ks <-> NoDup (map (name m) ks).
Proof. apply independent_iff. Qed.
Example C98_independent_example : independent Original [Root 0; Split (Root 0) 2 0; FoldIn (Root 0) 0] /\ ~ independent FoldLike [Root 0; Split (Root 0) 2 0; FoldIn (Root 0) 0].
Proof.
  split; [apply independent_iff; cbn; repeat constructor; cbn; intuition discriminate|]. intros H. apply independent_iff in H. cbn in H. inversion H as [|? ? _ H']; inversion H' as [|? ? H'' _]. apply H''. left; reflexivity.
Qed.

(** All draws of a run of the classical models: every model but the categorical factorial HMM, every sampler, any number of devices and steps; with the
    newer derivation of keys, at most two devices. *)
Theorem C98_sampling m p s rounds devices burn len rnd_key : (forall l, p <> ICategFhmm l) -> 1 <= burn -> m = Original \/ devices <= 2 ->
  independent m (sampling_keys p s rounds devices burn len (experiment_key rnd_key)).
Proof. intros Hp Hb Hm. apply independent_iff, pw_nodup, sampling_differ; [|exact Hb|exact Hm|discriminate]. destruct p; try reflexivity. exfalso; eapply Hp; reflexivity. Qed.
Example C98_sampling_example : sampling_keys IOne KRandomWalk (fun _ _ => 0) 1 2 2 (experiment_key 5) =
  [Split (Split (Root 0) 3 0) 1 0; Split (Root 0) 3 1; Split (Root 0) 2 0; Root 10;
   Split (Split (Split (FoldIn (Root 10) 1) 1 0) 2 0) 2 0; Split (Split (Split (FoldIn (Root 10) 1) 1 0) 2 0) 2 1; Split (Split (FoldIn (Root 10) 1) 1 0) 2 1;
   Split (Split (Split (FoldIn (FoldIn (Root 10) 1) 2) 1 0) 2 0) 2 0; Split (Split (Split (FoldIn (FoldIn (Root 10) 1) 2) 1 0) 2 0) 2 1; Split (Split (FoldIn (FoldIn (Root 10) 1) 2) 1 0) 2 1].
Proof. reflexivity. Qed.
(** Categorical factorial HMM: one key draws both the initial probabilities and the first hidden row. *)
Theorem C98_categ_fhmm_refuted m l s rounds devices burn len rnd_key : ~ independent m (sampling_keys (ICategFhmm l) s rounds devices burn len (experiment_key rnd_key)).
Proof.
  eapply (repeated m _ _ _ [_]); [unfold sampling_keys, initial_keys; cbn [init_keys app]; reflexivity|left; reflexivity| |reflexivity].
  cbn [sample_x_keys app]. left. reflexivity.
Qed.
(** With the newer derivation and three devices or more, device 2 of step 1 has the key that step 2 splits. *)
Theorem C98_devices_refuted p rounds devices burn len rnd_key : 3 <= devices -> 1 <= burn -> 2 <= len ->
  ~ independent FoldLike (sampling_keys p KRandomWalk rounds devices burn len (experiment_key rnd_key)).
Proof.
  intros Hd Hb Hl. destruct (steps_seq burn len Hb) as (T & HT & HM). eapply repeated_prefix; [apply (walk_collision rounds devices (Root 10) T); lia|].
  unfold sampling_keys. rewrite HT, app_assoc. reflexivity.
Qed.
Example C98_devices_example : name FoldLike (Split (Split (Split (FoldIn (Root 10) 1) 8 2) 2 0) 2 1) = name FoldLike (Split (Split (FoldIn (FoldIn (Root 10) 1) 2) 8 0) 2 1).
Proof. reflexivity. Qed.

(** Graph problems, one group of instances. *)
Theorem C98_graphs x num_samples s rounds instances burn len rnd_key : 1 <= burn -> independent Original (co_keys x num_samples s rounds instances burn len (experiment_key rnd_key)).
Proof.
  intros Hb. apply independent_iff, pw_nodup, (co_pw _ Original); [exact Hb|apply apart_name|apply chain_differ_some; left; reflexivity|].
  intros a b Ha Hb'. apply apart_name. eapply co_start_chain; eassumption.
Qed.
Theorem C98_graphs_newer num_samples s rounds instances burn len rnd_key : 1 <= burn -> instances <= 2 -> independent FoldLike (co_keys POne num_samples s rounds instances burn len (experiment_key rnd_key)).
Proof.
  intros Hb Hn. apply independent_iff, pw_nodup, (co_pw _ FoldLike); [exact Hb|apply apart_name|apply chain_differ_some; right; exact Hn|].
  intros a b [<-|[]] Hb' He. apply (chain_some_long FoldLike) in Hb'. unfold name in He. injection He as _ He. rewrite <- He in Hb'. cbn in Hb'. lia.
Qed.
Example C98_graphs_example : co_keys PNormcut 2 (KPathAux true) (fun _ _ => 0) 1 1 1 (experiment_key 0) =
  [Split (Split (Split (Root 0) 3 1) 2 0) 2 0; Split (Split (Split (Root 0) 3 1) 2 0) 2 1; Split (Split (Split (Root 0) 3 1) 2 1) 2 0; Split (Split (Split (Root 0) 3 1) 2 1) 2 1;
   Split (Split (FoldIn (Root 0) 1) 1 0) 2 0; Split (Split (Split (FoldIn (Root 0) 1) 1 0) 2 0) 2 0; Split (Split (FoldIn (Root 0) 1) 1 0) 2 1].
Proof. reflexivity. Qed.
(** With the newer derivation the shipped sizes collide: three instances or more with the random walk; the balanced-partition problem with every gradient sampler. *)
Theorem C98_graphs_refuted x num_samples rounds instances burn len rnd_key : 3 <= instances -> 1 <= burn -> 2 <= len ->
  ~ independent FoldLike (co_keys x num_samples KRandomWalk rounds instances burn len (experiment_key rnd_key)).
Proof.
  intros Hd Hb Hl. destruct (steps_seq burn len Hb) as (T & HT & HM). eapply repeated_prefix; [apply (walk_collision rounds instances (Root 0) T); lia|].
  unfold co_keys. rewrite HT. reflexivity.
Qed.
Theorem C98_normcut_refuted num_samples s rounds instances burn len rnd_key : two_way s = true -> s <> KRandomWalk ->
  1 <= num_samples -> 1 <= instances -> 1 <= burn -> 1 <= len -> ~ independent FoldLike (co_keys PNormcut num_samples s rounds instances burn len (experiment_key rnd_key)).
Proof.
  intros Hs Hw Hns Hn Hb Hl. destruct (steps_seq burn len Hb) as (T & HT & HM).
  destruct (normcut_collision s rounds instances num_samples (Root 0) T Hs Hw Hn Hns) as (a & b & Ha & Hb' & He); [lia|].
  apply (repeated FoldLike a b _ (start_keys PNormcut num_samples (Split (Root 0) 3 1)) (chain_keys s rounds (Some instances) (Root 0) (seq 1 T))); auto. unfold co_keys. rewrite HT. reflexivity.
Qed.
Example C98_normcut_example : two_way (KPathAux true) = true /\ KPathAux true <> KRandomWalk /\
  name FoldLike (Split (Split (Split (Root 0) 3 1) 32 0) 2 1) = name FoldLike (Split (Split (FoldIn (Root 0) 1) 1 0) 2 1).
Proof. repeat split; discriminate. Qed.

(** Partition functions by annealing. *)
Theorem C98_ais p s rounds devices len rnd_key : (forall l, p <> ICategFhmm l) -> independent Original (ebm_keys p s rounds devices len (experiment_key rnd_key)).
Proof.
  intros Hp. apply independent_iff, pw_nodup, (ebm_pw _ Original); [apply apart_name| | |intros b Hb; apply apart_name; eapply ebm_x0, Hb].
  - apply init_differ. destruct p; try reflexivity. exfalso; eapply Hp; reflexivity.
  - destruct devices as [n|]; [apply chain_differ_some; left; reflexivity|]. apply (chain_pw _ Original); [| |lia].
    + intros r k. apply (call_pw _ Original); [apply apart_name|intros; apply step_differ].
    + intros r k t x y Ht Hx Hy. eapply none_next_differ; eauto.
Qed.
Theorem C98_ais_newer p s rounds devices len rnd_key : (forall l, p <> ICategFhmm l) -> match devices with Some n => n <= 2 | None => two_way s = true end ->
  independent FoldLike (ebm_keys p s rounds devices len (experiment_key rnd_key)).
Proof.
  intros Hp Hd. apply independent_iff, pw_nodup, (ebm_pw _ FoldLike); [apply apart_name| | |].
  - apply init_differ. destruct p; try reflexivity. exfalso; eapply Hp; reflexivity.
  - destruct devices as [n|]; [apply chain_differ_some; right; exact Hd|]. apply (chain_pw _ FoldLike); [| |lia].
    + intros r k. apply (call_pw _ FoldLike); [apply apart_name|intros; apply step_differ].
    + intros r k t x y Ht Hx Hy. eapply none_next_differ; eauto. right. destruct s; try discriminate; reflexivity.
  - intros b Hb He. assert (L : 2 <= length (path FoldLike b)) by (destruct devices as [n|]; [apply (chain_some_long FoldLike) in Hb|apply (chain_none_long FoldLike) in Hb; [|left; exact Hd]]; cbn in Hb; lia).
    unfold name in He. injection He as _ He. rewrite <- He in L. cbn in L. lia.
Qed.
(** With the newer derivation the first step of a Gibbs chain draws with the key of the initial samples, and a Hamming-ball step with the key of the next step. *)
Theorem C98_ais_refuted p s rounds len rnd_key : In s [KGibbs; KBlockGibbs; KLocallyBalanced] -> 1 <= len -> ~ independent FoldLike (ebm_keys p s rounds None len (experiment_key rnd_key)).
Proof.
  intros Hs Hl. destruct len as [|len]; [lia|]. eapply (repeated_prefix FoldLike _ _ (init_keys p (Split (Root 0) 3 0))); [|reflexivity].
  exists [Split (Root 0) 3 1]. eexists _, (Split (Root 0) 3 1), (FoldIn (Root 0) 1). split; [reflexivity|]. split; [left; reflexivity|]. split; [|reflexivity].
  cbn [seq chain_keys]. apply in_or_app. left. destruct Hs as [<-|[<-|[<-|[]]]]; left; reflexivity.
Qed.
Theorem C98_ais_ball_refuted p batch rounds len rnd_key : 1 <= batch -> 2 <= len -> ~ independent FoldLike (ebm_keys p (KHammingBall batch) rounds None len (experiment_key rnd_key)).
Proof. intros Hb Hl. eapply repeated_prefix; [apply (ball_collision batch rounds (Root 0) len Hb Hl)|]. unfold ebm_keys. rewrite app_assoc. reflexivity. Qed.
Example C98_ais_example : ebm_keys INet KGibbs (fun _ _ => 0) None 2 (experiment_key 3) =
  [Split (Split (Root 0) 3 0) 2 0; Split (Split (Root 0) 3 0) 2 1; Split (Root 0) 3 1; FoldIn (Root 0) 1; FoldIn (FoldIn (Root 0) 1) 2] /\
  name FoldLike (Split (Root 0) 3 1) = name FoldLike (FoldIn (Root 0) 1) /\ name Original (Split (Root 0) 3 1) <> name Original (FoldIn (Root 0) 1).
Proof. split; [reflexivity|]. split; [reflexivity|discriminate]. Qed.

(** The rule of the JAX documentation, that a key is used once, is kept by the graph problems and by annealing with a sampler that splits its key ... *)
Theorem C98_discipline_graphs x num_samples s rounds instances burn len rnd_key : s <> KPathAux true -> 1 <= burn ->
  disciplined Original (co_keys x num_samples s rounds instances burn len (experiment_key rnd_key)).
Proof.
  intros Hs Hb. assert (Hr : regular s = true) by (destruct s; try reflexivity; destruct many; [congruence|reflexivity]).
  apply disciplined_pw, (co_pw _ Original); [exact Hb|auto|apply chain_apart_some; [exact Hr|left; reflexivity]|].
  intros a b Ha Hb'. eapply co_start_chain; eassumption.
Qed.
Theorem C98_discipline_ais p s rounds devices len rnd_key : In p [INone; IOne; INet] -> s <> KPathAux true -> (devices = None -> ~ In s [KGibbs; KBlockGibbs; KLocallyBalanced]) ->
  disciplined Original (ebm_keys p s rounds devices len (experiment_key rnd_key)).
Proof.
  intros Hp Hs Hd. assert (Hr : regular s = true) by (destruct s; try reflexivity; destruct many; [congruence|reflexivity]).
  apply disciplined_pw, (ebm_pw _ Original); [auto| | |intros b Hb; eapply ebm_x0, Hb].
  - apply init_apart. destruct Hp as [<-|[<-|[<-|[]]]]; reflexivity.
  - destruct devices as [n|]; [apply chain_apart_some; [exact Hr|left; reflexivity]|]. specialize (Hd eq_refl). apply (chain_pw _ Original); [| |lia].
    + intros r k. apply (call_pw _ Original); [auto|intros; apply step_apart, Hr].
    + intros r k t x y Ht Hx Hy. eapply none_next; eauto. destruct s; try (left; split; [reflexivity|left; reflexivity]); try (right; split; reflexivity); exfalso; apply Hd; cbn; auto.
Qed.
Example C98_discipline_example : In INet [INone; IOne; INet] /\ KGwg <> KPathAux true /\ ~ In KGwg [KGibbs; KBlockGibbs; KLocallyBalanced].
Proof. repeat split; cbn; auto; [discriminate|]. intuition discriminate. Qed.
(** ... but not by the classical models (the key choosing the saved chains derives all keys of the chain), nor by the path sampler with several categories. *)
Theorem C98_discipline_sampling_refuted m p s rounds devices burn len rnd_key : 1 <= devices -> 1 <= burn -> 1 <= len -> ~ disciplined m (sampling_keys p s rounds devices burn len (experiment_key rnd_key)).
Proof.
  intros Hd Hb Hl H. destruct (steps_seq burn len Hb) as (T & HT & HM). destruct (chain_nonempty s rounds devices (Root 10) T Hd) as (x & Hx); [lia|].
  pose proof (chain_derived m _ _ _ _ _ _ Hx) as D. apply (In_nth_error) in Hx. destruct Hx as (j & Hj). unfold sampling_keys in H. rewrite HT in H.
  set (l := initial_keys p 1 POne 1 (experiment_key rnd_key)) in *.
  apply (H (length l + 1) (length l + (2 + j)) (Root 10) x); [lia| | |].
  - rewrite nth_error_app2 by lia. replace (length l + 1 - length l) with 1 by lia. reflexivity.
  - rewrite nth_error_app2 by lia. replace (length l + (2 + j) - length l) with (2 + j) by lia. exact Hj.
  - eapply derived_trans; [|exact D]. apply derived_fold.
Qed.
Theorem C98_discipline_path_refuted m x num_samples rounds instances burn len rnd_key : 1 <= instances -> 1 <= burn -> 1 <= len ->
  ~ disciplined m (co_keys x num_samples (KPathAux true) rounds instances burn len (experiment_key rnd_key)).
Proof.
  intros Hd Hb Hl H. destruct (steps_seq burn len Hb) as (T & HT & HM). destruct T as [|T]; [lia|]. destruct instances as [|n]; [lia|]. unfold co_keys in H. rewrite HT in H.
  set (l := initial_keys INone 1 x num_samples (experiment_key rnd_key)) in *.
  apply (H (length l) (length l + 1) (Split (Split (FoldIn (Root 0) 1) (S n) 0) 2 0) (Split (Split (Split (FoldIn (Root 0) 1) (S n) 0) 2 0) 2 0)); [lia| | |apply derived_split].
  - rewrite nth_error_app2 by lia. rewrite Nat.sub_diag. reflexivity.
  - rewrite nth_error_app2 by lia. replace (length l + 1 - length l) with 1 by lia. reflexivity.
Qed.
Example C98_discipline_refuted_example : 1 <= 1 /\ derived Original (Root 10) (Split (FoldIn (Root 10) 1) 1 0).
Proof. split; [lia|]. split; [reflexivity|]. exists [Part 1 0; Folded 1]. reflexivity. Qed.

(** The seed handed to an experiment has no effect, ... *)
Theorem C98_seed_refuted : exists a b, a <> b /\ forall p s rounds devices burn len,
  sampling_keys p s rounds devices burn len (experiment_key a) = sampling_keys p s rounds devices burn len (experiment_key b).
Proof. exists 0, 1. split; [lia|reflexivity]. Qed.
(** ... and if it had, it would not reach the chain: the keys drawn with after those of a run of no steps are the same for all seeds. *)
Theorem C98_chain_seed p s rounds devices burn len rnd rnd' :
  skipn (length (sampling_keys p s rounds devices 1 0 rnd)) (sampling_keys p s rounds devices burn len rnd) =
  skipn (length (sampling_keys p s rounds devices 1 0 rnd')) (sampling_keys p s rounds devices burn len rnd').
Proof.
  assert (H : forall rnd, skipn (length (sampling_keys p s rounds devices 1 0 rnd)) (sampling_keys p s rounds devices burn len rnd) = chain_keys s rounds (Some devices) (Root 10) (step_numbers burn len)).
  { clear. intros rnd. unfold sampling_keys. change (chain_keys s rounds (Some devices) (Root 10) (step_numbers 1 0)) with (@nil key). rewrite !app_assoc. rewrite app_nil_r. rewrite skipn_app, skipn_all, Nat.sub_diag. reflexivity. }
  rewrite !H. reflexivity.
Qed.
Example C98_seed_example : skipn (length (sampling_keys IOne KGibbs (fun _ _ => 0) 1 1 0 (Root 7))) (sampling_keys IOne KGibbs (fun _ _ => 0) 1 1 2 (Root 7)) =
  [Split (FoldIn (Root 10) 1) 1 0; Split (FoldIn (FoldIn (Root 10) 1) 2) 1 0].
Proof. reflexivity. Qed.
(** Hence two jobs of a sweep, or two groups of graphs, are not independent. *)
Theorem C98_jobs_refuted m p s rounds devices burn len rnd_key p' s' rounds' devices' burn' len' rnd_key' :
  ~ independent m (sampling_keys p s rounds devices burn len (experiment_key rnd_key) ++ sampling_keys p' s' rounds' devices' burn' len' (experiment_key rnd_key')).
Proof.
  eapply (repeated m (Root 10) (Root 10)); [reflexivity| | |reflexivity]; unfold sampling_keys; rewrite !in_app_iff; right; left; cbn; auto.
Qed.
Theorem C98_groups_refuted m num_samples s rounds instances burn len rnd_key :
  ~ independent m (co_keys POne num_samples s rounds instances burn len (experiment_key rnd_key) ++ co_keys POne num_samples s rounds instances burn len (experiment_key rnd_key)).
Proof. eapply (repeated m (Split (Root 0) 3 1) (Split (Root 0) 3 1)); [reflexivity| | |reflexivity]; unfold co_keys, initial_keys; rewrite !in_app_iff; cbn; auto. Qed.
Example C98_jobs_example : In (Root 10) (sampling_keys IOne KGibbs (fun _ _ => 0) 1 1 5 (experiment_key 0)) /\ In (Root 10) (sampling_keys INet KGwg (fun _ _ => 0) 1 1 9 (experiment_key 4)).
Proof. split; vm_compute; auto 10. Qed.

Print Assumptions C98_independent.
Print Assumptions C98_sampling.
Print Assumptions C98_categ_fhmm_refuted.
Print Assumptions C98_devices_refuted.
Print Assumptions C98_graphs.
Print Assumptions C98_graphs_newer.
Print Assumptions C98_graphs_refuted.
Print Assumptions C98_normcut_refuted.
Print Assumptions C98_ais.
Print Assumptions C98_ais_newer.
Print Assumptions C98_ais_refuted.
Print Assumptions C98_ais_ball_refuted.
Print Assumptions C98_discipline_graphs.
Print Assumptions C98_discipline_ais.
Print Assumptions C98_discipline_sampling_refuted.
Print Assumptions C98_discipline_path_refuted.
Print Assumptions C98_seed_refuted.
Print Assumptions C98_chain_seed.
Print Assumptions C98_jobs_refuted.
Print Assumptions C98_groups_refuted.
