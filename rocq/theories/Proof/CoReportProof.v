(** Proofs about the results of combinatorial-optimisation runs in the report. *)
From Coq Require Import Reals String List Bool ZArith Arith Lia Lra.
From Verif.Base Require Import RSum.
From Verif.Model Require Import Launch Experiment GraphRun Loaders CoReport.
From Verif.Spec Require Import CoReportSpec GraphRunSpec.
From Verif.Proof Require Import ExperimentProof GraphRunProof GraphRunJob.
Import ListNotations.

(** ** Mean and deviation *)
Lemma np_mean_ok l : l <> [] -> exists m, np_mean l = Some m /\ mean_of l m.
Proof.
  destruct l as [|a l]; [congruence|]. intros _. eexists. split; [reflexivity|]. split; [cbn; lia|]. field. apply not_0_INR. cbn. lia.
Qed.
Lemma rsum_squares l m : rsum l (fun v => (v - m) ^ 2)%R = (rsum l (fun v => v * v) - 2 * m * rsum l (fun v => v) + INR (List.length l) * m ^ 2)%R.
Proof. induction l as [|a l IH]; [cbn; ring|]. cbn [rsum]. rewrite IH. cbn [List.length]. rewrite S_INR. ring. Qed.
Lemma rsum_sq_nonneg l m : (0 <= rsum l (fun v => (v - m) ^ 2))%R.
Proof. induction l as [|a l IH]; cbn [rsum]; [lra|]. pose proof (pow2_ge_0 (a - m)). lra. Qed.
Lemma np_std_ok l : l <> [] -> exists s, np_std l = Some s /\ spread_of l s.
Proof.
  intros Hl. destruct (np_mean_ok l Hl) as (m & Em & Hm). unfold np_std. rewrite Em. eexists. split; [reflexivity|]. destruct Hm as (Hn & Hm). assert (P : (0 < INR (List.length l))%R) by (apply lt_0_INR, Hn).
  split; [apply sqrt_pos|]. exists m. split; [split; [exact Hn|exact Hm]|]. rewrite pow2_sqrt.
  - rewrite rsum_squares, <- Hm. field. lra.
  - unfold Rdiv. apply Rmult_le_pos; [apply rsum_sq_nonneg|]. left. apply Rinv_0_lt_compat, P.
Qed.

(** ** Time *)
Lemma rsum_map_mix (f : nat -> R) l : rsum (filter snd (map (fun s => (s, true)) l)) (fun s => f (fst s)) = rsum l f.
Proof. induction l as [|a l IH]; cbn; [reflexivity|]. rewrite IH. reflexivity. Qed.
Lemma no_burn l : filter snd (map (fun s : nat => (s, false)) l) = [].
Proof. induction l as [|a l IH]; cbn; [reflexivity|exact IH]. Qed.
Lemma rsum_app_l {A} (l1 l2 : list A) f : rsum (l1 ++ l2) f = (rsum l1 f + rsum l2 f)%R.
Proof. induction l1 as [|a l IH]; cbn; [ring|]. rewrite IH. ring. Qed.
Lemma mixing_time_is L ratio cost : mixing_time L ratio cost = time_between cost (int_of (INR L * ratio)) L.
Proof.
  unfold mixing_time, sampling_steps. cbv zeta. rewrite filter_app, no_burn. cbn [app]. rewrite rsum_map_mix. unfold range, time_between, burn_in_length. f_equal. replace (int_of (INR L * ratio) + 1)%nat with (S (int_of (INR L * ratio))) by lia. reflexivity.
Qed.
Lemma time_split cost a b : (a <= b)%nat -> (time_between cost 0 a + time_between cost a b = time_between cost 0 b)%R.
Proof. intros H. unfold time_between. rewrite <- rsum_app_l. f_equal. rewrite !Nat.sub_0_r. replace b with (a + (b - a))%nat at 2 by lia. rewrite seq_app. reflexivity. Qed.
Lemma int_of_le L ratio : (0 <= ratio <= 1)%R -> (int_of (INR L * ratio) <= L)%nat.
Proof.
  intros H. unfold int_of. destruct (archimed (INR L * ratio)) as (A1 & A2). pose proof (pos_INR L) as P. assert (INR L * ratio <= INR L)%R by (rewrite <- (Rmult_1_r (INR L)) at 2; apply Rmult_le_compat_l; lra).
  assert (up (INR L * ratio) <= Z.of_nat L + 1)%Z; [|lia]. apply le_IZR. rewrite plus_IZR, <- INR_IZR_INZ. lra.
Qed.
Lemma twice_right L ratio cost : (0 <= ratio <= 1)%R -> let b := int_of (INR L * ratio) in
  (2 * mixing_time L ratio cost = time_between cost 0 L <-> time_between cost b L = time_between cost 0 b)%R.
Proof. intros H b. rewrite mixing_time_is. fold b. pose proof (time_split cost b L (int_of_le L ratio H)) as E. rewrite <- E. split; intros K; lra. Qed.
Lemma time_const c a b : time_between (fun _ => c) a b = (INR (b - a) * c)%R.
Proof. unfold time_between. generalize (S a) as s. induction (b - a)%nat as [|n IH]; intros s; [cbn; ring|]. cbn [seq rsum]. rewrite IH, S_INR. ring. Qed.
Lemma int_of_half L : int_of (INR L * (1 / 2)) = (L / 2)%nat.
Proof.
  unfold int_of. destruct (archimed (INR L * (1 / 2))) as (A1 & A2). pose proof (Nat.div_mod L 2 ltac:(lia)) as H. pose proof (Nat.mod_upper_bound L 2 ltac:(lia)) as U.
  assert (E : INR L = (2 * INR (L / 2) + INR (L mod 2))%R) by (rewrite H at 1; rewrite plus_INR, mult_INR; reflexivity).
  assert (0 <= INR (L mod 2) <= 1)%R. { split; [apply pos_INR|]. change 1%R with (INR 1). apply le_INR. lia. }
  rewrite INR_IZR_INZ with (n := (L / 2)%nat) in E. set (z := up (INR L * (1 / 2))) in *.
  assert (z < Z.of_nat (L / 2) + 2)%Z by (apply lt_IZR; rewrite plus_IZR; lra). assert (Z.of_nat (L / 2) < z)%Z by (apply lt_IZR; lra). lia.
Qed.
Lemma time_half L c : (2 * mixing_time L (1 / 2) (fun _ => c) = (INR L + INR (L mod 2)) * c)%R.
Proof.
  rewrite mixing_time_is, int_of_half, time_const. pose proof (Nat.div_mod L 2 ltac:(lia)) as H. replace (L - L / 2)%nat with (L / 2 + L mod 2)%nat by lia.
  assert (E : INR L = (2 * INR (L / 2) + INR (L mod 2))%R) by (rewrite H at 1; rewrite plus_INR, mult_INR; reflexivity). rewrite plus_INR, E. ring.
Qed.

(** ** The last row of the trajectory *)
Lemma last_nth {A} (l : list A) d : last l d = nth (List.length l - 1) l d.
Proof. induction l as [|a [|b l] IH]; [reflexivity|reflexivity|]. change (last (a :: b :: l) d) with (last (b :: l) d). rewrite IH. cbn [List.length]. replace (S (S (List.length l)) - 1)%nat with (S (S (List.length l) - 1)) by lia. reflexivity. Qed.
Lemma trace_length {X} ref (z : X) ls : forall st, List.length (co_trace ref z st ls) = List.length ls.
Proof. induction ls as [|s ls IH]; intros st; cbn; [reflexivity|]. rewrite IH. reflexivity. Qed.
Lemma logged_length {Y} log (f : nat -> list R * list Y) l : List.length (co_logged log (map (fun s => (s, f s)) l)) = List.length (filter (fun s => Nat.eqb (s mod log) 0) l).
Proof. unfold co_logged. rewrite map_length. induction l as [|a l IH]; [reflexivity|]. cbn [map filter fst]. destruct (Nat.eqb (a mod log) 0); cbn [List.length]; rewrite IH; reflexivity. Qed.
Lemma rev_map_seq {A} (f : nat -> A) n : rev (map f (seq 0 (S n))) = f n :: rev (map f (seq 0 n)).
Proof. rewrite seq_S, map_app, rev_app_distr. reflexivity. Qed.
Lemma group_last {A X} (value : A -> R -> X -> R) zeros dummy d k g visits s : run_group value zeros dummy d k g visits = Some s ->
  s_trajectory s = [] \/ exists rest, rev (s_trajectory s) = s_best s :: rest.
Proof.
  unfold run_group. destruct (arrange _ _ _ _) as [l|]; [|discriminate]. destruct (device_ids _ _ _ _) as [ids|]; [|discriminate]. destruct (sample_mask _ _) as [mask|]; [|discriminate].
  cbv zeta. intros E. injection E as <-. cbn [s_trajectory s_best]. set (slots := map (slot dummy) g). set (ls := map fst (sampling_steps (k_length k) (k_ratio k))).
  remember (List.length (co_logged (k_log k) (map (fun s => (s, ([] : list R, [] : list X))) ls))) as N eqn:En. destruct N as [|n]; [left; reflexivity|]. right. eexists. rewrite rev_map_seq. f_equal. f_equal. rewrite map_map. rewrite map_map. apply map_ext_in. intros [i a] _. cbn [fst snd].
  unfold co_run. rewrite <- (co_trace_last X). set (tr := co_trace _ _ _ _). rewrite last_nth. assert (Hn : List.length tr = S n).
  { subst tr. rewrite trace_length, En. unfold instance_steps. fold ls. rewrite !logged_length. reflexivity. }
  rewrite Hn. replace (S n - 1)%nat with n by lia. apply nth_indep. lia.
Qed.
Lemma groups_saved {A X} (value : A -> R -> X -> R) zeros dummy d k gs : forall visits (dir : Experiment.dir (saved X)) f b s,
  run_groups value zeros dummy d k gs visits dir = (f, b) -> f "results"%string = Some s -> dir "results"%string = Some s \/ exists g v, run_group value zeros dummy d k g v = Some s.
Proof.
  induction gs as [|g gs IH]; intros visits dir f b s H Hs; cbn [run_groups] in H; [injection H as <- <-; left; exact Hs|].
  destruct (run_group value zeros dummy d k g (visits 0%nat)) as [s'|] eqn:E; [|injection H as <- <-; left; exact Hs].
  destruct (IH _ _ _ _ _ H Hs) as [K|K]; [|right; exact K]. cbn in K. injection K as ->. right. exists g, (visits 0%nat). exact E.
Qed.
Lemma job_last {A X} (value : A -> R -> X -> R) zeros dummy d k N gs visits f b s : run_job value zeros dummy d k N gs visits = Some (f, b) -> f "results"%string = Some s ->
  s_trajectory s = [] \/ exists rest, rev (s_trajectory s) = s_best s :: rest.
Proof.
  unfold run_job. match goal with |- match ?t with _ => _ end = _ -> _ => destruct t as [groups|]; [|discriminate] end. intros H Hs. injection H as H.
  destruct (groups_saved value zeros dummy d k groups visits _ f b s H Hs) as [K|(g & v & K)]; [discriminate|]. exact (group_last value zeros dummy d k g v s K).
Qed.
Lemma co_table {X} (s : saved X) time : (exists rest, rev (s_trajectory s) = s_best s :: rest) -> s_best s <> [] ->
  exists m v, co_results s time = Some [("best_ratio_mean", Some m); ("running_time", Some (2 * time)%R); ("best_ratio_std", Some v)]%string /\ mean_of (s_best s) m /\ spread_of (s_best s) v.
Proof.
  intros (rest & E) Hn. unfold co_results. rewrite E. destruct (np_mean_ok _ Hn) as (m & Em & Hm). destruct (np_std_ok _ Hn) as (v & Ev & Hv). exists m, v. rewrite Em, Ev. auto.
Qed.

(** ** The shipped sweeps *)
From Verif.Model Require Import Start RunConfigs.
From Verif.Spec Require Import LaunchSpec.
Local Open Scope string_scope.
Definition timed_ok (repr : lit -> string) (a : table lit) : bool :=
  match configure repr shipped_modules (shipped_files "/workdir/") a with
  | Some c => match look "chain_length" (l_exp c), look "ess_ratio" (l_exp c) with Some (LInt L), Some (LFloat 5 1) => Z.leb 1001 L | _, _ => false end
  | None => false
  end.
Definition timed_sweep (repr : lit -> string) (root : string) (x : string * job_config) : bool :=
  (negb (String.eqb (snd (kind (snd x))) "co_eval") || String.eqb (fst x) "co/maxcut/optsicom_sampler_sweep" ||
   match launch repr (snd x) [] root with Some jobs => forallb (timed_ok repr) jobs | None => false end)%bool.
Lemma timed_sweeps repr root : forallb (timed_sweep repr root) shipped_sweeps = true.
Proof. vm_compute. reflexivity. Qed.
Lemma timed_shipped repr root nm j jobs a : In (nm, j) shipped_sweeps -> snd (kind j) = "co_eval" -> nm <> "co/maxcut/optsicom_sampler_sweep" -> launch repr j [] root = Some jobs -> In a jobs ->
  exists c L, configure repr shipped_modules (shipped_files "/workdir/") a = Some c /\ look "chain_length" (l_exp c) = Some (LInt L) /\ look "ess_ratio" (l_exp c) = Some (LFloat 5 1) /\ (1001 <= L)%Z.
Proof.
  intros Hi Hk Hn Hl Ha. pose proof (timed_sweeps repr root) as K. rewrite forallb_forall in K. specialize (K _ Hi). unfold timed_sweep in K. cbn [fst snd] in K.
  rewrite Hk, Hl in K. apply String.eqb_neq in Hn. rewrite Hn in K. cbn [String.eqb Ascii.eqb Bool.eqb negb orb] in K. rewrite forallb_forall in K. specialize (K a Ha). unfold timed_ok in K.
  destruct (configure repr shipped_modules (shipped_files "/workdir/") a) as [c|]; [|discriminate]. destruct (look "chain_length" (l_exp c)) as [[|L| | |]|] eqn:EL; try discriminate.
  destruct (look "ess_ratio" (l_exp c)) as [[| |z q| |]|] eqn:EE; try discriminate. destruct z as [|z|]; try discriminate. do 3 (destruct z as [z|z|]; try discriminate). destruct q as [|[|q]]; try discriminate.
  exists c, L. apply Z.leb_le in K. repeat split; assumption.
Qed.
Lemma time_close L c : (1001 <= L)%nat -> (0 <= c)%R -> let total := time_between (fun _ => c) 0 L in (total <= 2 * mixing_time L (1 / 2) (fun _ => c) <= (1 + 1 / 1000) * total)%R.
Proof.
  intros HL Hc. cbv zeta. rewrite time_half, time_const, Nat.sub_0_r. assert (M : (0 <= INR (L mod 2) <= 1)%R).
  { split; [apply pos_INR|]. change 1%R with (INR 1). apply le_INR. pose proof (Nat.mod_upper_bound L 2 ltac:(lia)). lia. }
  assert (B : (1001 <= INR L)%R). { rewrite INR_IZR_INZ. apply IZR_le. lia. }
  split; [apply Rmult_le_compat_r; lra|]. rewrite <- Rmult_assoc. apply Rmult_le_compat_r; lra.
Qed.
