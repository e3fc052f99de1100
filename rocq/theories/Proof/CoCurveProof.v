(** Proofs about the curves of combinatorial-optimisation runs. *)
From Coq Require Import Reals String List Bool ZArith Arith Lia Lra.
From Verif.Base Require Import RSum.
From Verif.Spec Require Import ConfigSpec LaunchSpec ReportSpec CoReportSpec GraphRunSpec.
From Verif.Model Require Import Utils Launch Report Experiment GraphRun Start RunConfigs CoReport CoCurve.
From Verif.Proof Require Import GraphRunJob LaunchShipped ReportShipped CoReportProof.
Import ListNotations.
Local Open Scope string_scope.
Local Open Scope list_scope.

(** ** All rows have one entry per instance *)
Lemma masked_length {Y Z} (mask : list bool) : forall (l : list Y) (l' : list Z), List.length l = List.length l' -> List.length (masked mask l) = List.length (masked mask l').
Proof.
  unfold masked. induction mask as [|b mask IH]; intros [|a l] [|a' l'] H; try discriminate; try reflexivity. cbn in H. injection H as H. specialize (IH l l' H). rewrite !map_length in *. cbn. destruct b; cbn; rewrite IH; reflexivity.
Qed.
Lemma group_rows {A X} (value : A -> R -> X -> R) zeros dummy d k g visits s : run_group value zeros dummy d k g visits = Some s ->
  forall row, In row (s_trajectory s) -> List.length row = List.length (s_best s).
Proof.
  unfold run_group. destruct (arrange _ _ _ _) as [l|]; [|discriminate]. destruct (device_ids _ _ _ _) as [ids|]; [|discriminate]. destruct (sample_mask _ _) as [mask|]; [|discriminate].
  cbv zeta. intros E. injection E as <-. cbn [s_trajectory s_best]. intros row Hr. apply in_map_iff in Hr. destruct Hr as (t & <- & _). apply masked_length. rewrite !map_length. reflexivity.
Qed.
Lemma job_rows {A X} (value : A -> R -> X -> R) zeros dummy d k N gs visits f b s : run_job value zeros dummy d k N gs visits = Some (f, b) -> f "results"%string = Some s ->
  forall row, In row (s_trajectory s) -> List.length row = List.length (s_best s).
Proof.
  unfold run_job. match goal with |- match ?t with _ => _ end = _ -> _ => destruct t as [groups|]; [|discriminate] end. intros H Hs. injection H as H.
  destruct (groups_saved value zeros dummy d k groups visits _ f b s H Hs) as [K|(g & v & K)]; [discriminate|]. exact (group_rows value zeros dummy d k g v s K).
Qed.

(** ** Points *)
Lemma nth_combine {A B} (l : list A) : forall (l' : list B) t a b, nth_error l t = Some a -> nth_error l' t = Some b -> nth_error (combine l l') t = Some (a, b).
Proof. induction l as [|x l IH]; intros [|y l'] [|t] a b; cbn; try discriminate; [intros H K; injection H as ->; injection K as ->; reflexivity|apply IH]. Qed.
Lemma nth_seq_map {A} (f : nat -> A) n t : (t < n)%nat -> nth_error (map f (seq 0 n)) t = Some (f t).
Proof. intros H. rewrite nth_error_map. assert (E : nth_error (seq 0 n) t = Some t) by (rewrite (nth_error_nth' _ 0%nat) by (rewrite seq_length; exact H); rewrite seq_nth by exact H; reflexivity). rewrite E. reflexivity. Qed.
Lemma curve_points {X} to_int d (s : saved X) time log n : (0 < n)%nat -> List.length (s_trajectory s) = n -> (forall row, In row (s_trajectory s) -> row <> []) ->
  curve_interval to_int d = Some log -> arange_length (Z.of_nat n) = Z.of_nat n ->
  exists steps times, co_curve to_int d s time = Some (steps, times) /\ List.length steps = n /\ List.length times = n /\
    forall t row, nth_error (s_trajectory s) t = Some row -> exists m v, mean_of row m /\ spread_of (map (fun x => Rmax x 0) row) v /\
      nth_error steps t = Some ((1 + t * log)%nat, (Some m, Some v)) /\ nth_error times t = Some ((INR t / INR n * (2 * time))%R, (Some m, Some v)).
Proof.
  intros Hn Hl Hne Hi Ha. unfold co_curve. destruct (s_trajectory s) as [|r0 rs] eqn:Es; [cbn in Hl; lia|]. rewrite <- Es in *. clear Es. rewrite Hi, Hl. unfold curve_times. rewrite Ha, Z.eqb_refl.
  eexists. eexists. split; [reflexivity|]. unfold curve_steps. split; [rewrite combine_length, !map_length, seq_length; lia|]. split; [rewrite combine_length, !map_length, seq_length; lia|].
  intros t row Ht. assert (Htn : (t < n)%nat) by (rewrite <- Hl; apply nth_error_Some; rewrite Ht; discriminate).
  assert (Nr : row <> []) by (apply Hne, (nth_error_In _ t), Ht). destruct (np_mean_ok row Nr) as (m & Em & Hm).
  assert (Nc : map (fun x => Rmax x 0) row <> []) by (destruct row; [congruence|discriminate]). destruct (np_std_ok _ Nc) as (v & Ev & Hv).
  exists m, v. split; [exact Hm|]. split; [exact Hv|].
  assert (Ec : nth_error (map curve_values (s_trajectory s)) t = Some (Some m, Some v)) by (rewrite nth_error_map, Ht; cbn [option_map]; unfold curve_values; rewrite Em, Ev; reflexivity).
  split; apply nth_combine; try exact Ec; [exact (nth_seq_map (fun i => (1 + i * log)%nat) n t Htn)|exact (nth_seq_map (fun i => (INR i / INR n * (2 * time))%R) n t Htn)].
Qed.
Lemma curve_stops {X} to_int d (s : saved X) time : arange_length (Z.of_nat (List.length (s_trajectory s))) <> Z.of_nat (List.length (s_trajectory s)) -> co_curve to_int d s time = None.
Proof. intros H. unfold co_curve. destruct (s_trajectory s) as [|r rs] eqn:E; [reflexivity|]. rewrite <- E in *. unfold curve_times. destruct (Z.eqb_spec (arange_length (Z.of_nat (List.length (s_trajectory s)))) (Z.of_nat (List.length (s_trajectory s)))); [contradiction|]. destruct (curve_interval to_int d); reflexivity. Qed.
Lemma clip_same l : (forall v, In v l -> (0 <= v)%R) -> map (fun x => Rmax x 0) l = l.
Proof. intros H. induction l as [|a l IH]; [reflexivity|]. cbn. rewrite Rmax_left by (exact (H a (or_introl eq_refl))). rewrite IH; [reflexivity|]. intros v Hv. apply H. right. exact Hv. Qed.

(** ** The shipped sweeps *)
Definition curve_job_ok (x : table lit * (table lit * string)) : bool :=
  match configure py_repr shipped_modules (shipped_files "/workdir/") (fst x), get_experiment_config (snd (snd x)) with
  | Some c, Some d0 =>
      match process_keys d0, look "chain_length" (l_exp c), look "log_every_steps" (l_exp c) with
      | Some d, Some (LInt L), Some (LInt g) =>
          ((0 <? g)%Z && (g <=? L)%Z && Z.eqb (arange_length (L / g)) (L / g) && match look "log_every_steps" d with Some t => match py_int t with Some z => Z.eqb z g | None => false end | None => Z.eqb g 1000 end)%bool
      | _, _, _ => false
      end
  | _, _ => false
  end.
Definition curve_sweep_ok (root : string) (x : string * job_config) : bool :=
  (negb (String.eqb (snd (kind (snd x))) "co_eval") || String.eqb (fst x) "co/maxcut/optsicom_sampler_sweep" ||
   match launch py_repr (snd x) [] root, sweep_folders (snd x) with
     | Some jobs, Some l => (Nat.eqb (List.length jobs) (List.length l) && forallb curve_job_ok (combine jobs l))%bool
     | _, _ => false end)%bool.
Lemma curve_sweeps root : forallb (curve_sweep_ok root) shipped_sweeps = true.
Proof. vm_compute. reflexivity. Qed.
Definition curve_known (a : table lit) (f : string) : Prop :=
  exists c d0 d L g, configure py_repr shipped_modules (shipped_files "/workdir/") a = Some c /\ get_experiment_config f = Some d0 /\ process_keys d0 = Some d /\
    look "chain_length" (l_exp c) = Some (LInt L) /\ look "log_every_steps" (l_exp c) = Some (LInt g) /\ (0 < g <= L)%Z /\ curve_interval py_int d = Some (Z.to_nat g) /\ arange_length (L / g) = (L / g)%Z.
Lemma curve_job_sound a kf : curve_job_ok (a, kf) = true -> curve_known a (snd kf).
Proof.
  unfold curve_job_ok, curve_known. cbn [fst snd]. destruct (configure _ _ _ a) as [c|]; [|discriminate]. destruct (get_experiment_config (snd kf)) as [d0|]; [|discriminate]. destruct (process_keys d0) as [d|] eqn:EP; [|discriminate].
  destruct (look "chain_length" (l_exp c)) as [[|L| | |]|] eqn:EL; try discriminate. destruct (look "log_every_steps" (l_exp c)) as [[|g| | |]|] eqn:EG; try discriminate. intros H.
  apply andb_prop in H. destruct H as (H & H4). apply andb_prop in H. destruct H as (H & H3). apply andb_prop in H. destruct H as (H1 & H2). apply Z.ltb_lt in H1. apply Z.leb_le in H2. apply Z.eqb_eq in H3.
  exists c, d0, d, L, g. do 5 (split; [first [reflexivity | assumption]|]). split; [lia|]. split; [|exact H3]. unfold curve_interval. destruct (look "log_every_steps" d) as [t|].
  - destruct (py_int t) as [z|]; [|discriminate]. apply Z.eqb_eq in H4. subst z. reflexivity.
  - apply Z.eqb_eq in H4. subst g. reflexivity.
Qed.
Lemma curve_shipped nm j root jobs fs : In (nm, j) shipped_sweeps -> snd (kind j) = "co_eval" -> nm <> "co/maxcut/optsicom_sampler_sweep" -> launch py_repr j [] root = Some jobs -> job_folders root jobs fs ->
  Forall2 curve_known jobs fs.
Proof.
  intros Hj Hk Hn HL HF. pose proof shipped_keys as SK. rewrite forallb_forall in SK. specialize (SK _ Hj). cbn [snd] in SK. pose proof (curve_sweeps root) as SO. rewrite forallb_forall in SO. specialize (SO _ Hj).
  unfold curve_sweep_ok in SO. cbn [fst snd] in SO. rewrite Hk, String.eqb_refl in SO. destruct (String.eqb_spec nm "co/maxcut/optsicom_sampler_sweep"); [contradiction|]. cbn [negb orb] in SO. rewrite HL in SO.
  destruct (folders_launch j [] root jobs fs SK) as (L & EL & Ef & _); [constructor|exact HL|exact HF|]. rewrite EL in SO. apply andb_prop in SO. destruct SO as (SN & SO). apply Nat.eqb_eq in SN. subst fs. clear - SN SO.
  revert L SN SO. induction jobs as [|a jobs IH]; intros [|kf L] SN SO; try discriminate; cbn [map]; constructor; cbn in SO; apply andb_prop in SO; destruct SO as (S1 & S2); [exact (curve_job_sound a kf S1)|apply IH; [cbn in SN; lia|exact S2]].
Qed.

(** ** Whole runs *)
Lemma curve_whole A X (value : A -> R -> X -> R) zeros dummy d k N gs visits o to_int settings time : works d k N -> fed k N gs visits -> last_group N (k_models k) o -> (o < List.length gs)%nat ->
  curve_interval to_int settings = Some (k_log k) -> let n := (k_length k / k_log k)%nat in arange_length (Z.of_nat n) = Z.of_nat n ->
  exists f s steps times, run_job value zeros dummy d k N gs visits = Some (f, true) /\ f "results" = Some s /\
    co_curve to_int settings s time = Some (steps, times) /\ List.length steps = n /\ List.length times = n /\
    forall t, (t < n)%nat -> exists bs m v, List.length bs = (List.length gs - o)%nat /\ mean_of bs m /\ spread_of (map (fun x => Rmax x 0) bs) v /\
      nth_error steps t = Some ((1 + t * k_log k)%nat, (Some m, Some v)) /\ nth_error times t = Some ((INR t / INR n * (2 * time))%R, (Some m, Some v)) /\
      forall i a r, (o <= i)%nat -> nth_error gs i = Some (a, r) -> let ref := if k_mis k then 1%R else r in (0 < ref)%R ->
        exists b, nth_error bs (i - o) = Some b /\ best_seen ref b (seen (value a) (k_schedule k) (k_log k) (S t * k_log k)%nat (k_batch k) (i - o) (visits (o / k_models k)%nat)).
Proof.
  intros (H1 & H2 & H3 & H4 & H5 & H6 & H7) (F1 & F2 & F3) Ho Hg Hi n Ha. assert (Hlog : (0 < k_log k)%nat) by lia. assert (Hn : (0 < n)%nat) by (apply Nat.div_str_pos; lia).
  destruct (job_saved A X value zeros dummy d k N gs visits o) as (f & s & E1 & E2 & E3 & E4 & _ & K); auto. pose proof (job_rows value zeros dummy d k N gs visits f true s E1 E2) as HR.
  destruct (curve_points to_int settings s time (k_log k) n Hn E4) as (steps & times & C1 & C2 & C3 & C4); [|exact Hi|exact Ha|].
  { intros row Hr Z. specialize (HR row Hr). rewrite Z in HR. cbn in HR. lia. }
  exists f, s, steps, times. do 5 (split; [assumption|]). intros t Ht. destruct (nth_error (s_trajectory s) t) as [bs|] eqn:Eb; [|apply nth_error_None in Eb; fold n in E4; lia].
  destruct (C4 t bs Eb) as (m & v & M1 & M2 & M3 & M4). exists bs, m, v. split; [rewrite <- E3; apply HR, (nth_error_In _ t), Eb|]. do 4 (split; [assumption|]).
  intros i a r Hoi Hgi ref Hr. destruct (K i a r Hoi Hgi Hr) as (b & _ & _ & _ & KT). destruct (KT t Ht) as (row & b' & R1 & R2 & R3). exists b'. rewrite Eb in R1. injection R1 as <-. split; assumption.
Qed.
