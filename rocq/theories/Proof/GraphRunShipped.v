From Coq Require Import String List Bool ZArith Reals Lra Lia Arith.
From Verif.Spec Require Import GraphRunSpec.
From Verif.Model Require Import Launch RunConfigs Start Experiment Loaders GraphRun.
From Verif.Proof Require Import ExperimentProof LaunchProof LaunchShipped GraphRunJob.
Import ListNotations.
Local Open Scope string_scope.

(** Numbers written in a configuration. *)
Definition decimal (o : option lit) : option (Z * nat) := match o with Some (LFloat z s) => Some (z, s) | Some (LInt z) => Some (z, 0%nat) | _ => None end.
Definition within (lo hi : bool) (o : option lit) : bool :=
  match decimal o with Some (z, s) => ((if lo then Z.ltb 0 z else Z.leb 0 z) && (if hi then Z.ltb z (10 ^ Z.of_nat s) else Z.leb z (10 ^ Z.of_nat s)))%bool | None => false end.
Definition posb (o : option lit) : bool := match decimal o with Some (z, _) => Z.ltb 0 z | None => false end.
Definition oneb (o : option lit) : bool := match decimal o with Some (z, s) => Z.leb (10 ^ Z.of_nat s) z | None => false end.
Lemma decimal_real o z s : decimal o = Some (z, s) -> as_real o = Some (IZR z / 10 ^ s)%R.
Proof. destruct o as [[]|]; try discriminate; cbn; intros E; injection E as <- <-; [unfold Rdiv; cbn; f_equal; field|reflexivity]. Qed.
Lemma tenpow s : (0 < 10 ^ s)%R. Proof. apply pow_lt. lra. Qed.
Lemma posb_ok o : posb o = true -> exists x, as_real o = Some x /\ (0 < x)%R.
Proof.
  unfold posb. destruct (decimal o) as [[z s]|] eqn:E; [|discriminate]. intros H. apply Z.ltb_lt, IZR_lt in H. eexists. split; [exact (decimal_real _ _ _ E)|].
  apply Rdiv_lt_0_compat; [exact H|apply tenpow].
Qed.
Lemma oneb_ok o : oneb o = true -> exists x, as_real o = Some x /\ (1 <= x)%R.
Proof.
  unfold oneb. destruct (decimal o) as [[z s]|] eqn:E; [|discriminate]. intros H. apply Z.leb_le, IZR_le in H. rewrite <- pow_IZR in H. eexists. split; [exact (decimal_real _ _ _ E)|].
  pose proof (tenpow s). apply (Rmult_le_reg_r (10 ^ s)); [lra|]. unfold Rdiv. rewrite Rmult_assoc, Rinv_l, Rmult_1_r, Rmult_1_l by lra. exact H.
Qed.
Lemma within_ok lo hi o : within lo hi o = true -> exists x, as_real o = Some x /\ (if lo then (0 < x)%R else (0 <= x)%R) /\ (if hi then (x < 1)%R else (x <= 1)%R).
Proof.
  unfold within. destruct (decimal o) as [[z s]|] eqn:E; [|discriminate]. intros H. apply andb_prop in H. destruct H as [H1 H2]. eexists. split; [exact (decimal_real _ _ _ E)|].
  pose proof (tenpow s) as P. assert (Pi := Rinv_0_lt_compat _ P). split.
  - destruct lo; [apply Z.ltb_lt, IZR_lt in H1; apply Rmult_lt_0_compat; assumption|apply Z.leb_le, IZR_le in H1; apply Rmult_le_pos; lra].
  - destruct hi; [apply Z.ltb_lt, IZR_lt in H2|apply Z.leb_le, IZR_le in H2]; rewrite <- pow_IZR in H2.
    + apply (Rmult_lt_reg_r (10 ^ s)); [lra|]. unfold Rdiv. rewrite Rmult_assoc, Rinv_l, Rmult_1_r, Rmult_1_l by lra. exact H2.
    + apply (Rmult_le_reg_r (10 ^ s)); [lra|]. unfold Rdiv. rewrite Rmult_assoc, Rinv_l, Rmult_1_r, Rmult_1_l by lra. exact H2.
Qed.

(** ** A configuration that runs as it should *)
Definition natz (o : option lit) : option Z := match o with Some (LInt z) => Some z | _ => None end.
Definition heatb (e : table lit) : bool :=
  match as_str (look "t_schedule" e) with
  | Some t => (posb (look "init_temperature" e) && posb (look "final_temperature" e) && within true true (look "decay_rate" e)
               && (String.eqb t "constant" || String.eqb t "linear" || String.eqb t "exp_decay"))%bool
  | None => false
  end.
Definition readyb (d : Z) (c : lconfig) : bool :=
  match natz (look "log_every_steps" (l_exp c)), natz (look "chain_length" (l_exp c)), natz (look "batch_size" (l_exp c)), natz (look "num_models" (l_exp c)), natz (look "num_models" (l_model c)) with
  | Some lg, Some L, Some b, Some m, Some g =>
      (Z.ltb 0 lg && Z.leb lg L && Z.ltb 0 b && Z.ltb 0 m && Z.eqb g m && Z.ltb 0 d && Z.eqb (m mod d) 0 && heatb (l_exp c) && within false false (look "ess_ratio" (l_exp c))
       && match as_bool (look "run_parallel" (l_exp c)), as_bool (look "save_samples" (l_exp c)), as_str (look "name" (l_model c)) with Some _, Some _, Some _ => true | _, _, _ => false end
       && match look "penalty" (l_model c) with None => true | o => oneb o end
       && match natz (look "max_num_nodes" (l_model c)), natz (look "max_num_edges" (l_model c)), natz (look "num_instances" (l_model c)) with
          | Some _, Some _, Some _ => true | _, _, _ => false end)%bool
  | _, _, _, _, _ => false
  end.
Lemma natz_nat o z : natz o = Some z -> as_nat o = Some (Z.to_nat z).
Proof. destruct o as [[]|]; try discriminate. cbn. congruence. Qed.
Lemma schedule_heated t i f r L : (0 < i)%R -> (0 < f)%R -> (0 < r < 1)%R -> (String.eqb t "constant" || String.eqb t "linear" || String.eqb t "exp_decay")%bool = true ->
  exists sch, schedule_of t i f r L = Some sch /\ heated sch.
Proof.
  intros Hi Hf Hr Ht. unfold schedule_of. destruct (String.eqb t "constant"); [eexists; split; [reflexivity|]; intros s; unfold constant_schedule; lra|].
  destruct (String.eqb t "linear"); [eexists; split; [reflexivity|]; intros s; eapply Rlt_le_trans; [|apply linear_range]; apply Rmin_glb_lt; assumption|].
  cbn [orb] in Ht. rewrite Ht. eexists. split; [reflexivity|]. intros s. unfold exp_schedule. destruct (Nat.leb L 0); [exact Hi|]. destruct (Req_EM_T r 0); [lra|].
  destruct (Rlt_dec r 1); [|lra]. eapply Rlt_le_trans; [|apply Rmax_l]. destruct (Nat.leb s 0); [exact Hi|]. apply Rmult_lt_0_compat; [exact Hi|]. unfold Rpower. apply exp_pos.
Qed.
Lemma readyb_ok d c : readyb (Z.of_nat d) c = true -> exists k coeff z, co_settings c = Some k /\ penalty_of (l_model c) = Some coeff /\ asked_sizes (l_model c) = Some z /\ ready d k coeff /\
  (k_mis k = match as_str (look "name" (l_model c)) with Some n => String.eqb n "mis" | None => false end).
Proof.
  unfold readyb. destruct (natz (look "log_every_steps" (l_exp c))) as [lg|] eqn:E1; [|discriminate]. destruct (natz (look "chain_length" (l_exp c))) as [L|] eqn:E2; [|discriminate].
  destruct (natz (look "batch_size" (l_exp c))) as [b|] eqn:E3; [|discriminate]. destruct (natz (look "num_models" (l_exp c))) as [m|] eqn:E4; [|discriminate].
  destruct (natz (look "num_models" (l_model c))) as [g|] eqn:E5; [|discriminate]. intros H. repeat (apply andb_prop in H; let H' := fresh "Q" in destruct H as [H H']).
  apply natz_nat in E1, E2, E3, E4, E5. apply Z.ltb_lt in H, Q8, Q7, Q5. apply Z.leb_le in Q9. apply Z.eqb_eq in Q6, Q4. subst g.
  unfold heatb in Q3. destruct (as_str (look "t_schedule" (l_exp c))) as [t|] eqn:Et; [|discriminate]. apply andb_prop in Q3. destruct Q3 as [Q3 Qt]. apply andb_prop in Q3. destruct Q3 as [Q3 Qr].
  apply andb_prop in Q3. destruct Q3 as [Qi Qf]. destruct (posb_ok _ Qi) as (i & Ei & Hi). destruct (posb_ok _ Qf) as (f & Ef & Hf). destruct (within_ok _ _ _ Qr) as (r & Er & Hr0 & Hr1).
  destruct (within_ok _ _ _ Q2) as (er & Eer & He0 & He1). destruct (schedule_heated t i f r (Z.to_nat L) Hi Hf (conj Hr0 Hr1) Qt) as (sch & Es & Hh).
  destruct (as_bool (look "run_parallel" (l_exp c))) as [par|] eqn:Ep; [|discriminate]. destruct (as_bool (look "save_samples" (l_exp c))) as [sv|] eqn:Ev; [|discriminate].
  destruct (as_str (look "name" (l_model c))) as [n|] eqn:En; [|discriminate].
  assert (HP : exists coeff, penalty_of (l_model c) = Some coeff /\ (1 <= coeff)%R).
  { unfold penalty_of. destruct (look "penalty" (l_model c)) as [v|] eqn:Ee; [apply (oneb_ok (Some v)); exact Q0|]. exists 2%R. split; [reflexivity|lra]. }
  destruct HP as (coeff & Ecf & Hcf).
  destruct (natz (look "max_num_nodes" (l_model c))) as [nn|] eqn:N1; [|discriminate]. destruct (natz (look "max_num_edges" (l_model c))) as [ne|] eqn:N2; [|discriminate].
  destruct (natz (look "num_instances" (l_model c))) as [ni|] eqn:N3; [|discriminate]. apply natz_nat in N1, N2, N3.
  eexists. exists coeff. eexists. split; [unfold co_settings; rewrite Et, Ei, Ef, Er, E2, Eer, E1, E4, Es, E3, Ep, Ev, En, E5; reflexivity|].
  split; [exact Ecf|]. split; [unfold asked_sizes; rewrite N1, N2, N3; reflexivity|]. cbn [k_mis].
  split; [|reflexivity].
  unfold ready. cbn [k_log k_length k_batch k_models k_group k_ratio k_schedule]. split; [lia|]. split; [lia|]. split; [lia|]. split; [reflexivity|]. split; [auto|]. split; [|split; [exact Hh|exact Hcf]].
  split; [lia|]. apply Z.mod_divide in Q4; [|lia]. destruct Q4 as [q Hq]. exists (Z.to_nat q). nia.
Qed.

(** ** The shipped sweeps *)
Definition node_problem (n : string) : bool := existsb (String.eqb n) ["mis"; "maxclique"; "maxcut"].
Definition single_groupb (c : lconfig) : bool :=
  match natz (look "max_num_nodes" (l_model c)), natz (look "max_num_edges" (l_model c)), natz (look "num_instances" (l_model c)), natz (look "num_models" (l_exp c)) with
  | Some n, Some e, Some i, Some m => (negb (Z.ltb 0 n && Z.ltb 0 e && Z.ltb 0 i) || Z.leb i m)%bool
  | _, _, _, _ => false
  end.
Definition co_ok (repr : lit -> string) (nm : string) (j : job_config) (a : table lit) : bool :=
  match configure repr shipped_modules (shipped_files "/workdir/") a with
  | Some c => (readyb (Z.of_nat (gpus j)) c && match as_str (look "name" (l_model c)) with Some n => String.eqb n (j_model j) | None => false end
               && (String.eqb nm "co/maxcut/er_sampler_sweep" || single_groupb c))%bool
  | None => false
  end.
Definition co_sweep (repr : lit -> string) (root : string) (x : string * job_config) : bool :=
  (negb (node_problem (j_model (snd x))) || String.eqb (fst x) "co/maxcut/optsicom_sampler_sweep"
   || match launch repr (snd x) [] root with Some jobs => forallb (co_ok repr (fst x) (snd x)) jobs | None => false end)%bool.
Lemma co_sweeps repr root : forallb (co_sweep repr root) shipped_sweeps = true.
Proof. vm_compute. reflexivity. Qed.
Lemma single_group_ok c z k : single_groupb c = true -> asked_sizes (l_model c) = Some z -> co_settings c = Some k -> all_given z = true -> (instances z <= k_models k)%nat.
Proof.
  unfold single_groupb, asked_sizes, co_settings. destruct (natz (look "max_num_nodes" (l_model c))) as [n|] eqn:E1; [|discriminate]. destruct (natz (look "max_num_edges" (l_model c))) as [e|] eqn:E2; [|discriminate].
  destruct (natz (look "num_instances" (l_model c))) as [i|] eqn:E3; [|discriminate]. destruct (natz (look "num_models" (l_exp c))) as [m|] eqn:E4; [|discriminate].
  apply natz_nat in E1, E2, E3, E4. rewrite E1, E2, E3, E4. intros H Ez Ek. injection Ez as <-. unfold all_given. cbn [max_nodes max_edges instances]. intros G.
  apply andb_prop in G. destruct G as [G G3]. apply andb_prop in G. destruct G as [G1 G2]. apply Nat.ltb_lt in G1, G2, G3.
  assert (EM : k_models k = Z.to_nat m).
  { destruct (as_str (look "t_schedule" (l_exp c))); [|discriminate]. repeat (match type of Ek with match ?o with Some _ => _ | None => _ end = _ => destruct o; [|discriminate] end).
    injection Ek as <-. reflexivity. }
  rewrite EM. apply orb_prop in H. destruct H as [H|H]; [|apply Z.leb_le in H; lia].
  rewrite !(proj2 (Z.ltb_lt _ _)) in H by lia. discriminate.
Qed.
Lemma shipped_ready repr root nm j jobs a : In (nm, j) shipped_sweeps -> In (j_model j) ["mis"; "maxclique"; "maxcut"] -> nm <> "co/maxcut/optsicom_sampler_sweep" ->
  launch repr j [] root = Some jobs -> In a jobs ->
  exists c k coeff z, configure repr shipped_modules (shipped_files "/workdir/") a = Some c /\ look "name" (l_model c) = Some (LStr (j_model j)) /\
    co_settings c = Some k /\ penalty_of (l_model c) = Some coeff /\ asked_sizes (l_model c) = Some z /\
    ready (gpus j) k coeff /\ (k_mis k = true <-> j_model j = "mis") /\ (nm <> "co/maxcut/er_sampler_sweep" -> all_given z = true -> (instances z <= k_models k)%nat).
Proof.
  intros Hi Hm Hn Hl Ha. pose proof (co_sweeps repr root) as K. rewrite forallb_forall in K. specialize (K (nm, j) Hi). unfold co_sweep in K. cbn [fst snd] in K.
  assert (P : node_problem (j_model j) = true) by (unfold node_problem; apply existsb_exists; exists (j_model j); split; [exact Hm|apply String.eqb_refl]).
  rewrite P, Hl in K. cbn [negb orb] in K. destruct (String.eqb_spec nm "co/maxcut/optsicom_sampler_sweep"); [contradiction|]. cbn [orb] in K.
  rewrite forallb_forall in K. specialize (K a Ha). unfold co_ok in K. destruct (configure repr shipped_modules (shipped_files "/workdir/") a) as [c|]; [|discriminate].
  apply andb_prop in K. destruct K as [K K3]. apply andb_prop in K. destruct K as [K1 K2]. destruct (as_str (look "name" (l_model c))) as [n0|] eqn:En; [|discriminate]. apply String.eqb_eq in K2. subst n0.
  destruct (readyb_ok _ _ K1) as (k & coeff & z & E1 & E2 & E3 & E4 & E5). rewrite En in E5. exists c, k, coeff, z.
  split; [reflexivity|]. split; [destruct (look "name" (l_model c)) as [[]|]; try discriminate; cbn in En; congruence|]. split; [exact E1|]. split; [exact E2|]. split; [exact E3|]. split; [exact E4|].
  split; [rewrite E5; apply String.eqb_eq|]. intros Ne G. apply orb_prop in K3. destruct K3 as [K3|K3]; [apply String.eqb_eq in K3; contradiction|]. eapply single_group_ok; eassumption.
Qed.

(** Particular settings of a sweep. *)
Definition has_ints (l : list (string * Z)) (s : table lit) : bool := forallb (fun kv => match natz (look (fst kv) s) with Some z => Z.eqb z (snd kv) | None => false end) l.
Lemma er_sizes repr root : match launch repr maxcut_er_sampler_sweep [] root with
  | Some jobs => forallb (fun a => match configure repr shipped_modules (shipped_files "/workdir/") a with
                                   | Some c => (has_ints [("num_models", 128%Z)] (l_exp c) && has_ints [("num_instances", 1000%Z)] (l_model c)
                                                && match natz (look "max_num_nodes" (l_model c)), natz (look "max_num_edges" (l_model c)) with Some n, Some e => (Z.ltb 0 n && Z.ltb 0 e)%bool | _, _ => false end)%bool
                                   | None => false end) jobs
  | None => false end = true.
Proof. vm_compute. reflexivity. Qed.
Lemma gap_sizes repr root : match launch repr normcut_gap_rand_sampler_sweep [] root with
  | Some jobs => forallb (fun a => match configure repr shipped_modules (shipped_files "/workdir/") a with
                                   | Some c => (has_ints [("num_models", 5%Z)] (l_exp c) && has_ints [("num_instances", 5%Z); ("num_models", 5%Z)] (l_model c)
                                                && match as_bool (look "run_parallel" (l_exp c)) with Some b => b | None => false end)%bool
                                   | None => false end) jobs
  | None => false end = true.
Proof. vm_compute. reflexivity. Qed.
Definition somb {A} (o : option A) : bool := match o with Some _ => true | None => false end.
Definition settingsb (c : lconfig) : bool :=
  (match as_str (look "t_schedule" (l_exp c)) with Some t => (String.eqb t "constant" || String.eqb t "linear" || String.eqb t "exp_decay")%bool | None => false end
   && somb (decimal (look "init_temperature" (l_exp c))) && somb (decimal (look "final_temperature" (l_exp c))) && somb (decimal (look "decay_rate" (l_exp c)))
   && somb (decimal (look "ess_ratio" (l_exp c))) && somb (natz (look "chain_length" (l_exp c))) && somb (natz (look "log_every_steps" (l_exp c))) && somb (natz (look "num_models" (l_exp c)))
   && somb (natz (look "batch_size" (l_exp c))) && somb (as_bool (look "run_parallel" (l_exp c))) && somb (as_bool (look "save_samples" (l_exp c))) && somb (as_str (look "name" (l_model c)))
   && somb (natz (look "num_models" (l_model c))))%bool.
Lemma somb_real o : somb (decimal o) = true -> exists x, as_real o = Some x.
Proof. destruct (decimal o) as [[z s]|] eqn:E; [|discriminate]. intros _. eexists. exact (decimal_real _ _ _ E). Qed.
Lemma somb_nat o : somb (natz o) = true -> exists x, as_nat o = Some x.
Proof. destruct (natz o) as [z|] eqn:E; [|discriminate]. intros _. eexists. exact (natz_nat _ _ E). Qed.
Lemma settingsb_ok c : settingsb c = true -> exists k, co_settings c = Some k /\ Some (k_models k) = as_nat (look "num_models" (l_exp c)) /\ Some (k_group k) = as_nat (look "num_models" (l_model c)) /\
  Some (k_parallel k) = as_bool (look "run_parallel" (l_exp c)).
Proof.
  unfold settingsb. intros H. repeat (apply andb_prop in H; let H' := fresh "Q" in destruct H as [H H']).
  destruct (somb_nat _ Q) as (x1 & E1). destruct (as_str (look "name" (l_model c))) as [n|] eqn:E2; [|discriminate]. destruct (as_bool (look "save_samples" (l_exp c))) as [sv|] eqn:E3; [|discriminate].
  destruct (as_bool (look "run_parallel" (l_exp c))) as [par|] eqn:E4; [|discriminate].
  destruct (somb_nat _ Q3) as (x5 & E5). destruct (somb_nat _ Q4) as (x6 & E6). destruct (somb_nat _ Q5) as (x7 & E7). destruct (somb_nat _ Q6) as (x8 & E8).
  destruct (somb_real _ Q7) as (x9 & E9). destruct (somb_real _ Q8) as (xa & Ea). destruct (somb_real _ Q9) as (xb & Eb). destruct (somb_real _ Q10) as (xc & Ec).
  destruct (as_str (look "t_schedule" (l_exp c))) as [t|] eqn:Et; [|discriminate].
  assert (S : exists sch, schedule_of t xc xb xa x8 = Some sch).
  { unfold schedule_of. destruct (String.eqb t "constant"); [eauto|]. destruct (String.eqb t "linear"); [eauto|]. cbn [orb] in H. rewrite H. eauto. }
  destruct S as [sch Es]. eexists. split; [unfold co_settings; rewrite Et, Ec, Eb, Ea, E8, E9, E7, E6, Es, E5, E4, E3, E2, E1; reflexivity|]. cbn [k_models k_group k_parallel]. auto.
Qed.
Lemma er_refuted repr root : exists jobs, launch repr maxcut_er_sampler_sweep [] root = Some jobs /\ jobs <> [] /\ forall a, In a jobs ->
  exists c k coeff z, configure repr shipped_modules (shipped_files "/workdir/") a = Some c /\ co_settings c = Some k /\ asked_sizes (l_model c) = Some z /\ all_given z = true /\
    instances z = 1000%nat /\ ready (gpus maxcut_er_sampler_sweep) k coeff /\ k_models k = 128%nat.
Proof.
  assert (Hi : In ("co/maxcut/er_sampler_sweep", maxcut_er_sampler_sweep) shipped_sweeps) by (apply (nth_error_In _ 26); reflexivity).
  destruct (launch_some repr root _ _ Hi) as (jobs & H & Hne). exists jobs. split; [exact H|]. split; [exact Hne|]. intros a Ha.
  destruct (shipped_ready repr root _ _ jobs a Hi) as (c & k & coeff & z & E1 & _ & E3 & _ & E5 & E6 & _); [right; right; left; reflexivity|discriminate|exact H|exact Ha|].
  exists c, k, coeff, z. pose proof (er_sizes repr root) as K. rewrite H, forallb_forall in K. specialize (K a Ha). rewrite E1 in K. apply andb_prop in K. destruct K as [K K3]. apply andb_prop in K. destruct K as [K1 K2].
  unfold has_ints in K1, K2. cbn [forallb fst snd andb] in K1, K2. rewrite andb_true_r in K1, K2.
  destruct (natz (look "num_models" (l_exp c))) as [m|] eqn:F1; [|discriminate]. destruct (natz (look "num_instances" (l_model c))) as [i|] eqn:F2; [|discriminate].
  destruct (natz (look "max_num_nodes" (l_model c))) as [n|] eqn:F3; [|discriminate]. destruct (natz (look "max_num_edges" (l_model c))) as [e|] eqn:F4; [|discriminate].
  apply Z.eqb_eq in K1, K2. subst m i. apply andb_prop in K3. destruct K3 as [K3 K4]. apply Z.ltb_lt in K3, K4. apply natz_nat in F1, F2, F3, F4.
  unfold asked_sizes in E5. rewrite F2, F3, F4 in E5. injection E5 as <-.
  split; [exact E1|]. split; [exact E3|]. split; [unfold asked_sizes; rewrite F2, F3, F4; reflexivity|]. split; [|split; [reflexivity|split; [exact E6|]]].
  - unfold all_given. cbn [max_nodes max_edges instances]. rewrite !(proj2 (Nat.ltb_lt _ _)) by lia. reflexivity.
  - unfold co_settings in E3. rewrite F1 in E3. clear - E3. repeat (match type of E3 with match ?o with Some _ => _ | None => _ end = _ => destruct o; [|discriminate] end). injection E3 as <-. reflexivity.
Qed.
Lemma gap_settings repr root : match launch repr normcut_gap_rand_sampler_sweep [] root with
  | Some jobs => forallb (fun a => match configure repr shipped_modules (shipped_files "/workdir/") a with Some c => settingsb c | None => false end) jobs
  | None => false end = true.
Proof. vm_compute. reflexivity. Qed.
Lemma gap_refuted repr root : exists jobs, launch repr normcut_gap_rand_sampler_sweep [] root = Some jobs /\ jobs <> [] /\ forall a, In a jobs ->
  exists c k, configure repr shipped_modules (shipped_files "/workdir/") a = Some c /\ co_settings c = Some k /\ as_nat (look "num_instances" (l_model c)) = Some 5%nat /\
    k_parallel k = true /\ k_models k = 5%nat /\ k_group k = 5%nat.
Proof.
  assert (Hi : In ("co/normcut/gap_rand_sampler_sweep", normcut_gap_rand_sampler_sweep) shipped_sweeps) by (apply (nth_error_In _ 34); reflexivity).
  destruct (launch_some repr root _ _ Hi) as (jobs & H & Hne). exists jobs. split; [exact H|]. split; [exact Hne|]. intros a Ha.
  pose proof (gap_settings repr root) as K. pose proof (gap_sizes repr root) as K'. rewrite H, forallb_forall in K, K'. specialize (K a Ha). specialize (K' a Ha).
  destruct (configure repr shipped_modules (shipped_files "/workdir/") a) as [c|]; [|discriminate]. destruct (settingsb_ok c K) as (k & E1 & E2 & E3 & E4). exists c, k.
  apply andb_prop in K'. destruct K' as [K' K3]. apply andb_prop in K'. destruct K' as [K1 K2]. unfold has_ints in K1, K2. cbn [forallb fst snd andb] in K1, K2. rewrite andb_true_r in K1, K2. apply andb_prop in K2. destruct K2 as [K2 K4].
  destruct (natz (look "num_models" (l_exp c))) as [m|] eqn:F1; [|discriminate]. destruct (natz (look "num_instances" (l_model c))) as [i|] eqn:F2; [|discriminate]. destruct (natz (look "num_models" (l_model c))) as [g|] eqn:F3; [|discriminate].
  apply Z.eqb_eq in K1, K2. apply Z.eqb_eq in K4. subst. apply natz_nat in F1, F2, F3. rewrite F1 in E2. rewrite F3 in E3. destruct (as_bool (look "run_parallel" (l_exp c))) as [[|]|]; try discriminate.
  split; [reflexivity|]. split; [exact E1|]. split; [exact F2|]. split; [congruence|]. change (Z.to_nat 5) with 5%nat in *. split; congruence.
Qed.
