From Coq Require Import String List Bool ZArith Reals Lra Lia Arith.
From Verif.Base Require Import RSum.
From Verif.Spec Require Import GraphSpec GraphRunSpec.
From Verif.Model Require Import CombOpt GraphIter Experiment Loaders GraphRun.
From Verif.Proof Require Import GraphIterProof ExperimentProof CombOptProof GraphRunProof.
Import ListNotations.

Lemma looked_round log L t : (0 < log)%nat -> looked_at log (L / log * log) t <-> looked_at log L t.
Proof.
  intros Hl. unfold looked_at. pose proof (Nat.div_mod L log ltac:(lia)) as E. pose proof (Nat.mod_upper_bound L log ltac:(lia)) as U. split; intros [H1 [c ->]].
  - split; [nia|exists c; reflexivity].
  - split; [|exists c; reflexivity]. split; [lia|]. assert (c <= L / log)%nat by (apply Nat.div_le_lower_bound; lia). nia.
Qed.
Lemma best_seen_ext ref b s s' : (forall v, s v <-> s' v) -> best_seen ref b s -> best_seen ref b s'.
Proof. intros H [H1 H2]. split; [intros v Hv; apply H1, H, Hv|]. destruct H2 as [H2|(v & Hv & E)]; [left; exact H2|right]. exists v. split; [apply H, Hv|exact E]. Qed.

Section Job.
Variables A X : Type.
Variable value : A -> R -> X -> R.
Variable zeros : X.
Variable dummy : A * R.

Lemma ids_kept par d b m n ids : spreads par d b m n -> (0 < m)%nat -> (m = 1%nat -> n = 1%nat -> ids = [0%Z]) -> device_ids d par m ids = Some ids.
Proof.
  intros H Hm H1. unfold device_ids. destruct par; cbn [andb]; [|reflexivity]. destruct (Nat.eqb_spec d 1); cbn [negb andb]; [reflexivity|].
  destruct (Nat.ltb_spec m d) as [Hlt|]; [|reflexivity]. destruct H as [H|[H|[[H0 H]|(H0 & H & E & En)]]]; [discriminate|contradiction| |].
  - pose proof (Nat.divide_pos_le d m Hm H). lia.
  - rewrite (H1 E En). reflexivity.
Qed.
Lemma spreads_enough par d b m n : spreads par d b m n -> enough par d b m.
Proof. unfold spreads, enough. tauto. Qed.

Theorem job_saved d k N (gs : list (A * R)) visits o :
  (0 < k_log k)%nat -> (0 < k_batch k)%nat -> (0 < k_models k)%nat -> k_group k = k_models k -> (0 <= k_ratio k <= 1)%R ->
  spreads (k_parallel k) d (k_batch k) (k_models k) N -> gs <> [] -> (length gs <= N)%nat -> last_group N (k_models k) o ->
  (forall q t, length (visits q t) = (k_models k * k_batch k)%nat) ->
  exists f s, run_job value zeros dummy d k N gs visits = Some (f, true) /\ f "results"%string = Some s /\
    length (s_best s) = (length gs - o)%nat /\ length (s_trajectory s) = (k_length k / k_log k)%nat /\ (k_samples k = true -> length (s_samples s) = k_models k) /\
    forall i a r, (o <= i)%nat -> nth_error gs i = Some (a, r) -> let ref := if k_mis k then 1%R else r in (0 < ref)%R ->
      let sees L := seen (value a) (k_schedule k) (k_log k) L (k_batch k) (i - o) (visits (o / k_models k)%nat) in
      exists b, nth_error (s_best s) (i - o) = Some b /\ best_seen ref b (sees (k_length k)) /\
        (k_samples k = true -> (exists v, sees (k_length k) v /\ (- 10 ^ 9 < v / ref)%R) ->
           exists t x, shown (k_log k) (k_length k) (k_batch k) (i - o) (visits (o / k_models k)%nat) t x /\ nth_error (s_samples s) (i - o) = Some x /\
             b = (value a (k_schedule k t) x / ref)%R) /\
        forall t, (t < k_length k / k_log k)%nat -> exists row b', nth_error (s_trajectory s) t = Some row /\ nth_error row (i - o) = Some b' /\
          best_seen ref b' (sees (S t * k_log k)%nat).
Proof.
  intros Hlog Hb Hm Hg Hr Hs Hne HN Ho Hv. destruct (last_group_is A N (k_models k) o gs Hm HN Ho) as (out & G & H1 & H2 & H3 & H4).
  assert (He := spreads_enough _ _ _ _ _ Hs).
  assert (EW : forall g, In g (out ++ [G]) -> ends_well A d k g).
  { intros g Hin. split; [apply H2, Hin|]. apply (ids_kept _ _ (k_batch k) _ N); [exact Hs|exact Hm|]. intros Em E1. rewrite Em, E1 in *.
    destruct Ho as [Dv Ho]. assert (E0 : o = 0%nat) by lia. rewrite E0 in *. cbn [Nat.div Nat.divmod fst] in H3. destruct out; [|discriminate].
    destruct Hin as [<-|[]]. destruct gs as [|p [|p' gs]]; [congruence| |cbn in HN; lia]. rewrite H4. reflexivity. }
  destruct (run_groups_all A X value zeros dummy d k out G visits (fun _ => None)) as (s & f & Es & Ef & Er).
  { intros g v Hin. apply run_group_some; auto. }
  exists f, s. split; [unfold run_job; rewrite Hg, H1, Ef; reflexivity|]. split; [exact Er|]. rewrite H3 in Es.
  assert (EG : ends_well A d k G) by (apply EW, in_or_app; right; left; reflexivity). rewrite H4 in Es, EG.
  destruct (group_result A X value zeros dummy d k (combine (seq o (length gs - o)) (skipn o gs)) _ (visits (o / k_models k)%nat) s Hlog Hb Hm Hr He (Hv _) EG Es) as (L1 & L2 & L3 & K).
  split; [rewrite L1, combine_length, seq_length, skipn_length; lia|]. split; [exact L2|]. split; [exact L3|].
  intros i a r Hoi Hi ref Href sees.
  assert (Hin : nth_error (combine (seq o (length gs - o)) (skipn o gs)) (i - o) = Some (i, (a, r))).
  { assert (E := combine_seq_nth (skipn o gs) o (i - o) (a, r)). rewrite nth_error_skip, skipn_length in E. replace (o + (i - o))%nat with i in E by lia. auto. }
  assert (Hj : (i - o < k_models k)%nat). { assert (i < length gs)%nat by (apply nth_error_Some; congruence). destruct Ho as [_ Ho]. lia. }
  destruct (K _ _ _ _ Hin) as (K1 & K2 & K3). change (slot_ref k (a, r)) with ref in *.
  set (st := after_looks A X value zeros a ref (k_schedule k) (k_log k) (k_batch k) (i - o) (visits (o / k_models k)%nat)) in *.
  assert (Q := best_after A X value zeros a ref (k_schedule k) (k_log k) (k_batch k) (i - o) (k_models k) (visits (o / k_models k)%nat) Hb Hlog Href Hj (Hv _)). fold st in Q.
  assert (Rd : forall t x, shown (k_log k) (k_length k / k_log k * k_log k) (k_batch k) (i - o) (visits (o / k_models k)%nat) t x <-> shown (k_log k) (k_length k) (k_batch k) (i - o) (visits (o / k_models k)%nat) t x)
    by (intros t x; unfold shown; rewrite (looked_round _ _ _ Hlog); reflexivity).
  eexists. split; [exact K1|]. split; [|split].
  - eapply best_seen_ext; [|exact (proj1 (Q _))]. intros v. cbv beta. unfold sees, seen. split; intros (t & x & Hsh & E); exists t, x; split; auto; apply Rd; exact Hsh.
  - intros Sa (v & (t0 & x0 & Hsh & E) & Hgt). destruct (proj2 (Q (k_length k / k_log k)%nat)) as (t & Ht & Eb).
    + exists v, t0, x0. split; [apply Rd, Hsh|]. auto.
    + exists t, (snd (st (k_length k / k_log k)%nat)). split; [apply Rd, Ht|]. split; [apply K2, Sa|exact Eb].
  - intros t Ht. destruct (K3 t Ht) as (row & R1 & R2). exists row. eexists. split; [exact R1|]. split; [exact R2|]. exact (proj1 (Q (S t))).
Qed.

(** ** Runs that break *)
Lemma iterator_first N m (gs : list (A * R)) : (0 < m)%nat -> (length gs <= N)%nat -> (0 < N)%nat -> exists g groups, get_iterator N m 1 0 gs = Some (g :: groups) /\ length g = m.
Proof.
  intros Hm HN H0. destruct (iterator_spec (A * R) N m 1 0 gs Hm ltac:(lia) ltac:(apply Nat.mod_1_r) HN) as (all & H1 & H2 & H3 & _). rewrite Nat.div_1_r in H3.
  destruct (total_batches_ceil N m Hm) as [T1 _]. destruct all as [|g groups]; [cbn in H2; rewrite <- H2 in T1; lia|]. exists g, groups. split; [exact H1|apply H3; left; reflexivity].
Qed.
Theorem job_few d k N (gs : list (A * R)) visits : k_parallel k = true -> (1 < k_models k < d)%nat -> k_group k = k_models k -> (length gs <= N)%nat -> (0 < N)%nat ->
  run_job value zeros dummy d k N gs visits = Some (fun _ => None, false).
Proof.
  intros Hp Hm Hg HN H0. unfold run_job. rewrite Hg. destruct (iterator_first N (k_models k) gs ltac:(lia) HN H0) as (g & groups & -> & Lg).
  cbn [run_groups]. unfold run_group. rewrite Hp. unfold device_ids. cbn [andb]. destruct (Nat.eqb_spec d 1); [lia|]. rewrite (proj2 (Nat.ltb_lt _ _) (proj2 Hm)). cbn [negb andb].
  assert (E : truth (map slot_id g) = None). { destruct g as [|e1 [|e2 g]]; [cbn in Lg; lia|cbn in Lg; lia|reflexivity]. }
  rewrite E. destruct (arrange d true (k_batch k) (k_models k)); reflexivity.
Qed.
(** One instance at a time on several devices: the first is saved, the second breaks the run. *)
Theorem job_one_by_one d k N (gs : list (A * R)) visits : k_parallel k = true -> k_models k = 1%nat -> (1 < d)%nat -> k_group k = 1%nat -> (length gs <= N)%nat -> (1 < N)%nat -> gs <> [] ->
  (0 < k_batch k)%nat -> Nat.divide d (k_batch k) ->
  exists f s, run_job value zeros dummy d k N gs visits = Some (f, false) /\ f "results"%string = Some s /\ length (s_best s) = 1%nat.
Proof.
  intros Hp Hm Hd Hg HN H1 Hne Hb Hdiv. destruct (iterator_spec (A * R) N 1 1 0 gs ltac:(lia) ltac:(lia) eq_refl HN) as (all & E1 & E2 & E3 & E4).
  change (1 / 1)%nat with 1%nat in *. rewrite Nat.mul_1_r in E4. destruct (total_batches_ceil N 1 ltac:(lia)) as [T1 _]. unfold run_job. rewrite Hg, E1.
  rewrite <- E2 in T1, E4. destruct all as [|g0 [|g1 all]]; [cbn [length Nat.mul] in T1; lia|cbn [length Nat.mul] in T1; lia|]. cbn [length] in E4.
  assert (L0 := E3 g0 (or_introl eq_refl)). assert (L1 := E3 g1 (or_intror (or_introl eq_refl))). destruct g0 as [|e0 [|? ?]]; try discriminate. destruct g1 as [|e1 [|? ?]]; try discriminate.
  assert (Q0 := E4 0%nat ltac:(lia)). assert (Q1 := E4 1%nat ltac:(lia)). cbn [concat app nth_error Nat.add Nat.mul] in Q0, Q1.
  destruct gs as [|p gs]; [congruence|]. cbn [nth_error] in Q0. injection Q0 as ->.
  assert (HE1 : slot_id e1 <> 0%Z). { injection Q1 as ->. cbn [nth_error]. destruct gs; cbn [nth_error slot_id]; lia. } clear Q1.
  cbn [run_groups]. unfold run_group at 1. rewrite Hp, Hm. unfold device_ids, arrange. cbn [andb]. destruct (Nat.eqb_spec d 1); [lia|]. cbn [negb andb].
  destruct (Nat.leb_spec d 1); [lia|]. rewrite (proj2 (Nat.mod_divide (k_batch k) d ltac:(lia)) Hdiv). cbn [Nat.eqb]. rewrite (proj2 (Nat.ltb_lt 1 d) Hd).
  cbn [map slot_id truth Z.of_nat Z.eqb negb sample_mask length Nat.eqb].
  unfold run_group at 1. rewrite Hp, Hm. unfold device_ids, arrange. cbn [andb]. destruct (Nat.eqb_spec d 1); [lia|]. cbn [negb andb].
  destruct (Nat.leb_spec d 1); [lia|]. rewrite (proj2 (Nat.mod_divide (k_batch k) d ltac:(lia)) Hdiv). cbn [Nat.eqb]. rewrite (proj2 (Nat.ltb_lt 1 d) Hd).
  cbn [map truth]. rewrite (proj2 (Z.eqb_neq _ _) HE1). cbn [negb]. rewrite Nat.div_1_r.
  assert (EL : length (concat (repeat [slot_id e1] d)) = d). { rewrite concat_repeat_1, repeat_length. reflexivity. }
  unfold sample_mask at 1. rewrite EL. destruct (Nat.eqb_spec d 1); [lia|].
  eexists. eexists. split; [reflexivity|]. split; [reflexivity|]. reflexivity.
Qed.
End Job.

(** ** What the numbers mean *)
Lemma shown_some {X} log L b j m (visits : nat -> list X) : (0 < log <= L)%nat -> (0 < b)%nat -> (j < m)%nat -> (forall t, length (visits t) = (m * b)%nat) -> exists t x, shown log L b j visits t x.
Proof.
  intros Hl Hb Hj Hv. exists log. destruct (nth_error (visits log) (j * b + 0)) as [x|] eqn:E.
  - exists x. split; [split; [lia|exists 1%nat; lia]|]. exists 0%nat. auto.
  - exfalso. apply nth_error_None in E. rewrite Hv in E. nia.
Qed.
Lemma honest_of (feasible : list nat -> Prop) n val sched log L b j visits ref best : (0 < ref)%R ->
  (forall t x, shown log L b j visits t x -> feasible (selected n x) -> val (sched t) x = INR (length (selected n x))) ->
  (forall t x, shown log L b j visits t x -> exists S, feasible S /\ incl S (selected n x) /\ (val (sched t) x <= INR (length S))%R) ->
  (exists t x, shown log L b j visits t x) -> best_seen ref best (seen val sched log L b j visits) ->
  honest feasible n ref best (fun x => exists t, shown log L b j visits t x).
Proof.
  intros Hr Hf He (t0 & x0 & H0) [H1 H2]. split.
  - intros x (t & Ht) Fx. rewrite <- (Hf t x Ht Fx). apply H1. exists t, x. auto.
  - destruct H2 as [H2|(v & (t & x & Ht & ->) & H2)].
    + destruct (He t0 x0 H0) as (S & F & I1 & _). exists x0, S. split; [exists t0; exact H0|]. split; [exact F|]. split; [exact I1|]. rewrite H2.
      assert (0 <= INR (length S) / ref)%R by (apply Rmult_le_pos; [apply pos_INR|left; apply Rinv_0_lt_compat, Hr]). lra.
    + destruct (He t x Ht) as (S & F & I1 & Le). exists x, S. split; [exists t; exact Ht|]. split; [exact F|]. split; [exact I1|]. rewrite H2.
      apply Rmult_le_compat_r; [left; apply Rinv_0_lt_compat, Hr|exact Le].
Qed.
Lemma honest_optimum feasible n ref best sample k : (0 < ref)%R -> honest feasible n ref best sample -> (forall S, feasible S -> (length S <= k)%nat) ->
  (best <= INR k / ref)%R /\ ((exists x, sample x /\ feasible (selected n x) /\ length (selected n x) = k) -> best = (INR k / ref)%R).
Proof.
  intros Hr [H1 (x & S & _ & F & _ & Le)] Hk. assert (U : (best <= INR k / ref)%R).
  { eapply Rle_trans; [exact Le|]. apply Rmult_le_compat_r; [left; apply Rinv_0_lt_compat, Hr|]. apply le_INR, Hk, F. }
  split; [exact U|]. intros (y & Hy & Fy & E). apply Rle_antisym; [exact U|]. rewrite <- E. apply H1; assumption.
Qed.

Section Jobs.
Variables (d : nat) (k : co_conf) (N o : nat) (gs : list (graph * R)) (dummy : graph * R) (zeros : nat -> bool) (visits : nat -> nat -> list (nat -> bool)).
Hypotheses (Hlog : (0 < k_log k <= k_length k)%nat) (Hb : (0 < k_batch k)%nat) (Hm : (0 < k_models k)%nat) (Hg : k_group k = k_models k) (Hr : (0 <= k_ratio k <= 1)%R)
  (Hs : spreads (k_parallel k) d (k_batch k) (k_models k) N) (Hne : gs <> []) (HN : (length gs <= N)%nat) (Ho : last_group N (k_models k) o)
  (Hv : forall q t, length (visits q t) = (k_models k * k_batch k)%nat) (Ht : heated (k_schedule k)).
Local Notation samples_of := (samples k o visits).

Lemma job_shown i p : (o <= i)%nat -> nth_error gs i = Some p -> exists t x, shown (k_log k) (k_length k) (k_batch k) (i - o) (visits (o / k_models k)%nat) t x.
Proof.
  intros Hi E. apply (shown_some _ _ _ _ (k_models k)); auto. assert (i < length gs)%nat by (apply nth_error_Some; congruence). destruct Ho as [_ Ho2]. lia.
Qed.
Lemma job_mis coeff z : (1 <= coeff)%R -> k_mis k = true ->
  exists f s, run_job (mis_at coeff z) zeros dummy d k N gs visits = Some (f, true) /\ f "results"%string = Some s /\ length (s_best s) = (length gs - o)%nat /\
    forall i g r, (o <= i)%nat -> nth_error gs i = Some (g, r) -> (length (g_nodes g) <= max_nodes z)%nat -> loopless (length (g_nodes g)) (map ends (g_edges g)) ->
      exists b, nth_error (s_best s) (i - o) = Some b /\ honest (independent (length (g_nodes g)) (map ends (g_edges g))) (length (g_nodes g)) 1 b (samples_of i).
Proof.
  intros Hc Hk. destruct (job_saved _ _ (mis_at coeff z) zeros dummy d k N gs visits o (proj1 Hlog) Hb Hm Hg Hr Hs Hne HN Ho Hv) as (f & s & E1 & E2 & E3 & _ & _ & K).
  exists f, s. split; [exact E1|]. split; [exact E2|]. split; [exact E3|]. intros i g r Hi Eg Hn Hl. destruct (K i g r Hi Eg) as (b & Eb & Bs & _); [rewrite Hk; lra|].
  rewrite Hk in Bs. exists b. split; [exact Eb|]. apply (honest_of _ _ (mis_at coeff z g) (k_schedule k)); [lra| | |exact (job_shown i _ Hi Eg)|exact Bs].
  - intros t x _ F. apply mis_independent; auto. specialize (Ht t). lra.
  - intros t x _. apply mis_extract; auto. specialize (Ht t). lra.
Qed.
Lemma job_clique coeff z : (1 <= coeff)%R -> k_mis k = false ->
  exists f s, run_job (clique_at coeff z) zeros dummy d k N gs visits = Some (f, true) /\ f "results"%string = Some s /\ length (s_best s) = (length gs - o)%nat /\
    forall i g r, (o <= i)%nat -> nth_error gs i = Some (g, r) -> (0 < r)%R -> (length (g_nodes g) <= max_nodes z)%nat -> simple (length (g_nodes g)) (map ends (g_edges g)) ->
      exists b, nth_error (s_best s) (i - o) = Some b /\ honest (clique (length (g_nodes g)) (map ends (g_edges g))) (length (g_nodes g)) r b (samples_of i).
Proof.
  intros Hc Hk. destruct (job_saved _ _ (clique_at coeff z) zeros dummy d k N gs visits o (proj1 Hlog) Hb Hm Hg Hr Hs Hne HN Ho Hv) as (f & s & E1 & E2 & E3 & _ & _ & K).
  exists f, s. split; [exact E1|]. split; [exact E2|]. split; [exact E3|]. intros i g r Hi Eg Hr0 Hn Hl. destruct (K i g r Hi Eg) as (b & Eb & Bs & _); [rewrite Hk; exact Hr0|].
  rewrite Hk in Bs. exists b. split; [exact Eb|]. apply (honest_of _ _ (clique_at coeff z g) (k_schedule k)); [exact Hr0| | |exact (job_shown i _ Hi Eg)|exact Bs].
  - intros t x _ F. apply clique_clique; auto. specialize (Ht t). lra.
  - intros t x _. apply clique_extract; auto. specialize (Ht t). lra.
Qed.
Lemma job_cut z : k_mis k = false ->
  exists f s, run_job (cut_at z) zeros dummy d k N gs visits = Some (f, true) /\ f "results"%string = Some s /\ length (s_best s) = (length gs - o)%nat /\
    forall i g r, (o <= i)%nat -> nth_error gs i = Some (g, r) -> (0 < r)%R ->
      exists b, nth_error (s_best s) (i - o) = Some b /\ best_seen r b (fun v => exists x, samples_of i x /\ v = cut_value (g_edges g) x).
Proof.
  intros Hk. destruct (job_saved _ _ (cut_at z) zeros dummy d k N gs visits o (proj1 Hlog) Hb Hm Hg Hr Hs Hne HN Ho Hv) as (f & s & E1 & E2 & E3 & _ & _ & K).
  exists f, s. split; [exact E1|]. split; [exact E2|]. split; [exact E3|]. intros i g r Hi Eg Hr0. destruct (K i g r Hi Eg) as (b & Eb & Bs & _); [rewrite Hk; exact Hr0|].
  rewrite Hk in Bs. exists b. split; [exact Eb|]. eapply best_seen_ext; [|exact Bs]. intros v. unfold seen, samples.
  assert (CV : forall t x, cut_at z g (k_schedule k t) x = cut_value (g_edges g) x) by (intros t x; apply (maxcut_value g (max_edges z) 0); [reflexivity|specialize (Ht t); lra]).
  split.
  - intros (t & x & Hx & ->). exists x. split; [exists t; exact Hx|apply CV].
  - intros (x & (t & Hx) & ->). exists t, x. split; [exact Hx|symmetry; apply CV].
Qed.
End Jobs.
