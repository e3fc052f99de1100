(** Annealing runs with any usable sampler object, adaptive or not: what is saved, its range, the first value, and runs without data mean. *)
From Coq Require Import String Reals List Arith ZArith Lra Lia.
From Verif.Base Require Import RSum Cube Dist.
From Verif.Spec Require Import Chain SamplerRun EvalSpec AisRunSpec.
From Verif.Model Require Import MathUtil BernEval FullRun Experiment GraphRun AisRun.
From Verif.Proof Require Import MHKernel AdaptiveRunProof ChainProof LangevinProof LangevinAdapt BernEvalProof CoOptProof FullRunProof FullRunInvar GuardRun PaddingProof ErgodicProof
  ExperimentProof GraphProof GraphRunProof AisProduct AisChains AisBias AisRunProof AisExperiment.
Import ListNotations.
Local Open Scope R_scope.

Lemma logz_range b l : l <> [] -> (forall w, In w l -> Rabs w <= b) -> Rabs (logz l) <= b.
Proof.
  intros Hl H. assert (Hn : 0 < INR (length l)) by (apply lt_0_INR; destruct l; [congruence|cbn; lia]).
  assert (Hr : exp (- b) <= exp (logz l) <= exp b).
  { rewrite (logz_mean l Hl). split.
    - apply Rmult_le_reg_r with (INR (length l)); [exact Hn|]. unfold Rdiv. rewrite Rmult_assoc, Rinv_l, Rmult_1_r by lra.
      rewrite Rmult_comm, <- rsum_const. apply rsum_le. intros w Hw. apply exp_le. specialize (H w Hw). unfold Rabs in H. destruct (Rcase_abs w); lra.
    - apply Rmult_le_reg_r with (INR (length l)); [exact Hn|]. unfold Rdiv. rewrite Rmult_assoc, Rinv_l, Rmult_1_r by lra.
      rewrite (Rmult_comm (exp b)), <- rsum_const. apply rsum_le. intros w Hw. apply exp_le. specialize (H w Hw). unfold Rabs in H. destruct (Rcase_abs w); lra. }
  apply Rabs_le. destruct Hr as [H1 H2]. split.
  - destruct (Rle_dec (- b) (logz l)) as [|N]; [assumption|]. exfalso. apply Rnot_le_lt in N. apply exp_increasing in N. lra.
  - destruct (Rle_dec (logz l) b) as [|N]; [assumption|]. exfalso. apply Rnot_le_lt in N. apply exp_increasing in N. lra.
Qed.

Section Any.
  Variables (g dg : R) (T : nat -> target) (k : sampler) (d : nat) (c : R).
  Hypotheses (Hdim : forall t, t_dim (T t) = d) (HC : forall t, t_C (T t) = 2%nat) (Hd : (0 < d)%nat) (Hu : forall t, usable (T t) k) (Hc0 : 0 <= c).
  Hypothesis Hc : forall t x, In x (states d 2) -> Rabs (t_fw (T (S t)) x - t_fw (T t) x) <= c.

  Definition legal_dev (t : nat) (o : dev) : Prop :=
    state_at d 2 k t (snd (fst o)) /\ (forall x, In x (fst (fst o)) -> In x (states d 2)) /\ length (snd o) = length (fst (fst o)) /\
    forall w, In w (snd o) -> Rabs w <= INR t * c.
  Definition some_chain (ds : list dev) : Prop := exists o, In o ds /\ snd o <> [].

  Lemma legal_step t o : legal_dev t o -> is_prob (dev_step g dg (T t) (T (S t)) k o) /\
    forall o' w, In (o', w) (dev_step g dg (T t) (T (S t)) k o) -> legal_dev (S t) o' /\ length (snd o') = length (snd o) /\ snd o' = dev_weights (T t) (T (S t)) o.
  Proof.
    destruct o as [[xs s] ws]. intros (Hs & Hx & Hl & Hw). cbn [fst snd] in *.
    pose proof (step_good g dg (T (S t)) k t s xs) as G. rewrite Hdim, HC in G. destruct (G Hd (le_n 2) (Hu (S t)) Hs Hx) as [G1 G2]. clear G.
    unfold dev_step. cbn [fst]. split; [apply is_prob_dmap; exact G1|]. intros o' w Ho. apply in_dmap in Ho. destruct Ho as ([ys s'] & Ho & ->).
    destruct (G2 _ _ Ho) as (A1 & A2 & A3). cbn [fst snd] in *.
    assert (Hlen : length (dev_weights (T t) (T (S t)) (xs, s, ws)) = length xs) by (unfold dev_weights; rewrite map_length, combine_length; cbn [fst snd]; lia).
    split; [|split; [cbn [snd]; lia|reflexivity]]. split; [exact A3|]. split; [exact A2|]. cbn [fst snd]. split; [lia|].
    intros v Hv. unfold dev_weights in Hv. cbn [fst snd] in Hv. apply in_map_iff in Hv. destruct Hv as ([x u] & <- & Hin). cbn [fst snd].
    pose proof (Hx x (in_combine_l _ _ _ _ Hin)) as Hx1. pose proof (Hw u (in_combine_r _ _ _ _ Hin)) as Hu1.
    replace (u + t_fw (T (S t)) x - t_fw (T t) x) with (u + (t_fw (T (S t)) x - t_fw (T t) x)) by ring.
    eapply Rle_trans; [apply Rabs_triang|]. rewrite S_INR, Rmult_plus_distr_r, Rmult_1_l. apply Rplus_le_compat; [exact Hu1|apply Hc; exact Hx1].
  Qed.

  Lemma legal_steps t : forall ds, (forall o, In o ds -> legal_dev t o) -> is_prob (indep (map (dev_step g dg (T t) (T (S t)) k) ds)) /\
    forall ds' w, In (ds', w) (indep (map (dev_step g dg (T t) (T (S t)) k) ds)) ->
      (forall o, In o ds' -> legal_dev (S t) o) /\ (some_chain ds -> some_chain ds') /\ map snd ds' = map (dev_weights (T t) (T (S t))) ds.
  Proof.
    intros ds H. split.
    - apply is_prob_indep. intros dd Hdd. apply in_map_iff in Hdd. destruct Hdd as (o & <- & Ho). apply legal_step. auto.
    - intros ds' w Hin. apply in_indep_each in Hin. remember (map _ ds) as Ls eqn:EL. revert ds H EL.
      induction Hin as [|o dd ds' Ls Ho Hr IH]; intros ds H EL; destruct ds as [|o0 ds]; try discriminate.
      + split; [intros o []|]. split; [auto|reflexivity].
      + cbn [map] in EL. injection EL as E1 E2. subst dd. destruct Ho as [v Hv]. destruct (legal_step t o0 (H o0 (or_introl eq_refl))) as [_ G].
        destruct (G o v Hv) as (B1 & B2 & B3). destruct (IH ds) as (I1 & I2 & I3); [intros; apply H; right; auto|exact E2|]. split; [|split].
        * intros o' [<-|Ho']; auto.
        * intros (oo & [<-|Hoo] & Hne).
          -- exists o. split; [left; reflexivity|]. intros E0. apply Hne. destruct (snd o0); [reflexivity|]. rewrite E0 in B2. discriminate.
          -- destruct I2 as (o2 & Ho2 & Hn2); [exists oo; auto|]. exists o2. split; [right; exact Ho2|exact Hn2].
        * cbn [map]. rewrite I3, B3. reflexivity.
  Qed.

  Lemma some_weights ds : some_chain ds -> concat (map snd ds) <> [].
  Proof.
    intros (o & Ho & Hne) E0. destruct (snd o) as [|w l] eqn:El; [congruence|]. assert (Hin : In w (concat (map snd ds))) by (apply in_concat; exists (snd o); split; [apply in_map; exact Ho|rewrite El; left; reflexivity]).
    rewrite E0 in Hin. destruct Hin.
  Qed.

  Theorem any_run n : forall t ds, (forall o, In o ds -> legal_dev t o) -> some_chain ds -> is_prob (ais_values g dg T k n t ds) /\
    forall zs w, In (zs, w) (ais_values g dg T k n t ds) -> length zs = n /\ forall i, (i < n)%nat -> Rabs (nth i zs 0) <= INR (t + S i) * c.
  Proof.
    induction n as [|n IH]; intros t ds H Hsome; cbn [ais_values].
    - split; [apply is_prob_ret|]. intros zs w [Hz|[]]. injection Hz as <- _. split; [reflexivity|intros; lia].
    - destruct (legal_steps t ds H) as [P1 P2]. split.
      + apply is_prob_bind; [exact P1|]. intros ds' w Hin. destruct (P2 ds' w Hin) as (A1 & A2 & _). apply is_prob_dmap. apply (IH (S t) ds' A1 (A2 Hsome)).
      + intros zs w Hz. apply in_bind in Hz. destruct Hz as (ds' & v & v' & Hin & Hz). apply in_dmap in Hz. destruct Hz as (zs' & Hz & ->).
        destruct (P2 ds' v Hin) as (A1 & A2 & _). destruct (proj2 (IH (S t) ds' A1 (A2 Hsome)) zs' v' Hz) as [Hl Hr]. split; [cbn; lia|].
        intros [|i] Hi; cbn [nth].
        * replace (t + 1)%nat with (S t) by lia. apply logz_range; [apply some_weights; auto|]. intros u Hu1. apply in_concat in Hu1. destruct Hu1 as (l & Hl1 & Hu1).
          apply in_map_iff in Hl1. destruct Hl1 as (o & <- & Ho). apply (A1 o Ho). exact Hu1.
        * replace (t + S (S i))%nat with (S t + S i)%nat by lia. apply Hr. lia.
  Qed.

  (** The first value is settled by the initial samples. *)
  Lemma any_first n t ds F : (forall o, In o ds -> legal_dev t o) -> some_chain ds ->
    E (ais_values g dg T k (S n) t ds) (fun zs => F (nth 0 zs 0)) = F (logz (map (new_w T t) (all_chains ds))).
  Proof.
    intros H Hsome. cbn [ais_values]. rewrite E_bind. destruct (legal_steps t ds H) as [P1 P2].
    rewrite (E_ext_in _ _ (fun _ => F (logz (map (new_w T t) (all_chains ds))))).
    - rewrite E_const, (proj2 P1). ring.
    - intros ds' w Hin. destruct (P2 ds' w Hin) as (A1 & A2 & A3). rewrite E_dmap. cbn [nth]. rewrite E_const.
      rewrite (proj2 (proj1 (any_run n (S t) ds' A1 (A2 Hsome)))). rewrite A3. rewrite Rmult_1_l. f_equal. f_equal.
      unfold all_chains. rewrite concat_map, map_map. reflexivity.
  Qed.
End Any.

(** ** The experiment *)
Section Experiment.
  Variables (g dg lg : R) (net : list nat -> R) (mean : option (list R)) (grad : nat -> list nat -> nat -> R) (d L B : nat) (k : sampler) (M : R) (devices : option nat).
  Let T := ais_target lg net mean grad d L.
  Hypotheses (Hm : match mean with Some m => image_mean d m | None => True end) (Hb : bounded_by d net M) (HL : (0 < L)%nat) (Hd : (0 < d)%nat) (HB : (0 < B)%nat) (Hu : usable (T 0) k) (Hsh : shared devices B).
  Let Hu' : forall t, usable (T t) k.
  Proof. intros t. revert Hu. unfold usable, T. destruct k; auto. Qed.

  Lemma start_in : is_prob (ais_start mean d) /\ forall x w, In (x, w) (ais_start mean d) -> In x (states d 2).
  Proof.
    unfold ais_start. destruct mean as [m|].
    - destruct (start_law m (proj2 Hm)) as (H1 & H2 & _). rewrite (proj1 Hm) in H2. auto.
    - destruct (half_even d) as [[H1 H2] _]. split; [exact H1|]. intros x w Hx. apply in_states. exact (H2 x w Hx).
  Qed.

  Lemma dealt xs w : In (xs, w) (init_batch B (ais_start mean d)) -> exists ds, deal k devices B xs = Some ds /\
    (forall c, 0 <= c -> forall o, In o ds -> legal_dev k d c 0 o) /\ some_chain ds /\ all_chains ds = map (fun x => (x, 0)) xs.
  Proof.
    intros Hx. destruct (in_indep_repeat _ _ _ _ Hx) as [Hlen Hin]. destruct (deal_shared k devices B xs Hsh Hlen) as (ds & -> & Hds & Hch). exists ds. split; [reflexivity|].
    assert (Hzero : forall o, In o ds -> forall v, In v (snd o) -> v = 0).
    { intros o Ho v Hv. assert (Hn : exists x, In (x, v) (all_chains ds)).
      { destruct (In_nth _ _ 0 Hv) as (i & Hi & Ei). exists (nth i (fst (fst o)) []). unfold all_chains. apply in_concat. exists (combine (fst (fst o)) (snd o)). split; [apply (in_map (fun o : dev => combine (fst (fst o)) (snd o))); exact Ho|].
        rewrite <- Ei, <- combine_nth by (destruct (Hds o Ho) as (_ & _ & ->); reflexivity). apply nth_In. rewrite combine_length. destruct (Hds o Ho) as (_ & _ & H3). lia. }
      destruct Hn as [x Hn]. rewrite Hch in Hn. apply in_map_iff in Hn. destruct Hn as (y & Ey & _). injection Ey as _ <-. reflexivity. }
    split; [|split; [|exact Hch]].
    - intros c Hc o Ho. destruct (Hds o Ho) as (A1 & A2 & A3). split; [|split; [|split; [exact A3|]]].
      + rewrite A1. pose proof (init_at (T 0) k) as H. apply H; auto.
      + intros x Hxo. rewrite Forall_forall in Hin. destruct (Hin x (A2 x Hxo)) as [u Hu1]. exact (proj2 start_in x u Hu1).
      + intros v Hv. rewrite (Hzero o Ho v Hv), Rabs_R0. cbn [INR]. lra.
    - destruct xs as [|x xs]; [cbn in Hlen; lia|]. unfold some_chain. cbn [map] in Hch. assert (Hp : In (x, 0) (all_chains ds)) by (rewrite Hch; left; reflexivity).
      unfold all_chains in Hp. apply in_concat in Hp. destruct Hp as (l & Hl & Hp). apply in_map_iff in Hl. destruct Hl as (o & <- & Ho). exists o. split; [exact Ho|].
      apply in_combine_r in Hp. intros E0. rewrite E0 in Hp. destruct Hp.
  Qed.

  Let c := M / INR L.
  Lemma any_c : 0 <= c.
  Proof. apply Rmult_le_pos; [apply (M_pos net d L M Hb HL Hd)|left; apply Rinv_0_lt_compat, lt_0_INR, HL]. Qed.
  Lemma any_step t x : In x (states d 2) -> Rabs (t_fw (T (S t)) x - t_fw (T t) x) <= c.
  Proof.
    intros Hx. unfold T, ais_target. cbn [t_fw]. destruct mean as [m|].
    - exact (f_step lg net m grad d L M Hb HL t x Hx).
    - unfold ebm_forward. rewrite Rminus_diag_eq by reflexivity. rewrite Rabs_R0. apply any_c.
  Qed.

  Theorem any_experiment : let run := ais_experiment g dg lg net mean grad d k devices B L in
    is_prob run /\ forall zs w, In (zs, w) run -> length zs = L /\ forall i, (i < L)%nat -> Rabs (nth i zs 0) <= INR (S i) / INR L * M.
  Proof.
    cbv zeta. unfold ais_experiment. fold T. assert (Hp : is_prob (init_batch B (ais_start mean d))).
    { apply is_prob_indep. intros dd Hdd. apply repeat_spec in Hdd. subst dd. apply start_in. }
    split.
    - apply is_prob_bind; [exact Hp|]. intros xs w Hx. destruct (dealt xs w Hx) as (ds & -> & A1 & A2 & _).
      apply (any_run g dg T k d c (fun _ => eq_refl) (fun _ => eq_refl) Hd Hu' any_step L 0 ds (A1 c any_c) A2).
    - intros zs w Hz. apply in_bind in Hz. destruct Hz as (xs & v & v' & Hx & Hz). destruct (dealt xs v Hx) as (ds & Ed & A1 & A2 & _). rewrite Ed in Hz.
      destruct (proj2 (any_run g dg T k d c (fun _ => eq_refl) (fun _ => eq_refl) Hd Hu' any_step L 0 ds (A1 c any_c) A2) zs v' Hz) as [H1 H2].
      split; [exact H1|]. intros i Hi. specialize (H2 i Hi). cbn [Nat.add] in H2. replace (INR (S i) / INR L * M) with (INR (S i) * c) by (unfold c, Rdiv; ring). exact H2.
  Qed.
End Experiment.

(** Without data mean the temperature is not used and every value is zero. *)
Theorem no_mean_zero g dg lg net grad d L B k devices zs w : (0 < L)%nat -> (0 < d)%nat -> (0 < B)%nat -> usable (ais_target lg net None grad d L 0) k -> shared devices B ->
  In (zs, w) (ais_experiment g dg lg net None grad d k devices B L) -> forall i, (i < L)%nat -> nth i zs 0 = 0.
Proof.
  intros HL Hd HB Hu Hsh Hz i Hi. set (T := ais_target lg net None grad d L) in *.
  assert (Hu' : forall t, usable (T t) k) by (intros t; revert Hu; unfold usable, T; destruct k; auto).
  unfold ais_experiment in Hz. fold T in Hz. apply in_bind in Hz. destruct Hz as (xs & v & v' & Hx & Hz).
  destruct (dealt lg net None grad d L B k devices I HL Hd HB Hu Hsh xs v Hx) as (ds & Ed & A1 & A2 & _). rewrite Ed in Hz.
  assert (H0 : forall t x, In x (states d 2) -> Rabs (t_fw (T (S t)) x - t_fw (T t) x) <= 0).
  { intros t x _. unfold T, ais_target. cbn [t_fw]. unfold ebm_forward. rewrite Rminus_diag_eq by reflexivity. rewrite Rabs_R0. lra. }
  destruct (proj2 (any_run g dg T k d 0 (fun _ => eq_refl) (fun _ => eq_refl) Hd Hu' H0 L 0 ds (A1 0 (Rle_refl 0)) A2) zs v' Hz) as [_ H2].
  specialize (H2 i Hi). rewrite Rmult_0_r in H2. pose proof (Rabs_pos (nth i zs 0)). destruct (Req_dec (nth i zs 0) 0) as [|N]; [assumption|]. apply Rabs_pos_lt in N. lra.
Qed.

(** The first value is exactly unbiased for every sampler object. *)
Theorem first_unbiased g dg lg net m grad d L B k devices M : image_mean d m -> bounded_by d net M -> (0 < L)%nat -> (0 < d)%nat -> (0 < B)%nat ->
  usable (ais_target lg net (Some m) grad d L 0) k -> shared devices B ->
  E (ais_experiment g dg lg net (Some m) grad d k devices B L) (fun zs => exp (nth 0 zs 0)) = partition m net (1 / INR L).
Proof.
  intros Hm Hb HL Hd HB Hu Hsh. set (T := ais_target lg net (Some m) grad d L) in *.
  assert (Hu' : forall t, usable (T t) k) by (intros t; revert Hu; unfold usable, T; destruct k; auto).
  unfold ais_experiment. fold T. rewrite E_bind. destruct L as [|L]; [lia|].
  pose proof (any_c net d (S L) M Hb HL Hd) as Hc0. set (c := M / INR (S L)) in *.
  assert (Hst : forall t x, In x (states d 2) -> Rabs (t_fw (T (S t)) x - t_fw (T t) x) <= c) by (intros t x Hx; exact (f_step lg net m grad d (S L) M Hb HL t x Hx)).
  destruct (start_law m (proj2 Hm)) as (P1 & P2 & P3). rewrite (proj1 Hm) in P2.
  rewrite (E_ext_in _ _ (fun xs => val (col_mean (map (fun x => exp (1 / INR (S L) * net x)) xs)))).
  - cbn [ais_start]. unfold init_batch. rewrite mean_unbiased by (try exact (proj2 P1); lia). rewrite P3. unfold partition. apply rsum_ext. intros; ring.
  - intros xs w Hx. destruct (dealt lg net (Some m) grad d (S L) B k devices Hm HL Hd HB Hu Hsh xs w Hx) as (ds & -> & A1 & A2 & A3).
    rewrite (any_first g dg T k d c (fun _ => eq_refl) (fun _ => eq_refl) Hd Hu' Hst L 0 ds exp (A1 c Hc0) A2).
    assert (Hne : xs <> []). { destruct (in_indep_repeat _ _ _ _ Hx) as [Hlen _]. destruct xs; [cbn in Hlen; lia|discriminate]. }
    rewrite logz_mean by (rewrite A3, map_map; destruct xs; [congruence|discriminate]). rewrite col_mean_map by exact Hne. cbn [val]. rewrite A3, !map_map, map_length, rsum_map.
    f_equal. apply rsum_ext. intros x _. f_equal. unfold new_w. cbn [fst snd]. change (t_fw (T 1%nat) x) with (t_fw (ais_target lg net (Some m) grad d (S L) 1) x). change (t_fw (T 0%nat) x) with (t_fw (ais_target lg net (Some m) grad d (S L) 0) x).
    rewrite !(f_eq lg net m grad d (S L)). change (INR 1) with 1. change (INR 0) with 0. unfold Rdiv. ring.
Qed.
