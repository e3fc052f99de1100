(** Complete sampler runs: every step is a probability law on legal batches with the right state, and in a given state the
    exact samplers keep the product target. *)
From Coq Require Import String Reals List Arith ZArith Lra Lia.
From Verif.Base Require Import RSum Cube Dist XFloat MH.
From Verif.Spec Require Import Chain SamplerRun.
From Verif.Model Require Import MathUtil Gibbs HammingBall RandomWalk GWG LocallyBalanced PathAux Langevin FullRun.
From Verif.Proof Require LearningProof.
From Verif.Proof Require Import MathUtilProof MHKernel ChainProof GibbsProof RandomWalkProof GWGProof CatGWGProof NoReplProof PathAuxProof PathAuxCatProof
  LangevinProof LangevinAdapt HammingBallProof ErgodicSamplers ErgodicMore AdaptiveRunProof CoOptProof.
Import ListNotations.
Local Open Scope R_scope.

(** ** The generic batch *)
Lemma all_some_map {A B} (f : A -> option B) (g : A -> B) l : (forall a, In a l -> f a = Some (g a)) -> all_some (map f l) = Some (map g l).
Proof.
  induction l as [|a l IH]; intros H; [reflexivity|]. cbn [map all_some]. rewrite (H a) by (left; auto). rewrite IH by (intros; apply H; right; auto).
  reflexivity.
Qed.

Lemma all_some_ex {A B} (f : A -> option B) l : (forall a, In a l -> exists v, f a = Some v) ->
  exists r, all_some (map f l) = Some r /\ length r = length l.
Proof.
  induction l as [|a l IH]; intros H; [exists []; auto|]. destruct (H a (or_introl eq_refl)) as [v Hv].
  destruct IH as (r & Hr & Hl); [intros; apply H; right; auto|]. exists (v :: r). cbn [map all_some]. rewrite Hv, Hr. cbn. auto.
Qed.

Lemma in_dmap {A B} (h : A -> B) (d : dist A) y w : In (y, w) (dmap h d) -> exists a, In (a, w) d /\ y = h a.
Proof. unfold dmap. intros H. apply in_map_iff in H. destruct H as ([a u] & He & H). cbn in He. inversion He; subst. eauto. Qed.

Lemma draws_pairs {X A} (prop : X -> dist A) : forall xs ps w, In (ps, w) (indep (map prop xs)) ->
  length ps = length xs /\ forall a, In a (combine ps xs) -> In (snd a) xs /\ exists v, In (fst a, v) (prop (snd a)).
Proof.
  induction xs as [|x xs IH]; intros ps w H.
  - destruct H as [H|[]]. apply (f_equal fst) in H. cbn in H. subst. split; [auto|intros a []].
  - cbn [map indep] in H. apply in_bind in H. destruct H as (p & v & v' & Hp & H). apply in_dmap in H. destruct H as (ps' & H & ->).
    destruct (IH _ _ H) as [Hl Ha]. split; [cbn; lia|]. intros a [<-|Hin].
    + cbn. split; [auto|eauto].
    + destruct (Ha a Hin) as [H1 H2]. split; [right; auto|auto].
Qed.

Lemma map_snd_combine {A B} : forall (l : list A) (m : list B), length l = length m -> map snd (combine l m) = m.
Proof. induction l as [|a l IH]; intros [|b m] H; try discriminate; auto. cbn. f_equal. apply IH. cbn in H. lia. Qed.

Section Batch.
  Context {P S : Type}.
  Variables (Sp : list (list nat)) (g : R) (prop : list nat -> dist P) (app : list nat -> P -> list nat).
  Hypothesis Hprop : forall x, In x Sp -> is_prob (prop x).
  Hypothesis Happ : forall x p w, In x Sp -> In (p, w) (prop x) -> In (app x p) Sp.

  Lemma mh_batch_ok (la : list (P * list nat) -> list nat -> P -> option R) (new : list (P * list nat) -> list R -> S) (Q : S -> Prop) xs :
    (forall ax x p w, In x Sp -> In (p, w) (prop x) -> exists l, la ax x p = Some l) ->
    (forall ax las, Q (new ax las)) -> (forall x, In x xs -> In x Sp) ->
    is_prob (mh_batch g prop app la new xs) /\
    forall o w, In (o, w) (mh_batch g prop app la new xs) -> length (fst o) = length xs /\ (forall y, In y (fst o) -> In y Sp) /\ Q (snd o).
  Proof.
    intros Hla HQ Hxs. unfold mh_batch.
    assert (K : forall ps w, In (ps, w) (indep (map prop xs)) -> exists las,
      all_some (map (fun a => la (combine ps xs) (snd a) (fst a)) (combine ps xs)) = Some las /\ length las = length (combine ps xs) /\ length ps = length xs
      /\ forall a, In a (combine ps xs) -> In (snd a) Sp /\ In (app (snd a) (fst a)) Sp).
    { intros ps w Hps. destruct (draws_pairs prop xs ps w Hps) as [Hl Hin].
      assert (Hsp : forall a, In a (combine ps xs) -> In (snd a) Sp /\ exists v, In (fst a, v) (prop (snd a))).
      { intros a Ha. destruct (Hin a Ha) as [H1 H2]. auto. }
      destruct (all_some_ex (fun a => la (combine ps xs) (snd a) (fst a)) (combine ps xs)) as (las & H1 & H2).
      { intros a Ha. destruct (Hsp a Ha) as [H3 [v H4]]. exact (Hla _ _ _ _ H3 H4). }
      exists las. split; [exact H1|]. split; [exact H2|]. split; [exact Hl|]. intros a Ha. destruct (Hsp a Ha) as [H3 [v H4]]. split; [auto|eauto]. }
    split.
    - apply is_prob_bind; [apply is_prob_indep; intros dd Hd; apply in_map_iff in Hd; destruct Hd as (x & <- & Hx); auto|].
      intros ps w Hps. destruct (K ps w Hps) as (las & H1 & _). cbv zeta. rewrite H1. apply is_prob_dmap, is_prob_indep.
      intros dd Hd. apply in_map_iff in Hd. destruct Hd as (t & <- & _). apply is_prob_mh_law.
    - intros o w Ho. apply in_bind in Ho. destruct Ho as (ps & v & v' & Hps & Ho). destruct (K ps v Hps) as (las & H1 & H2 & H3 & H4).
      cbv zeta in Ho. rewrite H1 in Ho. apply in_dmap in Ho. destruct Ho as (ns & Ho & ->). cbn [fst snd].
      split; [|split; [|apply HQ]].
      + rewrite (in_indep_len _ _ _ Ho), map_length, combine_length, combine_length in *. lia.
      + intros y Hy. apply In_nth with (d := []) in Hy. destruct Hy as (i & Hi & Hy).
        assert (Hf := in_indep_each _ _ _ Ho). rewrite <- Hy. clear Ho Hy. revert i Hi.
        set (L := combine las (combine ps xs)) in *.
        assert (HL : forall t, In t L -> In (snd (snd t)) Sp /\ In (app (snd (snd t)) (fst (snd t))) Sp).
        { intros [l a] Ht. apply in_combine_r in Ht. exact (H4 a Ht). }
        clearbody L. clear - Hf HL. revert ns Hf. induction L as [|t L IH]; intros ns Hf i Hi; inversion Hf; subst; [cbn in Hi; lia|].
        destruct i as [|i]; cbn [nth].
        * match goal with H : exists v, In _ _ |- _ => destruct H as [v' Hv] end. destruct (HL t (or_introl eq_refl)) as [A1 A2].
          apply in_mh_law in Hv. destruct Hv as [->| ->]; auto.
        * apply IH; auto; [intros; apply HL; right; auto|cbn in Hi; lia].
  Qed.

  Lemma mh_batch_marginal (la : list nat -> P -> option R) (new : list (P * list nat) -> list R -> S) xs f :
    (forall x p w, In x Sp -> In (p, w) (prop x) -> exists l, la x p = Some l) -> (forall x, In x xs -> In x Sp) ->
    E (mh_batch g prop app (fun _ => la) new xs) (fun o => f (fst o))
    = E (batch_step (fun x => bind (prop x) (fun p => omh_law g (la x p) x (app x p))) xs) f.
  Proof.
    intros Hla Hxs. unfold batch_step. rewrite (indep_bind prop (fun x p => omh_law g (la x p) x (app x p))).
    unfold mh_batch. rewrite E_bind. apply E_ext_in. intros ps w Hps. cbv zeta.
    destruct (draws_pairs prop xs ps w Hps) as [Hl Hin].
    set (h := fun a : P * list nat => match la (snd a) (fst a) with Some l => l | None => 0 end).
    assert (Hs : forall a, In a (combine ps xs) -> la (snd a) (fst a) = Some (h a)).
    { intros a Ha. destruct (Hin a Ha) as [H1 [v H2]]. unfold h. destruct (Hla _ _ _ (Hxs _ H1) H2) as [l ->]. reflexivity. }
    rewrite (all_some_map _ h) by exact Hs. rewrite E_dmap. cbn [fst].
    assert (HL : forall L, (forall a, In a L -> la (snd a) (fst a) = Some (h a)) ->
      map (fun t : R * (P * list nat) => mh_law g (fst t) (snd (snd t)) (app (snd (snd t)) (fst (snd t)))) (combine (map h L) L)
      = map (fun ax => omh_law g (la (snd ax) (fst ax)) (snd ax) (app (snd ax) (fst ax))) L).
    { induction L as [|a L IH]; intros H; [reflexivity|]. cbn [map combine]. rewrite IH by (intros; apply H; right; auto). cbn [fst snd].
      rewrite (H a) by (left; auto). reflexivity. }
    rewrite HL by exact Hs. reflexivity.
  Qed.
End Batch.

(** ** The components of every Metropolis-Hastings sampler *)
Definition comp {P} (Sp : list (list nat)) (prop : list nat -> dist P) (app : list nat -> P -> list nat) (la : list nat -> P -> option R) : Prop :=
  (forall x, In x Sp -> is_prob (prop x)) /\
  (forall x p w, In x Sp -> In (p, w) (prop x) -> In (app x p) Sp) /\
  (forall x p w, In x Sp -> In (p, w) (prop x) -> exists l, la x p = Some l).

Lemma walk_comp fw r d C : (2 <= C)%nat -> (0 < d)%nat -> 1 <= r <= INR d ->
  comp (states d C) (fun _ => rw_draws r d C) (rw_apply C) (fun x p => Some (fw (rw_apply C x p) - fw x)).
Proof.
  intros HC Hd Hr. split; [|split].
  - intros x _. apply rw_draws_is_prob; auto; lra.
  - intros x p w Hx Hp. apply rw_apply_in; [lia|exact Hx|]. unfold rw_draws in Hp. rewrite (in_indep_len _ _ _ Hp). apply repeat_length.
  - eauto.
Qed.

Lemma gwg_comp fw wf grad mask d nf : (0 < d)%nat ->
  comp (states d 2) (fun x => multinomial_repl_law (gwg_dist_at wf grad mask x) nf) (fun x p => flip_idx p x)
    (fun x p => Some (gwg_log_acc fw wf grad mask x p)).
Proof.
  intros Hd. split; [|split].
  - intros x Hx. apply (proj1 (gwg_hyps wf grad mask d nf Hd)). exact Hx.
  - intros x p w Hx _. apply flip_idx_in; auto.
  - eauto.
Qed.

Lemma agwg_comp fw wf grad mask d r : (0 < d)%nat ->
  comp (states d 2) (fun x => multinomial_repl_law (gwg_dist_at wf grad mask x) (num_sites (length x) r))
    (fun x p => match agwg_counts (length x) (num_sites (length x) r) p with Some c => flip_counts c x | None => x end)
    (fun x p => match agwg_counts (length x) (num_sites (length x) r) p with Some c => Some (agwg_log_acc fw wf grad mask x c) | None => None end).
Proof.
  intros Hd.
  assert (K : forall x p w, In (p, w) (multinomial_repl_law (gwg_dist_at wf grad mask x) (num_sites (length x) r)) ->
     agwg_counts (length x) (num_sites (length x) r) p = Some (counts_of (length x) p)).
  { intros x p w Hp. apply agwg_counts_eq. unfold multinomial_repl_law in Hp. rewrite (in_indep_len _ _ _ Hp). apply repeat_length. }
  split; [|split].
  - intros x Hx. pose proof Hx as Hx'. apply in_states in Hx'. destruct Hx' as [Hl _].
    apply (proj1 (gwg_hyps wf grad mask d (num_sites (length x) r) Hd)). exact Hx.
  - intros x p w Hx Hp. rewrite (K x p w Hp). pose proof Hx as Hx'. apply in_states in Hx'. destruct Hx' as [Hl _]. rewrite Hl.
    rewrite (flip_counts_eq d) by exact Hx. apply flip_idx_in; exact Hx.
  - intros x p w Hx Hp. rewrite (K x p w Hp). eauto.
Qed.

Lemma path_comp fw wf lr mask d nf : (1 <= nf <= d)%nat ->
  comp (states d 2) (fun x => norepl_law (fun i => exp (nth i (paf_dist wf lr mask x) 0)) nf (seq 0 (length x)))
    (fun x p => flip_idx p x) (fun x p => pafs_log_acc fw wf lr mask x p).
Proof.
  intros Hn. split; [|split].
  - intros x Hx. apply in_states in Hx. destruct Hx as [Hl _]. rewrite Hl.
    apply is_prob_norepl; [intros; apply exp_pos|apply seq_NoDup|rewrite seq_length; lia].
  - intros x p w Hx _. apply flip_idx_in; auto.
  - intros x p w Hx Hp. apply in_states in Hx. destruct Hx as [Hl _]. rewrite Hl in Hp. apply in_norepl in Hp.
    eexists. exact (pafs_la fw wf lr mask d nf Hn x p Hl Hp).
Qed.

Lemma path_adapt_comp fw wf lr mask d r : (1 <= d)%nat ->
  comp (states d 2) (fun x => norepl_law (fun i => exp (nth i (paf_dist wf lr mask x) 0)) (length x) (seq 0 (length x)))
    (fun x o => mask_apply (num_sites (length x) r) o x (map (fun v => (1 - v)%nat) x))
    (fun x o => apafs_log_acc fw wf lr mask (num_sites (length x) r) x o).
Proof.
  intros Hd. pose proof (num_sites_range d r Hd) as Hk. split; [|split].
  - intros x Hx. apply in_states in Hx. destruct Hx as [Hl _]. rewrite Hl.
    apply is_prob_norepl; [intros; apply exp_pos|apply seq_NoDup|rewrite seq_length; lia].
  - intros x o w Hx _. rewrite mask_apply_flip. apply flip_idx_in; auto.
  - intros x o w Hx Ho. apply in_states in Hx. destruct Hx as [Hl _]. rewrite Hl in Ho. apply in_norepl in Ho. rewrite Hl.
    eexists. exact (apafs_la fw wf lr mask d _ Hk x o Hl Ho).
Qed.

Lemma in_cond_rows C lx l vals w : (0 < C)%nat -> In (vals, w) (indep (map (fun i => categorical (cond_lp C lx i)) l)) ->
  length vals = length l /\ Forall (fun c => (c < C)%nat) vals.
Proof.
  intros HC H. rewrite <- (map_map (cond_lp C lx) categorical) in H. apply (in_indep_rows C) in H.
  - apply in_states in H. rewrite map_length in H. exact H.
  - apply Forall_forall. intros r Hr. apply in_map_iff in Hr. destruct Hr as (i & <- & _). apply cond_length.
Qed.

Lemma cond_rows_prob C lx l : (0 < C)%nat -> is_prob (indep (map (fun i => categorical (cond_lp C lx i)) l)).
Proof. intros HC. apply is_prob_indep. intros dd Hd. apply in_map_iff in Hd. destruct Hd as (i & <- & _). apply cond_prob; auto. Qed.

Lemma pathc_comp fw wf lr mask d C nf : (0 < C)%nat -> (1 <= nf <= d)%nat ->
  comp (states d C)
    (fun x => let lx := pafc_dist wf lr mask C x in
       bind (norepl_law (fun i => exp (site_lp C lx i)) nf (seq 0 (length x)))
            (fun path => dmap (pair path) (indep (map (fun i => categorical (cond_lp C lx i)) path))))
    (fun x pv => set_all (fst pv) (snd pv) x) (fun x pv => pafsc_log_acc fw wf lr mask C x (fst pv) (snd pv)).
Proof.
  intros HC Hn. split; [|split].
  - intros x Hx. apply in_states in Hx. destruct Hx as [Hl _]. cbv zeta. rewrite Hl. apply is_prob_bind.
    + apply is_prob_norepl; [intros; apply exp_pos|apply seq_NoDup|rewrite seq_length; lia].
    + intros p w _. apply is_prob_dmap, cond_rows_prob; auto.
  - intros x pv w Hx Hp. cbv zeta in Hp. apply in_bind in Hp. destruct Hp as (p & v & v' & _ & Hp). apply in_dmap in Hp.
    destruct Hp as (vals & Hv & ->). cbn [fst snd]. apply set_all_in; [exact Hx|]. apply (in_cond_rows C _ _ _ _ HC Hv).
  - intros x pv w Hx Hp. pose proof Hx as Hx'. apply in_states in Hx'. destruct Hx' as [Hl _]. cbv zeta in Hp. rewrite Hl in Hp.
    apply in_bind in Hp. destruct Hp as (p & v & v' & Hp & Hv). apply in_norepl in Hp. apply in_dmap in Hv. destruct Hv as (vals & Hv & ->).
    cbn [fst snd]. destruct (auxp_facts d C nf Hn HC p Hp) as (H1 & H2 & H3 & H4 & H5). unfold pafsc_log_acc.
    rewrite (bwd_ll_path _ (seq 0 d)), (fwd_ll_path _ (seq 0 d)); auto using seq_NoDup.
    + unfold oplus, osub. eauto.
    + apply (lpc_sum wf lr mask d C nf Hn HC x Hl).
    + apply (lpc_sum wf lr mask d C nf Hn HC (set_all p vals x)). rewrite set_all_length. exact Hl.
Qed.

Lemma pathc_adapt_comp fw wf lr mask d C r : (0 < C)%nat -> (1 <= d)%nat ->
  comp (states d C)
    (fun x => let lx := pafc_dist wf lr mask C x in
       bind (norepl_law (fun i => exp (site_lp C lx i)) (length x) (seq 0 (length x)))
            (fun order => dmap (pair order) (indep (map (fun i => categorical (cond_lp C lx i)) (seq 0 (length x))))))
    (fun x ov => mask_apply (num_sites (length x) r) (fst ov) x (snd ov))
    (fun x ov => apafsc_log_acc fw wf lr mask C (num_sites (length x) r) x (fst ov) (snd ov)).
Proof.
  intros HC Hd. pose proof (num_sites_range d r Hd) as Hk. split; [|split].
  - intros x Hx. apply in_states in Hx. destruct Hx as [Hl _]. cbv zeta. rewrite Hl. apply is_prob_bind.
    + apply is_prob_norepl; [intros; apply exp_pos|apply seq_NoDup|rewrite seq_length; lia].
    + intros p w _. apply is_prob_dmap, cond_rows_prob; auto.
  - intros x ov w Hx Ho. pose proof Hx as Hx'. apply in_states in Hx'. destruct Hx' as [Hl _]. cbv zeta in Ho. rewrite Hl in Ho.
    apply in_bind in Ho. destruct Ho as (o & v & v' & Ho & Hv). apply in_norepl in Ho. apply in_dmap in Hv. destruct Hv as (vals & Hv & ->).
    cbn [fst snd]. destruct (in_cond_rows C _ _ _ _ HC Hv) as [H1 H2]. rewrite seq_length in H1. apply in_states in Hx. destruct Hx as [_ HF].
    apply in_states. rewrite mask_apply_length. split; [exact Hl|]. unfold mask_apply. apply Forall_map, Forall_forall. intros i Hi. apply in_seq in Hi.
    rewrite Forall_nth in H2, HF. destruct (in_sel _ _ i); [apply H2; lia|apply HF; lia].
  - intros x ov w Hx Ho. pose proof Hx as Hx'. apply in_states in Hx'. destruct Hx' as [Hl _]. cbv zeta in Ho. rewrite Hl in Ho.
    apply in_bind in Ho. destruct Ho as (o & v & v' & Ho & Hv). apply in_norepl in Ho. apply in_dmap in Hv. destruct Hv as (vals & Hv & ->).
    cbn [fst snd]. destruct (in_cond_rows C _ _ _ _ HC Hv) as [H1 _]. rewrite seq_length in H1. rewrite Hl.
    eexists. exact (apafsc_la fw wf lr mask d C _ Hk HC x o vals Hl H1 Ho).
Qed.

Lemma cgwg_prop_ok wf grad d C x : (0 < d)%nat -> (0 < C)%nat -> In x (states d C) -> is_prob (categorical (cgwg_dist_at wf grad C x)).
Proof. intros Hd HC Hx. apply (proj1 (cgwg_hyps wf grad d C Hd HC)). exact Hx. Qed.

Lemma cgwg_app_ok d C x j : (0 < C)%nat -> In x (states d C) -> In (cgwg_y C x j) (states d C).
Proof. intros HC Hx. apply upd_in_states; [exact Hx|]. apply Nat.mod_upper_bound. lia. Qed.

Definition rows_fun d C (rows : R -> list nat -> option (list (list R))) : Prop :=
  forall lt x, In x (states d C) -> exists r, rows lt x = Some r /\ length r = d /\ Forall (fun l => length l = C) r.
Definition flips_fun d (pfun : R -> list nat -> option (list R)) : Prop :=
  forall lt x, In x (states d 2) -> exists p, pfun lt x = Some p /\ length p = d /\ Forall (fun p => 0 < p < 1) p.

Lemma bin_comp dg fw d pfun lt lt' : flips_fun d pfun ->
  comp (states d 2) (fun x => match pfun lt x with Some p => indep (map bernoulli p) | None => [] end) (fun x fl => flip_bits fl x)
    (fun x fl => match pfun lt x, pfun lt' (flip_bits fl x) with
                 | Some p, Some q => Some (bern_log_acc dg fw p q x fl) | _, _ => None end).
Proof.
  intros Hf. split; [|split].
  - intros x Hx. destruct (Hf lt x Hx) as (p & -> & _ & HF). apply is_prob_flips; auto.
  - intros x fl w Hx Hp. destruct (Hf lt x Hx) as (p & He & Hl & HF). rewrite He in Hp. apply flip_bits_states; [exact Hx|].
    rewrite (in_indep_len _ _ _ Hp), map_length. exact Hl.
  - intros x fl w Hx Hp. destruct (Hf lt x Hx) as (p & He & Hl & HF). rewrite He in Hp |- *.
    assert (Hy : In (flip_bits fl x) (states d 2)) by (apply flip_bits_states; [exact Hx|]; rewrite (in_indep_len _ _ _ Hp), map_length; exact Hl).
    destruct (Hf lt' _ Hy) as (q & -> & _). eauto.
Qed.

Lemma cat_comp fw d C rows lt lt' : (0 < C)%nat -> rows_fun d C rows ->
  comp (states d C) (fun x => match rows lt x with Some r => indep (map categorical r) | None => [] end) (fun _ y => y)
    (fun x y => match rows lt x, rows lt' y with
                | Some rx, Some ry => Some (fw y + row_ll ry x - fw x - row_ll rx y) | _, _ => None end).
Proof.
  intros HC Hf. split; [|split].
  - intros x Hx. destruct (Hf lt x Hx) as (r & -> & _ & HF). apply is_prob_indep. intros dd Hd. apply in_map_iff in Hd. destruct Hd as (l & <- & Hl).
    rewrite Forall_forall in HF. apply is_prob_categorical. intros ->. specialize (HF _ Hl). cbn in HF. lia.
  - intros x y w Hx Hp. destruct (Hf lt x Hx) as (r & He & Hl & HF). rewrite He in Hp. rewrite <- Hl. exact (in_indep_rows C r y w HF Hp).
  - intros x y w Hx Hp. destruct (Hf lt x Hx) as (r & He & Hl & HF). rewrite He in Hp |- *.
    pose proof (in_indep_rows C r y w HF Hp) as Hy. rewrite Hl in Hy. destruct (Hf lt' y Hy) as (q & -> & _). eauto.
Qed.

(** ** One step *)
Definition good (Sp : list (list nat)) {S} (Q : S -> Prop) (len : nat) (law : dist (list (list nat) * S)) : Prop :=
  is_prob law /\ forall o w, In (o, w) law -> length (fst o) = len /\ (forall y, In y (fst o) -> In y Sp) /\ Q (snd o).

Lemma comp_good {P S} Sp g prop app la (new : list (P * list nat) -> list R -> S) (Q : S -> Prop) xs :
  comp Sp prop app la -> (forall ax las, Q (new ax las)) -> (forall x, In x xs -> In x Sp) ->
  good Sp Q (length xs) (mh_batch g prop app (fun _ => la) new xs).
Proof. intros (H1 & H2 & H3) HQ Hxs. apply mh_batch_ok; auto. Qed.

Lemma good_lift {S} Sp (Q : S -> Prop) (mk : S -> sstate) (Q' : sstate -> Prop) len law :
  (forall s, Q s -> Q' (mk s)) -> good Sp Q len law -> good Sp Q' len (lift mk law).
Proof.
  intros HQ [H1 H2]. split; [apply is_prob_dmap; exact H1|]. intros o w Ho. apply in_dmap in Ho. destruct Ho as (o' & Ho & ->).
  destruct (H2 _ _ Ho) as (A & B & D). cbn [fst snd]. auto.
Qed.

Lemma clip_range d r : (0 < d)%nat -> radius_ok d (clip 1 (INR d) r).
Proof.
  intros Hd. assert (1 <= INR d) by (replace 1 with (INR 1) by reflexivity; apply le_INR; lia). unfold radius_ok, clip.
  split; [apply Rmin_glb; [apply Rmax_r|lra]|apply Rmin_r].
Qed.

(** The Langevin state: counters, a real log_z, and a log_tau that is a number or NaN. *)
Definition lang_at (n : nat) (s : lstate) : Prop :=
  l_steps s = n /\ l_calls s = (4 * n)%nat /\ number (l_log_z s) /\ (number (l_log_tau s) \/ l_log_tau s = NaN).

Lemma l_update_at c acc z n s : lang_at n s -> (number acc \/ acc = NaN) -> lang_at (S n) (l_update c acc (Fin z) s).
Proof.
  intros (H1 & H2 & [zs Hz] & Ht) Hacc. unfold lang_at.
  destruct (orb (negb (lc_adaptive c)) (lc_co_opt c)) eqn:Eb.
  - unfold l_update. rewrite Eb. cbn. rewrite H1, H2, Hz. repeat split; auto; [lia|exists zs; auto].
  - assert (Ha : lc_adaptive c = true) by (destruct (lc_adaptive c), (lc_co_opt c); auto; discriminate).
    assert (Hc : lc_co_opt c = false) by (destruct (lc_adaptive c), (lc_co_opt c); auto; discriminate).
    destruct (l_new_log_z_fin c (S (l_steps s)) z zs) as (z' & Hz' & _).
    assert (A1 : l_steps (l_update c acc (Fin z) s) = S n) by (unfold l_update; rewrite Eb; cbn; rewrite H1; reflexivity).
    assert (A2 : l_calls (l_update c acc (Fin z) s) = (4 * S n)%nat) by (unfold l_update; rewrite Eb; cbn; lia).
    assert (A3 : l_log_z (l_update c acc (Fin z) s) = Fin z') by (unfold l_update; rewrite Eb; cbn; rewrite Hz; exact Hz').
    repeat split; auto; [exists z'; auto|].
    destruct Ht as [[t Ht]|Ht]; [|right; exact (proj1 (l_update_nan c acc (Fin z) s Ha Hc Ht))].
    destruct Hacc as [[a ->]| ->].
    + destruct (l_update_spec c a z s t zs z' Ha Hc Ht Hz Hz') as (_ & B1 & B2). cbv zeta in B1, B2.
      destruct (Rle_lt_dec 0 (exp (t + z') + 3 * (a - lc_target c))) as [Hn|Hn]; [left; eexists; exact (B1 Hn)|right; exact (B2 Hn)].
    + right. unfold l_update. rewrite Eb. cbv zeta. cbn [l_log_tau]. rewrite Ht, Hz, Hz'. reflexivity.
Qed.

Lemma lang_good {P} Sp g (prop : R -> list nat -> dist P) app la rates lz nn c used n s xs :
  (forall lt lt', comp Sp (prop lt) app (la lt lt')) -> lang_at n s -> (forall x, In x xs -> In x Sp) ->
  good Sp (lang_at (S n)) (length xs) (lang_batch g prop app la rates lz nn c used s xs).
Proof.
  intros Hc Hs Hxs. unfold lang_batch. cbv zeta.
  assert (Hret : good Sp (lang_at (S n)) (length xs) (ret (xs, l_update c NaN (Fin (lz (map rates xs))) s))).
  { split; [apply is_prob_ret|]. intros o w [Ho|[]]. inversion Ho; subst. cbn [fst snd]. split; [auto|]. split; [auto|].
    apply l_update_at; auto. }
  destruct used as [lt| | |]; auto. apply mh_batch_ok; auto.
  - apply (proj1 (Hc lt 0)).
  - apply (proj1 (proj2 (Hc lt 0))).
  - intros ax. apply (proj2 (proj2 (Hc lt _))).
  - intros ax las. apply l_update_at; [exact Hs|left; eexists; reflexivity].
Qed.

Lemma wf_known ty : balancing ty -> exists wf, wf_of ty = Some wf.
Proof.
  unfold balancing, wf_of. intros [<-|[<-|[<-|[<-|[]]]]]; cbn; eauto.
Qed.

Lemma legal_in d C B xs : legal d C B xs <-> length xs = B /\ forall x, In x xs -> In x (states d C).
Proof.
  unfold legal. rewrite Forall_forall. split; intros [H1 H2]; (split; [exact H1|]); intros x Hx; apply in_states; auto.
Qed.

Lemma indep_good {S} Sp (Q : S -> Prop) (step : list nat -> dist (list nat)) (s' : S) xs :
  proper Sp step -> Q s' -> (forall x, In x xs -> In x Sp) -> good Sp Q (length xs) (dmap (fun ns => (ns, s')) (indep (map step xs))).
Proof.
  intros Hp HQ Hxs. split.
  - apply is_prob_dmap, is_prob_indep. intros dd Hd. apply in_map_iff in Hd. destruct Hd as (x & <- & Hx). apply Hp; auto.
  - intros o w Ho. apply in_dmap in Ho. destruct Ho as (ns & Ho & ->). cbn [fst snd].
    destruct (LearningProof.batch_support Sp step xs ns w Hp Hxs Ho) as [A B]. auto.
Qed.

Lemma hb_chain_proper fw d C b start rad : (1 <= b)%nat -> (2 <= C)%nat -> (1 <= d)%nat -> proper (states d C) (hb_chain fw C b start rad).
Proof.
  intros Hb HC Hd x Hx. split.
  - unfold hb_chain. apply is_prob_bind; [|intros; apply is_prob_hb_select]. destruct (Nat.eqb rad 0); [apply is_prob_ret|apply is_prob_compute_u; auto].
  - intros y w Hy. unfold hb_chain in Hy. apply in_bind in Hy. destruct Hy as (u & v & v' & Hu & Hy).
    apply (hb_select_support fw d C b Hb HC Hd start u y v'); auto. destruct (Nat.eqb rad 0).
    + destruct Hu as [Hu|[]]. inversion Hu; subst. exact Hx.
    + unfold compute_u in Hu. apply in_bind in Hu. destruct Hu as (i & q & q' & _ & Hu). apply in_bind in Hu. destruct Hu as (c & r & r' & _ & Hu).
      destruct Hu as [Hu|[]]. inversion Hu; subst. unfold shift_at. apply upd_in_states; [exact Hx|]. apply Nat.mod_upper_bound. lia.
Qed.

Lemma lang_lift (k : sampler) d C n : (match k with SDmala _ _ _ | SDlmc _ _ _ _ => True | _ => False end) ->
  forall s, lang_at n s -> state_at d C k n (TL s).
Proof. destruct k; intros H s Hs; try contradiction; exact Hs. Qed.

Lemma dmala_good g dg T wf c ss n s xs : (2 <= t_C T)%nat -> lang_at n s -> (forall x, In x xs -> In x (states (t_dim T) (t_C T))) ->
  good (states (t_dim T) (t_C T)) (lang_at (S n)) (length xs) (dmala_batch g dg T wf c ss s xs).
Proof.
  intros HC Hs Hxs. unfold dmala_batch. cbv zeta. destruct (Nat.eqb_spec (t_C T) 2) as [He|He].
  - rewrite He in *. apply lang_good; auto. intros lt lt'. apply (bin_comp dg (t_fw T) (t_dim T) (fun lt x => dmala_ps lt wf (lr_of T) x) lt lt'). intros lt0 x Hx. apply dmala_ps_ok; auto.
  - apply lang_good; auto. intros lt lt'. apply (cat_comp _ _ _ (fun lt x => all_some (map (dmala_row lt wf (lr_of T) (t_C T) x) (seq 0 (length x)))) lt lt'); [lia|].
    intros lt0 x Hx. apply dmala_rows_ok; auto.
Qed.

Lemma dlmc_good g dg T wf c nn solver n s xs : (2 <= t_C T)%nat -> known_solver solver -> lang_at n s ->
  (forall x, In x xs -> In x (states (t_dim T) (t_C T))) ->
  good (states (t_dim T) (t_C T)) (lang_at (S n)) (length xs) (dlmc_batch g dg T wf c nn solver s xs).
Proof.
  intros HC Hk Hs Hxs. unfold dlmc_batch. cbv zeta. set (s' := if lc_adaptive c then s else _).
  assert (Hs' : lang_at n s').
  { unfold s'. destruct (lc_adaptive c); [exact Hs|]. destruct Hs as (H1 & H2 & H3 & H4). unfold lang_at. cbn. repeat split; auto.
    destruct (Nat.eqb (l_steps s) 0); [left; eexists; reflexivity|exact H4]. }
  destruct (Nat.eqb_spec (t_C T) 2) as [He|He].
  - rewrite He in *. apply lang_good; auto. intros lt lt'. apply (bin_comp dg (t_fw T) (t_dim T) (fun lt x => dlmc_ps solver lt wf (lr_of T) x) lt lt'). intros lt0 x Hx. apply dlmc_ps_ok; auto.
  - apply lang_good; auto. intros lt lt'.
    apply (cat_comp _ _ _ (fun lt x => all_some (map (dlmc_row solver lt wf (lr_of T) (t_C T) x) (seq 0 (length x)))) lt lt'); [lia|].
    intros lt0 x Hx. apply dlmc_rows_ok; auto.
Qed.

Definition path_at (d : nat) (approx : bool) (nf : nat) (rate : option R) (n : nat) (s : pafstate) : Prop :=
  state_at d 0 (SPath "SQRT" approx nf rate) n (TP s).

Lemma path_good g T wf lr (approx : bool) calls nf rate n s xs : (2 <= t_C T)%nat -> (0 < t_dim T)%nat -> (rate = None -> (1 <= nf <= t_dim T)%nat) ->
  calls = (if approx then 4 else 2)%nat -> path_at (t_dim T) approx nf rate n s -> (forall x, In x xs -> In x (states (t_dim T) (t_C T))) ->
  good (states (t_dim T) (t_C T)) (path_at (t_dim T) approx nf rate (S n)) (length xs) (path_batch g T wf lr calls nf rate s xs).
Proof.
  intros HC Hd Hnf Hcalls Hs Hxs. unfold path_batch. cbv zeta.
  set (up := fun las : list R => match rate with Some t => paf_update true (t_dim T) t calls las s | None => paf_update false (t_dim T) 0 calls las s end).
  assert (Hup : forall las, path_at (t_dim T) approx nf rate (S n) (up las)).
  { intros las. unfold path_at, state_at in *. destruct Hs as (H1 & H2 & H3). unfold up. destruct rate as [t|]; cbn [paf_update paf_steps paf_calls paf_radius].
    - rewrite H1, H2, Hcalls. split; [reflexivity|]. split; [destruct approx; lia|]. right. split; [lia|]. apply clip_range; auto.
    - rewrite H1, H2, Hcalls. split; [reflexivity|]. split; [destruct approx; lia|exact H3]. }
  destruct rate as [t|]; destruct (Nat.eqb_spec (t_C T) 2) as [He|He].
  - rewrite He in *. apply comp_good; auto. apply path_adapt_comp. lia.
  - apply comp_good; auto. apply (pathc_adapt_comp (t_fw T) wf lr (t_mask T) (t_dim T) (t_C T) (paf_radius s)); lia.
  - rewrite He in *. apply comp_good; auto. apply path_comp. auto.
  - apply comp_good; auto. apply (pathc_comp (t_fw T) wf lr (t_mask T) (t_dim T) (t_C T) nf); [lia|auto].
Qed.

Theorem step_good g dg T k n s xs : (0 < t_dim T)%nat -> (2 <= t_C T)%nat -> usable T k -> state_at (t_dim T) (t_C T) k n s ->
  (forall x, In x xs -> In x (states (t_dim T) (t_C T))) ->
  good (states (t_dim T) (t_C T)) (state_at (t_dim T) (t_C T) k (S n)) (length xs) (sampler_step g dg T k (xs, s)).
Proof.
  intros Hd HC Hu Hs Hxs. unfold sampler_step. cbn [fst snd].
  destruct k as [| b | b | rate | ty nf | ty rate | ty | ty approx nf rate | ty c ss | ty c nn solver | ty];
    destruct s as [s|s|s|s|s|s]; try contradiction; cbn [usable] in Hu.
  - destruct Hs as (H1 & H2 & H3). apply indep_good; [|cbn|exact Hxs].
    + intros x Hx. split; [apply gibbs_is_prob|]. intros y w Hy.
      apply (gibbs_support (t_fw T) (t_dim T) (t_C T) (g_index s) ltac:(rewrite H3; apply Nat.mod_upper_bound; lia) x y w Hx Hy).
    + rewrite H1, H2, H3. split; [reflexivity|]. split; [lia|]. rewrite Nat.add_mod_idemp_l by lia. f_equal. lia.
  - destruct Hs as (H1 & H2 & H3). apply indep_good; [|cbn|exact Hxs].
    + intros x Hx. split; [apply block_is_prob; lia|]. intros y w Hy. apply (block_support (t_fw T) (t_dim T) (t_C T) b (g_index s) ltac:(lia) x y w Hx Hy).
    + rewrite H1, H2, H3. split; [reflexivity|]. split; [lia|]. rewrite Nat.add_mod_idemp_l by lia. f_equal. lia.
  - destruct Hs as (H1 & H2 & H3). unfold hb_batch_step. split.
    + apply is_prob_dmap, is_prob_bind; [apply is_prob_categorical; discriminate|]. intros rad w _. apply is_prob_indep. intros dd Hdd.
      apply in_map_iff in Hdd. destruct Hdd as (x & <- & Hx). apply (hb_chain_proper (t_fw T) (t_dim T)); auto.
    + intros o w Ho. apply in_dmap in Ho. destruct Ho as (ns & Ho & ->). cbn [fst snd]. apply in_bind in Ho. destruct Ho as (rad & v & v' & _ & Ho).
      destruct (LearningProof.batch_support (states (t_dim T) (t_C T)) _ xs ns v' (hb_chain_proper (t_fw T) (t_dim T) (t_C T) b (g_index s) rad Hu HC Hd) Hxs Ho) as [A B].
      split; [exact A|]. split; [exact B|]. cbn. rewrite H1, H2, H3. split; [reflexivity|]. split; [nia|]. rewrite Nat.add_mod_idemp_l by lia. f_equal. lia.
  - apply (good_lift _ (fun s' => state_at (t_dim T) (t_C T) (SWalk rate) (S n) (TR s'))); [auto|]. destruct Hs as (H1 & H2 & H3 & H4).
    apply comp_good; [apply walk_comp; auto| |exact Hxs]. intros _ las. cbn [state_at]. destruct rate as [t|]; cbn [rw_adapt_state rw_select_state rw_steps rw_ll rw_radius].
    + rewrite H1, H2. split; [reflexivity|]. split; [lia|]. split; [apply clip_range; auto|discriminate].
    + rewrite H1, H2. split; [reflexivity|]. split; [lia|]. auto.
  - destruct Hu as [Hty HC2]. destruct (wf_known ty Hty) as [wf Hwf]. unfold with_wf. rewrite Hwf. rewrite HC2 in *.
    apply (good_lift _ (fun s' => state_at (t_dim T) 2 (SGwg ty nf) (S n) (TW s'))); [auto|]. destruct Hs as (H1 & H2).
    apply comp_good; [apply gwg_comp; auto| |exact Hxs]. intros _ _. cbn. lia.
  - destruct Hu as [Hty HC2]. destruct (wf_known ty Hty) as [wf Hwf]. unfold with_wf. rewrite Hwf. rewrite HC2 in *.
    apply (good_lift _ (fun s' => state_at (t_dim T) 2 (SGwgAdapt ty rate) (S n) (TW s'))); [auto|]. destruct Hs as (H1 & H2 & H3).
    apply comp_good; [apply agwg_comp; auto| |exact Hxs]. intros _ las. cbn [state_at agwg_update gwg_update gwg_steps gwg_calls gwg_radius].
    split; [lia|]. split; [lia|]. apply clip_range; auto.
  - destruct (wf_known ty Hu) as [wf Hwf]. unfold with_wf. rewrite Hwf.
    apply (good_lift _ (fun s' => state_at (t_dim T) (t_C T) (SGwgCat ty) (S n) (TW s'))); [auto|]. destruct Hs as (H1 & H2).
    apply mh_batch_ok; auto.
    + intros x Hx. apply (cgwg_prop_ok wf (t_grad T) (t_dim T)); auto; lia.
    + intros x p w Hx _. apply cgwg_app_ok; auto; lia.
    + eauto.
    + intros _ _. cbn. lia.
  - destruct Hu as (Hty & Hnf & Hsig). destruct (wf_known ty Hty) as [wf Hwf]. unfold with_wf. rewrite Hwf. destruct approx.
    + apply (good_lift _ (path_at (t_dim T) true nf rate (S n))); [intros s' Hs'; exact Hs'|]. apply path_good; auto.
    + destruct (Hsig eq_refl) as (sg & -> & ->). cbn [Nat.eqb]. apply (good_lift _ (path_at (t_dim T) false nf rate (S n))); [intros s' Hs'; exact Hs'|].
      apply path_good; auto.
  - destruct (wf_known ty Hu) as [wf Hwf]. unfold with_wf. rewrite Hwf.
    apply (good_lift _ (lang_at (S n))); [intros s' Hs'; exact Hs'|]. apply dmala_good; auto.
  - destruct Hu as [Hty Hk]. destruct (wf_known ty Hty) as [wf Hwf]. unfold with_wf. rewrite Hwf.
    apply (good_lift _ (lang_at (S n))); [intros s' Hs'; exact Hs'|]. apply dlmc_good; auto.
Qed.

Lemma init_at T k : (0 < t_dim T)%nat -> usable T k -> state_at (t_dim T) (t_C T) k 0 (init_state k).
Proof.
  intros Hd Hu. assert (Hr : radius_ok (t_dim T) 1).
  { split; [lra|]. replace 1 with (INR 1) by reflexivity. apply le_INR. lia. }
  assert (Hm : (0 mod t_dim T = 0)%nat) by (apply Nat.mod_0_l; lia).
  destruct k as [| b | b | rate | ty nf | ty rate | ty | ty approx nf rate | ty c ss | ty c nn solver | ty];
    cbn [init_state state_at g_init rw_init gwg_init paf_init l_init g_steps g_ll g_index rw_steps rw_ll rw_radius gwg_steps gwg_calls gwg_radius
         paf_steps paf_calls paf_radius l_steps l_calls l_log_z l_log_tau]; cbn [Nat.mul]; rewrite ?Hm; auto.
  - split; [reflexivity|]. split; [destruct approx; reflexivity|]. destruct rate; auto.
  - split; [reflexivity|]. split; [reflexivity|]. split; [exists 0; auto|left; exists 0; auto].
  - split; [reflexivity|]. split; [reflexivity|]. split; [exists 0; auto|left; exists 0; auto].
Qed.

(** ** Without adaptation *)
Lemma in_mh_batch_state {P S} g (prop : list nat -> dist P) app la (new : list (P * list nat) -> list R -> S) xs o w :
  In (o, w) (mh_batch g prop app la new xs) -> exists ax las, snd o = new ax las.
Proof.
  unfold mh_batch. intros H. apply in_bind in H. destruct H as (ps & v & v' & _ & H). cbv zeta in H. destruct (all_some _) as [las|]; [|contradiction].
  apply in_dmap in H. destruct H as (ns & _ & ->). exists (combine ps xs), las. reflexivity.
Qed.
Lemma in_lift {S} (mk : S -> sstate) d o w : In (o, w) (lift mk d) -> exists o', In (o', w) d /\ snd o = mk (snd o').
Proof. unfold lift. intros H. apply in_dmap in H. destruct H as (o' & H & ->). exists o'. auto. Qed.
Lemma l_update_fixed c acc z s : lc_adaptive c = false -> tuning (TL (l_update c acc z s)) = tuning (TL s) /\ l_steps (l_update c acc z s) = S (l_steps s).
Proof. intros H. unfold l_update. rewrite H. split; reflexivity. Qed.
Lemma lang_batch_fixed {P} g (prop : R -> list nat -> dist P) app la rates lz n c used s xs o w : lc_adaptive c = false ->
  In (o, w) (lang_batch g prop app la rates lz n c used s xs) -> tuning (TL (snd o)) = tuning (TL s) /\ l_steps (snd o) = S (l_steps s).
Proof.
  intros Hc. unfold lang_batch. cbv zeta. destruct used; intros H; try (destruct H as [H|[]]; inversion H; subst; cbn [snd]; apply l_update_fixed; exact Hc).
  apply in_mh_batch_state in H. destruct H as (ax & las & ->). apply l_update_fixed; exact Hc.
Qed.

Definition unadapted (k : sampler) : Prop :=
  match k with SWalk rate => rate = None | SGwgAdapt _ _ => False | SPath _ _ _ rate => rate = None | SDmala _ c _ | SDlmc _ c _ _ => lc_adaptive c = false | _ => True end.
Lemma built_unadapted c C k : build_sampler c C = Some k -> sc_adaptive c = Some false -> unadapted k.
Proof.
  intros H Ha. unfold build_sampler in H. repeat match type of H with (if ?b then _ else _) = _ => destruct b end; try discriminate;
    unfold build_randomwalk, build_gwg, build_path, build_dmala, build_dlmc, obind in H; rewrite ?Ha in H; cbn [odef] in H;
    repeat match type of H with match ?b with _ => _ end = _ => destruct b end; try discriminate; inversion H; subst; cbn; auto.
Qed.

Lemma step_tuning guard dg T k xs s o w : unadapted k -> started k s -> In (o, w) (sampler_step guard dg T k (xs, s)) ->
  tuning (snd o) = tuning s /\ started k (snd o).
Proof.
  intros Hk Hs H. unfold sampler_step in H. cbn [fst snd] in H.
  destruct k, s; try contradiction; cbn [unadapted started] in *; unfold with_wf in H.
  1-3: apply in_dmap in H; destruct H as (ns & _ & ->); split; [reflexivity|exact I].
  - subst. apply in_lift in H. destruct H as (o' & H & ->). apply in_mh_batch_state in H. destruct H as (ax & las & ->). split; [reflexivity|exact I].
  - destruct (wf_of ty); [|contradiction]. apply in_lift in H. destruct H as (o' & H & ->). apply in_mh_batch_state in H. destruct H as (ax & las & ->). split; [reflexivity|exact I].
  - destruct (wf_of ty); [|contradiction]. apply in_lift in H. destruct H as (o' & H & ->). apply in_mh_batch_state in H. destruct H as (ax & las & ->). split; [reflexivity|exact I].
  - subst. destruct (wf_of ty); [|contradiction].
    assert (K : forall lr calls o' w, In (o', w) (path_batch guard T r lr calls num_flips None s xs) -> tuning (TP (snd o')) = tuning (TP s)).
    { intros lr calls o' w' H'. unfold path_batch in H'. cbv zeta in H'. destruct (Nat.eqb (t_C T) 2); apply in_mh_batch_state in H'; destruct H' as (ax & las & ->); reflexivity. }
    destruct approx; [|destruct (t_sig T) as [sg|]; [|contradiction]; destruct (Nat.eqb (lr_values sg) 4); [|contradiction]];
      apply in_lift in H; destruct H as (o' & H & ->); (split; [eapply K; exact H|exact I]).
  - destruct (wf_of ty); [|contradiction]. apply in_lift in H. destruct H as (o' & H & ->). split; [|exact I].
    unfold dmala_batch in H. cbv zeta in H. destruct (Nat.eqb (t_C T) 2); unfold lang_bin, lang_cat in H; apply lang_batch_fixed in H; tauto.
  - destruct (wf_of ty); [|contradiction]. apply in_lift in H. destruct H as (o' & H & ->).
    unfold dlmc_batch in H. cbv zeta in H. rewrite Hk in H. destruct (Nat.eqb_spec (l_steps s) 0) as [E|_]; [lia|].
    destruct (Nat.eqb (t_C T) 2); unfold lang_bin, lang_cat in H; apply lang_batch_fixed in H; auto; destruct H as [H1 H2]; (split; [rewrite H1; reflexivity|cbn [started]; rewrite H2; lia]).
Qed.

Theorem run_tuning guard dg T k : unadapted k -> forall n xs s o w, started k s -> In (o, w) (sampler_run guard dg T k n (xs, s)) -> tuning (snd o) = tuning s.
Proof.
  intros Hk. induction n as [|n IH]; intros xs s o w Hs H.
  - destruct H as [H|[]]. inversion H; subst. reflexivity.
  - cbn [sampler_run] in H. apply in_bind in H. destruct H as ([ys t] & v & v' & H1 & H2). destruct (step_tuning _ _ _ _ _ _ _ _ Hk Hs H1) as [E1 E2]. cbn [snd] in *.
    rewrite <- E1. apply (IH ys t o v'); auto.
Qed.

Lemma flat_walk_adapts dg T t s x o w : (forall y, t_fw T y = 0) -> 1 <= rw_radius s + 1 - t <= INR (t_dim T) ->
  In (o, w) (sampler_step 0 dg T (SWalk (Some t)) ([x], TR s)) -> tuning (snd o) = [Fin (rw_radius s + (1 - t))].
Proof.
  intros Hf Hr H. cbn [sampler_step fst snd] in H. apply in_lift in H. destruct H as (o' & H & ->). unfold walk_batch, mh_batch in H.
  apply in_bind in H. destruct H as (ps & v & v' & Hps & H). cbn [map indep] in Hps. apply in_bind in Hps. destruct Hps as (p & v1 & v1' & _ & Hps).
  apply in_dmap in Hps. destruct Hps as (q & Hq & ->). destruct Hq as [Hq|[]]. inversion Hq; subst. cbn [combine map all_some fst snd] in H.
  rewrite !Hf in H. apply in_dmap in H. destruct H as (ns & _ & ->). cbn [snd tuning].
  unfold rw_adapt_state. cbn [rw_radius]. replace (mean_acc [0 - 0]) with 1.
  - unfold clip. rewrite Rmax_left, Rmin_left by lra. do 2 f_equal. lra.
  - unfold mean_acc. cbn [rsum length INR]. rewrite Rmin_right by lra. rewrite exp_0. field.
Qed.
