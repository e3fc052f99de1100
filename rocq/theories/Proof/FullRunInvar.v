(** Complete sampler runs: [n] steps, the initial laws, and invariance of the product target in a given state. *)
From Coq Require Import String Reals List Arith ZArith Lra Lia.
From Verif.Base Require Import RSum Cube Dist XFloat MH.
From Verif.Spec Require Import Chain SamplerRun.
From Verif.Model Require Import MathUtil Gibbs HammingBall RandomWalk GWG LocallyBalanced PathAux Langevin FullRun.
From Verif.Proof Require Import ChainProof GibbsProof RandomWalkProof GWGProof PathAuxProof PathAuxCatProof LangevinProof LangevinAdapt
  BernEvalProof AdaptiveRunProof MHKernel FullRunProof.
Import ListNotations.
Local Open Scope R_scope.

(** ** Runs *)
Theorem step_legal g dg T k n s B xs : (0 < t_dim T)%nat -> (2 <= t_C T)%nat -> usable T k -> state_at (t_dim T) (t_C T) k n s ->
  legal (t_dim T) (t_C T) B xs ->
  is_prob (sampler_step g dg T k (xs, s)) /\
  forall o w, In (o, w) (sampler_step g dg T k (xs, s)) -> legal (t_dim T) (t_C T) B (fst o) /\ state_at (t_dim T) (t_C T) k (S n) (snd o).
Proof.
  intros Hd HC Hu Hs Hx. apply legal_in in Hx. destruct Hx as [Hl Hx]. destruct (step_good g dg T k n s xs Hd HC Hu Hs Hx) as [H1 H2].
  split; [exact H1|]. intros o w Ho. destruct (H2 o w Ho) as (A & D & F). split; [|exact F]. apply legal_in. split; [lia|exact D].
Qed.

Lemma run_from g dg T k B : (0 < t_dim T)%nat -> (2 <= t_C T)%nat -> usable T k -> forall n m xs s, state_at (t_dim T) (t_C T) k m s ->
  legal (t_dim T) (t_C T) B xs ->
  is_prob (sampler_run g dg T k n (xs, s)) /\
  forall o w, In (o, w) (sampler_run g dg T k n (xs, s)) -> legal (t_dim T) (t_C T) B (fst o) /\ state_at (t_dim T) (t_C T) k (m + n) (snd o).
Proof.
  intros Hd HC Hu. induction n as [|n IH]; intros m xs s Hs Hx; cbn [sampler_run].
  - split; [apply is_prob_ret|]. intros o w [Ho|[]]. apply (f_equal fst) in Ho. cbn in Ho. subst. cbn. rewrite Nat.add_0_r. auto.
  - destruct (step_legal g dg T k m s B xs Hd HC Hu Hs Hx) as [H1 H2]. split.
    + apply is_prob_bind; [exact H1|]. intros [ys t] w Ho. destruct (H2 _ _ Ho) as [A D]. cbn in A, D. apply (proj1 (IH (Datatypes.S m) ys t D A)).
    + intros o w Ho. apply in_bind in Ho. destruct Ho as ([ys t] & v & v' & Ho1 & Ho2). destruct (H2 _ _ Ho1) as [A D]. cbn in A, D.
      rewrite Nat.add_succ_r. exact (proj2 (IH (Datatypes.S m) ys t D A) o v' Ho2).
Qed.

Theorem run_legal g dg T k n B xs : (0 < t_dim T)%nat -> (2 <= t_C T)%nat -> usable T k -> legal (t_dim T) (t_C T) B xs ->
  is_prob (sampler_run g dg T k n (xs, init_state k)) /\
  forall o w, In (o, w) (sampler_run g dg T k n (xs, init_state k)) ->
    legal (t_dim T) (t_C T) B (fst o) /\ state_at (t_dim T) (t_C T) k n (snd o).
Proof. intros Hd HC Hu Hx. exact (run_from g dg T k B Hd HC Hu n 0 xs _ (init_at T k Hd Hu) Hx). Qed.

(** ** Initial samples *)
Lemma indep_repeat_states {d C} (law : dist nat) : is_prob law -> (forall v w, In (v, w) law -> (v < C)%nat) ->
  is_prob (indep (repeat law d)) /\ forall x w, In (x, w) (indep (repeat law d)) -> In x (states d C).
Proof.
  intros Hp Hv. split.
  - apply is_prob_indep. intros dd Hd. apply repeat_spec in Hd. subst. exact Hp.
  - induction d as [|d IH]; intros x w Hx.
    + destruct Hx as [Hx|[]]. apply (f_equal fst) in Hx. cbn in Hx. subst. left. reflexivity.
    + cbn [repeat indep] in Hx. apply in_bind in Hx. destruct Hx as (v & a & b & Ha & Hx). apply in_dmap in Hx. destruct Hx as (y & Hy & ->).
      specialize (IH _ _ Hy). apply in_states in IH. apply in_states. destruct IH as [H1 H2]. split; [cbn; lia|]. constructor; [exact (Hv _ _ Ha)|exact H2].
Qed.

Lemma in_weighted {A} (l : list A) w a v : In (a, v) (weighted l w) -> In a l.
Proof. unfold weighted. intros H. apply in_map_iff in H. destruct H as (b & He & Hb). inversion He; subst. exact Hb. Qed.

Lemma even_of {d C} (law : dist nat) : (0 < C)%nat -> is_prob law -> (forall v w, In (v, w) law -> (v < C)%nat) ->
  (forall f, E law f = rsum (seq 0 C) f / INR C) -> even_start d C (indep (repeat law d)).
Proof.
  intros HC Hp Hv HE. destruct (indep_repeat_states (d := d) law Hp Hv) as [A B]. split; [split; [exact A|]|].
  - intros x w Hx. apply in_states. exact (B x w Hx).
  - clear A B. assert (HC' : INR C <> 0) by (apply not_0_INR; lia). induction d as [|d IH]; intros f.
    + cbn. unfold E. cbn. field.
    + cbn [repeat]. rewrite LangevinAdapt.E_indep_cons, HE. rewrite (rsum_ext (seq 0 C) _ (fun a => rsum (states d C) (fun l => f (a :: l)) * / INR (C ^ d))) by (intros a _; apply IH).
      unfold states at 2. cbn [lists_over]. rewrite rsum_flat_map.
      rewrite (rsum_ext (seq 0 C) (fun a => rsum (map _ _) f) (fun a => rsum (states d C) (fun l => f (a :: l)))) by (intros a _; apply rsum_map).
      replace (INR (C ^ Datatypes.S d)) with (INR C * INR (C ^ d)) by (rewrite <- mult_INR; reflexivity).
      assert (INR (C ^ d) <> 0) by (apply not_0_INR, Nat.pow_nonzero; lia).
      rewrite (rsum_ext (seq 0 C) _ (fun a => / INR (C ^ d) * rsum (states d C) (fun l => f (a :: l)))) by (intros; ring).
      rewrite rsum_scal. field. auto.
Qed.

Lemma half_pair f : E (dmap (fun b : bool => if b then 1%nat else 0%nat) (bernoulli (/ 2))) f = rsum (seq 0 2) f / INR 2.
Proof. rewrite E_dmap, E_bernoulli. cbn. lra. Qed.

Theorem randint_even d C : (0 < C)%nat -> even_start d C (init_randint d C).
Proof.
  intros HC. apply even_of; auto.
  - apply is_prob_uniform. destruct C; [lia|discriminate].
  - intros v w Hv. apply in_weighted, in_seq in Hv. lia.
  - intros f. unfold uniform. rewrite E_weighted, seq_length, rsum_scal. unfold Rdiv. ring.
Qed.

Theorem half_even d : even_start d 2 (init_half d).
Proof.
  apply even_of; [lia| | |apply half_pair].
  - apply is_prob_dmap, is_prob_bernoulli. lra.
  - intros v w Hv. apply in_dmap in Hv. destruct Hv as (b & _ & ->). destruct b; lia.
Qed.

Theorem logits_even d C : (0 < C)%nat -> even_start d C (init_logits d C).
Proof.
  intros HC. apply even_of; auto.
  - apply is_prob_categorical. destruct C; [lia|discriminate].
  - intros v w Hv. apply in_weighted, in_seq in Hv. rewrite map_length, repeat_length in Hv. lia.
  - intros f. assert (HC' : INR C <> 0) by (apply not_0_INR; lia). rewrite E_categorical, map_length, repeat_length.
    assert (Hs : forall n, sumexp (map ln (repeat 1 n)) = INR n).
    { induction n as [|n IH]; [reflexivity|]. rewrite S_INR, <- IH. unfold sumexp. cbn. rewrite ln_1, exp_0. ring. }
    rewrite Hs. rewrite (rsum_ext _ _ (fun i => / INR C * f i)).
    + rewrite rsum_scal. unfold Rdiv. ring.
    + intros i Hi. apply in_seq in Hi. replace (nth i (map ln (repeat 1 C)) 0) with 0; [rewrite exp_0; field; auto|].
      symmetry. rewrite (nth_indep _ 0 (ln 1)) by (rewrite map_length, repeat_length; lia). rewrite map_nth, nth_repeat. apply ln_1.
Qed.

Theorem cat_mean_in d C mean : (0 < C)%nat -> length mean = d -> Forall (fun row => length row = C) mean -> starts_in d C (init_cat_mean mean).
Proof.
  intros HC Hl HF. subst d. split.
  - apply is_prob_indep. intros dd Hd. apply in_map_iff in Hd. destruct Hd as (row & <- & Hr). rewrite Forall_forall in HF.
    apply is_prob_categorical. specialize (HF _ Hr). destruct row; [cbn in HF; lia|discriminate].
  - unfold init_cat_mean. induction mean as [|row mean IH]; intros x w Hx.
    + destruct Hx as [Hx|[]]. apply (f_equal fst) in Hx. cbn in Hx. subst. auto.
    + cbn [map indep] in Hx. apply in_bind in Hx. destruct Hx as (v & a & b & Ha & Hx). apply in_dmap in Hx. destruct Hx as (y & Hy & ->).
      destruct (IH (Forall_inv_tail HF) _ _ Hy) as [H1 H2]. pose proof (Forall_inv HF) as Hr. cbv beta in Hr. split; [cbn; lia|].
      constructor; [|exact H2]. apply in_weighted, in_seq in Ha. rewrite map_length, Hr in Ha. lia.
Qed.

Lemma init_batch_legal d C B law : starts_in d C law -> is_prob (init_batch B law) /\ forall xs w, In (xs, w) (init_batch B law) -> legal d C B xs.
Proof.
  intros [H1 H2]. split.
  - apply is_prob_indep. intros dd Hd. apply repeat_spec in Hd. subst. exact H1.
  - intros xs w Hx. destruct (in_indep_repeat law B xs w Hx) as [HL HF]. split; [exact HL|]. eapply Forall_impl; [|exact HF].
    intros x [v Hv]. exact (H2 x v Hv).
Qed.

Theorem whole_run_legal g dg T k n B law : (0 < t_dim T)%nat -> (2 <= t_C T)%nat -> usable T k -> starts_in (t_dim T) (t_C T) law ->
  let run := bind (init_batch B law) (fun xs => sampler_run g dg T k n (xs, init_state k)) in
  is_prob run /\ forall o w, In (o, w) run -> legal (t_dim T) (t_C T) B (fst o) /\ state_at (t_dim T) (t_C T) k n (snd o).
Proof.
  intros Hd HC Hu Hl. destruct (init_batch_legal _ _ B law Hl) as [H1 H2]. cbv zeta. split.
  - apply is_prob_bind; [exact H1|]. intros xs w Hx. apply (run_legal g dg T k n B xs); eauto.
  - intros o w Ho. apply in_bind in Ho. destruct Ho as (xs & v & v' & Hx & Ho). apply (proj2 (run_legal g dg T k n B xs Hd HC Hu (H2 _ _ Hx)) o v' Ho).
Qed.

(** ** Invariance in a given state *)
Lemma invariant_ext {A} (S : list A) pi (k1 k2 : A -> dist A) :
  (forall x f, In x S -> E (k1 x) f = E (k2 x) f) -> invariant S pi k2 -> invariant S pi k1.
Proof. intros H H2 f. rewrite <- (H2 f). apply rsum_ext. intros x Hx. rewrite H by auto. reflexivity. Qed.

Lemma in_batch {A} (S : list A) B xs : In xs (lists_over S B) -> forall x, In x xs -> In x S.
Proof. intros H. apply in_lists_over in H. destruct H as [_ H]. rewrite Forall_forall in H. exact H. Qed.

Lemma marginal_invariant {P St} Sp pi B (prop : list nat -> dist P) app la (new : list (list nat) -> list (P * list nat) -> list R -> St)
    (mk : St -> sstate) (K : list nat -> dist (list nat)) :
  comp Sp prop app la -> (forall x f, In x Sp -> E (bind (prop x) (fun p => omh_law 0 (la x p) x (app x p))) f = E (K x) f) ->
  invariant Sp pi K ->
  invariant (lists_over Sp B) (batch_pi pi) (fun xs => dmap fst (lift mk (mh_batch 0 prop app (fun _ => la) (new xs) xs))).
Proof.
  intros (H1 & H2 & H3) HK HI.
  eapply invariant_ext; [|apply (batch_invariant Sp pi (fun x => bind (prop x) (fun p => omh_law 0 (la x p) x (app x p))) B)].
  - intros xs f Hx. unfold lift. rewrite !E_dmap. cbn [fst]. apply (mh_batch_marginal Sp); auto. exact (in_batch _ _ _ Hx).
  - eapply invariant_ext; [|exact HI]. intros x f Hx. apply HK, Hx.
Qed.

Lemma id_invariant {A} (S : list A) pi (k : A -> dist A) : (forall x f, E (k x) f = f x) -> invariant S pi k.
Proof. intros H f. apply rsum_ext. intros x _. rewrite H. reflexivity. Qed.

Lemma lang_invariant {P} Sp pi B (prop : R -> list nat -> dist P) app la rates lz nn c used s (K : R -> list nat -> dist (list nat)) :
  andb (lc_adaptive c) (lc_co_opt c) = false -> (forall lt lt', comp Sp (prop lt) app (la lt lt')) ->
  (forall lt x f, In x Sp -> E (bind (prop lt x) (fun p => omh_law 0 (la lt lt x p) x (app x p))) f = E (K lt x) f) ->
  (forall lt, invariant Sp pi (K lt)) ->
  invariant (lists_over Sp B) (batch_pi pi) (fun xs => dmap fst (lift TL (lang_batch 0 prop app la rates lz nn c used s xs))).
Proof.
  intros Hco Hc HK HI. destruct used as [lt| | |].
  - eapply invariant_ext; [|exact (marginal_invariant Sp pi B (prop lt) app (la lt lt)
       (fun xs ax las => l_update c (Fin (mean_acc las)) (Fin (lz (map rates xs))) s) TL (K lt) (Hc lt lt) (HK lt) (HI lt))].
    intros xs f _. unfold lang_batch. rewrite Hco. reflexivity.
  - apply id_invariant. intros x f. unfold lang_batch, lift, dmap. cbn. unfold E. cbn. ring.
  - apply id_invariant. intros x f. unfold lang_batch, lift, dmap. cbn. unfold E. cbn. ring.
  - apply id_invariant. intros x f. unfold lang_batch, lift, dmap. cbn. unfold E. cbn. ring.
Qed.

Lemma bin_K dg0 fw (pfun : R -> list nat -> option (list R)) lt x f : dg0 = 0 ->
  E (bind (match pfun lt x with Some p => indep (map bernoulli p) | None => [] end)
     (fun fl => omh_law 0 (match pfun lt x, pfun lt (flip_bits fl x) with
                | Some p, Some q => Some (bern_log_acc dg0 fw p q x fl) | _, _ => None end) x (flip_bits fl x))) f
  = E (bern_step 0 0 fw (pfun lt) x) f.
Proof.
  intros ->. unfold bern_step. destruct (pfun lt x) as [p|]; [|reflexivity]. rewrite !E_bind. apply E_ext. intros fl.
  destruct (pfun lt (flip_bits fl x)); reflexivity.
Qed.

Lemma cat_K fw (rows : R -> list nat -> option (list (list R))) lt x f :
  E (bind (match rows lt x with Some r => indep (map categorical r) | None => [] end)
     (fun y => omh_law 0 (match rows lt x, rows lt y with
                | Some rx, Some ry => Some (fw y + row_ll ry x - fw x - row_ll rx y) | _, _ => None end) x y)) f
  = E (cat_step 0 fw (rows lt) x) f.
Proof.
  unfold cat_step. destruct (rows lt x) as [p|]; [|reflexivity]. rewrite !E_bind. apply E_ext. intros y.
  destruct (rows lt y); reflexivity.
Qed.

Lemma bin_invariant T B pfun rates lz nn c used s : flips_fun (t_dim T) pfun -> andb (lc_adaptive c) (lc_co_opt c) = false ->
  invariant (lists_over (states (t_dim T) 2) B) (batch_pi (fun x => exp (t_fw T x)))
    (fun xs => dmap fst (lift TL (lang_bin 0 0 T pfun rates lz nn c used s xs))).
Proof.
  intros Hf Hco. unfold lang_bin. apply (lang_invariant _ _ _ _ _ _ _ _ _ _ _ _ (fun lt => bern_step 0 0 (t_fw T) (pfun lt))); auto.
  - intros lt lt'. apply bin_comp. exact Hf.
  - intros lt x f _. apply bin_K. reflexivity.
  - intros lt. apply reversible_invariant; [|apply bern_reversible; intros x Hx; apply (Hf lt x Hx)].
    intros x Hx. apply (bern_is_prob (t_fw T) (pfun lt) (t_dim T)); [intros y Hy; apply (Hf lt y Hy)|exact Hx].
Qed.

Lemma cat_invariant T B rows rates lz nn c used s : (0 < t_C T)%nat -> rows_fun (t_dim T) (t_C T) rows -> andb (lc_adaptive c) (lc_co_opt c) = false ->
  invariant (lists_over (states (t_dim T) (t_C T)) B) (batch_pi (fun x => exp (t_fw T x)))
    (fun xs => dmap fst (lift TL (lang_cat 0 T rows rates lz nn c used s xs))).
Proof.
  intros HC Hf Hco. unfold lang_cat. apply (lang_invariant _ _ _ _ _ _ _ _ _ _ _ _ (fun lt => cat_step 0 (t_fw T) (rows lt))); auto.
  - intros lt lt'. apply cat_comp; auto.
  - intros lt x f _. apply cat_K.
  - intros lt. apply reversible_invariant; [|apply cat_reversible; [exact HC|]; intros x Hx; apply (Hf lt x Hx)].
    intros x Hx. apply (cat_is_prob (t_fw T) (rows lt) (t_dim T) (t_C T)); auto. 
Qed.

Definition prod_target (T : target) (B : nat) (k : list (list nat) -> dist (list (list nat))) : Prop :=
  invariant (lists_over (states (t_dim T) (t_C T)) B) (batch_pi (fun x => exp (t_fw T x))) k.

Lemma path_invariant T B wf lr calls nf rate s : (0 < t_dim T)%nat -> (2 <= t_C T)%nat -> (rate = None -> (1 <= nf <= t_dim T)%nat) ->
  (rate = None -> t_C T = 2%nat) -> prod_target T B (fun xs => dmap fst (lift TP (path_batch 0 T wf lr calls nf rate s xs))).
Proof.
  intros Hd HC Hnf HC2. unfold path_batch, prod_target. cbv zeta.
  set (up := fun las : list R => match rate with Some t => paf_update true (t_dim T) t calls las s | None => paf_update false (t_dim T) 0 calls las s end).
  destruct rate as [t|]; [|rewrite HC2 in * by reflexivity]; [destruct (Nat.eqb_spec (t_C T) 2) as [He|He]; [rewrite He in *|]|].
  - apply (marginal_invariant _ _ _ _ _ _ (fun _ _ => up) TP (apafs_step 0 (t_fw T) wf lr (t_mask T) (paf_radius s))).
    + apply path_adapt_comp. lia.
    + reflexivity.
    + apply reversible_invariant; [|apply apafs_reversible; lia]. intros x Hx. apply (apafs_is_prob (t_fw T) wf lr (t_mask T) (t_dim T)); auto.
  - apply (marginal_invariant _ _ _ _ (fun x ov => mask_apply (num_sites (length x) (paf_radius s)) (fst ov) x (snd ov)) _ (fun _ _ => up) TP
             (apafsc_step 0 (t_fw T) wf lr (t_mask T) (t_C T) (paf_radius s))).
    + apply (pathc_adapt_comp (t_fw T) wf lr (t_mask T) (t_dim T) (t_C T) (paf_radius s)); lia.
    + intros x f _. unfold apafsc_step. rewrite !E_bind. apply E_ext. intros o. rewrite E_dmap, E_bind. reflexivity.
    + apply reversible_invariant; [|apply apafsc_reversible; lia]. intros x Hx. apply (apafsc_is_prob (t_fw T) wf lr (t_mask T) (t_dim T)); auto; lia.
  - cbn [Nat.eqb]. apply (marginal_invariant _ _ _ _ _ _ (fun _ _ => up) TP (pafs_step 0 (t_fw T) wf lr (t_mask T) nf)).
    + apply path_comp. auto.
    + reflexivity.
    + apply reversible_invariant; [|apply pafs_reversible; auto]. intros x Hx. apply (pafs_is_prob (t_fw T) wf lr (t_mask T) (t_dim T)); auto.
Qed.

Theorem step_invariant T k n s B : (0 < t_dim T)%nat -> (2 <= t_C T)%nat -> usable T k -> state_at (t_dim T) (t_C T) k n s -> keeps_target T k s ->
  prod_target T B (fun xs => dmap fst (sampler_step 0 0 T k (xs, s))).
Proof.
  intros Hd HC Hu Hs Hk.
  destruct k as [| b | b | rate | ty nf | ty rate | ty | ty approx nf rate | ty c ss | ty c nn solver | ty];
    destruct s as [s|s|s|s|s|s]; try contradiction; cbn [usable keeps_target] in Hu, Hk; unfold sampler_step; cbn [fst snd].
  - destruct Hs as (H1 & H2 & H3). eapply invariant_ext; [|apply batch_invariant; apply (gibbs_invariant (t_fw T) (t_dim T) (t_C T) (g_index s))].
    + intros xs f _. rewrite !E_dmap. reflexivity.
    + rewrite H3. apply Nat.mod_upper_bound. lia.
  - eapply invariant_ext; [|apply batch_invariant; apply (block_invariant (t_fw T) (t_dim T) (t_C T) b (g_index s)); lia].
    intros xs f _. rewrite !E_dmap. reflexivity.
  - destruct Hs as (H1 & H2 & H3 & H4). unfold walk_batch.
    apply (marginal_invariant _ _ _ _ _ _ (fun _ _ las => match rate with Some t => rw_adapt_state (t_dim T) t las s | None => rw_select_state s end) TR
            (rw_step 0 (t_fw T) (rw_radius s) (t_dim T) (t_C T))).
    + apply walk_comp; auto.
    + reflexivity.
    + apply rw_invariant; auto. destruct H3. lra.
  - destruct Hu as [Hty HC2]. destruct (wf_known ty Hty) as [wf Hwf]. unfold with_wf. rewrite Hwf. unfold prod_target. rewrite HC2 in *. unfold gwg_batch.
    apply (marginal_invariant _ _ _ _ _ _ (fun _ _ _ => gwg_update s) TW (gwg_step 0 (t_fw T) wf (t_grad T) (t_mask T) nf)).
    + apply gwg_comp; auto.
    + reflexivity.
    + apply reversible_invariant; [|apply gwg_reversible; auto]. intros x Hx. apply (gwg_is_prob (t_fw T) wf (t_grad T) (t_mask T) (t_dim T)); auto.
  - destruct Hu as [Hty HC2]. destruct (wf_known ty Hty) as [wf Hwf]. unfold with_wf. rewrite Hwf. unfold prod_target. rewrite HC2 in *. unfold agwg_batch.
    apply (marginal_invariant _ _ _ _ _ _ (fun _ _ las => agwg_update (t_dim T) rate las s) TW (agwg_step 0 (t_fw T) wf (t_grad T) (t_mask T) (gwg_radius s))).
    + apply agwg_comp; auto.
    + intros x f _. unfold agwg_step. rewrite !E_bind. apply E_ext. intros p. destruct (agwg_counts _ _ p); reflexivity.
    + apply reversible_invariant; [|apply agwg_reversible; auto]. intros x Hx.
      destruct (agwg_comp (t_fw T) wf (t_grad T) (t_mask T) (t_dim T) (gwg_radius s) Hd) as (A1 & _ & A3). unfold agwg_step.
      apply is_prob_bind; [apply A1; exact Hx|]. intros p w Hp. destruct (A3 x p w Hx Hp) as [l Hl].
      destruct (agwg_counts _ _ p); [apply is_prob_mh_law|discriminate].
  - destruct Hu as (Hty & Hnf & Hsig). destruct (wf_known ty Hty) as [wf Hwf]. unfold with_wf. rewrite Hwf. destruct approx.
    + apply path_invariant; auto.
    + destruct (Hsig eq_refl) as (sg & -> & ->). cbn [Nat.eqb]. apply path_invariant; auto.
  - destruct (wf_known ty Hu) as [wf Hwf]. unfold with_wf. rewrite Hwf. unfold dmala_batch. cbv zeta.
    set (u := if lc_adaptive c then l_log_tau s else Fin (dmala_fixed_log_tau ss)).
    assert (Hco : andb (lc_adaptive c) (lc_co_opt c) = false).
    { destruct Hk as [Hk|[Hk _]]; rewrite Hk; [reflexivity|apply Bool.andb_false_r]. }
    assert (Hus : forall xs, (if lc_adaptive c then l_used_log_tau c 3 (Fin (dmala_log_z (map (rates_of T wf (lr_of T)) xs))) s else Fin (dmala_fixed_log_tau ss)) = u).
    { intros xs. unfold u. destruct (lc_adaptive c); [|reflexivity]. destruct Hk as [Hk|[Hk Hn]]; [discriminate|]. unfold l_used_log_tau. rewrite Hk.
      cbv zeta. destruct (Nat.eqb_spec (l_steps s) 0); [lia|reflexivity]. }
    destruct (Nat.eqb_spec (t_C T) 2) as [He|He].
    + unfold prod_target. rewrite He in *. eapply invariant_ext; [|apply (bin_invariant T B (fun lt x => dmala_ps lt wf (lr_of T) x) (rates_of T wf (lr_of T)) dmala_log_z 3 c u s); [|exact Hco]].
      * intros xs f _. rewrite Hus. reflexivity.
      * intros lt0 x Hx. apply dmala_ps_ok; auto.
    + eapply invariant_ext; [|apply (cat_invariant T B (fun lt x => all_some (map (dmala_row lt wf (lr_of T) (t_C T) x) (seq 0 (length x))))
         (rates_of T wf (lr_of T)) dmala_log_z 3 c u s); [lia| |exact Hco]].
      * intros xs f _. rewrite Hus. reflexivity.
      * intros lt0 x Hx. apply dmala_rows_ok; auto.
  - destruct Hu as [Hty Hsol]. destruct (wf_known ty Hty) as [wf Hwf]. unfold with_wf. rewrite Hwf. unfold dlmc_batch. cbv zeta.
    assert (Hn : (0 < l_steps s)%nat) by (destruct Hk as [[_ Hk]|[_ Hk]]; exact Hk). 
    destruct (Nat.eqb_spec (l_steps s) 0) as [Hz|_]; [lia|].
    assert (Hco : andb (lc_adaptive c) (lc_co_opt c) = false).
    { destruct Hk as [[Hk _]|[Hk _]]; rewrite Hk; [reflexivity|apply Bool.andb_false_r]. }
    set (s' := if lc_adaptive c then s else _).
    assert (Hus : forall xs, (if lc_adaptive c then l_used_log_tau c nn (Fin (dlmc_log_z (map (rates_of T wf (lr_of T)) xs))) s else l_log_tau s) = l_log_tau s).
    { intros xs. destruct (lc_adaptive c); [|reflexivity]. destruct Hk as [[Hk _]|[Hk _]]; [discriminate|]. unfold l_used_log_tau. rewrite Hk.
      cbv zeta. destruct (Nat.eqb_spec (l_steps s) 0); [lia|reflexivity]. }
    destruct (Nat.eqb_spec (t_C T) 2) as [He|He].
    + unfold prod_target. rewrite He in *. eapply invariant_ext; [|apply (bin_invariant T B (fun lt x => dlmc_ps solver lt wf (lr_of T) x) (rates_of T wf (lr_of T)) dlmc_log_z nn c (l_log_tau s) s'); [|exact Hco]].
      * intros xs f _. rewrite Hus. reflexivity.
      * intros lt0 x Hx. apply dlmc_ps_ok; auto.
    + eapply invariant_ext; [|apply (cat_invariant T B (fun lt x => all_some (map (dlmc_row solver lt wf (lr_of T) (t_C T) x) (seq 0 (length x))))
         (rates_of T wf (lr_of T)) dlmc_log_z nn c (l_log_tau s) s'); [lia| |exact Hco]].
      * intros xs f _. rewrite Hus. reflexivity.
      * intros lt0 x Hx. apply dlmc_rows_ok; auto.
Qed.

(** ** Whole runs without adaptation *)
Lemma fixed_keeps T k n s : fixed_rule T k -> state_at (t_dim T) (t_C T) k n s -> keeps_target T k s.
Proof.
  destruct k as [| b | b | rate | ty nf | ty rate | ty | ty approx nf rate | ty c ss | ty c nn solver | ty]; destruct s as [s|s|s|s|s|s];
    cbn [fixed_rule state_at keeps_target]; intros Hf Hs; try contradiction; auto. intros _. apply Hf.
Qed.

Definition next_state (T : target) (k : sampler) (s : sstate) : sstate :=
  match k, s with
  | SGibbs, TG s => TG (gibbs_update (t_dim T) (t_C T) s)
  | SBlock b, TG s => TG (block_update (t_dim T) (t_C T) b s)
  | SWalk _, TR s => TR (rw_select_state s)
  | SGwg _ _, TW s => TW (gwg_update s)
  | SPath _ approx _ _, TP s => TP (paf_update false (t_dim T) 0 (if approx then 4 else 2)%nat [] s)
  | SDmala _ c _, TL s => TL (l_update c NaN (Fin 0) s)
  | _, _ => s
  end.

Lemma fixed_next g dg T k n s xs o w : (0 < t_dim T)%nat -> (2 <= t_C T)%nat -> usable T k -> fixed_rule T k -> state_at (t_dim T) (t_C T) k n s ->
  (forall x, In x xs -> In x (states (t_dim T) (t_C T))) -> In (o, w) (sampler_step g dg T k (xs, s)) -> snd o = next_state T k s.
Proof.
  intros Hd HC Hu Hf Hs Hx Ho. unfold sampler_step in Ho. cbn [fst snd] in Ho.
  destruct k as [| b | b | rate | ty nf | ty rate | ty | ty approx nf rate | ty c ss | ty c nn solver | ty];
    destruct s as [s|s|s|s|s|s]; try contradiction; cbn [usable fixed_rule] in Hu, Hf.
  - apply in_dmap in Ho. destruct Ho as (ns & _ & ->). reflexivity.
  - apply in_dmap in Ho. destruct Ho as (ns & _ & ->). reflexivity.
  - subst rate. apply in_dmap in Ho. destruct Ho as (o' & Ho & ->). cbn [snd next_state]. f_equal. destruct Hs as (H1 & H2 & H3 & H4).
    destruct (comp_good (states (t_dim T) (t_C T)) g _ _ _ (fun _ _ => rw_select_state s) (fun s' => s' = rw_select_state s) xs
      (walk_comp (t_fw T) (rw_radius s) (t_dim T) (t_C T) HC Hd H3) ltac:(reflexivity) Hx) as [_ K]. apply (K o' w Ho).
  - destruct Hu as [Hty HC2]. destruct (wf_known ty Hty) as [wf Hwf]. unfold with_wf in Ho. rewrite Hwf in Ho. rewrite HC2 in *.
    apply in_dmap in Ho. destruct Ho as (o' & Ho & ->). cbn [snd next_state]. f_equal.
    destruct (comp_good (states (t_dim T) 2) g _ _ _ (fun _ _ => gwg_update s) (fun s' => s' = gwg_update s) xs
      (gwg_comp (t_fw T) wf (t_grad T) (t_mask T) (t_dim T) nf Hd) ltac:(reflexivity) Hx) as [_ K]. apply (K o' w Ho).
  - destruct Hu as (Hty & Hnf & Hsig). destruct Hf as [-> HC2]. destruct (wf_known ty Hty) as [wf Hwf]. unfold with_wf in Ho. rewrite Hwf in Ho.
    assert (K : forall lr calls, In (o, w) (lift TP (path_batch g T wf lr calls nf None s xs)) -> snd o = TP (paf_update false (t_dim T) 0 calls [] s)).
    { intros lr calls H. apply in_dmap in H. destruct H as (o' & H & ->). cbn [snd]. f_equal. unfold path_batch in H. rewrite HC2 in *. cbn [Nat.eqb] in H.
      destruct (comp_good (states (t_dim T) 2) g _ _ _ (fun _ las => paf_update false (t_dim T) 0 calls las s) (fun s' => s' = paf_update false (t_dim T) 0 calls [] s) xs
        (path_comp (t_fw T) wf lr (t_mask T) (t_dim T) nf (Hnf eq_refl)) ltac:(reflexivity) Hx) as [_ K]. apply (K o' w H). }
    destruct approx; [exact (K _ _ Ho)|]. destruct (Hsig eq_refl) as (sg & He & Hv). rewrite He, Hv in Ho. exact (K _ _ Ho).
  - destruct (wf_known ty Hu) as [wf Hwf]. unfold with_wf in Ho. rewrite Hwf in Ho. apply in_dmap in Ho. destruct Ho as (o' & Ho & ->). cbn [snd next_state]. f_equal.
    assert (Hup : forall a z, l_update c a z s = l_update c NaN (Fin 0) s) by (intros a z; unfold l_update; rewrite Hf; reflexivity).
    unfold dmala_batch in Ho. cbv zeta in Ho. rewrite Hf in Ho. destruct (Nat.eqb_spec (t_C T) 2) as [He|He].
    + rewrite He in *. unfold lang_bin, lang_batch in Ho. rewrite Hf in Ho. cbn [andb] in Ho.
      destruct (comp_good (states (t_dim T) 2) g _ _ _ (fun _ las => l_update c (Fin (mean_acc las)) (Fin (dmala_log_z (map (rates_of T wf (lr_of T)) xs))) s)
        (fun s' => s' = l_update c NaN (Fin 0) s) xs
        (bin_comp dg (t_fw T) (t_dim T) (fun lt x => dmala_ps lt wf (lr_of T) x) (dmala_fixed_log_tau ss) (dmala_fixed_log_tau ss)
           ltac:(intros lt0 x Hx'; apply dmala_ps_ok; auto)) ltac:(intros; apply Hup) Hx) as [_ K]. apply (K o' w Ho).
    + unfold lang_cat, lang_batch in Ho. rewrite Hf in Ho. cbn [andb] in Ho.
      destruct (comp_good (states (t_dim T) (t_C T)) g _ _ _ (fun _ las => l_update c (Fin (mean_acc las)) (Fin (dmala_log_z (map (rates_of T wf (lr_of T)) xs))) s)
        (fun s' => s' = l_update c NaN (Fin 0) s) xs
        (cat_comp (t_fw T) (t_dim T) (t_C T) (fun lt x => all_some (map (dmala_row lt wf (lr_of T) (t_C T) x) (seq 0 (length x))))
           (dmala_fixed_log_tau ss) (dmala_fixed_log_tau ss) ltac:(lia)
           ltac:(intros lt0 x Hx'; apply dmala_rows_ok; auto)) ltac:(intros; apply Hup) Hx) as [_ K]. apply (K o' w Ho).
Qed.

Lemma next_at T k n s : (0 < t_dim T)%nat -> (2 <= t_C T)%nat -> usable T k -> fixed_rule T k -> state_at (t_dim T) (t_C T) k n s ->
  state_at (t_dim T) (t_C T) k (Datatypes.S n) (next_state T k s).
Proof.
  intros Hd HC Hu Hf Hs. assert (H0 : forall x : list nat, In x [] -> In x (states (t_dim T) (t_C T))) by (intros x []).
  destruct (step_good 0 0 T k n s [] Hd HC Hu Hs H0) as [Hp Hg].
  destruct (sampler_step 0 0 T k ([], s)) as [|[o w] l] eqn:El; [exfalso; destruct Hp as [_ Hp]; unfold mass, E in Hp; cbn in Hp; lra|].
  rewrite <- (fixed_next 0 0 T k n s [] o w Hd HC Hu Hf Hs H0); [apply (Hg o w); left; reflexivity|rewrite El; left; reflexivity].
Qed.

Theorem run_invariant_from T k B : (0 < t_dim T)%nat -> (2 <= t_C T)%nat -> usable T k -> fixed_rule T k ->
  forall n m s, state_at (t_dim T) (t_C T) k m s -> prod_target T B (fun xs => dmap fst (sampler_run 0 0 T k n (xs, s))).
Proof.
  intros Hd HC Hu Hf. induction n as [|n IH]; intros m s Hs.
  - apply id_invariant. intros x f. unfold dmap. cbn. unfold E. cbn. ring.
  - intros f. pose proof (step_invariant T k m s B Hd HC Hu Hs (fixed_keeps T k m s Hf Hs)) as HI. specialize (HI (fun ys => E (sampler_run 0 0 T k n (ys, next_state T k s)) (fun o => f (fst o)))).
    set (X := lists_over (states (t_dim T) (t_C T)) B) in *. set (pi := batch_pi (fun x => exp (t_fw T x))) in *.
    rewrite (rsum_ext X (fun x => pi x * E (dmap fst (sampler_run 0 0 T k (Datatypes.S n) (x, s))) f)
      (fun xs => pi xs * E (dmap fst (sampler_step 0 0 T k (xs, s))) (fun ys => E (sampler_run 0 0 T k n (ys, next_state T k s)) (fun o => f (fst o))))).
    + rewrite HI. clear HI.
      pose proof (IH _ _ (next_at T k m s Hd HC Hu Hf Hs) f) as IH'. fold X pi in IH'. rewrite <- IH'. apply rsum_ext. intros xs _. rewrite E_dmap. reflexivity.
    + intros xs Hx. f_equal. rewrite !E_dmap. cbn [sampler_run]. rewrite E_bind. apply E_ext_in. intros [ys t] w Ho. cbn [fst].
      rewrite (fixed_next 0 0 T k m s xs _ w Hd HC Hu Hf Hs (in_batch _ _ _ Hx) Ho : t = _). reflexivity.
Qed.

(** ** Dispatch *)
Lemma shipped_usable co T c : (2 <= t_C T)%nat -> In c (shipped co) -> sc_name c <> "locallybalanced"%string ->
  exists k, build_sampler c (t_C T) = Some k /\ usable T k.
Proof.
  intros HC Hc Hn. assert (Hb : balancing "SQRT") by (left; reflexivity).
  destruct Hc as [<-|[<-|[<-|[<-|[<-|[<-|[<-|[<-|[<-|[]]]]]]]]]]; unfold build_sampler; cbn.
  all: try (eexists; split; [reflexivity|]; cbn; auto; lia).
  - unfold build_gwg. cbn. destruct (Nat.eqb_spec (t_C T) 2); eexists; (split; [reflexivity|]); cbn; auto.
  - eexists. split; [reflexivity|]. cbn. split; [exact Hb|]. split; discriminate.
Qed.

Lemma local_raises co C g dg T xs s : exists ty, build_sampler (local_conf co) C = Some (SLocal ty) /\ sampler_step g dg T (SLocal ty) (xs, s) = [].
Proof. exists "SQRT"%string. split; [reflexivity|]. unfold sampler_step. cbn. destruct s; reflexivity. Qed.

Lemma unknown_balancing_raises g dg T xs s ty nf r : ~ balancing ty -> sampler_step g dg T (SGwg ty nf) (xs, s) = [] /\ sampler_step g dg T (SGwgAdapt ty r) (xs, s) = []
  /\ sampler_step g dg T (SGwgCat ty) (xs, s) = [].
Proof.
  intros Hty. assert (Hw : wf_of ty = None).
  { unfold wf_of, apply_weight_function_logscale. unfold balancing in Hty. cbn in Hty.
    destruct (String.eqb_spec ty "SQRT"); [exfalso; apply Hty; subst; auto|]. destruct (String.eqb_spec ty "RATIO"); [exfalso; apply Hty; subst; auto|].
    destruct (String.eqb_spec ty "MAX"); [exfalso; apply Hty; subst; auto|]. destruct (String.eqb_spec ty "MIN"); [exfalso; apply Hty; subst; auto 6|]. reflexivity. }
  unfold sampler_step, with_wf. rewrite Hw. cbn. destruct s; auto.
Qed.

(** A small model for the examples beside the theorems (no code of the repository). *)
Definition ex_target : target :=
  {| t_fw := fun x => INR (nth 0 x 0%nat * nth 1 x 0%nat); t_grad := fun x i => INR (nth (i mod 2) x 0%nat); t_lr := fun _ _ => 0; t_sig := None;
     t_mask := None; t_dim := 3; t_C := 3 |}.
