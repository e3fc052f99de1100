(** The constants added inside the acceptance rule (1e-24) and inside the logarithms of the binary Langevin samplers (1e-32):
    how far they move complete runs. *)
From Coq Require Import String Reals List Arith ZArith Lra Lia.
From Verif.Base Require Import RSum Cube Dist XFloat MH.
From Verif.Spec Require Import Chain SamplerRun.
From Verif.Model Require Import MathUtil Gibbs HammingBall RandomWalk GWG LocallyBalanced PathAux Langevin FullRun.
From Verif.Proof Require Import MathUtilProof MHKernel ChainProof GWGProof LangevinProof PathAuxProof PathAuxCatProof AdaptiveRunProof CoOptProof FullRunProof FullRunInvar.
Import ListNotations.
Local Open Scope R_scope.

(** ** Two laws with the same support *)
Lemma E_bound_in {A} (d : dist A) f g eps : is_prob d -> (forall a w, In (a, w) d -> Rabs (f a - g a) <= eps) -> Rabs (E d f - E d g) <= eps.
Proof.
  intros [Hp Hm] H. unfold E. rewrite <- rsum_minus. eapply Rle_trans; [apply rsum_abs|].
  apply Rle_trans with (rsum d (fun p => eps * snd p)).
  - apply rsum_le. intros [a w] Hin. cbn [fst snd]. replace (w * f a - w * g a) with (w * (f a - g a)) by ring.
    assert (Hw : 0 <= w) by (apply (Hp (a, w)); exact Hin). rewrite Rabs_mult, (Rabs_pos_eq w) by exact Hw. rewrite Rmult_comm. apply Rmult_le_compat_r; [exact Hw|]. exact (H a w Hin).
  - rewrite rsum_scal. unfold mass, E in Hm. rewrite (rsum_ext d snd (fun p => snd p * 1)) by (intros; ring). rewrite Hm. lra.
Qed.

(** Every outcome of [l2] is one of [l1], and bounded functions have expectations within [eps] times their bound. *)
Definition near {A} (eps : R) (l1 l2 : dist A) : Prop :=
  (forall a w, In (a, w) l2 -> exists w', In (a, w') l1) /\
  forall f M, 0 <= M -> (forall a w, In (a, w) l1 -> Rabs (f a) <= M) -> Rabs (E l1 f - E l2 f) <= eps * M.

Lemma near_refl {A} eps (l : dist A) : 0 <= eps -> near eps l l.
Proof.
  intros He. split; [eauto|]. intros f M HM _. rewrite Rminus_diag_eq by reflexivity. rewrite Rabs_R0. apply Rmult_le_pos; auto.
Qed.

Lemma near_dmap {A B} (h : A -> B) eps l1 l2 : near eps l1 l2 -> near eps (dmap h l1) (dmap h l2).
Proof.
  intros [H1 H2]. split.
  - intros b w Hb. apply in_dmap in Hb. destruct Hb as (a & Ha & ->). destruct (H1 a w Ha) as [w' H]. exists w'. unfold dmap.
    apply in_map_iff. exists (a, w'). auto.
  - intros f M HM Hf. rewrite !E_dmap. apply H2; auto. intros a w Ha. apply (Hf (h a) w). unfold dmap. apply in_map_iff. exists (a, w). auto.
Qed.

Lemma in_bind_intro {A B} (d : dist A) (k : A -> dist B) a b w v : In (a, w) d -> In (b, v) (k a) -> exists u, In (b, u) (bind d k).
Proof.
  intros Ha Hb. exists (w * v). unfold bind. apply in_flat_map. exists (a, w). split; [exact Ha|]. cbn [fst snd].
  apply in_map_iff. exists (b, v). auto.
Qed.

(** The same first law. *)
Lemma near_bind_r {A B} eps (d : dist A) (k1 k2 : A -> dist B) : is_prob d -> (forall a w, In (a, w) d -> near eps (k1 a) (k2 a)) ->
  near eps (bind d k1) (bind d k2).
Proof.
  intros Hd Hk. split.
  - intros b w Hb. apply in_bind in Hb. destruct Hb as (a & v & v' & Ha & Hb). destruct (proj1 (Hk a v Ha) b v' Hb) as [u Hu].
    exact (in_bind_intro d k1 a b v u Ha Hu).
  - intros f M HM Hf. rewrite !E_bind. apply E_bound_in; auto. intros a w Ha. apply (proj2 (Hk a w Ha)); auto.
    intros b u Hb. destruct (in_bind_intro d k1 a b w u Ha Hb) as [u' Hu']. exact (Hf b u' Hu').
Qed.

Lemma near_bind {A B} e1 e2 (d1 d2 : dist A) (k1 k2 : A -> dist B) : near e1 d1 d2 -> is_prob d2 ->
  (forall a w, In (a, w) d1 -> is_prob (k1 a)) -> (forall a w, In (a, w) d2 -> near e2 (k1 a) (k2 a)) -> near (e1 + e2) (bind d1 k1) (bind d2 k2).
Proof.
  intros [H1 H2] Hp Hk1 Hk. destruct (near_bind_r e2 d2 k1 k2 Hp Hk) as [H3 H4].
  assert (K : forall b w, In (b, w) (bind d2 k1) -> exists u, In (b, u) (bind d1 k1)).
  { intros b w Hb. apply in_bind in Hb. destruct Hb as (a & v & v' & Ha & Hb). destruct (H1 a v Ha) as [u Hu].
    exact (in_bind_intro d1 k1 a b u v' Hu Hb). }
  split.
  - intros b w Hb. destruct (H3 b w Hb) as [u Hu]. exact (K b u Hu).
  - intros f M HM Hf. replace (E (bind d1 k1) f - E (bind d2 k2) f) with ((E (bind d1 k1) f - E (bind d2 k1) f) + (E (bind d2 k1) f - E (bind d2 k2) f)) by ring.
    eapply Rle_trans; [apply Rabs_triang|]. rewrite Rmult_plus_distr_r. apply Rplus_le_compat.
    + rewrite !E_bind. apply H2; auto. intros a w Ha. replace (E (k1 a) f) with (E (k1 a) f - E (k1 a) (fun _ => 0)).
      * apply E_bound_in; [exact (Hk1 a w Ha)|]. intros b u Hb. rewrite Rminus_0_r. destruct (in_bind_intro d1 k1 a b w u Ha Hb) as [u' Hu']. exact (Hf b u' Hu').
      * rewrite E_const. ring.
    + apply H4; auto. intros b w Hb. destruct (K b w Hb) as [u Hu]. exact (Hf b u Hu).
Qed.

Lemma near_le {A} e e' (l1 l2 : dist A) : e <= e' -> near e l1 l2 -> near e' l1 l2.
Proof. intros He [H1 H2]. split; [exact H1|]. intros f M HM Hf. eapply Rle_trans; [apply H2; eauto|]. apply Rmult_le_compat_r; auto. Qed.

Lemma near_indep {A} eps (L1 L2 : list (dist A)) : 0 <= eps -> Forall2 (near eps) L1 L2 -> Forall is_prob L1 -> Forall is_prob L2 ->
  near (INR (length L1) * eps) (indep L1) (indep L2).
Proof.
  intros He H. induction H as [|d1 d2 L1 L2 Hd HL IH]; intros P1 P2; [apply near_refl; cbn; lra|].
  inversion P1; subst. inversion P2; subst. cbn [indep length]. rewrite S_INR. 
  apply (near_le (eps + INR (length L1) * eps)); [lra|]. apply near_bind; auto.
  - intros a w _. apply is_prob_dmap, is_prob_indep. rewrite <- Forall_forall. auto.
  - intros a w _. apply near_dmap. auto.
Qed.

Lemma near_mh {A} g la (cur new : A) : 0 <= g -> near (2 * g) (mh_law g la cur new) (mh_law 0 la cur new).
Proof.
  intros Hg. split.
  - intros a w Ha. unfold mh_law, bind, bernoulli, ret in *. cbn in *. destruct Ha as [H|[H|[]]]; inversion H; subst; eauto.
  - intros f M HM Hf. rewrite !E_mh_law.
    replace (_ - _) with ((accept_prob g la - accept_prob 0 la) * (f new - f cur)) by ring.
    rewrite Rabs_mult. replace (2 * g * M) with (g * (2 * M)) by ring. apply Rmult_le_compat; try apply Rabs_pos; [apply accept_prob_lip; auto|].
    assert (H1 : Rabs (f new) <= M) by (eapply Hf; unfold mh_law, bind, bernoulli, ret; cbn; left; reflexivity).
    assert (H2 : Rabs (f cur) <= M) by (eapply Hf; unfold mh_law, bind, bernoulli, ret; cbn; right; left; reflexivity).
    unfold Rminus. eapply Rle_trans; [apply Rabs_triang|]. rewrite Rabs_Ropp. lra.
Qed.

Lemma near_mh_batch {P S} g (prop : list nat -> dist P) app la (new : list (P * list nat) -> list R -> S) xs : 0 <= g ->
  (forall x, In x xs -> is_prob (prop x)) -> near (INR (length xs) * (2 * g)) (mh_batch g prop app la new xs) (mh_batch 0 prop app la new xs).
Proof.
  intros Hg Hp. assert (Hp' : is_prob (indep (map prop xs))).
  { apply is_prob_indep. intros dd Hd. apply in_map_iff in Hd. destruct Hd as (x & <- & Hx). auto. }
  assert (He : 0 <= INR (length xs) * (2 * g)) by (apply Rmult_le_pos; [apply pos_INR|lra]).
  unfold mh_batch. apply near_bind_r; auto. intros ps w Hps. cbv zeta.
  destruct (draws_pairs prop xs ps w Hps) as [Hl _].
  destruct (all_some _) as [las|] eqn:Ea; [|apply near_refl; exact He]. apply near_dmap.
  set (L := combine las (combine ps xs)). apply (near_le (INR (length (map (fun t : R * (P * list nat) => mh_law g (fst t) (snd (snd t)) (app (snd (snd t)) (fst (snd t)))) L)) * (2 * g))).
  - apply Rmult_le_compat_r; [lra|]. apply le_INR. rewrite map_length. unfold L. rewrite !combine_length. lia.
  - apply near_indep; [lra| | |].
    + induction L; cbn [map]; constructor; [apply near_mh; auto|auto].
    + apply Forall_forall. intros d Hd. apply in_map_iff in Hd. destruct Hd as (t & <- & _). apply is_prob_mh_law.
    + apply Forall_forall. intros d Hd. apply in_map_iff in Hd. destruct Hd as (t & <- & _). apply is_prob_mh_law.
Qed.

Lemma near_lang {P} Sp g (prop : R -> list nat -> dist P) app la rates lz nn c used s xs : 0 <= g -> (forall lt x, In x Sp -> is_prob (prop lt x)) ->
  (forall x, In x xs -> In x Sp) ->
  near (INR (length xs) * (2 * g)) (lang_batch g prop app la rates lz nn c used s xs) (lang_batch 0 prop app la rates lz nn c used s xs).
Proof.
  intros Hg Hp Hx. assert (He : 0 <= INR (length xs) * (2 * g)) by (apply Rmult_le_pos; [apply pos_INR|lra]).
  unfold lang_batch. cbv zeta. destruct used; try (apply near_refl; exact He). apply near_mh_batch; auto.
Qed.

Lemma near_path g T wf lr calls nf rate s xs : 0 <= g -> (2 <= t_C T)%nat -> (0 < t_dim T)%nat -> (rate = None -> (1 <= nf <= t_dim T)%nat) ->
  (forall x, In x xs -> In x (states (t_dim T) (t_C T))) ->
  near (INR (length xs) * (2 * g)) (path_batch g T wf lr calls nf rate s xs) (path_batch 0 T wf lr calls nf rate s xs).
Proof.
  intros Hg HC Hd Hnf Hx. unfold path_batch. cbv zeta. destruct rate as [t|]; destruct (Nat.eqb_spec (t_C T) 2) as [He|He]; [rewrite He in *| |rewrite He in *|];
    apply near_mh_batch; auto.
  - intros x Hin. apply (proj1 (path_adapt_comp (t_fw T) wf lr (t_mask T) (t_dim T) (paf_radius s) ltac:(lia))). auto.
  - intros x Hin. apply (proj1 (pathc_adapt_comp (t_fw T) wf lr (t_mask T) (t_dim T) (t_C T) (paf_radius s) ltac:(lia) ltac:(lia))). auto.
  - intros x Hin. apply (proj1 (path_comp (t_fw T) wf lr (t_mask T) (t_dim T) nf (Hnf eq_refl))). auto.
  - intros x Hin. apply (proj1 (pathc_comp (t_fw T) wf lr (t_mask T) (t_dim T) (t_C T) nf ltac:(lia) (Hnf eq_refl))). auto.
Qed.

(** ** One call of any sampler object *)
Theorem near_step g dg T k n s xs : 0 <= g -> (0 < t_dim T)%nat -> (2 <= t_C T)%nat -> usable T k -> state_at (t_dim T) (t_C T) k n s ->
  (forall x, In x xs -> In x (states (t_dim T) (t_C T))) ->
  near (INR (length xs) * (2 * g)) (sampler_step g dg T k (xs, s)) (sampler_step 0 dg T k (xs, s)).
Proof.
  intros Hg Hd HC Hu Hs Hx. assert (He : 0 <= INR (length xs) * (2 * g)) by (apply Rmult_le_pos; [apply pos_INR|lra]).
  unfold sampler_step. cbn [fst snd].
  destruct k as [| b | b | rate | ty nf | ty rate | ty | ty approx nf rate | ty c ss | ty c nn solver | ty];
    destruct s as [s|s|s|s|s|s]; try contradiction; cbn [usable] in Hu; try (apply near_refl; exact He).
  - apply near_dmap. unfold walk_batch. apply near_mh_batch; auto. intros x Hin.
    destruct Hs as (_ & _ & Hr & _). apply (proj1 (walk_comp (t_fw T) (rw_radius s) (t_dim T) (t_C T) HC Hd Hr) x). auto.
  - destruct Hu as [Hty HC2]. destruct (wf_known ty Hty) as [wf Hwf]. unfold with_wf. rewrite Hwf. rewrite HC2 in *. apply near_dmap. unfold gwg_batch.
    apply near_mh_batch; auto. intros x Hin. apply (proj1 (gwg_comp (t_fw T) wf (t_grad T) (t_mask T) (t_dim T) nf Hd)). auto.
  - destruct Hu as [Hty HC2]. destruct (wf_known ty Hty) as [wf Hwf]. unfold with_wf. rewrite Hwf. rewrite HC2 in *. apply near_dmap. unfold agwg_batch.
    apply near_mh_batch; auto. intros x Hin. apply (proj1 (agwg_comp (t_fw T) wf (t_grad T) (t_mask T) (t_dim T) (gwg_radius s) Hd)). auto.
  - destruct (wf_known ty Hu) as [wf Hwf]. unfold with_wf. rewrite Hwf. apply near_dmap. unfold cgwg_batch. apply near_mh_batch; auto. intros x Hin.
    apply (cgwg_prop_ok wf (t_grad T) (t_dim T) (t_C T)); auto; lia.
  - destruct Hu as (Hty & Hnf & Hsig). destruct (wf_known ty Hty) as [wf Hwf]. unfold with_wf. rewrite Hwf. destruct approx.
    + apply near_dmap, near_path; auto.
    + destruct (Hsig eq_refl) as (sg & -> & ->). cbn [Nat.eqb]. apply near_dmap, near_path; auto.
  - destruct (wf_known ty Hu) as [wf Hwf]. unfold with_wf. rewrite Hwf. apply near_dmap. unfold dmala_batch. cbv zeta.
    destruct (Nat.eqb_spec (t_C T) 2) as [E2|E2].
    + rewrite E2 in *. apply (near_lang (states (t_dim T) 2)); auto. intros lt x Hin.
      apply (proj1 (bin_comp dg (t_fw T) (t_dim T) (fun lt x => dmala_ps lt wf (lr_of T) x) lt lt ltac:(intros l0 x0 Hx0; apply dmala_ps_ok; auto)) x Hin).
    + apply (near_lang (states (t_dim T) (t_C T))); auto. intros lt x Hin.
      apply (proj1 (cat_comp (t_fw T) (t_dim T) (t_C T) (fun lt x => all_some (map (dmala_row lt wf (lr_of T) (t_C T) x) (seq 0 (length x)))) lt lt ltac:(lia)
        ltac:(intros l0 x0 Hx0; apply dmala_rows_ok; auto)) x Hin).
  - destruct Hu as [Hty Hsol]. destruct (wf_known ty Hty) as [wf Hwf]. unfold with_wf. rewrite Hwf. apply near_dmap. unfold dlmc_batch. cbv zeta.
    destruct (Nat.eqb_spec (t_C T) 2) as [E2|E2].
    + rewrite E2 in *. apply (near_lang (states (t_dim T) 2)); auto. intros lt x Hin.
      apply (proj1 (bin_comp dg (t_fw T) (t_dim T) (fun lt x => dlmc_ps solver lt wf (lr_of T) x) lt lt ltac:(intros l0 x0 Hx0; apply dlmc_ps_ok; auto)) x Hin).
    + apply (near_lang (states (t_dim T) (t_C T))); auto. intros lt x Hin.
      apply (proj1 (cat_comp (t_fw T) (t_dim T) (t_C T) (fun lt x => all_some (map (dlmc_row solver lt wf (lr_of T) (t_C T) x) (seq 0 (length x)))) lt lt ltac:(lia)
        ltac:(intros l0 x0 Hx0; apply dlmc_rows_ok; auto)) x Hin).
Qed.

Lemma near_run_from g dg T k B : 0 <= g -> (0 < t_dim T)%nat -> (2 <= t_C T)%nat -> usable T k -> forall n m xs s,
  state_at (t_dim T) (t_C T) k m s -> legal (t_dim T) (t_C T) B xs ->
  near (INR n * (INR B * (2 * g))) (sampler_run g dg T k n (xs, s)) (sampler_run 0 dg T k n (xs, s)).
Proof.
  intros Hg Hd HC Hu. induction n as [|n IH]; intros m xs s Hs Hx; [apply near_refl; cbn; lra|].
  cbn [sampler_run]. rewrite S_INR. apply (near_le (INR B * (2 * g) + INR n * (INR B * (2 * g)))); [lra|].
  destruct (step_legal g dg T k m s B xs Hd HC Hu Hs Hx) as [Hp Hl]. destruct (step_legal 0 dg T k m s B xs Hd HC Hu Hs Hx) as [Hp0 Hl0].
  pose proof (proj1 (legal_in _ _ _ _) Hx) as [Hlen Hin]. apply near_bind.
  - rewrite <- Hlen. apply (near_step g dg T k m s xs); auto.
  - exact Hp0.
  - intros [ys t] w Ho. destruct (Hl _ _ Ho) as [H1 H2]. cbn [fst snd] in H1, H2. exact (proj1 (run_from g dg T k B Hd HC Hu n (Datatypes.S m) ys t H2 H1)).
  - intros [ys t] w Ho. destruct (Hl0 _ _ Ho) as [H1 H2]. exact (IH (Datatypes.S m) ys t H2 H1).
Qed.

(** ** Invariance up to a bound *)
Lemma batch_pi_nonneg {A} (pi : A -> R) xs : (forall x, In x xs -> 0 <= pi x) -> 0 <= batch_pi pi xs.
Proof.
  unfold batch_pi. induction xs as [|x xs IH]; intros H; cbn; [lra|]. apply Rmult_le_pos; [apply H; left; auto|apply IH; intros; apply H; right; auto].
Qed.

Lemma invariant_upto_of {A} eps (S : list A) pi k : 0 <= eps -> (forall x, In x S -> 0 <= pi x) -> invariant S pi k -> invariant_upto eps S pi k.
Proof.
  intros He Hp H f Hf. rewrite (H f). rewrite Rminus_diag_eq by reflexivity. rewrite Rabs_R0. apply Rmult_le_pos; [exact He|]. apply rsum_nonneg. auto.
Qed.

Lemma batch_upto {A} (S : list A) (pi : A -> R) (step : A -> dist A) eps B : 0 <= eps ->
  (forall x, In x S -> 0 <= pi x) -> (forall x, In x S -> is_prob (step x)) ->
  invariant_upto eps S pi step -> invariant_upto (INR B * eps) (lists_over S B) (batch_pi pi) (batch_step step).
Proof.
  intros He Hpi Hst Hinv. induction B as [|B IH]; intros f Hf.
  - simpl. unfold batch_step. simpl. rewrite E_ret. match goal with |- Rabs ?a <= _ => replace a with 0 by ring end. rewrite Rabs_R0. lra.
  - rewrite !rsum_lists_over_cons. rewrite S_INR.
    set (L := lists_over S B) in *. set (P := batch_pi pi) in *.
    assert (HP : forall l, In l L -> 0 <= P l) by (intros l Hl; apply batch_pi_nonneg; intros x Hx; apply Hpi; exact (in_batch _ _ _ Hl x Hx)).
    assert (Hcons : forall x l, batch_pi pi (x :: l) = pi x * P l) by reflexivity.
    assert (Htot : rsum S (fun a => rsum L (fun l => P (a :: l))) = rsum S pi * rsum L P).
    { rewrite (Rmult_comm (rsum S pi)), <- rsum_scal. apply rsum_ext. intros x _. rewrite (Rmult_comm (rsum L P)), <- rsum_scal. apply rsum_ext. intros l _. apply Hcons. }
    match goal with |- Rabs _ <= _ * ?z => replace z with (rsum S pi * rsum L P) by (symmetry; exact Htot) end.
    set (mid := rsum S (fun x => pi x * rsum L (fun l => P l * E (step x) (fun y => f (y :: l))))).
    match goal with |- Rabs (?a - ?b) <= _ => replace (a - b) with ((a - mid) + (mid - b)) by ring end.
    eapply Rle_trans; [apply Rabs_triang|]. rewrite Rmult_plus_distr_r, Rmult_1_l, Rmult_plus_distr_r. apply Rplus_le_compat.
    + unfold mid. rewrite <- rsum_minus. eapply Rle_trans; [apply rsum_abs|].
      replace (INR B * eps * (rsum S pi * rsum L P)) with (rsum S (fun x => (INR B * eps * rsum L P) * pi x)) by (rewrite rsum_scal; ring).
      apply rsum_le. intros x Hx.
      match goal with |- Rabs (?a - ?b) <= _ => replace a with (pi x * rsum L (fun l => P l * E (batch_step step l) (fun l' => E (step x) (fun y => f (y :: l'))))) end.
      * rewrite <- Rmult_minus_distr_l, Rabs_mult, (Rabs_pos_eq (pi x)) by auto. rewrite Rmult_comm. apply Rmult_le_compat_r; [auto|].
        apply (IH (fun l' => E (step x) (fun y => f (y :: l')))). intros l'. destruct (Hst x Hx) as [H1 H2].
        eapply Rle_trans; [apply (E_abs_le (step x) _ 1); auto|]. rewrite H2. lra.
      * rewrite <- rsum_scal. apply rsum_ext. intros l _. rewrite Hcons. unfold batch_step. simpl. rewrite E_bind. rewrite Rmult_assoc. f_equal. f_equal.
        transitivity (E (step x) (fun a => E (indep (map step l)) (fun l' => f (a :: l')))).
        2: { apply E_ext. intros a. rewrite E_dmap. reflexivity. }
        unfold E. rewrite (rsum_ext (step x) _ (fun p => rsum (indep (map step l)) (fun q => snd p * (snd q * f (fst p :: fst q)))))
          by (intros p _; rewrite <- rsum_scal; reflexivity).
        rewrite rsum_swap. apply rsum_ext. intros q _. rewrite <- rsum_scal. apply rsum_ext. intros p _. ring.
    + replace mid with (rsum L (fun l => P l * rsum S (fun x => pi x * E (step x) (fun y => f (y :: l))))).
      2: { unfold mid. rewrite (rsum_ext S _ (fun x => rsum L (fun l => P l * (pi x * E (step x) (fun y => f (y :: l))))))
             by (intros x _; rewrite <- rsum_scal; apply rsum_ext; intros; ring).
           rewrite rsum_swap. apply rsum_ext. intros l _. rewrite rsum_scal. reflexivity. }
      match goal with |- Rabs (?a - ?b) <= _ => replace b with (rsum L (fun l => P l * rsum S (fun x => pi x * f (x :: l)))) end.
      2: { rewrite (rsum_ext S _ (fun x => rsum L (fun l => P l * (pi x * f (x :: l)))))
             by (intros x _; apply rsum_ext; intros l _; rewrite Hcons; ring).
           rewrite rsum_swap. apply rsum_ext. intros l _. rewrite rsum_scal. reflexivity. }
      rewrite <- rsum_minus. eapply Rle_trans; [apply rsum_abs|].
      replace (eps * (rsum S pi * rsum L P)) with (rsum L (fun l => (eps * rsum S pi) * P l)) by (rewrite rsum_scal; ring).
      apply rsum_le. intros l Hl. rewrite <- Rmult_minus_distr_l, Rabs_mult, (Rabs_pos_eq (P l)) by auto. rewrite Rmult_comm.
      apply Rmult_le_compat_r; [auto|]. apply (Hinv (fun y => f (y :: l))). auto.
Qed.

Lemma bin_K' g dg fw (pfun : R -> list nat -> option (list R)) lt x f :
  E (bind (match pfun lt x with Some p => indep (map bernoulli p) | None => [] end)
     (fun fl => omh_law g (match pfun lt x, pfun lt (flip_bits fl x) with
                | Some p, Some q => Some (bern_log_acc dg fw p q x fl) | _, _ => None end) x (flip_bits fl x))) f
  = E (bern_step g dg fw (pfun lt) x) f.
Proof.
  unfold bern_step. destruct (pfun lt x) as [p|]; [|reflexivity]. rewrite !E_bind. apply E_ext. intros fl.
  destruct (pfun lt (flip_bits fl x)); reflexivity.
Qed.

Lemma pow_ge_1 x n : 0 <= x -> 1 <= (1 + x) ^ n.
Proof. intros H. apply pow_R1_Rle. lra. Qed.

Lemma bin_upto dg T B pfun rates lz nn c used s : 0 <= dg -> flips_fun (t_dim T) pfun -> andb (lc_adaptive c) (lc_co_opt c) = false ->
  invariant_upto (INR B * (2 * ((1 + 2 * dg) ^ t_dim T - 1))) (lists_over (states (t_dim T) 2) B) (batch_pi (fun x => exp (t_fw T x)))
    (fun xs => dmap fst (lift TL (lang_bin 0 dg T pfun rates lz nn c used s xs))).
Proof.
  intros Hdg Hf Hco. assert (He : 0 <= 2 * ((1 + 2 * dg) ^ t_dim T - 1)).
  { pose proof (pow_ge_1 (2 * dg) (t_dim T)). lra. }
  assert (Hid : forall (k : list (list nat) -> dist (list (list nat))), (forall x f, E (k x) f = f x) ->
    invariant_upto (INR B * (2 * ((1 + 2 * dg) ^ t_dim T - 1))) (lists_over (states (t_dim T) 2) B) (batch_pi (fun x => exp (t_fw T x))) k).
  { intros k H. apply invariant_upto_of; [apply Rmult_le_pos; [apply pos_INR|exact He]| |apply id_invariant; auto].
    intros xs _. apply batch_pi_nonneg. intros x _. apply Rlt_le, exp_pos. }
  unfold lang_bin. destruct used as [lt| | |].
  - eapply invariant_upto_ext; [|apply (batch_upto (states (t_dim T) 2) (fun x => exp (t_fw T x)) (bern_step 0 dg (t_fw T) (pfun lt)) _ B He)].
    + intros xs f Hx. pose proof (in_batch _ _ _ Hx) as Hin. unfold lang_batch, lift. rewrite Hco, !E_dmap. cbn [fst].
      destruct (bin_comp dg (t_fw T) (t_dim T) pfun lt lt Hf) as (H1 & H2 & H3).
      etransitivity; [apply (mh_batch_marginal (states (t_dim T) 2)); auto|].
      unfold batch_step. assert (Hm : forall l, (forall x, In x l -> In x (states (t_dim T) 2)) -> forall f0,
        E (indep (map (fun x => bind (match pfun lt x with Some p => indep (map bernoulli p) | None => [] end)
           (fun p => omh_law 0 (match pfun lt x, pfun lt (flip_bits p x) with
                | Some p0, Some q => Some (bern_log_acc dg (t_fw T) p0 q x p) | _, _ => None end) x (flip_bits p x))) l)) f0
        = E (indep (map (bern_step 0 dg (t_fw T) (pfun lt)) l)) f0).
      { induction l as [|x l IHl]; intros Hl f0; [reflexivity|]. cbn [map indep].
        rewrite (E_bind (bern_step 0 dg (t_fw T) (pfun lt) x)). rewrite <- (bin_K' 0 dg (t_fw T) pfun lt x). rewrite (E_bind (bind _ _)).
        apply E_ext. intros a. rewrite !E_dmap. apply IHl. intros; apply Hl; right; auto. }
      apply Hm. exact Hin.
    + intros x _. apply Rlt_le, exp_pos.
    + intros x Hx. apply (bern_is_prob (t_fw T) (pfun lt) (t_dim T)); [intros y Hy; apply (Hf lt y Hy)|exact Hx].
    + pose proof (bern_invariant_upto (t_fw T) (pfun lt) (t_dim T) dg (fun y Hy => Hf lt y Hy) Hdg 0 (Rle_refl 0)) as H.
      rewrite Rmult_0_r, Rplus_0_r in H. exact H.
  - apply Hid. intros x f. unfold lang_batch, lift, dmap. cbn. unfold E. cbn. ring.
  - apply Hid. intros x f. unfold lang_batch, lift, dmap. cbn. unfold E. cbn. ring.
  - apply Hid. intros x f. unfold lang_batch, lift, dmap. cbn. unfold E. cbn. ring.
Qed.

Lemma log_error_nonneg T k dg : 0 <= dg -> 0 <= log_error T k dg.
Proof.
  intros H. pose proof (pow_ge_1 (2 * dg) (t_dim T)). unfold log_error. destruct k; try lra; destruct (Nat.eqb (t_C T) 2); lra.
Qed.

Definition near_target (eps : R) (T : target) (B : nat) (k : list (list nat) -> dist (list (list nat))) : Prop :=
  invariant_upto eps (lists_over (states (t_dim T) (t_C T)) B) (batch_pi (fun x => exp (t_fw T x))) k.

Lemma prod_nonneg T B xs : In xs (lists_over (states (t_dim T) (t_C T)) B) -> 0 <= batch_pi (fun x => exp (t_fw T x)) xs.
Proof. intros _. apply batch_pi_nonneg. intros x _. apply Rlt_le, exp_pos. Qed.

Theorem step_upto0 dg T k n s B : 0 <= dg -> (0 < t_dim T)%nat -> (2 <= t_C T)%nat -> usable T k -> state_at (t_dim T) (t_C T) k n s -> keeps_target T k s ->
  near_target (INR B * log_error T k dg) T B (fun xs => dmap fst (sampler_step 0 dg T k (xs, s))).
Proof.
  intros Hdg Hd HC Hu Hs Hk.
  assert (Hex : (forall xs, sampler_step 0 dg T k (xs, s) = sampler_step 0 0 T k (xs, s)) ->
    near_target (INR B * log_error T k dg) T B (fun xs => dmap fst (sampler_step 0 dg T k (xs, s)))).
  { intros Heq. apply invariant_upto_of; [apply Rmult_le_pos; [apply pos_INR|apply log_error_nonneg; exact Hdg]|apply prod_nonneg|].
    pose proof (step_invariant T k n s B Hd HC Hu Hs Hk) as H. intros f. rewrite <- (H f). apply rsum_ext. intros xs _. rewrite Heq. reflexivity. }
  destruct k as [| b | b | rate | ty nf | ty rate | ty | ty approx nf rate | ty c ss | ty c nn solver | ty];
    try (apply Hex; intros xs; destruct s; reflexivity);
    destruct s as [s|s|s|s|s|s]; try contradiction; cbn [usable keeps_target] in Hu, Hk.
  - destruct (Nat.eqb_spec (t_C T) 2) as [E2|E2].
    2: { apply Hex. intros xs. unfold sampler_step, with_wf, dmala_batch. cbn [fst snd]. cbv zeta. apply Nat.eqb_neq in E2. rewrite E2. reflexivity. }
    clear Hex. destruct (wf_known ty Hu) as [wf Hwf]. unfold near_target, sampler_step, with_wf, log_error. rewrite Hwf. cbn [fst snd]. unfold dmala_batch. cbv zeta.
    set (u := if lc_adaptive c then l_log_tau s else Fin (dmala_fixed_log_tau ss)).
    assert (Hco : andb (lc_adaptive c) (lc_co_opt c) = false).
    { destruct Hk as [Hk|[Hk _]]; rewrite Hk; [reflexivity|apply Bool.andb_false_r]. }
    assert (Hus : forall xs, (if lc_adaptive c then l_used_log_tau c 3 (Fin (dmala_log_z (map (rates_of T wf (lr_of T)) xs))) s else Fin (dmala_fixed_log_tau ss)) = u).
    { intros xs. unfold u. destruct (lc_adaptive c); [|reflexivity]. destruct Hk as [Hk|[Hk Hn]]; [discriminate|]. unfold l_used_log_tau. rewrite Hk.
      cbv zeta. destruct (Nat.eqb_spec (l_steps s) 0); [lia|reflexivity]. }
    rewrite E2 in *. cbn [Nat.eqb].
    eapply invariant_upto_ext; [|apply (bin_upto dg T B (fun lt x => dmala_ps lt wf (lr_of T) x) (rates_of T wf (lr_of T)) dmala_log_z 3 c u s Hdg); [|exact Hco]].
    + intros xs f _. rewrite Hus. reflexivity.
    + intros lt0 x Hx. apply dmala_ps_ok; auto.
  - destruct (Nat.eqb_spec (t_C T) 2) as [E2|E2].
    2: { apply Hex. intros xs. unfold sampler_step, with_wf, dlmc_batch. cbn [fst snd]. cbv zeta. apply Nat.eqb_neq in E2. rewrite E2. reflexivity. }
    clear Hex. destruct Hu as [Hty Hsol]. destruct (wf_known ty Hty) as [wf Hwf]. unfold near_target, sampler_step, with_wf, log_error. rewrite Hwf. cbn [fst snd].
    unfold dlmc_batch. cbv zeta.
    assert (Hn : (0 < l_steps s)%nat) by (destruct Hk as [[_ Hk]|[_ Hk]]; exact Hk).
    destruct (Nat.eqb_spec (l_steps s) 0) as [Hz|_]; [lia|].
    assert (Hco : andb (lc_adaptive c) (lc_co_opt c) = false).
    { destruct Hk as [[Hk _]|[Hk _]]; rewrite Hk; [reflexivity|apply Bool.andb_false_r]. }
    set (s' := if lc_adaptive c then s else _).
    assert (Hus : forall xs, (if lc_adaptive c then l_used_log_tau c nn (Fin (dlmc_log_z (map (rates_of T wf (lr_of T)) xs))) s else l_log_tau s) = l_log_tau s).
    { intros xs. destruct (lc_adaptive c); [|reflexivity]. destruct Hk as [[Hk _]|[Hk _]]; [discriminate|]. unfold l_used_log_tau. rewrite Hk.
      cbv zeta. destruct (Nat.eqb_spec (l_steps s) 0); [lia|reflexivity]. }
    rewrite E2 in *. cbn [Nat.eqb].
    eapply invariant_upto_ext; [|apply (bin_upto dg T B (fun lt x => dlmc_ps solver lt wf (lr_of T) x) (rates_of T wf (lr_of T)) dlmc_log_z nn c (l_log_tau s) s' Hdg); [|exact Hco]].
    + intros xs f _. rewrite Hus. reflexivity.
    + intros lt0 x Hx. apply dlmc_ps_ok; auto.
Qed.

Lemma upto_near {A} (S : list A) pi (k k0 : A -> dist A) e1 e2 : (forall x, In x S -> 0 <= pi x) -> invariant_upto e1 S pi k0 ->
  (forall x f, In x S -> (forall y, Rabs (f y) <= 1) -> Rabs (E (k x) f - E (k0 x) f) <= e2) -> invariant_upto (e1 + e2) S pi k.
Proof.
  intros Hpi H0 Hk f Hf. specialize (H0 f Hf).
  replace (rsum S (fun x => pi x * E (k x) f) - rsum S (fun x => pi x * f x)) with
    ((rsum S (fun x => pi x * E (k0 x) f) - rsum S (fun x => pi x * f x)) + (rsum S (fun x => pi x * E (k x) f) - rsum S (fun x => pi x * E (k0 x) f))) by ring.
  eapply Rle_trans; [apply Rabs_triang|]. rewrite Rmult_plus_distr_r. apply Rplus_le_compat; [exact H0|].
  rewrite <- rsum_minus, <- rsum_scal. eapply Rle_trans; [apply rsum_abs|]. apply rsum_le. intros x Hx.
  rewrite <- Rmult_minus_distr_l, Rabs_mult, (Rabs_pos_eq (pi x)) by auto. rewrite Rmult_comm. apply Rmult_le_compat_r; auto.
Qed.

Lemma lists_legal d C B xs : In xs (lists_over (states d C) B) -> legal d C B xs.
Proof. intros H. apply legal_in. split; [apply in_lists_over in H; apply H|exact (in_batch _ _ _ H)]. Qed.

Theorem step_upto g dg T k n s B : 0 <= g -> 0 <= dg -> (0 < t_dim T)%nat -> (2 <= t_C T)%nat -> usable T k -> state_at (t_dim T) (t_C T) k n s -> keeps_target T k s ->
  near_target (INR B * (log_error T k dg + 2 * g)) T B (fun xs => dmap fst (sampler_step g dg T k (xs, s))).
Proof.
  intros Hg Hdg Hd HC Hu Hs Hk. rewrite Rmult_plus_distr_l. apply (upto_near _ _ _ (fun xs => dmap fst (sampler_step 0 dg T k (xs, s)))).
  - apply prod_nonneg.
  - apply (step_upto0 dg T k n s B); auto.
  - intros xs f Hx Hf. pose proof (lists_legal _ _ _ _ Hx) as Hl. apply legal_in in Hl. destruct Hl as [Hl Hin]. rewrite !E_dmap.
    rewrite <- (Rmult_1_r (INR B * (2 * g))), <- Hl. apply (proj2 (near_step g dg T k n s xs Hg Hd HC Hu Hs Hin)); [lra|]. auto.
Qed.

Definition clip1 (x : R) : R := Rmax (-1) (Rmin 1 x).
Lemma clip1_bound x : Rabs (clip1 x) <= 1.
Proof. unfold clip1. apply Rabs_le. split; [apply Rmax_l|]. apply Rmax_lub; [lra|apply Rmin_l]. Qed.
Lemma clip1_id x : Rabs x <= 1 -> clip1 x = x.
Proof.
  intros H. apply Rabs_def2_le in H. unfold clip1. rewrite Rmin_right by lra. rewrite Rmax_right by lra. reflexivity.
Qed.

Lemma prob_bound {A} (d : dist A) f : is_prob d -> (forall a, Rabs (f a) <= 1) -> Rabs (E d f) <= 1.
Proof. intros [H1 H2] Hf. eapply Rle_trans; [apply (E_abs_le d f 1); auto|]. rewrite H2. lra. Qed.

Theorem run_upto_from g dg T k B : 0 <= g -> 0 <= dg -> (0 < t_dim T)%nat -> (2 <= t_C T)%nat -> usable T k -> fixed_rule T k ->
  forall n m s, state_at (t_dim T) (t_C T) k m s ->
  near_target (INR n * (INR B * (log_error T k dg + 2 * g))) T B (fun xs => dmap fst (sampler_run g dg T k n (xs, s))).
Proof.
  intros Hg Hdg Hd HC Hu Hf. set (eps := INR B * (log_error T k dg + 2 * g)). induction n as [|n IH]; intros m s Hs f Hf1.
  - rewrite (rsum_ext _ (fun x => batch_pi (fun x0 => exp (t_fw T x0)) x * E (dmap fst (sampler_run g dg T k 0 (x, s))) f)
       (fun x => batch_pi (fun x0 => exp (t_fw T x0)) x * f x)) by (intros x _; unfold dmap; cbn; unfold E; cbn; ring).
    rewrite Rminus_diag_eq by reflexivity. rewrite Rabs_R0. cbn. lra.
  - pose proof (step_upto g dg T k m s B Hg Hdg Hd HC Hu Hs (fixed_keeps T k m s Hf Hs)) as HI. fold eps in HI. pose proof (next_at T k m s Hd HC Hu Hf Hs) as Hn.
    set (G := fun ys => E (sampler_run g dg T k n (ys, next_state T k s)) (fun o => f (fst o))).
    specialize (HI (fun ys => clip1 (G ys)) (fun ys => clip1_bound _)). unfold near_target in *.
    set (X := lists_over (states (t_dim T) (t_C T)) B) in *. set (pi := batch_pi (fun x => exp (t_fw T x))) in *.
    assert (HG : forall ys, legal (t_dim T) (t_C T) B ys -> clip1 (G ys) = G ys).
    { intros ys Hy. apply clip1_id. unfold G. apply prob_bound; [|auto]. exact (proj1 (run_from g dg T k B Hd HC Hu n _ ys _ Hn Hy)). }
    rewrite (rsum_ext X (fun x => pi x * E (dmap fst (sampler_run g dg T k (Datatypes.S n) (x, s))) f)
      (fun xs => pi xs * E (dmap fst (sampler_step g dg T k (xs, s))) (fun ys => clip1 (G ys)))).
    + pose proof (IH _ _ Hn f Hf1) as IH'. fold X pi in IH'. 
      rewrite (rsum_ext X (fun x => pi x * clip1 (G x)) (fun x => pi x * E (dmap fst (sampler_run g dg T k n (x, next_state T k s))) f)) in HI.
      2: { intros xs Hx. f_equal. rewrite HG by (apply lists_legal; exact Hx). rewrite E_dmap. reflexivity. }
      rewrite S_INR. match goal with |- Rabs (?a - ?c) <= _ => match type of HI with Rabs (_ - ?b) <= _ => replace (a - c) with ((a - b) + (b - c)) by ring end end.
      eapply Rle_trans; [apply Rabs_triang|]. lra.
    + intros xs Hx. f_equal. rewrite !E_dmap. cbn [sampler_run]. rewrite E_bind. apply E_ext_in. intros [ys t] w Ho. cbn [fst].
      rewrite (fixed_next g dg T k m s xs _ w Hd HC Hu Hf Hs (in_batch _ _ _ Hx) Ho : t = _).
      destruct (step_legal g dg T k m s B xs Hd HC Hu Hs (lists_legal _ _ _ _ Hx)) as [_ Hl]. rewrite HG by (apply (Hl _ _ Ho)). reflexivity.
Qed.

(** ** Numbers *)
Lemma pow_small x n : 0 <= x -> INR n * x <= / 2 -> (1 + x) ^ n - 1 <= 2 * (INR n * x).
Proof.
  intros Hx Hn. assert (H : (1 + x) ^ n <= exp (INR n * x)).
  { clear Hn. induction n as [|n IH]; [cbn; rewrite Rmult_0_l, exp_0; lra|]. rewrite S_INR. replace ((INR n + 1) * x) with (x + INR n * x) by ring. rewrite exp_plus. cbn [pow].
    apply Rmult_le_compat; auto; [lra|apply pow_le; lra|]. apply exp_ineq1_le. }
  set (y := INR n * x) in *. assert (Hy : 0 <= y) by (apply Rmult_le_pos; [apply pos_INR|auto]).
  assert (H2 : exp y * (1 - y) <= 1).
  { replace 1 with (exp y * exp (- y)) at 2 by (rewrite <- exp_plus, Rplus_opp_r, exp_0; reflexivity). apply Rmult_le_compat_l; [apply Rlt_le, exp_pos|].
    pose proof (exp_ineq1_le (- y)). lra. }
  assert (H3 : exp y <= 1 + 2 * y).
  { apply Rmult_le_reg_r with (1 - y); [lra|]. eapply Rle_trans; [exact H2|]. nra. }
  lra.
Qed.

Lemma log_error_small T k : INR (t_dim T) <= 10 ^ 6 -> log_error T k (/ 10 ^ 32) <= / 10 ^ 24.
Proof.
  intros Hd. replace (10 ^ 6) with 1000000 in Hd by lra.
  assert (Hp : 0 < / 10 ^ 24) by (apply Rinv_0_lt_compat, pow_lt; lra).
  assert (H32 : / 10 ^ 32 = / 10 ^ 24 * / 10 ^ 8) by (replace (10 ^ 32) with (10 ^ 24 * 10 ^ 8) by (rewrite <- pow_add; reflexivity); apply Rinv_mult).
  assert (H24 : / 10 ^ 24 <= 1) by (rewrite <- Rinv_1; apply Rinv_le_contravar; [lra|apply pow_R1_Rle; lra]).
  assert (H8 : / 10 ^ 8 = / 100000000) by (f_equal; lra).
  assert (HK : 2 * ((1 + 2 * / 10 ^ 32) ^ t_dim T - 1) <= / 10 ^ 24).
  { assert (Hx : INR (t_dim T) * (2 * / 10 ^ 32) <= / 10 ^ 24 * / 50).
    { rewrite H32, H8. set (e := / 10 ^ 24) in *. clearbody e. set (d := INR (t_dim T)) in *. clearbody d. 
      replace (d * (2 * (e * / 100000000))) with (d * (e * / 50000000)) by lra. apply Rle_trans with (1000000 * (e * / 50000000)); [|lra].
      apply Rmult_le_compat_r; lra. }
    pose proof (pow_small (2 * / 10 ^ 32) (t_dim T)) as H.
    assert (0 <= 2 * / 10 ^ 32) by (rewrite H32, H8; lra). specialize (H H0 ltac:(lra)). lra. }
  unfold log_error. destruct k; try lra; destruct (Nat.eqb (t_C T) 2); lra.
Qed.

(** ** The constant is visible in the support *)
(** Two states, the second 80 units of log-likelihood below the first (no code of the repository). *)
Definition deep_target : target :=
  {| t_fw := fun x => - (80 * INR (nth 0 x 0%nat)); t_grad := fun _ _ => 0; t_lr := fun _ _ => 0; t_sig := None; t_mask := None; t_dim := 1; t_C := 2 |}.

Lemma deep_step g dg s f : rw_radius s = 1 ->
  E (sampler_step g dg deep_target (SWalk None) ([[0%nat]], TR s)) f
  = accept_prob g (-80) * f ([[1%nat]], TR (rw_select_state s)) + (1 - accept_prob g (-80)) * f ([[0%nat]], TR (rw_select_state s)).
Proof.
  intros Hr. unfold sampler_step. cbn [fst snd]. unfold lift. rewrite E_dmap. unfold walk_batch, mh_batch, deep_target. cbn [t_dim t_C t_fw]. rewrite E_bind.
  unfold rw_draws. rewrite Hr. unfold E, bind, dmap, mh_law, rw_site, uniform, weighted, bernoulli, ret. cbn.
  match goal with |- context [accept_prob g ?a] => match a with -80 => fail 1 | _ => replace a with (-80) by lra end end.
  replace (0 - - (80 * 0)) with 0 by ring. field.
Qed.

Lemma exp_80 : exp (-80) <= / 10 ^ 24.
Proof.
  replace (exp (-80)) with (/ exp 80) by (rewrite <- exp_Ropp; f_equal; lra). apply Rinv_le_contravar; [apply pow_lt; lra|].
  assert (H : forall n, 2 ^ n <= exp (INR n)).
  { induction n as [|n IH]; [cbn; rewrite exp_0; lra|]. rewrite S_INR, exp_plus. cbn [pow]. rewrite Rmult_comm. apply Rmult_le_compat; [apply pow_le; lra|lra|exact IH|].
    pose proof (exp_ineq1_le 1). lra. }
  specialize (H 80%nat). replace (INR 80) with 80 in H by (rewrite INR_IZR_INZ; reflexivity). eapply Rle_trans; [|exact H].
  replace (10 ^ 24) with ((10 ^ 3) ^ 8) by (rewrite <- pow_mult; reflexivity). replace (2 ^ 80) with ((2 ^ 10) ^ 8) by (rewrite <- pow_mult; reflexivity).
  apply pow_incr. lra.
Qed.

Lemma deep_run_stuck dg : forall n s f, rw_radius s = 1 -> (forall t, f ([[1%nat]], t) = 1) -> (forall t, f ([[0%nat]], t) = 0) ->
  E (sampler_run acc_guard dg deep_target (SWalk None) n ([[0%nat]], TR s)) f = 0.
Proof.
  intros n. induction n as [|n IH]; intros s f Hr H1 H0; [cbn [sampler_run]; rewrite E_ret; apply H0|].
  cbn [sampler_run]. rewrite E_bind. rewrite deep_step by exact Hr.
  assert (Ha : accept_prob acc_guard (-80) = 0).
  { unfold accept_prob. unfold acc_guard. pose proof exp_80. rewrite Rmax_left; [reflexivity|]. eapply Rle_trans; [apply Rmin_r|]. lra. }
  rewrite Ha. rewrite Rmult_0_l, Rplus_0_l, Rminus_0_r, Rmult_1_l. apply IH; auto.
Qed.

Lemma deep_moves dg s f : rw_radius s = 1 -> (forall t, f ([[1%nat]], t) = 1) -> (forall t, f ([[0%nat]], t) = 0) ->
  E (sampler_run 0 dg deep_target (SWalk None) 1 ([[0%nat]], TR s)) f = exp (-80).
Proof.
  intros Hr H1 H0. cbn [sampler_run]. rewrite E_bind, deep_step by exact Hr. rewrite !E_ret, H1, H0, accept_prob_0.
  rewrite Rmin_right; [ring|]. rewrite <- exp_0. apply Rlt_le, exp_increasing. lra.
Qed.
