(** Without adaptation the chains of a batch move independently of each other: the law of one step as a product of one-chain steps. *)
From Coq Require Import String Reals List Arith ZArith Lra Lia.
From Verif.Base Require Import RSum Cube Dist XFloat MH.
From Verif.Spec Require Import Chain SamplerRun.
From Verif.Model Require Import MathUtil Gibbs HammingBall RandomWalk GWG LocallyBalanced PathAux Langevin FullRun.
From Verif.Proof Require Import ChainProof GibbsProof RandomWalkProof GWGProof PathAuxProof PathAuxCatProof LangevinProof LangevinAdapt
  BernEvalProof AdaptiveRunProof MHKernel CoOptProof FullRunProof FullRunInvar GuardRun PaddingProof.
Import ListNotations.
Local Open Scope R_scope.

(** One chain alone. *)
Definition one_step (g dg : R) (T : target) (k : sampler) (s : sstate) (x : list nat) : dist (list nat) :=
  dmap (fun o => nth 0 (fst o) []) (sampler_step g dg T k ([x], s)).

Definition product_form g dg T k s (K : list nat -> dist (list nat)) : Prop :=
  forall xs f, (forall x, In x xs -> In x (states (t_dim T) (t_C T))) -> E (sampler_step g dg T k (xs, s)) (fun o => f (fst o)) = E (batch_step K xs) f.

Lemma lang_product {P} Sp g (prop : R -> list nat -> dist P) app la rates lz nn c lt s : lc_adaptive c = false -> (forall l l', comp Sp (prop l) app (la l l')) ->
  exists K, forall xs f, (forall x, In x xs -> In x Sp) -> E (lift TL (lang_batch g prop app la rates lz nn c (Fin lt) s xs)) (fun o => f (fst o)) = E (batch_step K xs) f.
Proof.
  intros Hc Hco. eexists. intros xs f Hx. unfold lift, lang_batch. rewrite Hc. cbn [andb]. rewrite E_dmap. cbn [fst].
  destruct (Hco lt lt) as (H1 & H2 & H3). apply (mh_batch_marginal Sp); auto.
Qed.

Lemma fixed_product g dg T k n s : (0 < t_dim T)%nat -> (2 <= t_C T)%nat -> usable T k -> fixed_rule T k -> state_at (t_dim T) (t_C T) k n s ->
  exists K, product_form g dg T k s K.
Proof.
  intros Hd HC Hu Hf Hs.
  destruct k as [| b | b | rate | ty nf | ty rate | ty | ty approx nf rate | ty c ss | ty c nn solver | ty];
    destruct s as [s|s|s|s|s|s]; try contradiction; cbn [usable fixed_rule] in Hu, Hf; unfold product_form, sampler_step; cbn [fst snd].
  - eexists. intros xs f _. rewrite E_dmap. reflexivity.
  - eexists. intros xs f _. rewrite E_dmap. reflexivity.
  - destruct Hs as (H1 & H2 & H3 & H4). eexists. intros xs f Hx. unfold lift. rewrite E_dmap. cbn [fst].
    destruct (walk_comp (t_fw T) (rw_radius s) (t_dim T) (t_C T) HC Hd H3) as (A1 & A2 & A3). apply (mh_batch_marginal (states (t_dim T) (t_C T))); auto.
  - destruct Hu as [Hty HC2]. destruct (wf_known ty Hty) as [wf Hwf]. unfold with_wf. rewrite Hwf. rewrite HC2. eexists. intros xs f Hx. unfold lift. rewrite E_dmap. cbn [fst].
    destruct (gwg_comp (t_fw T) wf (t_grad T) (t_mask T) (t_dim T) nf Hd) as (A1 & A2 & A3). apply (mh_batch_marginal (states (t_dim T) 2)); auto.
  - destruct Hu as (Hty & Hnf & Hsig). destruct Hf as [-> HC2]. destruct (wf_known ty Hty) as [wf Hwf]. unfold with_wf. rewrite Hwf.
    assert (K : forall lr calls, exists K, forall xs f, (forall x, In x xs -> In x (states (t_dim T) (t_C T))) ->
      E (lift TP (path_batch g T wf lr calls nf None s xs)) (fun o => f (fst o)) = E (batch_step K xs) f).
    { intros lr calls. unfold path_batch. rewrite HC2. cbn [Nat.eqb]. eexists. intros xs f Hx. unfold lift. rewrite E_dmap. cbn [fst].
      destruct (path_comp (t_fw T) wf lr (t_mask T) (t_dim T) nf (Hnf eq_refl)) as (A1 & A2 & A3). apply (mh_batch_marginal (states (t_dim T) 2)); auto. }
    destruct approx; [apply K|]. destruct (Hsig eq_refl) as (sg & He & Hv). rewrite He, Hv. apply K.
  - destruct (wf_known ty Hu) as [wf Hwf]. unfold with_wf. rewrite Hwf. unfold dmala_batch. cbv zeta. rewrite Hf. destruct (Nat.eqb_spec (t_C T) 2) as [He|He].
    + rewrite He in *. unfold lang_bin.
      destruct (lang_product (states (t_dim T) 2) g
        (fun lt x => match dmala_ps lt wf (lr_of T) x with Some p => indep (map bernoulli p) | None => [] end) (fun x fl => flip_bits fl x)
        (fun lt lt' x fl => match dmala_ps lt wf (lr_of T) x, dmala_ps lt' wf (lr_of T) (flip_bits fl x) with
                        | Some p, Some q => Some (bern_log_acc dg (t_fw T) p q x fl) | _, _ => None end) (rates_of T wf (lr_of T)) dmala_log_z 3 c (dmala_fixed_log_tau ss) s Hf) as [K HK].
      { intros l l'. apply (bin_comp dg (t_fw T) (t_dim T) (fun lt x => dmala_ps lt wf (lr_of T) x)). intros lt0 x Hx. apply dmala_ps_ok; auto. }
      exists K. exact HK.
    + unfold lang_cat.
      destruct (lang_product (states (t_dim T) (t_C T)) g
        (fun lt x => match all_some (map (dmala_row lt wf (lr_of T) (t_C T) x) (seq 0 (length x))) with Some r => indep (map categorical r) | None => [] end) (fun _ y => y)
        (fun lt lt' x y => match all_some (map (dmala_row lt wf (lr_of T) (t_C T) x) (seq 0 (length x))), all_some (map (dmala_row lt' wf (lr_of T) (t_C T) y) (seq 0 (length y))) with
                       | Some rx, Some ry => Some (t_fw T y + row_ll ry x - t_fw T x - row_ll rx y) | _, _ => None end) (rates_of T wf (lr_of T)) dmala_log_z 3 c (dmala_fixed_log_tau ss) s Hf) as [K HK].
      { intros l l'. apply (cat_comp (t_fw T) (t_dim T) (t_C T) (fun lt x => all_some (map (dmala_row lt wf (lr_of T) (t_C T) x) (seq 0 (length x))))); [lia|].
        intros lt0 x Hx. apply dmala_rows_ok; auto. }
      exists K. exact HK.
Qed.

Lemma E_indep_ext {X A} (P Q : X -> dist A) : forall xs, (forall x, In x xs -> forall f, E (P x) f = E (Q x) f) -> forall f, E (indep (map P xs)) f = E (indep (map Q xs)) f.
Proof.
  induction xs as [|x xs IH]; intros H f; [reflexivity|]. cbn [map]. rewrite !E_indep_cons. rewrite (H x (or_introl eq_refl)).
  apply E_ext. intros a. apply IH. intros y Hy. apply H. right. exact Hy.
Qed.

Section Fixed.
  Variables (g dg : R) (T : target) (k : sampler) (n : nat) (s : sstate).
  Hypotheses (Hd : (0 < t_dim T)%nat) (HC : (2 <= t_C T)%nat) (Hu : usable T k) (Hf : fixed_rule T k) (Hs : state_at (t_dim T) (t_C T) k n s).
  Let S := states (t_dim T) (t_C T).

  Lemma one_step_proper : proper S (one_step g dg T k s).
  Proof.
    intros x Hx. assert (H1 : forall y, In y [x] -> In y S) by (intros y [<-|[]]; exact Hx).
    destruct (step_good g dg T k n s [x] Hd HC Hu Hs H1) as [Hp Hg]. split; [apply is_prob_dmap; exact Hp|].
    intros y w Hy. apply in_dmap in Hy. destruct Hy as (o & Ho & ->). destruct (Hg o w Ho) as (A & B & _).
    destruct (fst o) as [|z l]; [discriminate A|]. apply B. left. reflexivity.
  Qed.

  Lemma step_product xs f : (forall x, In x xs -> In x S) -> E (sampler_step g dg T k (xs, s)) (fun o => f (fst o)) = E (indep (map (one_step g dg T k s) xs)) f.
  Proof.
    intros Hx. destruct (fixed_product g dg T k n s Hd HC Hu Hf Hs) as [K HK]. rewrite (HK xs f Hx). unfold batch_step. apply E_indep_ext.
    intros x Hin h. unfold one_step. rewrite E_dmap. rewrite (HK [x] (fun ys => h (nth 0 ys []))) by (intros y [<-|[]]; auto).
    unfold batch_step. cbn [map]. rewrite E_indep_1. reflexivity.
  Qed.

  Lemma step_product_state xs f : (forall x, In x xs -> In x S) ->
    E (sampler_step g dg T k (xs, s)) f = E (indep (map (one_step g dg T k s) xs)) (fun ys => f (ys, next_state T k s)).
  Proof.
    intros Hx. rewrite <- (step_product xs) by exact Hx. apply E_ext_in. intros [ys t] w Ho. f_equal. cbn [fst]. f_equal.
    exact (fixed_next g dg T k n s xs _ w Hd HC Hu Hf Hs Hx Ho).
  Qed.

  Lemma one_step_upto : 0 <= g -> 0 <= dg -> invariant_upto (log_error T k dg + 2 * g) S (fun x => exp (t_fw T x)) (one_step g dg T k s).
  Proof.
    intros Hg Hdg f Hb. pose proof (step_upto g dg T k n s 1 Hg Hdg Hd HC Hu Hs (fixed_keeps T k n s Hf Hs)) as H.
    unfold near_target in H. specialize (H (fun ys => f (nth 0 ys [])) ltac:(intros; apply Hb)). fold S in H.
    rewrite !rsum_lists_over_cons in H. cbn [lists_over rsum] in H. unfold batch_pi in H. cbn [rprod INR] in H.
    assert (R1 : forall h : list nat -> R, rsum S (fun a => h a * 1 * E (dmap fst (sampler_step g dg T k ([a], s))) (fun ys => f (nth 0 ys [])) + 0)
       = rsum S (fun a => h a * E (one_step g dg T k s a) f)).
    { intros h. apply rsum_ext. intros x _. unfold one_step. rewrite !E_dmap. ring. }
    rewrite R1 in H. cbn [nth] in H.
    rewrite (rsum_ext S (fun a => exp (t_fw T a) * 1 * f a + 0) (fun a => exp (t_fw T a) * f a)) in H by (intros; ring).
    rewrite (rsum_ext S (fun a => exp (t_fw T a) * 1 + 0) (fun a => exp (t_fw T a))) in H by (intros; ring).
    rewrite Rmult_1_l in H. exact H.
  Qed.
End Fixed.
