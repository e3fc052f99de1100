(** Runs of one chain of the Langevin samplers with co_opt_prob: every step uses the step size of the current state. *)
From Coq Require Import String Reals List Arith Lra Lia.
From Verif.Base Require Import RSum Cube Dist XFloat MH.
From Verif.Spec Require Import Chain SamplerRun.
From Verif.Model Require Import MathUtil LocallyBalanced PathAux Langevin FullRun.
From Verif.Proof Require Import ChainProof LangevinProof LangevinAdapt AdaptiveRunProof FullRunProof FullRunInvar.
Import ListNotations.
Local Open Scope R_scope.

Lemma E_single {A} (d : dist A) (f : list A -> R) : E (indep [d]) f = E d (fun a => f [a]).
Proof. rewrite LangevinAdapt.E_indep_cons. apply E_ext. intros a. unfold E. cbn. ring. Qed.

Lemma mh_batch_one {P St} g (prop : list nat -> dist P) app (la : list (P * list nat) -> list nat -> P -> option R) (new : list (P * list nat) -> list R -> St) x f :
  E (mh_batch g prop app la new [x]) (fun o => f (fst o)) = E (bind (prop x) (fun p => omh_law g (la [(p, x)] x p) x (app x p))) (fun y => f [y]).
Proof.
  unfold mh_batch. rewrite !E_bind. cbn [map]. rewrite E_single. apply E_ext. intros p. cbn [combine map fst snd all_some].
  destruct (la [(p, x)] x p) as [l|]; cbn [omh_law]; [|reflexivity]. cbn [combine map fst snd]. rewrite E_dmap. cbn [fst]. apply E_single.
Qed.

(** The kernel of one chain. *)
Definition own_tau (n : R) (lz : list (list R) -> R) (rates : list nat -> list R) (x : list nat) : R := local_log_tau n (lz [rates x]).
Lemma lang_one {P} (prop : R -> list nat -> dist P) app la rates lz n c s x f : lc_adaptive c = true -> lc_co_opt c = true ->
  E (lang_batch 0 prop app la rates lz n c (Fin (own_tau n lz rates x)) s [x]) (fun o => f (fst o))
  = E (bind (prop (own_tau n lz rates x) x) (fun p => omh_law 0 (la (own_tau n lz rates x) (own_tau n lz rates (app x p)) x p) x (app x p))) (fun y => f [y]).
Proof. intros Ha Hc. unfold lang_batch. rewrite Ha, Hc. cbn [andb]. cbv zeta. rewrite mh_batch_one. reflexivity. Qed.

Lemma used_own c n z s : lc_co_opt c = true -> l_used_log_tau c n (Fin z) s = Fin (local_log_tau n z).
Proof. intros Hc. unfold l_used_log_tau. rewrite Hc. reflexivity. Qed.

(** One step of one chain, whatever the sampler state: a reversible kernel. *)
Theorem co_one_kernel T k : (0 < t_dim T)%nat -> (2 <= t_C T)%nat -> usable T k -> co_sampler k ->
  exists K, reversible (states (t_dim T) (t_C T)) (fun x => exp (t_fw T x)) K /\ (forall x, In x (states (t_dim T) (t_C T)) -> is_prob (K x)) /\
    forall x s f, In x (states (t_dim T) (t_C T)) -> E (sampler_step 0 0 T k ([x], TL s)) (fun o => f (fst o)) = E (K x) (fun y => f [y]).
Proof.
  intros Hd HC Hu Hk. destruct k as [| b | b | rate | ty nf | ty rate | ty | ty approx nf rate | ty c ss | ty c nn solver | ty]; try contradiction;
    destruct Hk as [Ha Hc]; cbn [usable] in Hu.
  - destruct (wf_known ty Hu) as [wf Hwf]. set (rates := rates_of T wf (lr_of T)).
    assert (Hstep : forall x s, sampler_step 0 0 T (SDmala ty c ss) ([x], TL s) = lift TL
      (if Nat.eqb (t_C T) 2 then lang_bin 0 0 T (fun lt x => dmala_ps lt wf (lr_of T) x) rates dmala_log_z 3 c (Fin (own_tau 3 dmala_log_z rates x)) s [x]
       else lang_cat 0 T (fun lt x => all_some (map (dmala_row lt wf (lr_of T) (t_C T) x) (seq 0 (length x)))) rates dmala_log_z 3 c (Fin (own_tau 3 dmala_log_z rates x)) s [x])).
    { intros x s. unfold sampler_step, with_wf. cbn [fst snd]. rewrite Hwf. unfold dmala_batch. rewrite Ha, (used_own c 3 _ s Hc). reflexivity. }
    destruct (Nat.eqb_spec (t_C T) 2) as [He|He].
    + assert (HF : flips_fun (t_dim T) (fun lt x => dmala_ps lt wf (lr_of T) x)) by (intros lt x Hx; apply dmala_ps_ok; exact Hx).
      exists (bern_step 0 0 (t_fw T) (fun x => dmala_ps (own_tau 3 dmala_log_z rates x) wf (lr_of T) x)). rewrite He. split; [|split].
      * apply bern_reversible. intros x Hx. exact (HF _ x Hx).
      * intros x Hx. apply (bern_is_prob (t_fw T) _ (t_dim T)); [intros y Hy; exact (HF _ y Hy)|exact Hx].
      * intros x s f Hx. rewrite Hstep. unfold lift, lang_bin. rewrite E_dmap. cbn [fst]. rewrite lang_one by assumption. unfold bern_step.
        destruct (dmala_ps (own_tau 3 dmala_log_z rates x) wf (lr_of T) x) as [p|]; [|reflexivity]. rewrite !E_bind. apply E_ext. intros fl.
        destruct (dmala_ps _ wf (lr_of T) (flip_bits fl x)); reflexivity.
    + set (rows := fun lt x => all_some (map (dmala_row lt wf (lr_of T) (t_C T) x) (seq 0 (length x)))).
      assert (HF : rows_fun (t_dim T) (t_C T) rows) by (intros lt x Hx; apply dmala_rows_ok; exact Hx).
      exists (cat_step 0 (t_fw T) (fun x => rows (own_tau 3 dmala_log_z rates x) x)). split; [|split].
      * apply cat_reversible; [lia|]. intros x Hx. exact (HF _ x Hx).
      * intros x Hx. apply (cat_is_prob (t_fw T) _ (t_dim T) (t_C T)); [lia| |exact Hx]. intros y Hy. exact (HF _ y Hy).
      * intros x s f Hx. rewrite Hstep. fold rows. unfold lift, lang_cat. rewrite E_dmap. cbn [fst]. rewrite lang_one by assumption. unfold cat_step.
        destruct (rows (own_tau 3 dmala_log_z rates x) x) as [p|]; [|reflexivity]. rewrite !E_bind. apply E_ext. intros y.
        destruct (rows _ y); reflexivity.
  - destruct Hu as [Hty Hsol]. destruct (wf_known ty Hty) as [wf Hwf]. set (rates := rates_of T wf (lr_of T)).
    assert (Hstep : forall x s, sampler_step 0 0 T (SDlmc ty c nn solver) ([x], TL s) = lift TL
      (if Nat.eqb (t_C T) 2 then lang_bin 0 0 T (fun lt x => dlmc_ps solver lt wf (lr_of T) x) rates dlmc_log_z nn c (Fin (own_tau nn dlmc_log_z rates x)) s [x]
       else lang_cat 0 T (fun lt x => all_some (map (dlmc_row solver lt wf (lr_of T) (t_C T) x) (seq 0 (length x)))) rates dlmc_log_z nn c (Fin (own_tau nn dlmc_log_z rates x)) s [x])).
    { intros x s. unfold sampler_step, with_wf. cbn [fst snd]. rewrite Hwf. unfold dlmc_batch. rewrite Ha, (used_own c nn _ s Hc). reflexivity. }
    destruct (Nat.eqb_spec (t_C T) 2) as [He|He].
    + assert (HF : flips_fun (t_dim T) (fun lt x => dlmc_ps solver lt wf (lr_of T) x)) by (intros lt x Hx; apply dlmc_ps_ok; auto).
      exists (bern_step 0 0 (t_fw T) (fun x => dlmc_ps solver (own_tau nn dlmc_log_z rates x) wf (lr_of T) x)). rewrite He. split; [|split].
      * apply bern_reversible. intros x Hx. exact (HF _ x Hx).
      * intros x Hx. apply (bern_is_prob (t_fw T) _ (t_dim T)); [intros y Hy; exact (HF _ y Hy)|exact Hx].
      * intros x s f Hx. rewrite Hstep. unfold lift, lang_bin. rewrite E_dmap. cbn [fst]. rewrite lang_one by assumption. unfold bern_step.
        destruct (dlmc_ps solver (own_tau nn dlmc_log_z rates x) wf (lr_of T) x) as [p|]; [|reflexivity]. rewrite !E_bind. apply E_ext. intros fl.
        destruct (dlmc_ps solver _ wf (lr_of T) (flip_bits fl x)); reflexivity.
    + set (rows := fun lt x => all_some (map (dlmc_row solver lt wf (lr_of T) (t_C T) x) (seq 0 (length x)))).
      assert (HF : rows_fun (t_dim T) (t_C T) rows) by (intros lt x Hx; apply dlmc_rows_ok; auto).
      exists (cat_step 0 (t_fw T) (fun x => rows (own_tau nn dlmc_log_z rates x) x)). split; [|split].
      * apply cat_reversible; [lia|]. intros x Hx. exact (HF _ x Hx).
      * intros x Hx. apply (cat_is_prob (t_fw T) _ (t_dim T) (t_C T)); [lia| |exact Hx]. intros y Hy. exact (HF _ y Hy).
      * intros x s f Hx. rewrite Hstep. fold rows. unfold lift, lang_cat. rewrite E_dmap. cbn [fst]. rewrite lang_one by assumption. unfold cat_step.
        destruct (rows (own_tau nn dlmc_log_z rates x) x) as [p|]; [|reflexivity]. rewrite !E_bind. apply E_ext. intros y.
        destruct (rows _ y); reflexivity.
Qed.

Fixpoint iterate (K : list nat -> dist (list nat)) (n : nat) (x : list nat) : dist (list nat) :=
  match n with O => ret x | Datatypes.S n' => bind (K x) (iterate K n') end.

Lemma co_run_iterates T k K : (0 < t_dim T)%nat -> (2 <= t_C T)%nat -> usable T k -> co_sampler k ->
  (forall x s f, In x (states (t_dim T) (t_C T)) -> E (sampler_step 0 0 T k ([x], TL s)) (fun o => f (fst o)) = E (K x) (fun y => f [y])) ->
  forall n m x s f, In x (states (t_dim T) (t_C T)) -> state_at (t_dim T) (t_C T) k m (TL s) ->
  E (sampler_run 0 0 T k n ([x], TL s)) (fun o => f (fst o)) = E (iterate K n x) (fun y => f [y]).
Proof.
  intros Hd HC Hu Hk HK. induction n as [|n IH]; intros m x s f Hx Hs; cbn [sampler_run iterate].
  - rewrite !E_ret. reflexivity.
  - rewrite !E_bind. pose proof (HK x s (fun ys => E (iterate K n (hd [] ys)) (fun y => f [y])) Hx) as H1. cbn [hd] in H1. rewrite <- H1. apply E_ext_in. intros [ys t] w Ho. cbn [fst].
    assert (HL : legal (t_dim T) (t_C T) 1 [x]).
    { split; [reflexivity|]. constructor; [|constructor]. apply in_states in Hx. exact Hx. }
    destruct (proj2 (step_legal 0 0 T k m (TL s) 1 [x] Hd HC Hu Hs HL) _ _ Ho) as [[HB HF] Ht]. cbn [fst snd] in HB, HF, Ht.
    destruct ys as [|y [|z ys]]; try discriminate. cbn [hd].
    assert (exists s', t = TL s') as [s' ->].
    { destruct k; try contradiction; destruct t; try contradiction; eexists; reflexivity. }
    apply (IH (Datatypes.S m)); [|exact Ht]. apply in_states. exact (Forall_inv HF).
Qed.

Lemma iterate_invariant S pi K : invariant S pi K -> forall n, invariant S pi (iterate K n).
Proof.
  intros HI. induction n as [|n IH]; intros f; cbn [iterate].
  - apply rsum_ext. intros x _. rewrite E_ret. reflexivity.
  - rewrite <- (IH f). rewrite <- (HI (fun y => E (iterate K n y) f)). apply rsum_ext. intros x _. rewrite E_bind. reflexivity.
Qed.

Theorem co_one_run T k n : (0 < t_dim T)%nat -> (2 <= t_C T)%nat -> usable T k -> co_sampler k -> forall f,
  rsum (states (t_dim T) (t_C T)) (fun x => exp (t_fw T x) * E (sampler_run 0 0 T k n ([x], init_state k)) (fun o => f (fst o)))
  = rsum (states (t_dim T) (t_C T)) (fun x => exp (t_fw T x) * f [x]).
Proof.
  intros Hd HC Hu Hk f. destruct (co_one_kernel T k Hd HC Hu Hk) as (K & HR & HP & HK).
  assert (HI : invariant (states (t_dim T) (t_C T)) (fun x => exp (t_fw T x)) K) by (apply reversible_invariant; [intros x Hx; apply (HP x Hx)|exact HR]).
  rewrite <- (iterate_invariant _ _ _ HI n (fun x => f [x])). apply rsum_ext. intros x Hx. f_equal.
  assert (exists s, init_state k = TL s) as [s Es] by (destruct k; try contradiction; eexists; reflexivity).
  rewrite Es. apply (co_run_iterates T k K Hd HC Hu Hk HK n 0); [exact Hx|]. rewrite <- Es. apply init_at; assumption.
Qed.

(** Exact ratios need a model that returns four values. *)
Lemma exact_path_raises g dg T ty nf rate xs s : (forall sg, t_sig T = Some sg -> lr_values sg <> 4%nat) -> sampler_step g dg T (SPath ty false nf rate) (xs, s) = [].
Proof.
  intros H. unfold sampler_step. cbn [fst snd]. destruct s; try reflexivity. unfold with_wf. destruct (wf_of ty); [|reflexivity].
  destruct (t_sig T) as [sg|]; [|reflexivity]. destruct (Nat.eqb_spec (lr_values sg) 4) as [E|N]; [exfalso; exact (H sg eq_refl E)|reflexivity].
Qed.
