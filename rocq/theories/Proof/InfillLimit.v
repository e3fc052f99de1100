(** Text-infilling runs: long chains of objects with a fixed rule; the loop over the entries. *)
From Coq Require Import String Reals List Arith Lra Lia Ascii.
From Verif.Base Require Import RSum Cube Dist XFloat.
From Verif.Spec Require Import Chain Ergodic SamplerRun InfillSpec InfillRunSpec.
From Verif.Model Require Import MathUtil Gibbs Langevin FullRun Infill InfillRun.
From Verif.Proof Require Import ScanProof ErgodicProof AdaptiveRunProof BernEvalProof LangevinProof LangevinAdapt LangevinRows FullRunProof FullRunInvar ErgodicSamplers CoOptRun AisProduct InfillRunProof InfillRunLaw InfillGibbs.
Import ListNotations.
Local Open Scope R_scope.

Lemma init_at' T k : (0 < t_dim T)%nat -> usable T k -> state_at (t_dim T) (t_C T) k 0 (init_state k).
Proof. intros Hd Hu. apply init_at; assumption. Qed.

Section Limit.
  Variable g dg : R.
  Variable T : target.
  Variable k : sampler.
  Let S0 := states (t_dim T) (t_C T).
  Hypothesis Hd : (0 < t_dim T)%nat.
  Hypothesis HC : (2 <= t_C T)%nat.
  Hypothesis Hu : usable T k.
  Hypothesis Hf : fixed_rule T k.
  (** A chain of a fixed rule whose step has the law [K], whatever the state. *)
  Lemma fixed_chain (K : list nat -> dist (list nat)) : (forall j s x f, state_at (t_dim T) (t_C T) k j s -> In x S0 -> E (one_step g dg T k s x) f = E (K x) f) ->
    forall n t j s x f, state_at (t_dim T) (t_C T) k j s -> In x S0 -> E (sampler_run g dg T k n ([x], s)) (fun o => f (hd [] (fst o))) = E (run_seq (fun _ => K) n t x) f.
  Proof.
    intros HK. induction n as [|n IH]; intros t j s x f Hs Hx; [cbn [sampler_run run_seq]; rewrite !E_ret; reflexivity|].
    cbn [sampler_run run_seq]. rewrite !E_bind. rewrite (step_product_state g dg T k j s Hd HC Hu Hf Hs) by (intros y [<-|[]]; exact Hx).
    cbn [map]. rewrite E_indep_1. rewrite <- (HK j s x) by assumption. apply E_ext_in. intros y w Hy.
    apply (IH (Datatypes.S t) (Datatypes.S j)); [apply next_at; assumption|]. exact (proj2 (one_step_proper g dg T k j s Hd HC Hu Hs x Hx) y w Hy).
  Qed.
End Limit.

Lemma dmala_one dg T ty c ss wf j s x f : (0 < t_dim T)%nat -> (3 <= t_C T)%nat -> wf_of ty = Some wf -> lc_adaptive c = false -> state_at (t_dim T) (t_C T) (SDmala ty c ss) j s -> In x (states (t_dim T) (t_C T)) ->
  E (one_step 0 dg T (SDmala ty c ss) s x) f = E (dmala_cat_step 0 (t_fw T) (fun _ => dmala_fixed_log_tau ss) wf (lr_of T) (t_C T) x) f.
Proof.
  intros Hd HC Hwf Ha Hs Hx. unfold one_step. rewrite E_dmap. destruct s as [s|s|s|s|s|s]; try contradiction. unfold sampler_step. cbn [fst snd]. unfold with_wf. rewrite Hwf.
  unfold dmala_batch. cbv zeta. rewrite Ha. destruct (Nat.eqb_spec (t_C T) 2) as [He|_]; [lia|]. unfold lang_cat, lang_batch. rewrite Ha. cbn [andb]. unfold lift. rewrite E_dmap. cbn [fst].
  rewrite (mh_batch_one 0 _ _ _ _ x (fun ys => f (nth 0 ys []))). cbn [nth].
  unfold dmala_cat_step, cat_step. destruct (all_some _) as [rx|]; [|reflexivity]. rewrite !E_bind. apply E_ext. intros y. destruct (all_some _) as [ry|]; reflexivity.
Qed.

Section Fill.
  Variable g dg : R.
  Variable rinit : bool.
  Variable lm : language.
  Variable d : nat.
  Variable e : text.
  Let C := lm_C lm.
  Let T := fill_target lm d e.
  Hypothesis Hd : (0 < d)%nat.
  Hypothesis HC : (2 <= C)%nat.
  Hypothesis Hw : well_shaped lm.
  Hypothesis Hlen : length (x_pos e) = d.
  Theorem limit_joint k K : usable T k -> converges (states d C) (fun x => exp (t_fw T x)) K ->
    (forall L x0 f, In x0 (states d C) -> E (sampler_run g dg T k L ([x0], init_state k)) (fun o => f (hd [] (fst o))) = E (run_seq K L 0 x0) f) -> near_independent g dg rinit lm d e k.
  Proof.
    intros Hu Hc Hr m eps He. assert (Hm : 0 < INR m + 1) by (pose proof (pos_INR m); lra).
    destruct (Hc (eps / (INR m + 1)) ltac:(apply Rdiv_lt_0_compat; lra)) as [N HN]. exists N. intros L F HL HF.
    eapply Rle_trans; [apply (joint_close g dg rinit lm d k L e Hd HC Hw Hlen Hu m (eps / (INR m + 1)) F HF)|].
    - intros x0 f Hx0 Hf. fold T. rewrite Hr by exact Hx0. apply HN; assumption.
    - unfold Rdiv. apply Rmult_le_reg_r with (INR m + 1); [exact Hm|]. replace (INR m * (eps * / (INR m + 1)) * (INR m + 1)) with (INR m * eps) by (field; lra). nra.
  Qed.
End Fill.
Theorem dmala_limit dg rinit lm d e ty c ss : (0 < d)%nat -> (3 <= lm_C lm)%nat -> well_shaped lm -> length (x_pos e) = d -> balancing ty -> lc_adaptive c = false ->
  near_independent 0 dg rinit lm d e (SDmala ty c ss).
Proof.
  intros Hd HC Hw Hlen Hty Ha. destruct (wf_known ty Hty) as [wf Hwf]. set (T := fill_target lm d e).
  assert (Hu : usable T (SDmala ty c ss)) by exact Hty. assert (Hf : fixed_rule T (SDmala ty c ss)) by exact Ha. assert (HC2 : (2 <= t_C T)%nat) by (cbn; lia).
  apply (limit_joint 0 dg rinit lm d e Hd ltac:(lia) Hw Hlen _ (fun _ => dmala_cat_step 0 (t_fw T) (fun _ => dmala_fixed_log_tau ss) wf (lr_of T) (t_C T)) Hu).
  - apply cat_converges; [lia|]. intros x Hx. apply dmala_rows_ok. exact Hx.
  - intros L x0 f Hx0. apply (fixed_chain 0 dg T _ Hd HC2 Hu Hf) with (j := 0%nat); [|apply init_at'; assumption|exact Hx0].
    intros j s x h Hs Hx. apply (dmala_one dg T ty c ss wf j s x h); auto.
Qed.

Lemma block_chain g dg T b n : forall t x f, E (sampler_run g dg T (SBlock b) n ([x], TG (Nat.iter t (block_update (t_dim T) (t_C T) b) g_init))) (fun o => f (hd [] (fst o)))
  = E (run_seq (fun t => block_step (t_fw T) (t_C T) b (g_index (Nat.iter t (block_update (t_dim T) (t_C T) b) g_init))) n t x) f.
Proof.
  induction n as [|n IH]; intros t x f; [cbn [sampler_run run_seq]; rewrite !E_ret; reflexivity|].
  cbn [sampler_run run_seq]. rewrite !E_bind. unfold sampler_step. cbn [fst snd map]. rewrite E_dmap, E_indep_1. apply E_ext. intros y. cbn [fst snd].
  rewrite <- (IH (Datatypes.S t) y f). reflexivity.
Qed.
Theorem block_limit g dg rinit lm d e b : (0 < d)%nat -> (2 <= lm_C lm)%nat -> (0 < b)%nat -> well_shaped lm -> length (x_pos e) = d -> near_independent g dg rinit lm d e (SBlock b).
Proof.
  intros Hd HC Hb Hw Hlen. set (T := fill_target lm d e).
  apply (limit_joint g dg rinit lm d e Hd HC Hw Hlen (SBlock b) _ I (block_state_converges (t_fw T) d (lm_C lm) b Hd ltac:(lia) Hb)).
  intros L x0 f _. exact (block_chain g dg T b L 0 x0 f).
Qed.

(** ** The loop over the entries *)
Lemma results_map fill n : forall data, get_results fill n data = (concat (map (fun e => fst (fill 0%nat e)) data), concat (map (fun e => snd (fill 0%nat e)) data)).
Proof. intros data. revert n. induction data as [|e data IH]; intros n; [reflexivity|]. cbn [get_results]. cbv zeta. rewrite IH. reflexivity. Qed.

(** ** What an entry prints *)
Theorem entry_prints g dg rinit lm d k L m keep e o w : (0 < d)%nat -> (2 <= lm_C lm)%nat -> well_shaped lm -> length (x_pos e) = d -> usable (fill_target lm d e) k -> placed e ->
  In (o, w) (fill_entry g dg rinit lm d k L m keep e) ->
  exists fills, length fills = m /\
    Forall (fun x => length x = d /\ Forall (fun v => (v < lm_C lm)%nat) x) fills /\
    (exists ids, Forall2 (completes e) fills ids /\
       match keep with
       | None => o = (map (lm_decode lm) ids, [])
       | Some q => (1 <= q)%nat -> (m <= 100)%nat -> fst o = blank_after_ten (map (lm_decode lm) ids) /\ best_of q (combine (fst o) (map (fun x => ln (fill_weight lm e x)) fills)) (snd o)
       end).
Proof.
  intros Hd HC Hw Hlen Hu Hp Ho. destruct (proj2 (entry_good g dg rinit lm d k L e Hd HC Hw Hlen Hu m keep) o w Ho) as (fills & Hm & Hf & ->).
  exists fills. split; [exact Hm|]. assert (Hf' : Forall (fun x => length x = d /\ Forall (fun v => (v < lm_C lm)%nat) x) fills).
  { eapply Forall_impl; [|exact Hf]. intros x Hx. apply in_states. exact Hx. }
  split; [exact Hf'|]. exists (map (decode_ids (ids_of lm e) (x_pos e)) fills). split.
  - clear Hm Ho. induction Hf' as [|x l [Hx _] _ IH]; cbn [map]; constructor; [apply decode_completes; [exact Hp|congruence]|apply IH]. inversion Hf; assumption.
  - rewrite map_map. unfold outcome. destruct keep as [q|]; [|reflexivity]. intros Hq Hm'.
    change (map (fun x => lm_decode lm (decode_ids (ids_of lm e) (x_pos e) x)) fills) with (map (sentence_of lm e) fills).
    destruct (topk_long q (map (sentence_of lm e) fills) (map (t_fw (fill_target lm d e)) fills) Hq) as [T1 T2]; [rewrite map_length; lia|rewrite !map_length; reflexivity|].
    split; [exact T1|]. rewrite T1. rewrite (map_ext_in (fun x => ln (fill_weight lm e x)) (t_fw (fill_target lm d e))); [exact T2|].
    intros x Hx. rewrite Forall_forall in Hf. rewrite <- (fill_weight_exp lm d) by (try lia; auto). apply ln_exp.
Qed.
