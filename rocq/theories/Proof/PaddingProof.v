(** Padding: the law of the first [d] entries of a padded run. *)
From Coq Require Import String Reals List Lra Lia Arith ZArith Permutation.
From Verif.Base Require Import RSum Cube Dist XFloat MH.
From Verif.Spec Require Import Chain Ergodic Padding GraphSpec.
From Verif.Model Require Import MathUtil RandomWalk Gibbs GWG LocallyBalanced PathAux Langevin CombOpt Annealing.
From Verif.Proof Require Import MHKernel MathUtilProof NoReplProof GibbsProof RandomWalkProof GWGProof PathAuxProof LangevinProof LangevinAdapt ErgodicProof ErgodicSamplers ErgodicMore CombOptProof.
Import ListNotations.
Local Open Scope R_scope.

(** ** Lists *)
Lemma firstn_upd {A} (d : nat) : forall i (v : A) l, firstn d (upd i v l) = upd i v (firstn d l).
Proof.
  induction d as [|d IH]; intros [|i] v [|a l]; try reflexivity.
  cbn [upd firstn]. rewrite IH. reflexivity.
Qed.

Lemma nth_firstn_lt {A} (d : nat) (dv : A) : forall i l, (i < d)%nat -> nth i (firstn d l) dv = nth i l dv.
Proof.
  induction d as [|d IH]; intros i l Hi; [lia|]. destruct l as [|a l]; [destruct i; reflexivity|].
  destruct i as [|i]; cbn [firstn nth]; auto. apply IH. lia.
Qed.

Lemma states_split d e C x : In x (states (d + e) C) -> exists u v, x = u ++ v /\ In u (states d C) /\ In v (states e C).
Proof.
  intros H. apply in_states in H. destruct H as [Hl HF]. exists (firstn d x), (skipn d x).
  split; [symmetry; apply firstn_skipn|]. rewrite <- (firstn_skipn d x) in HF. apply Forall_app in HF.
  split; apply in_states; split; try tauto; [rewrite firstn_length|rewrite skipn_length]; lia.
Qed.

Lemma states_firstn d D C x : (d <= D)%nat -> In x (states D C) -> In (firstn d x) (states d C).
Proof.
  intros Hd Hx. replace D with (d + (D - d))%nat in Hx by lia. apply states_split in Hx. destruct Hx as (u & v & -> & Hu & _).
  pose proof Hu as H. apply in_states in H. rewrite <- (proj1 H), firstn_app, Nat.sub_diag, firstn_all. cbn [firstn]. rewrite app_nil_r.
  rewrite (proj1 H). exact Hu.
Qed.

Lemma firstn_left {A} (u v : list A) : firstn (length u) (u ++ v) = u.
Proof. rewrite firstn_app, Nat.sub_diag, firstn_all. cbn [firstn]. apply app_nil_r. Qed.

(** ** Sums over padded states *)
Lemma rsum_lists_over_app {A} (vals : list A) d e (F : list A -> R) :
  rsum (lists_over vals (d + e)) F = rsum (lists_over vals d) (fun u => rsum (lists_over vals e) (fun v => F (u ++ v))).
Proof.
  revert F; induction d as [|d IH]; intros F.
  - cbn [Nat.add]. change (lists_over vals 0) with [@nil A]. cbn [rsum app]. rewrite Rplus_0_r. reflexivity.
  - cbn [Nat.add]. rewrite !rsum_lists_over_cons. apply rsum_ext. intros v _. rewrite IH. reflexivity.
Qed.

Lemma padded_mean d e C fwD fw f : (0 < C)%nat -> pads d fwD fw ->
  mean (states (d + e) C) (fun x => exp (fwD x)) (fun x => f (firstn d x)) = mean (states d C) (fun u => exp (fw u)) f.
Proof.
  intros HC Hp. unfold mean.
  assert (H : forall g, rsum (states (d + e) C) (fun x => exp (fwD x) * g (firstn d x))
            = INR (C ^ e) * rsum (states d C) (fun u => exp (fw u) * g u)).
  { intros g. unfold states at 1. rewrite rsum_lists_over_app, <- rsum_scal. apply rsum_ext. intros u Hu.
    assert (Hl : length u = d) by (apply in_states in Hu; tauto).
    rewrite (rsum_ext _ _ (fun _ => exp (fw u) * g u)).
    - rewrite rsum_const. f_equal. fold (states e C). unfold states. rewrite length_lists_over, seq_length. reflexivity.
    - intros v _. rewrite Hp. rewrite <- Hl at 1 2. rewrite firstn_left. reflexivity. }
  assert (H1 : rsum (states (d + e) C) (fun x => exp (fwD x)) = INR (C ^ e) * rsum (states d C) (fun u => exp (fw u))).
  { transitivity (rsum (states (d + e) C) (fun x => exp (fwD x) * 1)); [apply rsum_ext; intros; ring|].
    rewrite (H (fun _ => 1)). f_equal. apply rsum_ext. intros; ring. }
  rewrite H, H1.
  assert (INR (C ^ e) <> 0) by (apply not_0_INR, Nat.pow_nonzero; lia).
  assert (0 < rsum (states d C) (fun u => exp (fw u))).
  { apply rsum_pos; [|intros; apply exp_pos]. intros E0. pose proof (length_lists_over (seq 0 C) d) as HL. fold (states d C) in HL.
    rewrite E0, seq_length in HL. cbn in HL. symmetry in HL. revert HL. apply Nat.pow_nonzero. lia. }
  field. lra.
Qed.

(** ** Lumping *)
Definition lumps {A B} (S : list A) (p : A -> B) (kD : A -> dist A) (k : B -> dist B) : Prop :=
  forall x f, In x S -> E (kD x) (fun y => f (p y)) = E (k (p x)) f.

Lemma lump_run {A B} (S : list A) (p : A -> B) (kD : nat -> A -> dist A) (k : nat -> B -> dist B) :
  (forall t, proper S (kD t)) -> (forall t, lumps S p (kD t) (k t)) ->
  forall n t x f, In x S -> E (run_seq kD n t x) (fun y => f (p y)) = E (run_seq k n t (p x)) f.
Proof.
  intros Hp Hl. induction n as [|n IH]; intros t x f Hx; cbn [run_seq].
  - rewrite !E_ret. reflexivity.
  - rewrite !E_bind. rewrite (E_ext_in (kD t x) _ (fun y => E (run_seq k n (Datatypes.S t) (p y)) f)).
    + apply (Hl t x (fun u => E (run_seq k n (Datatypes.S t) u) f) Hx).
    + intros a w Ha. apply IH. apply (proj2 (Hp t x Hx) a w Ha).
Qed.

(** ** Gibbs *)
Lemma add_mod_firstn d C idx i x : (idx < d)%nat -> firstn d (add_mod C idx i x) = add_mod C idx i (firstn d x).
Proof. intros H. unfold add_mod. rewrite firstn_map, firstn_upd, nth_firstn_lt by auto. reflexivity. Qed.

Lemma gibbs_lump d D C fwD fw idx x f : pads d fwD fw -> (d <= D)%nat -> In x (states D C) ->
  E (gibbs_step fwD C idx x) (fun y => f (firstn d y))
  = if Nat.ltb idx d then E (gibbs_step fw C idx (firstn d x)) f else f (firstn d x).
Proof.
  intros Hp Hd Hx. destruct (Nat.ltb_spec idx d) as [Hi|Hi].
  - unfold gibbs_step. rewrite !E_dmap.
    replace (gibbs_scores fwD C idx x) with (gibbs_scores fw C idx (firstn d x)).
    + apply E_ext. intros i. rewrite add_mod_firstn by auto. reflexivity.
    + unfold gibbs_scores. rewrite Hp. f_equal. apply map_ext. intros i. rewrite Hp, add_mod_firstn by auto. reflexivity.
  - rewrite (E_ext_in _ _ (fun _ => f (firstn d x))).
    + rewrite E_const. rewrite (proj2 (gibbs_is_prob fwD C idx x)). ring.
    + intros y w Hy. f_equal. unfold gibbs_step, dmap in Hy. apply in_map_iff in Hy. destruct Hy as ([i u] & Heq & _).
      apply (f_equal fst) in Heq. cbn [fst] in Heq. subst y. unfold add_mod. rewrite firstn_map, firstn_upd, upd_oob.
      * apply map_mod_id. apply states_firstn with (d := d) in Hx; auto. apply in_states in Hx. tauto.
      * rewrite firstn_length. lia.
Qed.

Lemma iter_index D C t : (0 < D)%nat -> g_index (Nat.iter t (gibbs_update D C) g_init) = (t mod D)%nat.
Proof.
  intros HD. induction t as [|t IH]; [cbn; symmetry; apply Nat.mod_0_l; lia|].
  change (Nat.iter (S t) (gibbs_update D C) g_init) with (gibbs_update D C (Nat.iter t (gibbs_update D C) g_init)).
  cbn [gibbs_update g_index]. rewrite IH. rewrite Nat.add_mod_idemp_l by lia. f_equal. lia.
Qed.

Definition gibbs_run_kernel (fw : list nat -> R) (d C : nat) : nat -> list nat -> dist (list nat) :=
  fun t => gibbs_step fw C (g_index (Nat.iter t (gibbs_update d C) g_init)).

Lemma gibbs_kernel_proper fw d C t : (0 < d)%nat -> proper (states d C) (gibbs_run_kernel fw d C t).
Proof. intros Hd. unfold gibbs_run_kernel. rewrite iter_index by auto. exact (gibbs_proper fw d C Hd t). Qed.

(** One sweep over the padded coordinates is one sweep over the real ones. *)
Lemma gibbs_sweep_lump d D C fwD fw : pads d fwD fw -> (0 < d <= D)%nat ->
  forall q x f, In x (states D C) ->
  E (run_seq (gibbs_run_kernel fwD D C) (q * D) 0 x) (fun y => f (firstn d y))
  = E (run_seq (gibbs_run_kernel fw d C) (q * d) 0 (firstn d x)) f.
Proof.
  intros Hp Hd.
  set (kl := fun t => fun u => if Nat.ltb (t mod D) d then gibbs_step fw C (t mod D) u else ret u).
  assert (L : forall n t x f, In x (states D C) ->
     E (run_seq (gibbs_run_kernel fwD D C) n t x) (fun y => f (firstn d y)) = E (run_seq kl n t (firstn d x)) f).
  { apply lump_run.
    - intros t. apply gibbs_kernel_proper. lia.
    - intros t x f Hx. unfold gibbs_run_kernel. rewrite iter_index by lia. rewrite (gibbs_lump d D C fwD fw) by (auto; lia).
      unfold kl. destruct (Nat.ltb (t mod D) d); [reflexivity|]. rewrite E_ret. reflexivity. }
  assert (Lreal : forall n j u f, (j + n <= d)%nat -> E (run_seq kl n j u) f = E (run_seq (gibbs_run_kernel fw d C) n j u) f).
  { induction n as [|n IH]; intros j u f Hj; cbn [run_seq]; [reflexivity|]. rewrite !E_bind.
    unfold kl at 1, gibbs_run_kernel at 1. rewrite iter_index by lia. rewrite !Nat.mod_small by lia.
    destruct (Nat.ltb_spec j d) as [_|Hc]; [|lia]. apply E_ext. intros a. apply IH. lia. }
  assert (Lpad : forall n j u f, (d <= j)%nat -> (j + n <= D)%nat -> E (run_seq kl n j u) f = f u).
  { induction n as [|n IH]; intros j u f Hj Hn; cbn [run_seq]; [apply E_ret|]. rewrite E_bind.
    unfold kl at 1. rewrite Nat.mod_small by lia. destruct (Nat.ltb_spec j d) as [Hc|_]; [lia|]. rewrite E_ret. apply IH; lia. }
  assert (Lsweep : forall u f, E (run_seq kl D 0 u) f = E (run_seq (gibbs_run_kernel fw d C) d 0 u) f).
  { intros u f. replace D with (d + (D - d))%nat at 1 by lia. rewrite run_seq_add. rewrite Lreal by lia. apply E_ext. intros v.
    apply Lpad; lia. }
  intros q x f Hx. rewrite L by auto. generalize (firstn d x) as u. revert f. clear x Hx.
  induction q as [|q IH]; intros f u; [reflexivity|]. cbn [Nat.mul]. rewrite !run_seq_add. rewrite Lsweep. apply E_ext. intros v.
  rewrite (run_seq_shift kl (q * D) (0 + D) 0), (run_seq_shift (gibbs_run_kernel fw d C) (q * d) (0 + d) 0).
  - apply IH.
  - intros i. unfold gibbs_run_kernel. rewrite !iter_index by lia. f_equal. replace (0 + d + i)%nat with (0 + i + 1 * d)%nat by lia.
    apply Nat.mod_add. lia.
  - intros i. unfold kl. replace (0 + D + i)%nat with (0 + i + 1 * D)%nat by lia. rewrite Nat.mod_add by lia. reflexivity.
Qed.

(** ** Block Gibbs *)
Lemma scatter_firstn d vals : forall start x, firstn d (scatter_block start vals x) = scatter_block start vals (firstn d x).
Proof. induction vals as [|v vals IH]; intros start x; cbn [scatter_block]; [reflexivity|]. rewrite IH, firstn_upd. reflexivity. Qed.

Lemma block_lump d fwD fw C b start x f : pads d fwD fw ->
  E (block_step fwD C b start x) (fun y => f (firstn d y)) = E (block_step fw C b start (firstn d x)) f.
Proof.
  intros Hp. unfold block_step. rewrite !E_dmap.
  replace (block_scores fwD C b start x) with (block_scores fw C b start (firstn d x)).
  - apply E_ext. intros i. rewrite scatter_firstn. reflexivity.
  - unfold block_scores. apply map_ext. intros vals. rewrite Hp, scatter_firstn. reflexivity.
Qed.

(** ** Independent draws *)
Lemma E_indep_app {A} (ds1 ds2 : list (dist A)) : forall f,
  E (indep (ds1 ++ ds2)) f = E (indep ds1) (fun a => E (indep ds2) (fun b => f (a ++ b))).
Proof.
  induction ds1 as [|d ds1 IH]; intros f; cbn [app].
  - cbn [indep]. rewrite E_ret. reflexivity.
  - rewrite !E_indep_cons. apply E_ext. intros a. rewrite IH. reflexivity.
Qed.

Lemma mass_indep {A} (ds : list (dist A)) : (forall d, In d ds -> mass d = 1) -> mass (indep ds) = 1.
Proof.
  induction ds as [|d ds IH]; intros H; [apply mass_ret|]. unfold mass. rewrite E_indep_cons.
  rewrite (E_ext d _ (fun _ => 1)) by (intros a; apply IH; intros; apply H; right; auto). apply H. left; auto.
Qed.

(** ** Random walk *)
Lemma rw_apply_app C u v a b : length a = length u -> rw_apply C (u ++ v) (a ++ b) = rw_apply C u a ++ rw_apply C v b.
Proof.
  intros H. unfold rw_apply. rewrite <- map_app. f_equal. clear C. revert a H.
  induction u as [|x u IH]; intros [|y a] H; try discriminate; cbn [app combine]; auto. rewrite IH by (cbn in H; lia). reflexivity.
Qed.

Lemma rw_lump g fwD fw radius d e C x f : pads d fwD fw -> (0 < d)%nat -> (2 <= C)%nat -> In x (states (d + e) C) ->
  E (rw_step g fwD radius (d + e) C x) (fun y => f (firstn d y))
  = E (rw_step g fw (radius * INR d / INR (d + e)) d C (firstn d x)) f.
Proof.
  intros Hp Hd HC Hx. apply states_split in Hx. destruct Hx as (u & v & -> & Hu & Hv).
  assert (Hlu : length u = d) by (apply in_states in Hu; tauto).
  replace (firstn d (u ++ v)) with u by (rewrite <- Hlu; symmetry; apply firstn_left).
  unfold rw_step. rewrite !E_bind. unfold rw_draws. rewrite repeat_app, E_indep_app.
  assert (0 < INR d) by (apply lt_0_INR; lia). assert (0 < INR (d + e)) by (apply lt_0_INR; lia).
  replace (radius * INR d / INR (d + e) / INR d) with (radius / INR (d + e)) by (field; lra).
  apply E_ext_in. intros a w Ha. apply in_indep_len in Ha. rewrite repeat_length in Ha.
  assert (Hf : forall b, firstn d (rw_apply C (u ++ v) (a ++ b)) = rw_apply C u a).
  { intros b. rewrite rw_apply_app by lia. rewrite <- (rw_apply_length C u a) in Hlu by lia. rewrite <- Hlu. apply firstn_left. }
  rewrite (E_ext _ _ (fun _ => E (mh_law g (fw (rw_apply C u a) - fw u) u (rw_apply C u a)) f)).
  - rewrite E_const. rewrite mass_indep; [ring|]. intros dd Hdd. apply repeat_spec in Hdd. subst dd.
    unfold rw_site, mass. rewrite E_bind, E_bernoulli, !E_dmap.
    change (E (uniform (seq 1 (C - 1))) (fun _ => 1)) with (mass (uniform (seq 1 (C - 1)))).
    rewrite (proj2 (is_prob_uniform (seq 1 (C - 1)) ltac:(destruct (C - 1)%nat eqn:E0; [lia|discriminate]))). ring.
  - intros b. rewrite !E_mh_law, Hf, !Hp, Hf. replace (firstn d (u ++ v)) with u by (rewrite <- Hlu; symmetry; apply firstn_left). reflexivity.
Qed.

(** ** Product proposals (DMALA, DLMC) *)
Lemma flip_bits_app a b u v : length a = length u -> flip_bits (a ++ b) (u ++ v) = flip_bits a u ++ flip_bits b v.
Proof.
  intros H. unfold flip_bits. rewrite <- map_app. f_equal. revert u H.
  induction a as [|y a IH]; intros [|x u] H; try discriminate; cbn [app combine]; auto. rewrite IH by (cbn in H; lia). reflexivity.
Qed.

Lemma bern_ll_app dg p q a b : length p = length a -> bern_ll dg (p ++ q) (a ++ b) = bern_ll dg p a + bern_ll dg q b.
Proof.
  intros H. unfold bern_ll. rewrite <- rsum_app. f_equal. revert a H.
  induction p as [|x p IH]; intros [|y a] H; try discriminate; cbn [app combine]; auto. rewrite IH by (cbn in H; lia). reflexivity.
Qed.

Lemma bern_lump g dg fwD fw psD ps pad d e x f : pads d fwD fw -> length pad = e ->
  (forall u, In u (states d 2) -> exists p, ps u = Some p /\ length p = d) ->
  (forall y p, In y (states (d + e) 2) -> ps (firstn d y) = Some p -> psD y = Some (p ++ pad)) ->
  In x (states (d + e) 2) ->
  E (bern_step g dg fwD psD x) (fun y => f (firstn d y)) = E (bern_step g dg fw ps (firstn d x)) f.
Proof.
  intros Hp He Hps HpsD Hx. pose proof Hx as Hx0. apply states_split in Hx. destruct Hx as (u & v & -> & Hu & Hv).
  assert (Hlu : length u = d) by (apply in_states in Hu; tauto). assert (Hlv : length v = e) by (apply in_states in Hv; tauto).
  assert (Hfu : firstn d (u ++ v) = u) by (rewrite <- Hlu; apply firstn_left).
  destruct (Hps u Hu) as (p & Hpu & Hlp). unfold bern_step. rewrite (HpsD (u ++ v) p Hx0) by (rewrite Hfu; auto). rewrite Hfu, Hpu, !E_bind.
  rewrite map_app, E_indep_app. apply E_ext_in. intros a w Ha. apply in_indep_len in Ha. rewrite map_length in Ha.
  assert (Hya : In (flip_bits a u) (states d 2)) by (apply flip_bits_states; auto; lia).
  destruct (Hps (flip_bits a u) Hya) as (q & Hq & Hlq). rewrite Hq.
  rewrite (E_ext_in _ _ (fun _ => E (mh_law g (fw (flip_bits a u) + bern_ll dg q a - fw u - bern_ll dg p a) u (flip_bits a u)) f)).
  - rewrite E_const. rewrite mass_indep; [ring|]. intros dd Hdd. apply in_map_iff in Hdd. destruct Hdd as (r & <- & _).
    unfold mass. rewrite E_bernoulli. ring.
  - intros b wb Hb. apply in_indep_len in Hb. rewrite map_length in Hb.
    assert (Hf : firstn d (flip_bits (a ++ b) (u ++ v)) = flip_bits a u).
    { rewrite flip_bits_app by lia. replace d with (length (flip_bits a u)) by (rewrite flip_bits_length; lia). apply firstn_left. }
    assert (Hin : In (flip_bits (a ++ b) (u ++ v)) (states (d + e) 2)) by (apply flip_bits_states; auto; rewrite app_length; lia).
    rewrite (HpsD _ q Hin) by (rewrite Hf; auto). rewrite !E_mh_law, Hf, Hfu, !Hp, Hf, Hfu. rewrite !bern_ll_app by lia.
    replace (fw (flip_bits a u) + (bern_ll dg q a + bern_ll dg pad b) - fw u - (bern_ll dg p a + bern_ll dg pad b))
      with (fw (flip_bits a u) + bern_ll dg q a - fw u - bern_ll dg p a) by ring. reflexivity.
Qed.

Lemma map_seq_app {A} (h : nat -> A) d e : map h (seq 0 (d + e)) = map h (seq 0 d) ++ map (fun j => h (d + j)%nat) (seq 0 e).
Proof.
  rewrite seq_app, map_app. f_equal. cbn [Nat.add]. revert d; induction e as [|e IH]; intros d; [reflexivity|].
  cbn [seq map]. rewrite Nat.add_0_r. f_equal. rewrite IH, <- seq_shift, map_map. apply map_ext. intros j. f_equal. lia.
Qed.

Lemma dmala_lump g dg fwD fw lt wf lrD lr d e x f : pads d fwD fw -> pads_scores d lrD lr -> In x (states (d + e) 2) ->
  E (dmala_bin_step g dg fwD (fun _ => lt) wf lrD x) (fun y => f (firstn d y)) = E (dmala_bin_step g dg fw (fun _ => lt) wf lr (firstn d x)) f.
Proof.
  intros Hp Hs Hx. unfold dmala_bin_step.
  apply (bern_lump g dg fwD fw _ _ (map (fun _ => dmala_p lt (wf 0)) (seq 0 e)) d e); auto.
  - rewrite map_length, seq_length. reflexivity.
  - intros u Hu. exists (map (fun i => dmala_p lt (wf (lr u i))) (seq 0 d)). apply in_states in Hu. unfold dmala_ps.
    rewrite (proj1 Hu), map_length, seq_length. auto.
  - intros y p Hy Hps. pose proof (states_firstn d (d + e) 2 y ltac:(lia) Hy) as Hf. apply in_states in Hf, Hy.
    unfold dmala_ps in *. rewrite (proj1 Hf) in Hps. injection Hps as <-. rewrite (proj1 Hy), map_seq_app. do 2 f_equal.
    + apply map_ext_in. intros i Hi. apply in_seq in Hi. rewrite Hs. destruct (Nat.ltb_spec i d); [reflexivity|lia].
    + apply map_ext. intros j. rewrite Hs. destruct (Nat.ltb_spec (d + j) d); [lia|reflexivity].
Qed.

Lemma all_some_app {A} (a b : list (option A)) x y : all_some a = Some x -> all_some b = Some y -> all_some (a ++ b) = Some (x ++ y).
Proof.
  revert x; induction a as [|[v|] a IH]; intros x Ha Hb; cbn [app all_some] in *.
  - injection Ha as <-. exact Hb.
  - destruct (all_some a) as [r|]; [|discriminate]. injection Ha as <-. rewrite (IH r) by auto. reflexivity.
  - discriminate.
Qed.

Lemma all_some_const {A} (v : A) e : all_some (map (fun _ => Some v) (seq 0 e)) = Some (map (fun _ => v) (seq 0 e)).
Proof. generalize 0%nat as s. induction e as [|e IH]; intros s; [reflexivity|]. cbn [seq map all_some]. rewrite IH. reflexivity. Qed.

Lemma dlmc_lump g dg fwD fw solver lt wf lrD lr d e x f : known_solver solver -> pads d fwD fw -> pads_scores d lrD lr -> In x (states (d + e) 2) ->
  E (dlmc_bin_step g dg fwD solver (fun _ => lt) wf lrD x) (fun y => f (firstn d y))
  = E (dlmc_bin_step g dg fw solver (fun _ => lt) wf lr (firstn d x)) f.
Proof.
  intros Hk Hp Hs Hx. unfold dlmc_bin_step. destruct (dlmc_p_ok solver lt (wf 0) 0 Hk) as (p0 & Hp0 & _).
  apply (bern_lump g dg fwD fw _ _ (map (fun _ => p0) (seq 0 e)) d e); auto.
  - rewrite map_length, seq_length. reflexivity.
  - intros u Hu. destruct (dlmc_ps_ok solver lt wf lr d u Hk Hu) as (p & H1 & H2 & _). exists p. auto.
  - intros y p Hy Hps. pose proof (states_firstn d (d + e) 2 y ltac:(lia) Hy) as Hf. apply in_states in Hf, Hy.
    unfold dlmc_ps in *. rewrite (proj1 Hf) in Hps. rewrite (proj1 Hy), map_seq_app. apply all_some_app.
    + rewrite <- Hps. f_equal. apply map_ext_in. intros i Hi. apply in_seq in Hi. rewrite Hs. destruct (Nat.ltb_spec i d); [reflexivity|lia].
    + rewrite <- all_some_const. f_equal. apply map_ext. intros j. rewrite Hs. destruct (Nat.ltb_spec (d + j) d); [lia|exact Hp0].
Qed.

(** The exact flip scores of a padded log-density. *)
Lemma flip_scores_pad d fwD fw : pads d fwD fw -> pads_scores d (paf_lr_grad_bin (flip_grad fwD)) (paf_lr_grad_bin (flip_grad fw)).
Proof.
  intros Hp x i. unfold paf_lr_grad_bin, flip_grad, neighbor. rewrite !Hp, firstn_upd. destruct (Nat.ltb_spec i d) as [Hi|Hi].
  - rewrite !nth_firstn_lt by auto. reflexivity.
  - rewrite upd_oob by (rewrite firstn_length; lia). ring.
Qed.

(** ** The local step size *)
Lemma rates_pad wf lrD lr d e xs : pads_scores d lrD lr -> Forall (fun x => length x = (d + e)%nat) xs ->
  rsum (map (chain_rates wf lrD) xs) sumexp
  = rsum xs (fun x => rsum (seq 0 d) (fun i => exp (wf (lr (firstn d x) i)))) + INR (length xs) * (INR e * exp (wf 0)).
Proof.
  intros Hs. induction xs as [|x xs IH]; intros HF; [cbn; ring|]. pose proof (Forall_inv HF) as Hx. apply Forall_inv_tail in HF.
  cbn [map rsum]. rewrite IH by auto. cbn [length]. rewrite S_INR.
  assert (sumexp (chain_rates wf lrD x) = rsum (seq 0 d) (fun i => exp (wf (lr (firstn d x) i))) + INR e * exp (wf 0)) as ->; [|ring].
  unfold sumexp, chain_rates. rewrite Hx, map_seq_app, rsum_app, !rsum_map. f_equal.
  - apply rsum_ext. intros i Hi. apply in_seq in Hi. rewrite Hs. destruct (Nat.ltb_spec i d); [reflexivity|lia].
  - rewrite (rsum_ext _ _ (fun _ => exp (wf 0))); [rewrite rsum_const, seq_length; reflexivity|].
    intros j _. rewrite Hs. destruct (Nat.ltb_spec (d + j) d); [lia|reflexivity].
Qed.

Lemma local_tau_pad n wf lrD lr d e xs : 0 < n -> (0 < d)%nat -> xs <> [] -> pads_scores d lrD lr -> Forall (fun x => length x = (d + e)%nat) xs ->
  let Z := rsum xs (fun x => rsum (seq 0 d) (fun i => exp (wf (lr (firstn d x) i)))) / INR (length xs) in
  0 < Z /\ exp (local_log_tau n (dmala_log_z (map (chain_rates wf lrD) xs))) = n / (Z + INR e * exp (wf 0)).
Proof.
  intros Hn Hd Hne Hs HF Z.
  assert (HL : 0 < INR (length xs)) by (apply lt_0_INR; destruct xs; [congruence|cbn; lia]).
  assert (HZ : 0 < Z).
  { apply Rdiv_lt_0_compat; auto. apply rsum_pos; auto. intros x _. apply rsum_pos; [destruct d; [lia|discriminate]|intros; apply exp_pos]. }
  split; auto. unfold local_log_tau, dmala_log_z. rewrite (rates_pad wf lrD lr d e) by auto. rewrite map_length.
  replace ((rsum xs (fun x => rsum (seq 0 d) (fun i => exp (wf (lr (firstn d x) i)))) + INR (length xs) * (INR e * exp (wf 0))) / INR (length xs))
    with (Z + INR e * exp (wf 0)) by (unfold Z; field; lra).
  assert (0 <= INR e * exp (wf 0)) by (apply Rmult_le_pos; [apply pos_INR|left; apply exp_pos]).
  unfold Rminus. rewrite exp_plus, exp_Ropp, !exp_ln by lra. reflexivity.
Qed.

(** ** Masked proposals: the padding is hit with negligible probability *)
Lemma accept_ratio g la lb r dl : 0 <= g <= 1 -> 0 <= dl -> exp la = exp lb * r -> 1 - dl <= r -> r * (1 - dl) <= 1 -> 0 < r ->
  Rabs (accept_prob g la - accept_prob g lb) <= 2 * dl.
Proof.
  intros Hg Hdl He H1 H2 Hr. unfold accept_prob. rewrite He. pose proof (exp_pos lb) as Hb. set (b := exp lb) in *. clearbody b. clear He lb la.
  assert (K : forall a s, 0 < a -> 0 <= s <= 1 -> 1 - s <= dl ->
     0 <= Rmax 0 (Rmin 1 (a - g)) - Rmax 0 (Rmin 1 (a * s - g)) <= 2 * dl).
  { intros a s Ha Hs Hd. assert (Hm : a * s <= a) by nra. assert (Hk : a <= 1 + g -> a - a * s <= 2 * dl) by (intros; nra).
    assert (Hk2 : 1 + g < a -> 1 - (a * s - g) <= 2 * dl) by (intros; nra).
    unfold Rmin. repeat match goal with |- context [Rle_dec ?p ?q] => destruct (Rle_dec p q) end;
      unfold Rmax; repeat match goal with |- context [Rle_dec ?p ?q] => destruct (Rle_dec p q) end; split; try lra;
      destruct (Rle_dec a (1 + g)); try (specialize (Hk ltac:(lra))); try (specialize (Hk2 ltac:(lra))); lra. }
  destruct (Rle_dec r 1) as [Hr1|Hr1].
  - specialize (K b r Hb ltac:(lra) ltac:(lra)). rewrite Rabs_minus_sym, Rabs_pos_eq; lra.
  - assert (Hi : 0 < / r) by (apply Rinv_0_lt_compat; lra).
    assert (Hir : r * / r = 1) by (apply Rinv_r; lra).
    specialize (K (b * r) (/ r) ltac:(nra) ltac:(nra) ltac:(nra)). replace (b * r * / r) with b in K by (rewrite Rmult_assoc, Hir; ring).
    rewrite Rabs_pos_eq; lra.
Qed.

Lemma approx_mix {A} (AuxD Aux Rest : list A) (PD Pd GD Gd : A -> R) dl :
  (forall F, rsum AuxD F = rsum Aux F + rsum Rest F) ->
  (forall a, In a Rest -> 0 <= PD a /\ Rabs (GD a) <= 1) -> rsum AuxD PD = 1 -> rsum Aux Pd = 1 ->
  (forall a, In a Aux -> 0 <= Pd a /\ (1 - dl) * Pd a <= PD a <= Pd a /\ Rabs (GD a) <= 1 /\ Rabs (GD a - Gd a) <= 4 * dl) ->
  Rabs (rsum AuxD (fun a => PD a * GD a) - rsum Aux (fun a => Pd a * Gd a)) <= 6 * dl.
Proof.
  intros Hsplit HR H1 H2 HA. rewrite Hsplit.
  replace (rsum Aux (fun a => PD a * GD a) + rsum Rest (fun a => PD a * GD a) - rsum Aux (fun a => Pd a * Gd a))
    with (rsum Aux (fun a => (PD a - Pd a) * GD a + Pd a * (GD a - Gd a)) + rsum Rest (fun a => PD a * GD a)).
  2:{ rewrite (rsum_ext Aux (fun a => (PD a - Pd a) * GD a + Pd a * (GD a - Gd a)) (fun a => PD a * GD a - Pd a * Gd a)) by (intros; ring).
      rewrite rsum_minus. ring. }
  rewrite Hsplit in H1.
  assert (B1 : Rabs (rsum Aux (fun a => (PD a - Pd a) * GD a + Pd a * (GD a - Gd a))) <= rsum Aux (fun a => (Pd a - PD a) + 4 * dl * Pd a)).
  { eapply Rle_trans; [apply rsum_abs|]. apply rsum_le. intros a Ha. destruct (HA a Ha) as (Q1 & (Q2 & Q3) & Q4 & Q5).
    eapply Rle_trans; [apply Rabs_triang|]. rewrite !Rabs_mult. rewrite (Rabs_left1 (PD a - Pd a)) by lra. rewrite (Rabs_pos_eq (Pd a)) by auto.
    pose proof (Rabs_pos (GD a)). pose proof (Rabs_pos (GD a - Gd a)). nra. }
  assert (B2 : Rabs (rsum Rest (fun a => PD a * GD a)) <= rsum Rest PD).
  { eapply Rle_trans; [apply rsum_abs|]. apply rsum_le. intros a Ha. destruct (HR a Ha) as (Q1 & Q2). rewrite Rabs_mult, (Rabs_pos_eq (PD a)) by auto.
    pose proof (Rabs_pos (GD a)). nra. }
  assert (B3 : rsum Aux (fun a => (1 - dl) * Pd a) <= rsum Aux PD) by (apply rsum_le; intros a Ha; apply (HA a Ha)).
  rewrite rsum_scal, H2 in B3.
  assert (B4 : rsum Aux (fun a => (Pd a - PD a) + 4 * dl * Pd a) = 1 - rsum Aux PD + 4 * dl).
  { rewrite (rsum_plus Aux (fun a => Pd a - PD a) (fun a => 4 * dl * Pd a)), (rsum_minus Aux Pd PD), rsum_scal, H2. ring. }
  rewrite B4 in B1.
  eapply Rle_trans; [apply Rabs_triang|]. lra.
Qed.

Lemma Rabs_le1 a : Rabs a <= 1 -> -1 <= a <= 1.
Proof. unfold Rabs. destruct (Rcase_abs a); lra. Qed.

(** A masked Metropolis step compared with the unpadded one: the path probabilities (forward [lx], backward [ly]) agree up to
    a factor in [1 - dl, 1]. *)
Lemma masked_kernel {A} (AuxD Aux Rest : list A) (lxD lyD lx ly dE : A -> R) (TD : A -> list nat) (x u : list nat) (T : A -> list nat)
    (laD la : A -> R) g dl (p : list nat -> list nat) (f : list nat -> R) :
  0 <= g <= 1 -> 0 <= dl < 1 -> p x = u -> (forall z, Rabs (f z) <= 1) ->
  (forall F, rsum AuxD F = rsum Aux F + rsum Rest F) ->
  rsum AuxD (fun a => exp (lxD a)) = 1 -> rsum Aux (fun a => exp (lx a)) = 1 ->
  (forall a, In a Aux -> p (TD a) = T a /\ (1 - dl) * exp (lx a) <= exp (lxD a) <= exp (lx a) /\ (1 - dl) * exp (ly a) <= exp (lyD a) <= exp (ly a)
     /\ laD a = dE a + lyD a - lxD a /\ la a = dE a + ly a - lx a) ->
  Rabs (rsum AuxD (fun a => exp (lxD a) * E (mh_law g (laD a) x (TD a)) (fun z => f (p z)))
        - rsum Aux (fun a => exp (lx a) * E (mh_law g (la a) u (T a)) f)) <= 6 * dl.
Proof.
  intros Hg Hdl Hpx Hf Hsplit H1 H2 HA.
  assert (Hb : forall z1 z2 l, Rabs (accept_prob g l * f z1 + (1 - accept_prob g l) * f z2) <= 1).
  { intros z1 z2 l. pose proof (accept_prob_range g l). pose proof (Hf z1) as K1. pose proof (Hf z2) as K2. apply Rabs_le1 in K1, K2.
    apply Rabs_le. split; nra. }
  apply (approx_mix AuxD Aux Rest (fun a => exp (lxD a)) (fun a => exp (lx a))
           (fun a => E (mh_law g (laD a) x (TD a)) (fun z => f (p z))) (fun a => E (mh_law g (la a) u (T a)) f) dl); auto.
  - intros a _. split; [left; apply exp_pos|]. rewrite E_mh_law. apply Hb.
  - intros a Ha. destruct (HA a Ha) as (Q1 & Q2 & Q3 & Q4 & Q5). split; [left; apply exp_pos|]. split; [exact Q2|].
    rewrite !E_mh_law, Q1, Hpx. split; [apply Hb|].
    replace (_ - _) with ((accept_prob g (laD a) - accept_prob g (la a)) * (f (T a) - f u)) by ring.
    rewrite Rabs_mult. replace (4 * dl) with (2 * dl * 2) by ring.
    apply Rmult_le_compat; try apply Rabs_pos.
    + pose proof (exp_pos (lxD a)). pose proof (exp_pos (lx a)). pose proof (exp_pos (lyD a)). pose proof (exp_pos (ly a)).
      set (ry := exp (lyD a - ly a)). set (rx := exp (lxD a - lx a)).
      assert (Hry : exp (lyD a) = exp (ly a) * ry) by (unfold ry; rewrite <- exp_plus; f_equal; ring).
      assert (Hrx : exp (lxD a) = exp (lx a) * rx) by (unfold rx; rewrite <- exp_plus; f_equal; ring).
      assert (0 < ry) by apply exp_pos. assert (0 < rx) by apply exp_pos.
      assert (1 - dl <= ry <= 1) by (rewrite Hry in Q3; split; nra). assert (1 - dl <= rx <= 1) by (rewrite Hrx in Q2; split; nra).
      apply (accept_ratio g (laD a) (la a) (ry / rx)); auto; try lra.
      * rewrite Q4, Q5. unfold ry, rx, Rdiv. rewrite <- exp_Ropp, <- !exp_plus. f_equal. ring.
      * apply (Rmult_le_reg_r rx); auto. unfold Rdiv. rewrite Rmult_assoc, Rinv_l by lra. nra.
      * apply (Rmult_le_reg_r rx); auto. unfold Rdiv. replace (ry * / rx * (1 - dl) * rx) with (ry * (1 - dl) * (/ rx * rx)) by ring. rewrite Rinv_l by lra. nra.
      * apply Rdiv_lt_0_compat; auto.
    + unfold Rminus. eapply Rle_trans; [apply Rabs_triang|]. rewrite Rabs_Ropp. pose proof (Hf (T a)). pose proof (Hf u). lra.
Qed.

Lemma Rabs_E_le1 {A} (d : dist A) f : is_prob d -> (forall a, Rabs (f a) <= 1) -> Rabs (E d f) <= 1.
Proof. intros [H1 H2] Hf. eapply Rle_trans; [apply (E_abs_le d f 1); auto|]. rewrite H2. lra. Qed.

Lemma pow_ge_lin eta k : 0 <= eta <= 1 -> 1 - INR k * eta <= (1 - eta) ^ k.
Proof.
  intros H. induction k as [|k IH]; [cbn; lra|]. rewrite S_INR. cbn [pow].
  pose proof (pos_INR k). assert (0 <= (1 - eta) ^ k) by (apply pow_le; lra). nra.
Qed.

(** Splitting a sum over selections by whether the padding is touched. *)
Lemma rsum_filter_split {A} (r : A -> bool) (L L' : list A) F : NoDup L -> NoDup L' ->
  (forall a, In a L' <-> In a L /\ r a = true) ->
  rsum L F = rsum L' F + rsum (filter (fun a => negb (r a)) L) F.
Proof.
  intros H1 H2 H3. rewrite (rsum_perm L' (filter r L)).
  - clear. induction L as [|a L IH]; [cbn; ring|]. cbn [filter]. destruct (r a); cbn [negb rsum]; rewrite IH; ring.
  - apply NoDup_Permutation; auto; [apply NoDup_filter; auto|]. intros a. rewrite filter_In. apply H3.
Qed.

Definition real_path (d : nat) (p : list nat) : bool := forallb (fun i => Nat.ltb i d) p.
Lemma real_path_spec d p : real_path d p = true <-> Forall (fun i => (i < d)%nat) p.
Proof. unfold real_path. rewrite forallb_forall, Forall_forall. split; intros H i Hi; apply Nat.ltb_lt, H; auto. Qed.

Lemma flip_idx_firstn d a x : Forall (fun i => (i < d)%nat) a -> firstn d (flip_idx a x) = flip_idx a (firstn d x).
Proof.
  intros Ha. unfold flip_idx.
  enough (H : forall y, firstn d (fold_left (fun y i => upd i (1 - nth i x 0)%nat y) a y)
     = fold_left (fun y i => upd i (1 - nth i (firstn d x) 0)%nat y) a (firstn d y)) by apply H.
  induction a as [|i a IH]; intros y; [reflexivity|]. pose proof (Forall_inv Ha) as Hi. apply Forall_inv_tail in Ha.
  cbn [fold_left]. rewrite IH by auto. rewrite firstn_upd, nth_firstn_lt by auto. reflexivity.
Qed.

Section Masked.
  Variables (d e : nat) (wf : R -> R) (lrD lr : list nat -> nat -> R) (m : R).
  Hypothesis Hd : (0 < d)%nat.
  Hypothesis Hlr : forall x i, (i < d)%nat -> lrD x i = lr (firstn d x) i.
  Hypothesis Hm : 0 < m.
  Hypothesis Hmin : forall u i, In u (states d 2) -> (i < d)%nat -> m <= exp (wf (lr u i)).

  Let M := Some (node_mask d).
  Let raw (u : list nat) (i : nat) : R := if Nat.ltb i d then exp (wf (lr u i)) else exp (- 10 ^ 9).
  Let V := INR e * exp (- 10 ^ 9).
  Let W (u : list nat) := rsum (seq 0 d) (raw u).

  Lemma mk_V : 0 <= V.
  Proof. apply Rmult_le_pos; [apply pos_INR|left; apply exp_pos]. Qed.
  Lemma mk_raw u i : 0 < raw u i.
  Proof. unfold raw. destruct (Nat.ltb i d); apply exp_pos. Qed.
  Lemma mk_W u : In u (states d 2) -> m <= W u.
  Proof.
    intros Hu. unfold W. replace (seq 0 d) with (0%nat :: seq 1 (d - 1)) by (destruct d; [lia|cbn; rewrite Nat.sub_0_r; reflexivity]). cbn [rsum].
    assert (m <= raw u 0%nat) by (unfold raw; destruct (Nat.ltb_spec 0 d); [apply Hmin; auto|lia]).
    assert (0 <= rsum (seq 1 (d - 1)) (raw u)) by (apply rsum_nonneg; intros; left; apply mk_raw). lra.
  Qed.
  Lemma mk_padsum u : rsum (seq d e) (raw u) = V.
  Proof.
    rewrite (rsum_ext _ _ (fun _ => exp (- 10 ^ 9))); [rewrite rsum_const, seq_length; reflexivity|].
    intros i Hi. apply in_seq in Hi. unfold raw. destruct (Nat.ltb_spec i d); [lia|reflexivity].
  Qed.

  Lemma mk_score_pad x i : exp (mask_score M i (wf (lrD x i))) = raw (firstn d x) i.
  Proof.
    unfold mask_score, M, node_mask, raw. destruct (Nat.ltb_spec i d) as [Hi|Hi]; f_equal; [rewrite Hlr by auto|]; ring.
  Qed.
  Lemma mk_score u i : (i < d)%nat -> exp (mask_score M i (wf (lr u i))) = raw u i.
  Proof. intros Hi. unfold mask_score, M, node_mask, raw. destruct (Nat.ltb_spec i d); [|lia]. f_equal. ring. Qed.

  Lemma mk_nth_pad x i : length x = (d + e)%nat -> (i < d + e)%nat ->
    exp (nth i (paf_dist wf lrD M x) 0) = raw (firstn d x) i * / (W (firstn d x) + V).
  Proof.
    intros Hl Hi. unfold paf_dist, log_softmax. rewrite Hl.
    set (l := map (fun i0 => mask_score M i0 (wf (lrD x i0))) (seq 0 (d + e))).
    assert (HS : sumexp l = W (firstn d x) + V).
    { unfold sumexp, l. rewrite rsum_map. rewrite (rsum_ext _ _ (raw (firstn d x))) by (intros; apply mk_score_pad).
      rewrite seq_app, rsum_app, Nat.add_0_l, mk_padsum. reflexivity. }
    rewrite HS. assert (HLl : length l = (d + e)%nat) by (unfold l; rewrite map_length, seq_length; reflexivity).
    rewrite (nth_map_lt _ _ _ 0) by lia.
    unfold l. rewrite (nth_map_lt _ _ _ 0%nat) by (rewrite seq_length; auto). rewrite seq_nth by auto. cbn [Nat.add].
    unfold Rminus. rewrite exp_plus, mk_score_pad, exp_Ropp, exp_ln; [reflexivity|]. rewrite <- HS. apply sumexp_pos.
    intros ->. cbn in HLl. lia.
  Qed.
  Lemma mk_nth u i : length u = d -> (i < d)%nat -> exp (nth i (paf_dist wf lr M u) 0) = raw u i * / W u.
  Proof.
    intros Hl Hi. unfold paf_dist, log_softmax. rewrite Hl.
    set (l := map (fun i0 => mask_score M i0 (wf (lr u i0))) (seq 0 d)).
    assert (HS : sumexp l = W u).
    { unfold sumexp, l. rewrite rsum_map. apply rsum_ext. intros j Hj. apply in_seq in Hj. apply mk_score. lia. }
    rewrite HS. assert (HLl : length l = d) by (unfold l; rewrite map_length, seq_length; reflexivity).
    rewrite (nth_map_lt _ _ _ 0) by lia.
    unfold l. rewrite (nth_map_lt _ _ _ 0%nat) by (rewrite seq_length; auto). rewrite seq_nth by auto. cbn [Nat.add].
    unfold Rminus. rewrite exp_plus, mk_score, exp_Ropp, exp_ln; auto. rewrite <- HS. apply sumexp_pos.
    intros ->. cbn in HLl. lia.
  Qed.

  Variable k : nat.
  Let dl := INR k * (V / m).

  Lemma mk_eta : 0 <= V / m.
  Proof. apply Rmult_le_pos; [apply mk_V|left; apply Rinv_0_lt_compat; auto]. Qed.

  (** GWG: selections with replacement. *)
  Lemma gwg_ll_pad x a : In x (states (d + e) 2) -> Forall (fun i => (i < d)%nat) a -> V / m <= 1 ->
    (1 - V / m) ^ length a * exp (gwg_ll (paf_dist wf lr M (firstn d x)) a) <= exp (gwg_ll (paf_dist wf lrD M x) a)
      <= exp (gwg_ll (paf_dist wf lr M (firstn d x)) a).
  Proof.
    intros Hx Ha He. pose proof (states_firstn d (d + e) 2 x ltac:(lia) Hx) as Hu. apply in_states in Hx as [Hl _].
    pose proof Hu as Hu'. apply in_states in Hu' as [Hlu _]. pose proof mk_eta as Heta. pose proof mk_V as HV.
    pose proof (mk_W _ Hu) as HW.
    unfold gwg_ll. induction a as [|i a IH]; [cbn [rsum length pow]; lra|].
    pose proof (Forall_inv Ha) as Hi. cbv beta in Hi. apply Forall_inv_tail in Ha. specialize (IH Ha). cbn [rsum length pow]. rewrite !exp_plus.
    rewrite mk_nth_pad, mk_nth by (auto; lia). set (u := firstn d x) in *.
    set (A := exp (rsum a (fun j => nth j (paf_dist wf lr M u) 0))) in *. set (B := exp (rsum a (fun j => nth j (paf_dist wf lrD M x) 0))) in *.
    assert (0 < A) by apply exp_pos. assert (0 < B) by apply exp_pos. pose proof (mk_raw u i) as Hr.
    set (q := W u / (W u + V)). assert (Hq : raw u i * / (W u + V) = raw u i * / W u * q) by (unfold q; field; lra).
    rewrite Hq. assert (Hc : 0 < raw u i * / W u) by (apply Rmult_lt_0_compat; auto; apply Rinv_0_lt_compat; lra).
    assert (Hq1 : q <= 1) by (unfold q; apply (Rmult_le_reg_r (W u + V)); [lra|]; unfold Rdiv; rewrite Rmult_assoc, Rinv_l by lra; lra).
    assert (Hq2 : 1 - V / m <= q).
    { unfold q. apply (Rmult_le_reg_r (W u + V)); [lra|]. replace (W u / (W u + V) * (W u + V)) with (W u) by (field; lra).
      assert (V <= V / m * W u) by (replace V with (V / m * m) at 1 by (field; lra); apply Rmult_le_compat_l; auto). nra. }
    assert (0 <= (1 - V / m) ^ length a) by (apply pow_le; lra). set (P := (1 - V / m) ^ length a) in *. set (c := raw u i * / W u) in *.
    split.
    - replace ((1 - V / m) * P * (c * A)) with (c * ((1 - V / m) * (P * A))) by ring. rewrite (Rmult_assoc c). apply Rmult_le_compat_l; [lra|].
      apply Rmult_le_compat; try lra. apply Rmult_le_pos; lra.
    - rewrite (Rmult_assoc c). apply Rmult_le_compat_l; [lra|]. nra.
  Qed.

  (** Path auxiliary: selections without replacement. *)
  Lemma path_prob_scale (w w' : nat -> R) c : c <> 0 -> forall p avail, NoDup avail -> incl p avail -> NoDup p -> (forall i, In i avail -> 0 < w i) ->
    (forall i, In i avail -> w' i = w i * c) -> path_prob w' avail p = path_prob w avail p.
  Proof.
    intros Hc. induction p as [|i p IH]; intros avail Hav Hin Hnd Hp Hw; [reflexivity|]. cbn [path_prob].
    apply NoDup_cons_iff in Hnd as [Hn1 Hn2].
    assert (Hi : In i avail) by (apply Hin; left; auto). rewrite (IH (remove_nat i avail)).
    - rewrite (rsum_ext avail w' (fun j => w j * c)) by auto. rewrite rsum_scal_r, Hw by auto. f_equal.
      assert (0 < rsum avail w) by (apply rsum_pos; auto; intros ->; destruct Hi). field. split; lra.
    - apply NoDup_remove_nat; auto.
    - intros j Hj. apply in_remove_nat; auto. split; [apply Hin; right; auto|]. intros ->. contradiction.
    - auto.
    - intros j Hj. apply in_remove_nat in Hj; auto. apply Hp; tauto.
    - intros j Hj. apply in_remove_nat in Hj; auto. apply Hw; tauto.
  Qed.

  Lemma remove_nat_app i a b : In i a -> remove_nat i (a ++ b) = remove_nat i a ++ b.
  Proof.
    induction a as [|j a IH]; intros H; [destruct H|]. cbn [app remove_nat]. destruct (Nat.eqb_spec i j); [reflexivity|].
    cbn [app]. rewrite IH; auto. destruct H; [congruence|auto].
  Qed.

  Lemma path_prob_pad (w : nat -> R) mm pad : 0 < mm -> (forall i, 0 < w i) -> rsum pad w / mm <= 1 ->
    forall p avail, NoDup avail -> NoDup p -> incl p avail -> (forall i, In i avail -> mm <= w i) ->
    (1 - rsum pad w / mm) ^ length p * path_prob w avail p <= path_prob w (avail ++ pad) p <= path_prob w avail p /\ 0 < path_prob w avail p.
  Proof.
    intros Hmm Hw He. set (U := rsum pad w) in *.
    assert (HU : 0 <= U) by (apply rsum_nonneg; intros; left; auto).
    induction p as [|i p IH]; intros avail Hav Hnd Hin Hlow; [cbn [path_prob length pow]; lra|].
    apply NoDup_cons_iff in Hnd as [Hn1 Hn2]. cbn [path_prob length pow].
    assert (Hi : In i avail) by (apply Hin; left; auto).
    rewrite remove_nat_app by auto. rewrite rsum_app. fold U.
    destruct (IH (remove_nat i avail)) as [[I1 I2] I3]; auto.
    - apply NoDup_remove_nat; auto.
    - intros j Hj. apply in_remove_nat; auto. split; [apply Hin; right; auto|]. intros ->. contradiction.
    - intros j Hj. apply in_remove_nat in Hj; auto. apply Hlow; tauto.
    - set (A := path_prob w (remove_nat i avail) p) in *. set (B := path_prob w (remove_nat i avail ++ pad) p) in *.
      assert (HS : mm <= rsum avail w).
      { apply Rle_trans with (w i); auto. apply (rsum_ge_term avail w i); auto. intros; left; auto. }
      set (Sm := rsum avail w) in *. set (q := Sm / (Sm + U)).
      assert (Hq : w i / (Sm + U) = w i / Sm * q) by (unfold q; field; lra). rewrite Hq.
      assert (Hc : 0 < w i / Sm) by (apply Rdiv_lt_0_compat; auto; lra). set (c := w i / Sm) in *.
      assert (Heta : 0 <= U / mm) by (apply Rmult_le_pos; auto; left; apply Rinv_0_lt_compat; auto).
      assert (Hq1 : 0 < q <= 1).
      { split; [apply Rdiv_lt_0_compat; lra|]. unfold q; apply (Rmult_le_reg_r (Sm + U)); [lra|]; unfold Rdiv; rewrite Rmult_assoc, Rinv_l by lra; lra. }
      assert (Hq2 : 1 - U / mm <= q).
      { unfold q. apply (Rmult_le_reg_r (Sm + U)); [lra|]. replace (Sm / (Sm + U) * (Sm + U)) with Sm by (field; lra).
        assert (U <= U / mm * Sm) by (replace U with (U / mm * mm) at 1 by (field; lra); apply Rmult_le_compat_l; auto). nra. }
      assert (0 <= (1 - U / mm) ^ length p) by (apply pow_le; lra). set (P := (1 - U / mm) ^ length p) in *.
      assert (HB : 0 <= B) by (apply Rle_trans with (P * A); auto; apply Rmult_le_pos; lra).
      split; [split|].
      + replace ((1 - U / mm) * P * (c * A)) with (c * ((1 - U / mm) * (P * A))) by ring. rewrite (Rmult_assoc c). apply Rmult_le_compat_l; [lra|].
        apply Rmult_le_compat; try lra. apply Rmult_le_pos; lra.
      + rewrite (Rmult_assoc c). apply Rmult_le_compat_l; [lra|]. nra.
      + apply Rmult_lt_0_compat; auto.
  Qed.

  Lemma paf_ll_pad x p : In x (states (d + e) 2) -> (1 <= k <= d)%nat -> In p (kperms k (seq 0 d)) -> V / m <= 1 ->
    (1 - V / m) ^ k * exp (path_ll (fun i => nth i (paf_dist wf lr M (firstn d x)) 0) p) <= exp (path_ll (fun i => nth i (paf_dist wf lrD M x) 0) p)
      <= exp (path_ll (fun i => nth i (paf_dist wf lr M (firstn d x)) 0) p).
  Proof.
    intros Hx Hk Hp He. pose proof (states_firstn d (d + e) 2 x ltac:(lia) Hx) as Hu. apply in_states in Hx as [Hl _].
    pose proof Hu as Hu'. apply in_states in Hu' as [Hlu _]. set (u := firstn d x) in *.
    pose proof Hp as Hp'. apply in_kperms in Hp'; [|apply seq_NoDup]. destruct Hp' as (P1 & P2 & P3).
    assert (HpD : In p (kperms k (seq 0 (d + e)))).
    { apply in_kperms; [apply seq_NoDup|]. repeat split; auto. intros i Hi. apply P3 in Hi. apply in_seq in Hi. apply in_seq. lia. }
    pose proof (mk_W _ Hu) as HW. pose proof mk_V as HV.
    rewrite (exp_path_ll wf lr M d k Hk u p Hlu Hp).
    rewrite (exp_path_ll wf lrD M (d + e) k ltac:(lia) x p Hl HpD).
    rewrite (path_prob_scale (raw u) (fun i => exp (nth i (paf_dist wf lr M u) 0)) (/ W u)).
    2:{ apply Rinv_neq_0_compat. lra. } 2:{ apply seq_NoDup. } 2:{ exact P3. } 2:{ auto. } 2:{ intros; apply mk_raw. }
    2:{ intros i Hi. apply in_seq in Hi. apply mk_nth; auto. lia. }
    rewrite (path_prob_scale (raw u) (fun i => exp (nth i (paf_dist wf lrD M x) 0)) (/ (W u + V))).
    2:{ apply Rinv_neq_0_compat. lra. } 2:{ apply seq_NoDup. } 2:{ intros i Hi. apply P3 in Hi. apply in_seq in Hi. apply in_seq. lia. } 2:{ auto. } 2:{ intros; apply mk_raw. }
    2:{ intros i Hi. apply in_seq in Hi. apply mk_nth_pad; auto. lia. }
    rewrite seq_app, Nat.add_0_l.
    assert (HH := path_prob_pad (raw u) m (seq d e) Hm (mk_raw u)). rewrite mk_padsum in HH. rewrite <- P1.
    apply HH; auto using seq_NoDup.
    - intros i Hi. apply in_seq in Hi. unfold raw. destruct (Nat.ltb_spec i d); [apply Hmin; auto|lia].
  Qed.

  Lemma mk_pow : (1 <= k)%nat -> dl < 1 -> V / m <= 1 /\ 0 <= dl /\ 1 - dl <= (1 - V / m) ^ k.
  Proof.
    intros Hk Hdl. pose proof mk_eta as He. assert (1 <= INR k) by (apply (le_INR 1); auto).
    assert (V / m <= 1) by (unfold dl in Hdl; nra). split; auto. split; [unfold dl; nra|]. apply pow_ge_lin. lra.
  Qed.

  Lemma mk_trivial {A} (p q : dist A) (f1 f2 : A -> R) : is_prob p -> is_prob q -> (forall a, Rabs (f1 a) <= 1) -> (forall a, Rabs (f2 a) <= 1) ->
    1 <= dl -> Rabs (E p f1 - E q f2) <= 6 * dl.
  Proof.
    intros Hp Hq H1 H2 Hdl. pose proof (Rabs_E_le1 p f1 Hp H1). pose proof (Rabs_E_le1 q f2 Hq H2).
    eapply Rle_trans; [apply Rabs_triang|]. rewrite Rabs_Ropp. lra.
  Qed.

  Lemma mk_scale a b c : 0 < b -> 1 - dl <= c -> c * b <= a <= b -> (1 - dl) * b <= a <= b.
  Proof. intros. split; nra. Qed.

  Variables (fwD fw : list nat -> R).
  Hypothesis Hfw : pads d fwD fw.

  Lemma pafs_masked g x f : 0 <= g <= 1 -> (1 <= k <= d)%nat -> In x (states (d + e) 2) -> (forall z, Rabs (f z) <= 1) ->
    Rabs (E (pafs_step g fwD wf lrD M k x) (fun z => f (firstn d z)) - E (pafs_step g fw wf lr M k (firstn d x)) f) <= 6 * dl.
  Proof.
    intros Hg Hk Hx Hf. pose proof (states_firstn d (d + e) 2 x ltac:(lia) Hx) as Hu.
    destruct (Rlt_dec dl 1) as [Hdl|Hdl].
    2:{ apply mk_trivial; auto; try lra; [apply (pafs_is_prob fwD wf lrD M (d + e))|apply (pafs_is_prob fw wf lr M d)]; auto; lia. }
    destruct (mk_pow ltac:(lia) Hdl) as (He & Hdl0 & Hpow).
    pose proof Hx as Hx'. apply in_states in Hx' as [Hl _]. pose proof Hu as Hu'. apply in_states in Hu' as [Hlu _].
    rewrite (pafs_step_E fwD wf lrD M (d + e) k ltac:(lia) g x _ Hx), (pafs_step_E fw wf lr M d k Hk g (firstn d x) f Hu).
    unfold mh_kernel. rewrite !E_bind. rewrite (prop_E wf lrD M (d + e) k ltac:(lia) x _ Hl), (prop_E wf lr M d k Hk (firstn d x) _ Hlu).
    set (u := firstn d x) in *.
    apply (masked_kernel _ _ (filter (fun a => negb (real_path d a)) (kperms k (seq 0 (d + e))))
       (fun a => path_ll (fun i => nth i (paf_dist wf lrD M x) 0) a)
       (fun a => path_ll (fun i => nth i (paf_dist wf lrD M (flip_idx a x)) 0) (rev a))
       (fun a => path_ll (fun i => nth i (paf_dist wf lr M u) 0) a)
       (fun a => path_ll (fun i => nth i (paf_dist wf lr M (flip_idx a u)) 0) (rev a))
       (fun a => fw (flip_idx a u) - fw u) (fun a => flip_idx a x) x u (fun a => flip_idx a u)
       (fun a => fwD (flip_idx a x) + path_ll (fun i => nth i (paf_dist wf lrD M (flip_idx a x)) 0) (rev a) - fwD x - path_ll (fun i => nth i (paf_dist wf lrD M x) 0) a)
       (fun a => fw (flip_idx a u) + path_ll (fun i => nth i (paf_dist wf lr M (flip_idx a u)) 0) (rev a) - fw u - path_ll (fun i => nth i (paf_dist wf lr M u) 0) a)
       g dl (firstn d) f); auto.
    - intros F. apply rsum_filter_split; [apply NoDup_kperms, seq_NoDup|apply NoDup_kperms, seq_NoDup|].
      intros a. rewrite !in_kperms by apply seq_NoDup. rewrite real_path_spec, Forall_forall. split.
      + intros (Q1 & Q2 & Q3). repeat split; auto; intros i Hi; apply Q3 in Hi; apply in_seq in Hi; [apply in_seq|]; lia.
      + intros ((Q1 & Q2 & Q3) & Q4). repeat split; auto. intros i Hi. apply in_seq. specialize (Q4 i Hi). lia.
    - destruct (prop_prob wf lrD M (d + e) k ltac:(lia) x Hl) as [_ H1]. unfold mass in H1.
      rewrite (prop_E wf lrD M (d + e) k ltac:(lia) x _ Hl) in H1. rewrite <- H1. apply rsum_ext. intros; ring.
    - destruct (prop_prob wf lr M d k Hk u Hlu) as [_ H1]. unfold mass in H1.
      rewrite (prop_E wf lr M d k Hk u _ Hlu) in H1. rewrite <- H1. apply rsum_ext. intros; ring.
    - intros a Ha. pose proof Ha as Ha'. apply in_kperms in Ha'; [|apply seq_NoDup]. destruct Ha' as (Q1 & Q2 & Q3).
      assert (Fa : Forall (fun i => (i < d)%nat) a) by (apply Forall_forall; intros i Hi; apply Q3 in Hi; apply in_seq in Hi; lia).
      assert (Hy : firstn d (flip_idx a x) = flip_idx a u) by (apply flip_idx_firstn; auto).
      split; [exact Hy|]. split; [apply (mk_scale _ _ ((1 - V / m) ^ k)); auto using exp_pos; apply paf_ll_pad; auto|].
      split.
      { rewrite <- Hy. apply (mk_scale _ _ ((1 - V / m) ^ k)); auto using exp_pos. apply paf_ll_pad; auto; [apply flip_idx_in; auto|].
        apply kperms_rev; auto using seq_NoDup. }
      split; [rewrite !Hfw, Hy; fold u; ring|ring].
  Qed.

  Lemma gwg_masked_paf g x f (gradD grad : list nat -> nat -> R) :
    (forall z i, lrD z i = paf_lr_grad_bin gradD z i) -> (forall z i, lr z i = paf_lr_grad_bin grad z i) ->
    0 <= g <= 1 -> (1 <= k)%nat -> In x (states (d + e) 2) -> (forall z, Rabs (f z) <= 1) ->
    Rabs (E (gwg_step g fwD wf gradD M k x) (fun z => f (firstn d z)) - E (gwg_step g fw wf grad M k (firstn d x)) f) <= 6 * dl.
  Proof.
    intros HgD Hgr Hg Hk Hx Hf. pose proof (states_firstn d (d + e) 2 x ltac:(lia) Hx) as Hu.
    assert (EqD : forall z, gwg_dist_at wf gradD M z = paf_dist wf lrD M z).
    { intros z. unfold gwg_dist_at, paf_dist. f_equal. apply map_ext. intros i. rewrite HgD. reflexivity. }
    assert (Eq : forall z, gwg_dist_at wf grad M z = paf_dist wf lr M z).
    { intros z. unfold gwg_dist_at, paf_dist. f_equal. apply map_ext. intros i. rewrite Hgr. reflexivity. }
    destruct (Rlt_dec dl 1) as [Hdl|Hdl].
    2:{ apply mk_trivial; auto; try lra; [apply (gwg_is_prob fwD wf gradD M (d + e))|apply (gwg_is_prob fw wf grad M d)]; auto; lia. }
    destruct (mk_pow ltac:(lia) Hdl) as (He & Hdl0 & Hpow).
    destruct (gwg_hyps wf gradD M (d + e) k ltac:(lia)) as [G1 G2]. destruct (gwg_hyps wf grad M d k Hd) as [G3 G4].
    unfold gwg_step. rewrite !E_bind. rewrite G2, G4 by auto. set (u := firstn d x) in *.
    unfold gwg_log_acc. 
    apply (masked_kernel _ _ (filter (fun a => negb (real_path d a)) (lists_over (seq 0 (d + e)) k))
       (fun a => gwg_ll (gwg_dist_at wf gradD M x) a)
       (fun a => gwg_ll (gwg_dist_at wf gradD M (flip_idx a x)) a)
       (fun a => gwg_ll (gwg_dist_at wf grad M u) a)
       (fun a => gwg_ll (gwg_dist_at wf grad M (flip_idx a u)) a)
       (fun a => fw (flip_idx a u) - fw u) (fun a => flip_idx a x) x u (fun a => flip_idx a u)
       (fun a => fwD (flip_idx a x) + gwg_ll (gwg_dist_at wf gradD M (flip_idx a x)) a - fwD x - gwg_ll (gwg_dist_at wf gradD M x) a)
       (fun a => fw (flip_idx a u) + gwg_ll (gwg_dist_at wf grad M (flip_idx a u)) a - fw u - gwg_ll (gwg_dist_at wf grad M u) a)
       g dl (firstn d) f); auto.
    - intros F. apply rsum_filter_split; [apply NoDup_lists_over, seq_NoDup|apply NoDup_lists_over, seq_NoDup|].
      intros a. rewrite !in_lists_over. rewrite real_path_spec, !Forall_forall. split.
      + intros (Q1 & Q3). repeat split; auto; intros i Hi; apply Q3 in Hi; apply in_seq in Hi; [apply in_seq|]; lia.
      + intros ((Q1 & Q3) & Q4). repeat split; auto. intros i Hi. apply in_seq. specialize (Q4 i Hi). lia.
    - destruct (G1 x Hx) as [_ H1]. unfold mass in H1. rewrite G2 in H1 by auto. rewrite <- H1. apply rsum_ext. intros; ring.
    - destruct (G3 u Hu) as [_ H1]. unfold mass in H1. rewrite G4 in H1 by auto. rewrite <- H1. apply rsum_ext. intros; ring.
    - intros a Ha. apply in_lists_over in Ha. destruct Ha as (Q1 & Q3).
      assert (Fa : Forall (fun i => (i < d)%nat) a) by (eapply Forall_impl; [|exact Q3]; intros i Hi; apply in_seq in Hi; lia).
      assert (Hy : firstn d (flip_idx a x) = flip_idx a u) by (apply flip_idx_firstn; auto). rewrite !EqD, !Eq.
      split; [exact Hy|]. split; [apply (mk_scale _ _ ((1 - V / m) ^ k)); auto using exp_pos; rewrite <- Q1; apply gwg_ll_pad; auto|].
      split.
      { rewrite <- Hy. apply (mk_scale _ _ ((1 - V / m) ^ k)); auto using exp_pos. rewrite <- Q1. apply gwg_ll_pad; auto. apply flip_idx_in; auto. }
      split; [rewrite !Hfw, Hy; fold u; ring|ring].
  Qed.
End Masked.
