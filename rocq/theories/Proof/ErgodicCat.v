(** Convergence of the categorical gradient samplers, and of binary Gibbs with gradients at a fixed adapted radius. *)
From Coq Require Import Reals List Lra Lia Arith.
From Verif.Base Require Import RSum Cube Dist MH.
From Verif.Spec Require Import Chain Ergodic.
From Verif.Model Require Import MathUtil RandomWalk LocallyBalanced GWG PathAux.
From Verif.Proof Require Import MathUtilProof MHKernel GibbsProof ChainProof GWGProof NoReplProof LangevinProof PathAuxProof PathAuxCatProof PathAuxRefute CatGWGProof LBProof ErgodicProof ErgodicSamplers ErgodicMore ErgodicPath AdaptiveRunProof SameTargetProof.
Import ListNotations.
Local Open Scope R_scope.

(** ** A kernel that can move any [k] sites to other categories, three categories or more *)
Definition third (a b : nat) : nat :=
  if Nat.eqb a 0 then (if Nat.eqb b 1 then 2%nat else 1%nat) else if Nat.eqb b 0 then (if Nat.eqb a 1 then 2%nat else 1%nat) else 0%nat.

Lemma third_ok a b : third a b <> a /\ third a b <> b /\ (third a b < 3)%nat.
Proof.
  unfold third. destruct (Nat.eqb_spec a 0), (Nat.eqb_spec b 1), (Nat.eqb_spec b 0), (Nat.eqb_spec a 1); lia.
Qed.

Section CatFlip.
  Variables (d C k : nat) (step : list nat -> dist (list nat)).
  Hypothesis HC : (3 <= C)%nat.
  Hypothesis Hk : (1 <= k <= d)%nat.
  Hypothesis Hpr : proper (states d C) step.
  Hypothesis Hmove : forall x y p, In x (states d C) -> In y (states d C) -> NoDup p -> length p = k -> (forall i, In i p -> (i < d)%nat) ->
    (forall i, In i p -> nth i y 0%nat <> nth i x 0%nat) -> (forall i, (i < d)%nat -> ~ In i p -> nth i y 0%nat = nth i x 0%nat) -> can_move sdec step x y.
  Let kk := fun _ : nat => step.

  Lemma set_move x y i : In x (states d C) -> In y (states d C) -> (i < d)%nat -> (forall j, (j < d)%nat -> j <> i -> nth j y 0%nat = nth j x 0%nat) ->
    can_move sdec (run_seq kk 2 0) x y.
  Proof.
    intros Hx Hy Hi He.
    destruct (others d [i] (k - 1)) as (A & HA1 & HA2 & HA3); [constructor; [intros [] | constructor] | intros j [<- | []]; exact Hi | simpl; lia |].
    set (p := i :: A).
    assert (Hp : forall j, In j p -> (j < d)%nat) by (intros j [<- | Hj]; [exact Hi | apply HA3; exact Hj]).
    assert (Hnd : NoDup p) by (constructor; [intros Hin; destruct (HA3 i Hin) as [_ Hn]; apply Hn; left; reflexivity | exact HA2]).
    assert (Hlen : length p = k) by (simpl; lia).
    set (zf := fun j => if in_dec Nat.eq_dec j p then third (nth j x 0%nat) (nth j y 0%nat) else nth j x 0%nat).
    set (z := map zf (seq 0 d)).
    assert (Hzn : forall j, (j < d)%nat -> nth j z 0%nat = zf j) by (intros j Hj; unfold z; apply (nth_map_seq zf); exact Hj).
    assert (Hz : In z (states d C)).
    { apply in_states. unfold z. rewrite map_length, seq_length. split; [reflexivity |]. apply Forall_forall. intros c Hc. apply in_map_iff in Hc.
      destruct Hc as (j & <- & Hj). apply in_seq in Hj. unfold zf. destruct in_dec.
      - pose proof (third_ok (nth j x 0%nat) (nth j y 0%nat)). lia.
      - apply (in_states_nth d C x j Hx). lia. }
    change 2%nat with (1 + 1)%nat. apply (move_add sdec (states d C) kk (fun _ => Hpr) 1 1 0 x z); [exact Hx | |]; apply move_one.
    - apply (Hmove x z p); auto.
      + intros j Hj. rewrite Hzn by auto. unfold zf. destruct in_dec; [apply third_ok | contradiction].
      + intros j Hj Hn. rewrite Hzn by auto. unfold zf. destruct in_dec; [contradiction | reflexivity].
    - apply (Hmove z y p); auto.
      + intros j Hj. rewrite Hzn by auto. unfold zf. destruct in_dec; [intros H; symmetry in H; revert H; apply third_ok | contradiction].
      + intros j Hj Hn. rewrite Hzn by auto. unfold zf. destruct in_dec; [contradiction |]. apply He; [exact Hj |]. intros ->. apply Hn. left. reflexivity.
  Qed.

  Theorem catflip_converges (fw : list nat -> R) : invariant (states d C) (fun x => exp (fw x)) step ->
    converges (states d C) (fun x => exp (fw x)) (fun _ => step).
  Proof.
    intros Hinv. apply (power_converges _ _ _ 2); auto.
    assert (Hpr2 : proper (states d C) (run_seq kk 2 0)) by (apply (run_proper (states d C) kk); auto).
    apply (periodic_converges sdec _ _ _ (NoDup_states d C) (fun _ => Hpr2) d); auto.
    - lia.
    - intros _. apply (run_seq_invariant (states d C) _ kk). intros; exact Hinv.
    - intros; left; apply exp_pos.
    - apply Z_pos; lia.
    - intros x y Hx Hy. rewrite <- (mix_0 d C ltac:(lia) x y Hx) at 1. rewrite <- (mix_all d C ltac:(lia) d x y (le_n _) Hy) at 2.
      apply (move_path sdec (states d C) (fun _ => run_seq kk 2 0) (fun _ => Hpr2) (fun j => mix d j x y)); [intros; apply mix_in; auto |].
      intros j Hj. apply (set_move _ _ j); auto using mix_in.
      intros i Hi Hne. rewrite !nth_mix by auto. destruct (Nat.ltb_spec i (S j)), (Nat.ltb_spec i j); auto; lia.
  Qed.
End CatFlip.

(** ** Path-auxiliary sampler on categorical variables at a fixed adapted radius *)
Section CatPath.
  Variables (fw : list nat -> R) (wf : R -> R) (lr : list nat -> nat -> R) (mask : option (nat -> R)) (d C k : nat).
  Hypothesis Hk : (1 <= k <= d)%nat.
  Hypothesis HC : (3 <= C)%nat.

  Let lpv (x : list nat) := pafc_dist wf lr mask C x.
  Let lp (x : list nat) (i : nat) := site_lp C (lpv x) i.
  Let Aux := list_prod (kperms k (seq 0 d)) (lists_over (seq 0 C) k).
  Let ll (x : list nat) (a : list nat * list nat) := path_ll (lp x) (fst a) + val_ll C (lpv x) (fst a) (snd a).
  Let T (x : list nat) (a : list nat * list nat) := set_all (fst a) (snd a) x.
  Let I (x : list nat) (a : list nat * list nat) := (rev (fst a), map (fun i => nth i x 0%nat) (rev (fst a))).
  Let la (x : list nat) (a : list nat * list nat) := fw (T x a) + ll (T x a) (I x a) - fw x - ll x a.
  Let prop (x : list nat) :=
    bind (norepl_law (fun i => exp (lp x i)) k (seq 0 d))
         (fun p => dmap (pair p) (indep (map (fun i => categorical (cond_lp C (lpv x) i)) p))).

  Lemma prop_support x a w : In (a, w) (prop x) -> In a Aux.
  Proof.
    intros Ha. unfold prop in Ha. apply in_bind in Ha. destruct Ha as (p & v & v' & Hp & Ha). apply in_norepl in Hp.
    unfold dmap in Ha. apply in_map_iff in Ha. destruct Ha as ([vals u] & Heq & Hv). cbn [fst snd] in Heq. injection Heq as <- _.
    apply in_prod_iff. split; [exact Hp |].
    assert (Hr : Forall (fun l => length l = C) (map (fun i => cond_lp C (lpv x) i) p)).
    { apply Forall_forall. intros l Hl. apply in_map_iff in Hl. destruct Hl as (i & <- & _). unfold cond_lp. rewrite log_softmax_length. apply blk_length. }
    pose proof (in_indep_rows C _ vals u Hr) as HI. rewrite map_map in HI. specialize (HI Hv).
    pose proof (auxp_facts d C k Hk ltac:(lia) p Hp) as (_ & _ & Hlen & _).
    apply in_states in HI. rewrite map_length in HI. destruct HI as [Hlv HF]. apply in_lists_over.
    split; [lia |]. apply Forall_forall. intros c Hc. apply in_seq. rewrite Forall_forall in HF. specialize (HF c Hc). lia.
  Qed.

  Lemma kernel_proper g : proper (states d C) (mh_kernel prop T la g).
  Proof.
    intros x Hx. split.
    - apply is_prob_mh_kernel. exact (propc_prob wf lr mask d C k Hk ltac:(lia) x).
    - intros y w Hy. unfold mh_kernel in Hy. apply in_bind in Hy. destruct Hy as (a & v & v' & Ha & Hy). apply in_mh_law in Hy.
      destruct Hy as [-> | ->]; [exact Hx |]. apply (Tc_in d C k Hk ltac:(lia)); [exact Hx |]. exact (prop_support x a v Ha).
  Qed.

  Lemma kernel_converges : converges (states d C) (fun x => exp (fw x)) (fun _ => mh_kernel prop T la 0).
  Proof.
    apply (catflip_converges d C k); [exact HC | exact Hk | apply kernel_proper | |].
    - intros x y p Hx Hy Hnd Hl Hr Hne He.
      pose proof (proj1 (proj1 (in_states d C x) Hx)) as Hlx. pose proof (proj1 (proj1 (in_states d C y) Hy)) as Hly.
      apply (mh_move (states d C) Aux prop T la (fun x a => exp (ll x a)) x y (p, map (fun i => nth i y 0%nat) p)).
      + intros f. exact (propc_E wf lr mask d C k Hk ltac:(lia) x f Hlx).
      + intros; left; apply exp_pos.
      + apply in_prod_iff. split; [apply (kperms_ok d k); auto |]. apply in_lists_over. rewrite map_length. split; [exact Hl |].
        apply Forall_forall. intros c Hc. apply in_map_iff in Hc. destruct Hc as (i & <- & Hi). apply in_seq. pose proof (in_states_nth d C y i Hy (Hr i Hi)). lia.
      + apply exp_pos.
      + unfold T. cbn [fst snd]. apply (list_eq_nth 0%nat); rewrite set_all_length; [lia |]. intros j Hj.
        destruct (in_dec Nat.eq_dec j p) as [Hin | Hin]; [apply (nth_set_all_fun (fun i => nth i y 0%nat)); auto |].
        rewrite nth_set_all_out by auto. symmetry. apply He; [lia | exact Hin].
    - apply reversible_invariant; [intros x Hx; apply (kernel_proper 0 x Hx) |]. exact (kernelc_rev fw wf lr mask d C k Hk ltac:(lia)).
  Qed.

  Theorem apafsc_converges0 radius : num_sites d radius = k ->
    converges (states d C) (fun x => exp (fw x)) (fun _ => apafsc_step 0 fw wf lr mask C radius).
  Proof.
    intros Hr. refine (proj1 (converges_E_ext _ _ _ _ (fun _ => kernel_proper 0) _) kernel_converges).
    intros _ x f Hx. symmetry. exact (apafsc_step_E fw wf lr mask d C k Hk ltac:(lia) radius Hr 0 x f Hx).
  Qed.
End CatPath.

Theorem apafsc_converges fw wf lr mask d C radius : (1 <= d)%nat -> (3 <= C)%nat ->
  converges (states d C) (fun x => exp (fw x)) (fun _ => apafsc_step 0 fw wf lr mask C radius).
Proof. intros Hd HC. apply (apafsc_converges0 fw wf lr mask d C (num_sites d radius)); auto. apply num_sites_range; auto. Qed.

(** ** Categorical Gibbs with gradients, one chain *)
Section CatGWG.
  Variables (fw : list nat -> R) (wf : R -> R) (grad : list nat -> nat -> R) (d C : nat).
  Hypothesis Hd : (0 < d)%nat.
  Hypothesis HC : (3 <= C)%nat.

  Let Aux := seq 0 (d * C).
  Let T (x : list nat) (j : nat) := cgwg_y C x j.
  Let I (x : list nat) (j : nat) := (j / C * C + nth (j / C) x 0)%nat.
  Let ll (x : list nat) (j : nat) := nth j (cgwg_dist_at wf grad C x) 0.
  Let la (x : list nat) (j : nat) := fw (T x j) + ll (T x j) (I x j) - fw x - ll x j.
  Let prop (x : list nat) := categorical (cgwg_dist_at wf grad C x).

  Lemma cg_proper g : proper (states d C) (mh_kernel prop T la g).
  Proof.
    destruct (cgwg_hyps wf grad d C Hd ltac:(lia)) as [H1 _].
    intros x Hx. split; [apply is_prob_mh_kernel, H1, Hx |].
    intros y w Hy. unfold mh_kernel in Hy. apply in_bind in Hy. destruct Hy as (a & v & v' & Ha & Hy). apply in_mh_law in Hy.
    destruct Hy as [-> | ->]; [exact Hx |]. apply (T_in fw wf grad d C Hd ltac:(lia)); [exact Hx |]. unfold prop, categorical, weighted in Ha.
    apply in_map_iff in Ha. destruct Ha as (i & Heq & Hi). injection Heq as <- _. rewrite cgwg_dist_length in Hi.
    apply in_states in Hx. rewrite (proj1 Hx) in Hi. exact Hi.
  Qed.

  Theorem cgwg_single_converges : converges (states d C) (fun x => exp (fw x)) (fun _ => cgwg_single 0 fw wf grad C).
  Proof.
    refine (proj1 (converges_E_ext _ _ _ _ (fun _ => cg_proper 0) _) _).
    { intros _ x f Hx. symmetry. apply (cgwg_single_E fw wf grad d C); auto; lia. }
    destruct (cgwg_hyps wf grad d C Hd ltac:(lia)) as [_ H2].
    apply (catflip_converges d C 1); [exact HC | lia | apply cg_proper | |].
    - intros x y p Hx Hy Hnd Hl Hr Hne He. destruct p as [| i [| j p]]; try discriminate. clear Hnd Hl.
      pose proof (Hr i (or_introl eq_refl)) as Hi. pose proof (in_states_nth d C y i Hy Hi) as Hc.
      pose proof (proj1 (proj1 (in_states d C x) Hx)) as Hlx. pose proof (proj1 (proj1 (in_states d C y) Hy)) as Hly.
      apply (mh_move (states d C) Aux prop T la (fun x a => exp (ll x a)) x y (i * C + nth i y 0)%nat).
      + intros f. apply H2; exact Hx.
      + intros; left; apply exp_pos.
      + apply in_seq. nia.
      + apply exp_pos.
      + unfold T, cgwg_y.
        replace ((i * C + nth i y 0) / C)%nat with i by (rewrite Nat.div_add_l, Nat.div_small; lia).
        replace ((i * C + nth i y 0) mod C)%nat with (nth i y 0%nat) by (rewrite Nat.add_comm, Nat.mod_add, Nat.mod_small; lia).
        apply (list_eq_nth 0%nat); rewrite upd_length; [lia |]. intros j Hj. destruct (Nat.eq_dec j i) as [-> | Hj'].
        * apply nth_upd_eq. exact Hj.
        * rewrite nth_upd_neq by auto. symmetry. apply He; [lia |]. intros [<- | []]. congruence.
    - apply reversible_invariant; [intros x Hx; apply (cg_proper 0 x Hx) |].
      eapply reversible_ext; [| apply (cgwg_single_reversible fw wf grad d C Hd ltac:(lia))].
      intros x f Hx. symmetry. apply (cgwg_single_E fw wf grad d C); auto; lia.
  Qed.
End CatGWG.

(** ** ... and a batch of two chains *)
Lemma w_step_proper g : proper (lists_over (states 1 3) 2) (cgwg_batch_step g w_fw w_wf w_grad 3).
Proof.
  intros xs Hxs. split; [apply w_step_is_prob; exact Hxs |]. intros ys w Hy. apply in_lists_over in Hxs. destruct Hxs as [Hl HF].
  destruct xs as [| x0 [| x1 [| ? ?]]]; try discriminate. pose proof (Forall_inv HF) as H0. pose proof (Forall_inv (Forall_inv_tail HF)) as H1.
  unfold cgwg_batch_step in Hy. apply in_bind in Hy. destruct Hy as (js & v & v' & Hjs & Hy).
  pose proof (in_indep_length _ _ _ Hjs) as Hlj. rewrite map_length in Hlj. destruct js as [| j0 [| j1 [| ? ?]]]; try discriminate.
  cbn [cgwg_ys combine map fst snd] in Hy.
  assert (Hj : forall x j, In x (states 1 3) -> In (cgwg_y 3 x j) (states 1 3)).
  { intros x j Hx. apply in_states in Hx. apply in_states. unfold cgwg_y. rewrite upd_length. split; [tauto |].
    apply Forall_upd; [apply Nat.mod_upper_bound; lia | tauto]. }
  cbn [indep] in Hy. apply in_bind in Hy. destruct Hy as (a & u & u' & Ha & Hy). apply in_mh_law in Ha.
  unfold dmap in Hy. apply in_map_iff in Hy. destruct Hy as ([t z] & Heq & Ht). cbn [fst snd] in Heq. injection Heq as <- _.
  apply in_bind in Ht. destruct Ht as (b & u1 & u1' & Hb & Ht). apply in_mh_law in Hb.
  destruct Ht as [Ht | []]. injection Ht as <- _.
  apply in_lists_over. split; [reflexivity |]. constructor; [destruct Ha as [-> | ->]; auto |]. constructor; [destruct Hb as [-> | ->]; auto | constructor].
Qed.

Theorem cgwg_pair_not_converges g : 0 <= g <= / 1000 ->
  ~ converges (lists_over (states 1 3) 2) (batch_pi (fun x => exp (w_fw x))) (fun _ => cgwg_batch_step g w_fw w_wf w_grad 3).
Proof.
  intros Hg Hc. apply (cgwg_pair_not_invariant g Hg).
  apply (converges_invariant _ _ (fun _ : nat => cgwg_batch_step g w_fw w_wf w_grad 3) 1 0); auto using w_step_proper.
  - discriminate.
  - apply rsum_pos; [discriminate |]. intros xs _. unfold batch_pi.
    induction xs as [| x xs IH]; cbn [rprod]; [lra | apply Rmult_lt_0_compat; [apply exp_pos | exact IH]].
Qed.

(** ** Categorical path-auxiliary sampler, constant number of sites *)
Definition one_site (g : R) (fw : list nat -> R) wf lr C (x : list nat) : dist (list nat) :=
  let D a := pafc_dist wf lr None C [a] in
  bind (categorical (D (nth 0 x 0%nat))) (fun c => mh_law g (fw [c] + nth (nth 0 x 0%nat) (D c) 0 - fw x) x [c]).

Lemma one_site_proper g fw wf lr C : (0 < C)%nat -> proper (states 1 C) (one_site g fw wf lr C).
Proof.
  intros HC x Hx. split.
  - apply is_prob_bind; [| intros; apply is_prob_mh_law]. apply is_prob_categorical. intros H.
    pose proof (PathAuxRefute.D_length wf lr C HC (nth 0 x 0%nat)) as HL. apply (f_equal (@length R)) in H. cbn [length] in H.
    assert (C = 0)%nat by (etransitivity; [symmetry; exact HL | exact H]). lia.
  - intros y w Hy. unfold one_site in Hy. apply in_bind in Hy. destruct Hy as (c & v & v' & Hcc & Hy). apply in_mh_law in Hy.
    destruct Hy as [-> | ->]; [exact Hx |]. unfold categorical, weighted in Hcc. apply in_map_iff in Hcc. destruct Hcc as (i & Heq & Hi).
    injection Heq as <- _. rewrite PathAuxRefute.D_length in Hi by exact HC. apply in_seq in Hi. apply in_states. split; [reflexivity |]. constructor; [lia | constructor].
Qed.

Theorem pafsc_not_converges g : 0 <= g <= / 1000 ->
  ~ converges (states 1 3) (fun x => exp (w_fw x)) (fun _ => pafsc_step g w_fw w_wf w_lr None 3 1).
Proof.
  intros Hg Hc. pose proof (one_site_proper g w_fw w_wf w_lr 3 ltac:(lia)) as Hpr.
  assert (HE : forall (t : nat) x f, In x (states 1 3) -> E (one_site g w_fw w_wf w_lr 3 x) f = E (pafsc_step g w_fw w_wf w_lr None 3 1 x) f).
  { intros _ x f Hx. apply in_states in Hx. destruct Hx as [Hl _]. destruct x as [| a [| ? ?]]; try discriminate.
    rewrite one_site_E by lia. unfold one_site. cbn [nth]. rewrite E_bind, E_categorical, PathAuxRefute.D_length, PathAuxRefute.D_sum by lia.
    apply rsum_ext. intros c _. rewrite E_mh_law. field. }
  apply (pafsc_not_invariant g Hg). apply (converges_E_ext _ _ _ _ (fun _ => Hpr) HE) in Hc.
  assert (Hi : invariant (states 1 3) (fun x => exp (w_fw x)) (one_site g w_fw w_wf w_lr 3)).
  { apply (converges_invariant _ _ (fun _ : nat => one_site g w_fw w_wf w_lr 3) 1 0); auto; [discriminate | apply Z_pos; lia]. }
  intros f. rewrite <- (Hi f). apply rsum_ext. intros x Hx. f_equal. symmetry. exact (HE 0%nat x f Hx).
Qed.

(** ** Gibbs with gradients at a fixed adapted radius *)
Theorem agwg_converges_iff g fw wf grad mask d radius pi : (0 < d)%nat ->
  converges (states d 2) pi (fun _ => agwg_step g fw wf grad mask radius) <->
  converges (states d 2) pi (fun _ => gwg_step g fw wf grad mask (num_sites d radius)).
Proof.
  intros Hd. symmetry. apply converges_E_ext.
  - intros _. apply gwg_proper. exact Hd.
  - intros _ x f Hx. symmetry. apply agwg_step_E; auto.
Qed.
