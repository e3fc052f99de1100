(** Convergence of the path-auxiliary sampler with an odd number of flips. *)
From Coq Require Import Reals List Lra Lia Arith.
From Verif.Base Require Import RSum Cube Dist MH.
From Verif.Spec Require Import Chain Ergodic.
From Verif.Model Require Import MathUtil RandomWalk LocallyBalanced GWG PathAux.
From Verif.Proof Require Import MathUtilProof MHKernel GibbsProof ChainProof GWGProof NoReplProof PathAuxProof LBProof ErgodicProof ErgodicSamplers ErgodicMore SameTargetProof.
Import ListNotations.
Local Open Scope R_scope.

(** ** Powers of a kernel *)
Lemma run_power {A} (step : A -> dist A) m q : forall x f,
  E (run_seq (fun _ => run_seq (fun _ => step) m 0) q 0 x) f = E (run_seq (fun _ => step) (q * m) 0 x) f.
Proof.
  induction q as [| q IH]; intros x f; [reflexivity |].
  replace (S q * m)%nat with (m + q * m)%nat by lia. rewrite run_seq_add. cbn [run_seq]. rewrite E_bind. apply E_ext. intros y.
  rewrite (run_seq_shift (fun _ => run_seq (fun _ : nat => step) m 0) q 1 0) by reflexivity.
  rewrite (run_seq_shift (fun _ => step) (q * m) (0 + m) 0) by reflexivity. apply IH.
Qed.

Lemma power_converges {A} (S : list A) pi (step : A -> dist A) m : (0 < m)%nat -> proper S step -> invariant S pi step ->
  converges S pi (fun _ => run_seq (fun _ => step) m 0) -> converges S pi (fun _ => step).
Proof.
  intros Hm Hpr Hinv Hc eps He. destruct (Hc eps He) as [N HN]. exists (N * m)%nat. intros n x f Hn Hx Hf.
  pose proof (Nat.div_mod n m ltac:(lia)) as Hdm. set (q := (n / m)%nat) in *. set (r := (n mod m)%nat) in *.
  assert (Hq : (N <= q)%nat) by (apply Nat.div_le_lower_bound; lia).
  rewrite Hdm. rewrite (Nat.mul_comm m q), run_seq_add, <- run_power, Nat.add_0_l.
  rewrite (E_ext _ _ (fun y => E (run_seq (fun _ => step) r 0 y) f)) by (intros y; rewrite (run_seq_shift (fun _ => step) r (q * m) 0) by reflexivity; reflexivity).
  replace (mean S pi f) with (mean S pi (fun y => E (run_seq (fun _ => step) r 0 y) f)).
  2: { unfold mean. f_equal. exact (run_seq_invariant S pi (fun _ => step) (fun _ => Hinv) r 0 f). }
  apply HN; auto. intros y Hy. apply Rabs_le.
  apply (proper_range S (run_seq (fun _ => step) r 0) y f (-1) 1); [apply (run_proper S (fun _ => step)); auto | exact Hy |].
  intros z Hz. specialize (Hf z Hz). revert Hf. unfold Rabs. destruct (Rcase_abs (f z)); lra.
Qed.

Lemma others d (ex : list nat) m : NoDup ex -> (forall i, In i ex -> (i < d)%nat) -> (m + length ex <= d)%nat ->
  exists A, length A = m /\ NoDup A /\ (forall i, In i A -> (i < d)%nat /\ ~ In i ex).
Proof.
  intros Hnd Hex Hm. set (F := filter (fun i => negb (existsb (Nat.eqb i) ex)) (seq 0 d)).
  assert (HF : forall i, In i F <-> (i < d)%nat /\ ~ In i ex).
  { intros i. unfold F. rewrite filter_In, in_seq. split.
    - intros [H1 H2]. split; [lia |]. intros Hi. apply Bool.negb_true_iff in H2. rewrite <- Bool.not_true_iff_false in H2. apply H2.
      apply existsb_exists. exists i. split; [exact Hi | apply Nat.eqb_refl].
    - intros [H1 H2]. split; [lia |]. apply Bool.negb_true_iff. apply Bool.not_true_iff_false. intros He. apply existsb_exists in He.
      destruct He as (j & Hj & Hij). apply Nat.eqb_eq in Hij. subst j. contradiction. }
  assert (HNF : NoDup F) by (apply NoDup_filter, seq_NoDup).
  assert (Hlen : (m <= length F)%nat).
  { assert (Hi : incl (seq 0 d) (F ++ ex)).
    { intros i Hi. apply in_seq in Hi. apply in_or_app. destruct (in_dec Nat.eq_dec i ex); [right; assumption | left; apply HF; split; [lia | assumption]]. }
    pose proof (NoDup_incl_length (seq_NoDup d 0) Hi) as Hl. rewrite seq_length, app_length in Hl. lia. }
  exists (firstn m F). split; [rewrite firstn_length; lia |]. split; [apply NoDup_firstn; exact HNF |].
  intros i Hi. apply HF. rewrite <- (firstn_skipn m F). apply in_or_app. left. exact Hi.
Qed.

(** ** Chains that can flip every set of [k] sites, [k] odd *)
Section KFlip.
  Variables (d k : nat) (step : list nat -> dist (list nat)).
  Hypothesis Hk : (1 <= k)%nat.
  Hypothesis Hkd : (k < d)%nat \/ (k = 1 /\ 1 <= d)%nat.
  Hypothesis Hodd : Nat.Odd k.
  Hypothesis Hpr : proper (states d 2) step.
  Hypothesis Hmove : forall x p, In x (states d 2) -> NoDup p -> length p = k -> (forall i, In i p -> (i < d)%nat) -> can_move sdec step x (flip_idx p x).
  Let kk := fun _ : nat => step.

  Lemma flip_comp p q r x : In x (states d 2) -> (forall i, (i < d)%nat -> (In i r <-> ((In i p /\ ~ In i q) \/ (~ In i p /\ In i q)))) ->
    flip_idx q (flip_idx p x) = flip_idx r x.
  Proof.
    intros Hx H. pose proof (proj1 (proj1 (in_states d 2 x) Hx)) as Hl.
    apply (list_eq_nth 0%nat); [rewrite !flip_idx_length; reflexivity |]. rewrite !flip_idx_length. intros j Hj.
    pose proof (in_states_nth d 2 x j Hx ltac:(lia)) as Hv. specialize (H j ltac:(lia)).
    rewrite !nth_flip_idx by (rewrite ?flip_idx_length; lia).
    destruct (in_dec Nat.eq_dec j q), (in_dec Nat.eq_dec j p), (in_dec Nat.eq_dec j r); try tauto; lia.
  Qed.

  Lemma pair_move x i j : (k < d)%nat -> In x (states d 2) -> (i < d)%nat -> (j < d)%nat -> i <> j -> can_move sdec (run_seq kk 2 0) x (flip_idx [i; j] x).
  Proof.
    intros Hlt Hx Hi Hj Hij.
    destruct (others d [i; j] (k - 1)) as (A & HA1 & HA2 & HA3).
    { constructor; [intros [|[]]; congruence |]. constructor; [intros [] | constructor]. }
    { intros a [<- | [<- | []]]; assumption. }
    { simpl. lia. }
    assert (HiA : ~ In i A) by (intros H; apply HA3 in H; destruct H as [_ H]; apply H; left; reflexivity).
    assert (HjA : ~ In j A) by (intros H; apply HA3 in H; destruct H as [_ H]; apply H; right; left; reflexivity).
    assert (Hz : In (flip_idx (i :: A) x) (states d 2)) by (apply flip_idx_in; exact Hx).
    change 2%nat with (1 + 1)%nat. apply (move_add sdec (states d 2) kk (fun _ => Hpr) 1 1 0 x (flip_idx (i :: A) x)); auto.
    - apply move_one. apply Hmove; auto; [constructor; assumption | simpl; lia |]. intros a [<- | Ha]; [assumption | apply HA3; exact Ha].
    - apply move_one. rewrite <- (flip_comp (i :: A) (j :: A) [i; j] x Hx).
      + apply Hmove; auto; [constructor; assumption | simpl; lia |]. intros a [<- | Ha]; [assumption | apply HA3; exact Ha].
      + intros a Ha. simpl. destruct (Nat.eq_dec a i), (Nat.eq_dec a j); subst; intuition congruence.
  Qed.

  Lemma even_move e : forall A x, length A = (2 * e)%nat -> (k < d)%nat \/ A = [] -> NoDup A -> (forall i, In i A -> (i < d)%nat) -> In x (states d 2) ->
    can_move sdec (run_seq kk (2 * e) 0) x (flip_idx A x).
  Proof.
    induction e as [| e IH]; intros A x HA Hlt Hnd Hr Hx.
    - destruct A; [| discriminate]. apply move_ret.
    - destruct A as [| i [| j A]]; try (simpl in HA; lia).
      replace (2 * S e)%nat with (2 + 2 * e)%nat by lia.
      assert (Hz : In (flip_idx [i; j] x) (states d 2)) by (apply flip_idx_in; exact Hx).
      inversion Hnd as [| ? ? Hi Hnd']; subst. inversion Hnd' as [| ? ? Hj Hnd'']; subst.
      apply (move_add sdec (states d 2) kk (fun _ => Hpr) 2 (2 * e) 0 x (flip_idx [i; j] x)); auto.
      + apply pair_move; auto; [destruct Hlt; [assumption | discriminate] | apply Hr; left; reflexivity | apply Hr; right; left; reflexivity |].
        intros ->. apply Hi. left. reflexivity.
      + unfold can_move. rewrite (run_seq_shift kk (2 * e) (0 + 2) 0) by reflexivity.
        rewrite <- (flip_comp [i; j] A (i :: j :: A) x Hx).
        * apply IH; auto; [simpl in HA; lia | destruct Hlt; [left; assumption | discriminate] |]. intros a Ha. apply Hr. right. right. exact Ha.
        * intros a Ha. simpl. simpl in Hi. intuition congruence.
  Qed.

  Lemma single_move x i : In x (states d 2) -> (i < d)%nat -> can_move sdec (run_seq kk k 0) x (neighbor x i).
  Proof.
    intros Hx Hi. destruct Hodd as [e He].
    destruct (others d [i] (k - 1)) as (A & HA1 & HA2 & HA3).
    { constructor; [intros [] | constructor]. }
    { intros a [<- | []]; assumption. }
    { simpl. lia. }
    assert (HiA : ~ In i A) by (intros H; apply HA3 in H; destruct H as [_ H]; apply H; left; reflexivity).
    replace k with (1 + 2 * e)%nat by lia.
    apply (move_add sdec (states d 2) kk (fun _ => Hpr) 1 (2 * e) 0 x (flip_idx (i :: A) x)); auto.
    - apply move_one. apply Hmove; auto; [constructor; assumption | simpl; lia |]. intros a [<- | Ha]; [assumption | apply HA3; exact Ha].
    - unfold can_move. rewrite (run_seq_shift kk (2 * e) (0 + 1) 0) by reflexivity.
      replace (neighbor x i) with (flip_idx A (flip_idx (i :: A) x)).
      + apply even_move; auto; [lia | destruct Hkd as [| []]; [left; assumption | right; destruct A; [reflexivity | simpl in HA1; lia]] | | apply flip_idx_in; exact Hx].
        intros a Ha. apply HA3; exact Ha.
      + change (neighbor x i) with (flip_idx [i] x). apply flip_comp; auto. intros a Ha. simpl. intuition congruence.
  Qed.

  Theorem kflip_converges (fw : list nat -> R) : invariant (states d 2) (fun x => exp (fw x)) step ->
    (exists x, In x (states d 2) /\ can_move sdec step x x) -> converges (states d 2) (fun x => exp (fw x)) (fun _ => step).
  Proof.
    intros Hinv (x & Hx & Hst). apply (power_converges _ _ _ k); auto.
    apply (flip_converges d (run_seq kk k 0)); auto.
    - lia.
    - apply (run_proper (states d 2) kk); auto.
    - intros; apply single_move; assumption.
    - apply (run_seq_invariant (states d 2) _ kk). intros; exact Hinv.
    - exists x, x. repeat split; auto. destruct Hodd as [e He]. replace k with (1 + 2 * e)%nat by lia.
      apply (move_add sdec (states d 2) kk (fun _ => Hpr) 1 (2 * e) 0 x x); auto; [apply move_one; exact Hst |].
      unfold can_move. rewrite (run_seq_shift kk (2 * e) (0 + 1) 0) by reflexivity. change (can_move sdec (run_seq kk (2 * e) 0) x x).
      clear He Hst. induction e as [| e IH]; [apply move_ret |].
      replace (2 * S e)%nat with (2 * e + 2)%nat by lia.
      apply (move_add sdec (states d 2) kk (fun _ => Hpr) (2 * e) 2 0 x x); auto.
      unfold can_move. rewrite (run_seq_shift kk 2 (0 + 2 * e) 0) by reflexivity. change (can_move sdec (run_seq kk (1 + 1) 0) x x).
      destruct (others d [] k) as (p & Hp1 & Hp2 & Hp3); [constructor | intros ? [] | simpl; lia |].
      apply (move_add sdec (states d 2) kk (fun _ => Hpr) 1 1 0 x (flip_idx p x)); auto.
      + apply move_one. apply Hmove; auto. intros i Hi. apply Hp3; exact Hi.
      + apply move_one. rewrite <- (flip_idx_invol d p x Hx) at 2. apply Hmove; auto; [apply flip_idx_in; exact Hx |]. intros i Hi. apply Hp3; exact Hi.
  Qed.
End KFlip.

Lemma run_E_ext {A} (S : list A) (k k' : nat -> A -> dist A) : (forall t, proper S (k t)) -> (forall t x f, In x S -> E (k t x) f = E (k' t x) f) ->
  forall n t x f, In x S -> E (run_seq k n t x) f = E (run_seq k' n t x) f.
Proof.
  intros Hpr H. induction n as [| n IH]; intros t x f Hx; [reflexivity |]. cbn [run_seq]. rewrite !E_bind.
  rewrite <- (H t x) by exact Hx. apply E_ext_in. intros y w Hy. apply IH. destruct (Hpr t x Hx) as [_ Hs]. exact (Hs y w Hy).
Qed.

Lemma converges_E_ext {A} (S : list A) pi (k k' : nat -> A -> dist A) : (forall t, proper S (k t)) -> (forall t x f, In x S -> E (k t x) f = E (k' t x) f) ->
  converges S pi k <-> converges S pi k'.
Proof.
  intros Hpr H. pose proof (run_E_ext S k k' Hpr H) as HR.
  split; intros Hc eps He; destruct (Hc eps He) as [N HN]; exists N; intros n x f Hn Hx Hf; [rewrite <- HR | rewrite HR]; auto.
Qed.

(** ** Path auxiliary *)
Section Path.
  Variables (fw : list nat -> R) (wf : R -> R) (lr : list nat -> nat -> R) (mask : option (nat -> R)) (d k : nat).
  Hypothesis Hk : (1 <= k <= d)%nat.

  Lemma pafs_proper g : proper (states d 2) (pafs_step g fw wf lr mask k).
  Proof.
    intros x Hx. split; [apply (pafs_is_prob fw wf lr mask d k Hk); exact Hx |]. intros y w Hy.
    unfold pafs_step, bind in Hy. apply in_flat_map in Hy. destruct Hy as ([a u] & Ha & Hy). apply in_map_iff in Hy.
    destruct Hy as ([z v] & Heq & Hz). cbn [fst snd] in *. injection Heq as Hzy _. subst z. unfold omh_law in Hz.
    destruct (pafs_log_acc fw wf lr mask x a); [| destruct Hz]. apply in_mh_law in Hz. destruct Hz as [-> | ->]; auto. apply flip_idx_in; auto.
  Qed.

  Lemma pafs_E x f : In x (states d 2) -> exists la, (forall p, In p (kperms k (seq 0 d)) -> pafs_log_acc fw wf lr mask x p = Some (la p)) /\
    E (pafs_step 0 fw wf lr mask k x) f = rsum (kperms k (seq 0 d)) (fun p => exp (path_ll (fun i => nth i (paf_dist wf lr mask x) 0) p) *
      (Rmin 1 (exp (la p)) * f (flip_idx p x) + (1 - Rmin 1 (exp (la p))) * f x)).
  Proof.
    intros Hx. pose proof (proj1 (proj1 (in_states d 2 x) Hx)) as Hl. eexists. split; [intros p Hp; apply (pafs_la fw wf lr mask d k Hk x p Hl Hp) |].
    rewrite (pafs_step_E fw wf lr mask d k Hk 0 x f Hx). unfold mh_kernel. rewrite E_bind.
    rewrite (prop_E wf lr mask d k Hk x _ Hl). apply rsum_ext. intros p Hp. f_equal. rewrite E_mh_law, accept_prob_0. reflexivity.
  Qed.

  Lemma pafs_inv : invariant (states d 2) (fun x => exp (fw x)) (pafs_step 0 fw wf lr mask k).
  Proof. apply reversible_invariant; [| apply pafs_reversible; exact Hk]. intros x Hx. apply (pafs_is_prob fw wf lr mask d k Hk). exact Hx. Qed.

  Lemma kperms_ok p : In p (kperms k (seq 0 d)) <-> length p = k /\ NoDup p /\ forall i, In i p -> (i < d)%nat.
  Proof.
    rewrite in_kperms by apply seq_NoDup. split; intros (H1 & H2 & H3); repeat split; auto; intros i Hi; specialize (H3 i Hi); [apply in_seq in H3 | apply in_seq]; lia.
  Qed.

  Lemma acc_pos l : 0 < Rmin 1 (exp l) <= 1.
  Proof. split; [apply Rmin_glb_lt; [lra | apply exp_pos] | apply Rmin_l]. Qed.

  Theorem pafs_odd_iff : Nat.Odd k -> (k < d)%nat \/ k = 1%nat ->
    converges (states d 2) (fun x => exp (fw x)) (fun _ => pafs_step 0 fw wf lr mask k) <->
    exists x p l, In x (states d 2) /\ length p = k /\ NoDup p /\ (forall i, In i p -> (i < d)%nat) /\ pafs_log_acc fw wf lr mask x p = Some l /\ l < 0.
  Proof.
    intros Hodd Hlt. split.
    - intros Hc.
      set (neg := fun o : option R => match o with Some l => if Rlt_dec l 0 then true else false | None => false end).
      destruct (existsb (fun q => neg (pafs_log_acc fw wf lr mask (fst q) (snd q))) (list_prod (states d 2) (kperms k (seq 0 d)))) eqn:Hex.
      + apply existsb_exists in Hex. destruct Hex as ([x p] & Hin & Hneg). apply in_prod_iff in Hin. destruct Hin as [Hx Hp]. cbn [fst snd] in Hneg.
        unfold neg in Hneg. destruct (pafs_log_acc fw wf lr mask x p) as [l |] eqn:El; [| discriminate]. destruct (Rlt_dec l 0) as [Hl |]; [| discriminate].
        apply kperms_ok in Hp. destruct Hp as (H1 & H2 & H3). exists x, p, l. repeat split; assumption.
      + exfalso.
        refine (alternating_not_converges (states d 2) (fun x => exp (fw x)) (fun _ => pafs_step 0 fw wf lr mask k) _ par (repeat 0%nat d) _ _ _ Hc).
        * intros t. apply pafs_proper.
        * apply in_states. split; [apply repeat_length |]. apply Forall_forall. intros y Hy. apply repeat_spec in Hy. lia.
        * intros; apply par_cases.
        * intros _ x Hx. destruct (pafs_E x par Hx) as (la & Hla & HE). rewrite HE.
          rewrite (rsum_ext _ _ (fun p => (- par x) * exp (path_ll (fun i => nth i (paf_dist wf lr mask x) 0) p))).
          -- rewrite rsum_scal. pose proof (prop_E wf lr mask d k Hk x (fun _ => 1) (proj1 (proj1 (in_states d 2 x) Hx))) as HP.
             pose proof (proj2 (prop_prob wf lr mask d k Hk x (proj1 (proj1 (in_states d 2 x) Hx)))) as HM.
             assert (HS : rsum (kperms k (seq 0 d)) (fun p => exp (path_ll (fun i => nth i (paf_dist wf lr mask x) 0) p)) = 1).
             { rewrite (rsum_ext _ _ (fun p => exp (path_ll (fun i => nth i (paf_dist wf lr mask x) 0) p) * 1)) by (intros; ring).
               exact (eq_trans (eq_sym HP) HM). }
             rewrite HS. ring.
          -- intros p Hp. assert (Hge : 0 <= la p).
             { apply Rnot_lt_le. intros Hneg. rewrite <- Bool.not_true_iff_false in Hex. apply Hex. apply existsb_exists. exists (x, p).
               split; [apply in_prod_iff; auto |]. cbn [fst snd]. rewrite (Hla p Hp). unfold neg. destruct (Rlt_dec (la p) 0); [reflexivity | contradiction]. }
             rewrite Rmin_left. 2: { rewrite <- exp_0. destruct Hge as [Hg | <-]; [left; apply exp_increasing; exact Hg | lra]. }
             apply kperms_ok in Hp. destruct Hp as (H1 & H2 & H3). rewrite (par_flip_idx d) by assumption. rewrite H1.
             destruct Hodd as [e ->]. rewrite pow_add, pow_1_even. simpl. ring.
    - intros (x & p & l & Hx & H1 & H2 & H3 & El & Hl).
      apply (kflip_converges d k); auto; [lia | lia | apply pafs_proper | | apply pafs_inv |].
      + intros y q Hy Hq1 Hq2 Hq3. unfold can_move. destruct (pafs_E y (fun z => if sdec z (flip_idx q y) then 1 else 0) Hy) as (la & _ & HE). rewrite HE.
        assert (Hq : In q (kperms k (seq 0 d))) by (apply kperms_ok; auto).
        eapply Rlt_le_trans; [| apply (rsum_ge_term _ _ q Hq)].
        * cbv beta. apply Rmult_lt_0_compat; [apply exp_pos |]. destruct (sdec (flip_idx q y) (flip_idx q y)); [| congruence].
          pose proof (acc_pos (la q)). destruct (sdec y (flip_idx q y)); lra.
        * intros r _. apply Rmult_le_pos; [left; apply exp_pos |]. pose proof (acc_pos (la r)). destruct (sdec (flip_idx r y) _), (sdec y _); lra.
      + exists x. split; [exact Hx |]. unfold can_move. destruct (pafs_E x (fun z => if sdec z x then 1 else 0) Hx) as (la & Hla & HE). rewrite HE.
        assert (Hp : In p (kperms k (seq 0 d))) by (apply kperms_ok; auto).
        assert (Hlp : la p < 0) by (specialize (Hla p Hp); rewrite El in Hla; injection Hla as <-; exact Hl).
        eapply Rlt_le_trans; [| apply (rsum_ge_term _ _ p Hp)].
        * cbv beta. apply Rmult_lt_0_compat; [apply exp_pos |]. destruct (sdec x x); [| congruence].
          pose proof (acc_pos (la p)). assert (Rmin 1 (exp (la p)) < 1). { eapply Rle_lt_trans; [apply Rmin_r |]. rewrite <- exp_0. apply exp_increasing. exact Hlp. }
          destruct (sdec (flip_idx p x) x); lra.
        * intros r _. apply Rmult_le_pos; [left; apply exp_pos |]. pose proof (acc_pos (la r)). destruct (sdec (flip_idx r x) _), (sdec x _); lra.
  Qed.

  (** All sites at once: only a state and its complement are ever visited. *)
  Theorem pafs_full_not_converges g pi : (2 <= d)%nat -> k = d -> ~ converges (states d 2) pi (fun _ => pafs_step g fw wf lr mask k).
  Proof.
    intros Hd Hkd Hc.
    set (x0 := repeat 0%nat d). set (y0 := neighbor x0 0).
    assert (Hx0 : In x0 (states d 2)).
    { apply in_states. split; [apply repeat_length |]. apply Forall_forall. intros y Hy. apply repeat_spec in Hy. lia. }
    assert (Hy0 : In y0 (states d 2)) by (apply neighbor_states; auto; lia).
    set (agree := fun x : list nat => if Nat.eqb (nth 0 x 0%nat) (nth 1 x 0%nat) then 1 else -1).
    refine (conserved_not_converges (states d 2) pi (fun _ => pafs_step g fw wf lr mask k) _ agree x0 y0 Hx0 Hy0 _ _ _ _ Hc).
    - intros t. apply pafs_proper.
    - unfold agree, x0. rewrite !nth_repeat. reflexivity.
    - unfold agree, y0, neighbor. rewrite nth_upd_eq by (unfold x0; rewrite repeat_length; lia). rewrite nth_upd_neq by lia. unfold x0. rewrite !nth_repeat. reflexivity.
    - intros z Hz. unfold agree. destruct (_ =? _)%nat; [rewrite Rabs_R1 | rewrite Rabs_left]; lra.
    - intros _ x Hx. rewrite (pafs_step_E fw wf lr mask d k Hk) by exact Hx. unfold mh_kernel. rewrite E_bind.
      rewrite (E_ext_in _ _ (fun _ => agree x)).
      + rewrite E_const. rewrite (proj2 (prop_prob wf lr mask d k Hk x (proj1 (proj1 (in_states d 2 x) Hx)))). ring.
      + intros a u Ha. apply in_norepl in Ha. apply kperms_ok in Ha. destruct Ha as (H1 & H2 & H3). rewrite E_mh_law.
        assert (Hall : forall i, (i < d)%nat -> In i a).
        { intros i Hi. apply (NoDup_length_incl (l := a) (l' := seq 0 d)); auto; [rewrite seq_length; lia | | apply in_seq; lia].
          intros j Hj. apply in_seq. specialize (H3 j Hj). lia. }
        assert (Hag : agree (flip_idx a x) = agree x).
        { pose proof (proj1 (proj1 (in_states d 2 x) Hx)) as Hl. unfold agree. rewrite !nth_flip_idx by lia.
          destruct (in_dec Nat.eq_dec 0%nat a) as [_ | n]; [| exfalso; apply n, Hall; lia]. destruct (in_dec Nat.eq_dec 1%nat a) as [_ | n]; [| exfalso; apply n, Hall; lia].
          pose proof (in_states_nth d 2 x 0 Hx ltac:(lia)). pose proof (in_states_nth d 2 x 1 Hx ltac:(lia)).
          destruct (Nat.eqb_spec (1 - nth 0 x 0)%nat (1 - nth 1 x 0)%nat), (Nat.eqb_spec (nth 0 x 0%nat) (nth 1 x 0%nat)); try reflexivity; lia. }
        rewrite Hag. ring.
  Qed.

  (** The adaptive sampler at a fixed radius has the same law. *)
  Lemma apafs_same g radius x f : num_sites d radius = k -> In x (states d 2) ->
    E (apafs_step g fw wf lr mask radius x) f = E (pafs_step g fw wf lr mask k x) f.
  Proof.
    intros Hr Hx. rewrite (apafs_step_E fw wf lr mask d k Hk radius Hr g x f Hx). symmetry. apply (pafs_step_E fw wf lr mask d k Hk g x f Hx).
  Qed.

  Lemma apafs_converges_iff g radius pi : num_sites d radius = k ->
    converges (states d 2) pi (fun _ => apafs_step g fw wf lr mask radius) <-> converges (states d 2) pi (fun _ => pafs_step g fw wf lr mask k).
  Proof.
    intros Hr. symmetry. apply converges_E_ext; [intros; apply pafs_proper |]. intros _ x f Hx. symmetry. apply apafs_same; assumption.
  Qed.
End Path.
