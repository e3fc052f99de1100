(** The Langevin samplers under co_opt_prob: one chain, constant total rates, two chains. *)
From Coq Require Import String Reals List Lra Lia Arith ZArith.
From Verif.Base Require Import RSum Cube Dist XFloat MH.
From Verif.Spec Require Import Chain.
From Verif.Model Require Import MathUtil RandomWalk LocallyBalanced PathAux Langevin.
From Verif.Proof Require Import MHKernel MathUtilProof GWGProof LangevinProof LangevinAdapt.
Import ListNotations.
Local Open Scope R_scope.

Lemma in_indep_each {A} : forall (ds : list (dist A)) l w, In (l, w) (indep ds) -> Forall2 (fun a d => exists v, In (a, v) d) l ds.
Proof.
  induction ds as [|d ds IH]; intros l w H.
  - destruct H as [H|[]]. apply (f_equal fst) in H. cbn in H. subst. constructor.
  - cbn [indep] in H. unfold bind in H. apply in_flat_map in H as ([a u] & Ha & H). apply in_map_iff in H as ([l' u'] & Heq & H).
    unfold dmap in H. apply in_map_iff in H as ([l'' u''] & Heq' & H). apply (f_equal fst) in Heq, Heq'. cbn in Heq, Heq'. subst.
    constructor; [exists u; exact Ha|]. eapply IH; eauto.
Qed.

Lemma co_used c n z s : lc_co_opt c = true -> l_used_log_tau c n (Fin z) s = Fin (local_log_tau n z).
Proof. intros Hc. unfold l_used_log_tau, local_log_tau. rewrite Hc. cbn [xsub xneg xadd]. f_equal. Qed.

(** One chain: the kernel with the state-dependent step size. *)
Lemma co_single guard dg fw pfun rates lz n c s x f : lc_co_opt c = true ->
  E (bin_batch_step guard dg fw pfun rates lz n c s [x]) (fun o => f (fst o))
  = E (batch_step (bern_step guard dg fw (fun z => Some (pfun (local_log_tau n (lz [rates z])) z))) [x]) f.
Proof.
  intros Hc. unfold bin_batch_step. cbv zeta. rewrite co_used, Hc by auto. cbn [map]. unfold batch_step. cbn [map].
  unfold bern_step. rewrite E_bind, !E_indep_cons, E_bind. apply E_ext. intros fl. cbn [indep]. rewrite E_ret. cbn [combine map fst snd].
  rewrite E_dmap, E_indep_cons. cbn [fst indep]. apply E_ext. intros y. rewrite !E_ret. reflexivity.
Qed.

(** All chains have the same total rate in every state: the chains move independently. *)
Lemma co_constant guard dg fw pfun rates lz n c s d xs z0 f : lc_co_opt c = true ->
  (forall lt x, In x (states d 2) -> length (pfun lt x) = d) ->
  (forall zs, length zs = length xs -> Forall (fun z => In z (states d 2)) zs -> lz (map rates zs) = z0) ->
  Forall (fun x => In x (states d 2)) xs ->
  E (bin_batch_step guard dg fw pfun rates lz n c s xs) (fun o => f (fst o))
  = E (batch_step (bern_step guard dg fw (fun x => Some (pfun (local_log_tau n z0) x))) xs) f.
Proof.
  intros Hc Hlen Hz Hxs. unfold bin_batch_step. cbv zeta. rewrite co_used, Hc by auto. rewrite Hz by auto. rewrite E_bind.
  unfold batch_step, bern_step. rewrite indep_bind. apply E_ext_in. intros l w Hl. rewrite E_dmap. cbn [fst].
  rewrite Hz; [reflexivity| |].
  - apply in_indep_len in Hl as Hl'. rewrite map_length in Hl'. rewrite map_length, combine_length. lia.
  - apply in_indep_each in Hl. clear Hz w f. revert l Hl. induction xs as [|x xs IH]; intros l Hl.
    + inversion Hl; subst. constructor.
    + pose proof (Forall_inv Hxs) as Hx. apply Forall_inv_tail in Hxs. cbn [map] in Hl. inversion Hl as [|a q l' ds Ha Hl' e1 e2]; subst.
      destruct Ha as [v Ha]. cbn [combine map fst snd]. constructor; [|apply IH; auto].
      apply in_indep_len in Ha. rewrite map_length, Hlen in Ha by auto. apply flip_bits_states; auto.
Qed.

(** ** Two chains with one site each *)
Section Two.
  Variables (fw : list nat -> R) (P : R -> nat -> R) (rates : list nat -> list R) (lz : list (list R) -> R) (n : R) (c : lconf) (s : lstate).
  Variable pfun : R -> list nat -> list R.
  Hypothesis Hc : lc_co_opt c = true.
  Hypothesis HP : forall lt x, pfun lt [x] = [P lt x].
  Hypothesis HP01 : forall lt x, 0 < P lt x < 1.

  Let T (x1 x2 : nat) : R := local_log_tau n (lz [rates [x1]; rates [x2]]).
  (** Probability that the flip [x -> 1 - x] is accepted, given the forward and backward step sizes. *)
  Let acc (x : nat) (t t' : R) : R := Rmin 1 (exp (fw [1 - x]%nat - fw [x]) * (P t' (1 - x) / P t x)).
  Let mv (x : nat) (b : bool) (t t' : R) (h : nat -> R) : R := if b then acc x t t' * h (1 - x)%nat + (1 - acc x t t') * h x else h x.
  Let y (x : nat) (b : bool) : nat := if b then (1 - x)%nat else x.
  Let pr (x : nat) (b : bool) (t : R) : R := if b then P t x else 1 - P t x.

  Lemma two_move (x : nat) (b : bool) t t' (h : list nat -> R) : (x < 2)%nat ->
    E (mh_law 0 (bern_log_acc 0 fw (pfun t [x]) (pfun t' (flip_bits [b] [x])) [x] [b]) [x] (flip_bits [b] [x])) h
    = mv x b t t' (fun z => h [z]).
  Proof.
    intros Hx. rewrite E_mh_law. destruct b.
    - assert (Hf : flip_bits [true] [x] = [1 - x]%nat) by (unfold flip_bits; cbn [combine map fst snd]; f_equal; lia).
      rewrite Hf. assert (Ha : accept_prob 0 (bern_log_acc 0 fw (pfun t [x]) (pfun t' [1 - x]%nat) [x] [true]) = acc x t t').
      { unfold accept_prob, bern_log_acc. rewrite Hf, !HP. unfold bern_ll. cbn [combine rsum fst snd].
        pose proof (HP01 t x) as H1. pose proof (HP01 t' (1 - x)%nat) as H2.
        match goal with |- context [exp ?a] => replace (exp a) with (exp (fw [1 - x]%nat - fw [x]) * (P t' (1 - x) / P t x)) end.
        2:{ match goal with |- _ = exp ?a => replace a with ((fw [1 - x]%nat - fw [x]) + (ln (P t' (1 - x)%nat) + - ln (P t x))) end.
            2:{ rewrite !Rplus_0_r. ring. }
            rewrite !exp_plus, exp_Ropp, !exp_ln by lra. reflexivity. }
        rewrite Rminus_0_r. unfold acc. apply Rmax_right. apply Rmin_glb; [lra|].
        apply Rmult_le_pos; [left; apply exp_pos|]. left. apply Rdiv_lt_0_compat; lra. }
      rewrite Ha. reflexivity.
    - assert (Hf : flip_bits [false] [x] = [x]) by (unfold flip_bits; cbn [combine map fst snd]; f_equal; lia). rewrite Hf. unfold mv. ring.
  Qed.

  Lemma two_step x1 x2 (f : nat -> nat -> R) : (x1 < 2)%nat -> (x2 < 2)%nat ->
    E (bin_batch_step 0 0 fw pfun rates lz n c s [[x1]; [x2]]) (fun o => f (nth 0 (nth 0 (fst o) []) 0%nat) (nth 0 (nth 1 (fst o) []) 0%nat))
    = rsum [true; false] (fun b1 => rsum [true; false] (fun b2 => pr x1 b1 (T x1 x2) * pr x2 b2 (T x1 x2)
        * mv x1 b1 (T x1 x2) (T (y x1 b1) (y x2 b2)) (fun z1 => mv x2 b2 (T x1 x2) (T (y x1 b1) (y x2 b2)) (fun z2 => f z1 z2)))).
  Proof.
    intros H1 H2. unfold bin_batch_step. cbv zeta. rewrite co_used, Hc by auto. cbn [map]. fold (T x1 x2). rewrite !HP.
    assert (Hy : forall x b, (x < 2)%nat -> flip_bits [b] [x] = [y x b]) by (intros x b Hx; unfold flip_bits; cbn [combine map fst snd]; destruct b; cbn [y]; f_equal; lia).
    assert (K : forall b1 b2, E (dmap (fun ns => (ns, l_update c (Fin (rsum (map (fun fx : list bool * list nat =>
                   bern_log_acc 0 fw (pfun (T x1 x2) (snd fx)) (pfun (local_log_tau n (lz (map rates (map (fun fx0 : list bool * list nat => flip_bits (fst fx0) (snd fx0)) (combine [[b1]; [b2]] [[x1]; [x2]]))))) (flip_bits (fst fx) (snd fx))) (snd fx) (fst fx)) (combine [[b1]; [b2]] [[x1]; [x2]])) (fun l => exp (Rmin l 0)) / INR (length (map (fun fx : list bool * list nat =>
                   bern_log_acc 0 fw (pfun (T x1 x2) (snd fx)) (pfun (local_log_tau n (lz (map rates (map (fun fx0 : list bool * list nat => flip_bits (fst fx0) (snd fx0)) (combine [[b1]; [b2]] [[x1]; [x2]]))))) (flip_bits (fst fx) (snd fx))) (snd fx) (fst fx)) (combine [[b1]; [b2]] [[x1]; [x2]]))))) (Fin (lz (map rates (map (fun fx : list bool * list nat => flip_bits (fst fx) (snd fx)) (combine [[b1]; [b2]] [[x1]; [x2]]))))) s))
             (indep (map (fun fx : list bool * list nat => mh_law 0 (bern_log_acc 0 fw (pfun (T x1 x2) (snd fx)) (pfun (local_log_tau n (lz (map rates (map (fun fx0 : list bool * list nat => flip_bits (fst fx0) (snd fx0)) (combine [[b1]; [b2]] [[x1]; [x2]]))))) (flip_bits (fst fx) (snd fx))) (snd fx) (fst fx)) (snd fx) (flip_bits (fst fx) (snd fx))) (combine [[b1]; [b2]] [[x1]; [x2]]))))
             (fun o => f (nth 0 (nth 0 (fst o) []) 0%nat) (nth 0 (nth 1 (fst o) []) 0%nat))
       = mv x1 b1 (T x1 x2) (T (y x1 b1) (y x2 b2)) (fun z1 => mv x2 b2 (T x1 x2) (T (y x1 b1) (y x2 b2)) (fun z2 => f z1 z2))).
    { intros b1 b2. rewrite E_dmap. cbn [combine map fst snd]. rewrite (Hy x1 b1), (Hy x2 b2) by auto. fold (T (y x1 b1) (y x2 b2)).
      rewrite <- (Hy x1 b1), <- (Hy x2 b2) by auto. rewrite E_indep_cons.
      rewrite (E_ext _ _ (fun a => mv x2 b2 (T x1 x2) (T (y x1 b1) (y x2 b2)) (fun z2 => f (nth 0 a 0%nat) z2))).
      2:{ intros a. rewrite E_indep_cons, two_move by auto. unfold mv; destruct b2; cbn [indep]; rewrite !E_ret; reflexivity. }
      rewrite two_move by auto. reflexivity. }
    cbn [map]. rewrite E_bind, !E_indep_cons, E_bernoulli. change (@indep bool []) with (@ret (list bool) []). rewrite !E_ret.
    rewrite !E_indep_cons, !E_bernoulli. change (@indep (list bool) []) with (@ret (list (list bool)) []). change (@indep bool []) with (@ret (list bool) []).
    rewrite !E_ret.
    rewrite !K. cbn [rsum pr]. ring.
  Qed.

  Variables (a b c0 c1 : R).
  Hypothesis V00 : P (T 0 0) 0 = a.
  Hypothesis V11 : P (T 1 1) 1 = b.
  Hypothesis V010 : P (T 0 1) 0 = c0.
  Hypothesis V100 : P (T 1 0) 0 = c0.
  Hypothesis V011 : P (T 0 1) 1 = c1.
  Hypothesis V101 : P (T 1 0) 1 = c1.
  Hypothesis F0 : fw [0%nat] = 0.
  Hypothesis F1 : fw [1%nat] = ln 4.
  Hypothesis U1 : a <= 4 * b.
  Hypothesis U2 : a <= 4 * c1.
  Hypothesis U3 : c0 <= 4 * c1.
  Hypothesis U4 : c0 <= 4 * b.

  Lemma up_one u v : 0 < v -> v <= 4 * u -> Rmin 1 (4 * (u / v)) = 1.
  Proof. intros Hv H. apply Rmin_left. apply (Rmult_le_reg_r v); auto. replace (4 * (u / v) * v) with (4 * u) by (field; lra). lra. Qed.
  Lemma down_le u v : 0 < v -> u <= 4 * v -> Rmin 1 (/ 4 * (u / v)) = u / (4 * v).
  Proof.
    intros Hv H. replace (/ 4 * (u / v)) with (u / (4 * v)) by (field; lra). apply Rmin_right.
    apply (Rmult_le_reg_r (4 * v)); [lra|]. replace (u / (4 * v) * (4 * v)) with u by (field; lra). lra.
  Qed.

  Let z00 (z1 z2 : nat) : R := if (Nat.eqb z1 0 && Nat.eqb z2 0)%bool then 1 else 0.

  (** The target mass of (0,0) after one step from the product target is [1 + 2 a (a - c0)] instead of 1. *)
  Lemma two_inflow :
    rsum (lists_over (states 1 2) 2) (fun xs => batch_pi (fun x => exp (fw x)) xs
      * E (dmap fst (bin_batch_step 0 0 fw pfun rates lz n c s xs)) (fun xs => z00 (nth 0 (nth 0 xs []) 0%nat) (nth 0 (nth 1 xs []) 0%nat)))
    = 1 + 2 * a * (a - c0).
  Proof.
    assert (Ha : 0 < a < 1) by (rewrite <- V00; auto). assert (Hb : 0 < b < 1) by (rewrite <- V11; auto).
    assert (Hc0 : 0 < c0 < 1) by (rewrite <- V010; auto). assert (Hc1 : 0 < c1 < 1) by (rewrite <- V011; auto).
    assert (Ex1 : exp (ln 4 - 0) = 4) by (rewrite Rminus_0_r; apply exp_ln; lra).
    assert (Ex2 : exp (0 - ln 4) = / 4) by (unfold Rminus; rewrite Rplus_0_l, exp_Ropp, exp_ln by lra; reflexivity).
    change (lists_over (states 1 2) 2) with [[[0%nat]; [0%nat]]; [[0%nat]; [1%nat]]; [[1%nat]; [0%nat]]; [[1%nat]; [1%nat]]].
    cbn [rsum]. rewrite !E_dmap. unfold batch_pi. cbn [rprod]. rewrite F0, F1, exp_0, exp_ln by lra.
    rewrite !two_step by lia. unfold pr, mv, acc, y, z00. cbn [rsum Nat.sub Nat.eqb andb].
    rewrite F0, F1, Ex1, Ex2, V00, V11, V010, V011, V100, V101.
    rewrite !up_one by lra. rewrite !down_le by lra. field. lra.
  Qed.

  (** The first chain moves from 0 with probability [a] beside a chain at 0, and [c0] beside a chain at 1. *)
  Lemma two_marginal : forall x2, (x2 < 2)%nat ->
    E (dmap fst (bin_batch_step 0 0 fw pfun rates lz n c s [[0%nat]; [x2]])) (fun xs => INR (nth 0 (nth 0 xs []) 0%nat))
    = if Nat.eqb x2 0 then a else c0.
  Proof.
    assert (Ha : 0 < a < 1) by (rewrite <- V00; auto). assert (Hb : 0 < b < 1) by (rewrite <- V11; auto).
    assert (Hc0 : 0 < c0 < 1) by (rewrite <- V010; auto). assert (Hc1 : 0 < c1 < 1) by (rewrite <- V011; auto).
    assert (Ex1 : exp (ln 4 - 0) = 4) by (rewrite Rminus_0_r; apply exp_ln; lra).
    assert (Ex2 : exp (0 - ln 4) = / 4) by (unfold Rminus; rewrite Rplus_0_l, exp_Ropp, exp_ln by lra; reflexivity).
    intros x2 Hx2. rewrite E_dmap. rewrite (two_step 0 x2 (fun z1 _ => INR z1)) by lia. unfold pr, mv, acc, y.
    destruct x2 as [|[|x2]]; [| |lia]; cbn [rsum Nat.sub Nat.eqb INR].
    - rewrite F0, F1, Ex1, V00, V11, V101. rewrite !up_one by lra. ring.
    - rewrite F0, F1, Ex1, Ex2, V010, V011, V11, V101. rewrite !up_one by lra. ring.
  Qed.
End Two.

(** The single-site model with log-odds ln 4, its gradient scores, and the square-root balancing function (on the log scale). *)
Definition co_fw (x : list nat) : R := INR (nth 0 x 0%nat) * ln 4.
Definition co_lr (x : list nat) (i : nat) : R := (1 - 2 * INR (nth i x 0%nat)) * ln 4.
Definition co_wf (r : R) : R := r / 2.

Lemma co_w0 : exp (co_wf (co_lr [0%nat] 0)) = 2.
Proof.
  unfold co_wf, co_lr. cbn [nth INR]. replace ((1 - 2 * 0) * ln 4 / 2) with (ln 2); [apply exp_ln; lra|].
  replace 4 with (2 * 2) by ring. rewrite ln_mult by lra. field.
Qed.
Lemma co_w1 : exp (co_wf (co_lr [1%nat] 0)) = / 2.
Proof.
  unfold co_wf, co_lr. cbn [nth INR]. replace ((1 - 2 * 1) * ln 4 / 2) with (- ln 2); [rewrite exp_Ropp, exp_ln by lra; reflexivity|].
  replace 4 with (2 * 2) by ring. rewrite ln_mult by lra. field.
Qed.

Lemma co_tau2 n x1 x2 lz : 0 < n -> lz = dmala_log_z \/ lz = dlmc_log_z ->
  exp (local_log_tau n (lz [chain_rates co_wf co_lr [x1]; chain_rates co_wf co_lr [x2]]))
  = n * 2 / (exp (co_wf (co_lr [x1] 0)) + exp (co_wf (co_lr [x2] 0))).
Proof.
  intros Hn Hz. unfold chain_rates. cbn [length seq map]. set (u := co_wf (co_lr [x1] 0)). set (v := co_wf (co_lr [x2] 0)).
  pose proof (exp_pos u) as Hu. pose proof (exp_pos v) as Hv.
  unfold local_log_tau, Rminus. rewrite exp_plus, exp_Ropp, exp_ln by auto. destruct Hz as [-> | ->].
  - unfold dmala_log_z, sumexp. cbn [rsum length]. change (INR 2) with (1 + 1). rewrite exp_ln; [field; lra|]. apply Rdiv_lt_0_compat; lra.
  - unfold dlmc_log_z, sumexp. cbn [concat app rsum length]. change (INR 2) with (1 + 1). unfold Rminus. rewrite exp_plus, exp_Ropp, !exp_ln by lra. field. lra.
Qed.

Lemma z00_batch (f : list (list nat) -> R) : rsum (lists_over (states 1 2) 2) (fun xs => batch_pi (fun x => exp (co_fw x)) xs * f xs)
  = f [[0%nat]; [0%nat]] + 4 * f [[0%nat]; [1%nat]] + 4 * f [[1%nat]; [0%nat]] + 16 * f [[1%nat]; [1%nat]].
Proof.
  change (lists_over (states 1 2) 2) with [[[0%nat]; [0%nat]]; [[0%nat]; [1%nat]]; [[1%nat]; [0%nat]]; [[1%nat]; [1%nat]]].
  cbn [rsum]. unfold batch_pi, co_fw. cbn [rprod nth INR]. rewrite Rmult_0_l, Rmult_1_l, exp_0, exp_ln by lra. ring.
Qed.

Lemma z00_le1 (xs : list (list nat)) : Rabs (if (Nat.eqb (nth 0 (nth 0 xs []) 0%nat) 0 && Nat.eqb (nth 0 (nth 1 xs []) 0%nat) 0)%bool then 1 else 0) <= 1.
Proof. destruct (_ && _)%bool; [rewrite Rabs_R1|rewrite Rabs_R0]; lra. Qed.
Lemma total25 : rsum (lists_over (states 1 2) 2) (batch_pi (fun x => exp (co_fw x))) = 25.
Proof.
  rewrite (rsum_ext _ _ (fun xs => batch_pi (fun x => exp (co_fw x)) xs * 1)) by (intros; ring). rewrite (z00_batch (fun _ => 1)). ring.
Qed.
Lemma Rabs_upper u v : Rabs u <= v -> - v <= u.
Proof. unfold Rabs. destruct (Rcase_abs u); lra. Qed.

(** Two chains under co_opt_prob: the product target is not preserved, DMALA. *)
Lemma co_dmala_refuted c s : lc_co_opt c = true ->
  ~ invariant_upto (1 / 250) (lists_over (states 1 2) 2) (batch_pi (fun x => exp (co_fw x)))
     (fun xs => dmap fst (bin_batch_step 0 0 co_fw (dmala_pfun co_wf co_lr) (chain_rates co_wf co_lr) dmala_log_z 3 c s xs)).
Proof.
  intros Hc Hinv. specialize (Hinv (fun xs => if (Nat.eqb (nth 0 (nth 0 xs []) 0%nat) 0 && Nat.eqb (nth 0 (nth 1 xs []) 0%nat) 0)%bool then 1 else 0) z00_le1). cbv beta in Hinv.
  rewrite (two_inflow co_fw (fun lt x => dmala_p lt (co_wf (co_lr [x] 0))) (chain_rates co_wf co_lr) dmala_log_z 3 c s (dmala_pfun co_wf co_lr) Hc
             ltac:(intros; reflexivity) ltac:(intros; apply dmala_p_range) (3 / 4) (3 / 4) (24 / 29) (6 / 11)) in Hinv; try lra.
  - rewrite z00_batch, total25 in Hinv. cbn in Hinv. apply Rabs_upper in Hinv. lra.
  - rewrite dmala_p_eq, (co_tau2 3 0 0 dmala_log_z), co_w0 by (auto; lra). field.
  - rewrite dmala_p_eq, (co_tau2 3 1 1 dmala_log_z), co_w1 by (auto; lra). field.
  - rewrite dmala_p_eq, (co_tau2 3 0 1 dmala_log_z), co_w0, co_w1 by (auto; lra). field.
  - rewrite dmala_p_eq, (co_tau2 3 1 0 dmala_log_z), co_w0, co_w1 by (auto; lra). field.
  - rewrite dmala_p_eq, (co_tau2 3 0 1 dmala_log_z), co_w0, co_w1 by (auto; lra). field.
  - rewrite dmala_p_eq, (co_tau2 3 1 0 dmala_log_z), co_w0, co_w1 by (auto; lra). field.
  - unfold co_fw. cbn. ring.
  - unfold co_fw. cbn. ring.
Qed.

Lemma co_nu0 : / (1 + exp (- co_lr [0%nat] 0)) = 4 / 5.
Proof. unfold co_lr. cbn [nth INR]. replace (- ((1 - 2 * 0) * ln 4)) with (- ln 4) by ring. rewrite exp_Ropp, exp_ln by lra. field. Qed.
Lemma co_nu1 : / (1 + exp (- co_lr [1%nat] 0)) = 1 / 5.
Proof. unfold co_lr. cbn [nth INR]. replace (- ((1 - 2 * 1) * ln 4)) with (ln 4) by ring. rewrite exp_ln by lra. field. Qed.

Definition co_dlmc_P (lt : R) (x : nat) : R := Rmin (exp lt * exp (co_wf (co_lr [x] 0))) (/ (1 + exp (- co_lr [x] 0))).

Lemma co_dlmc_refuted c s : lc_co_opt c = true ->
  ~ invariant_upto (1 / 2500) (lists_over (states 1 2) 2) (batch_pi (fun x => exp (co_fw x)))
     (fun xs => dmap fst (bin_batch_step 0 0 co_fw (dlmc_pfun "euler_forward" co_wf co_lr) (chain_rates co_wf co_lr) dlmc_log_z (1 / 10) c s xs)).
Proof.
  intros Hc Hinv. specialize (Hinv (fun xs => if (Nat.eqb (nth 0 (nth 0 xs []) 0%nat) 0 && Nat.eqb (nth 0 (nth 1 xs []) 0%nat) 0)%bool then 1 else 0) z00_le1). cbv beta in Hinv.
  assert (HP : forall lt x, dlmc_pfun "euler_forward" co_wf co_lr lt [x] = [co_dlmc_P lt x]).
  { intros lt x. unfold dlmc_pfun, dlmc_ps. cbn [length seq map]. rewrite dlmc_p_euler. reflexivity. }
  assert (HP1 : forall lt x, 0 < co_dlmc_P lt x < 1).
  { intros lt x. unfold co_dlmc_P. pose proof (exp_pos (- co_lr [x] 0)) as H. split.
    - apply Rmin_glb_lt; [apply Rmult_lt_0_compat; apply exp_pos|apply Rinv_0_lt_compat; lra].
    - eapply Rle_lt_trans; [apply Rmin_r|]. rewrite <- Rinv_1 at 2. apply Rinv_lt_contravar; lra. }
  rewrite (two_inflow co_fw co_dlmc_P (chain_rates co_wf co_lr) dlmc_log_z (1 / 10) c s (dlmc_pfun "euler_forward" co_wf co_lr) Hc HP HP1 (1 / 10) (1 / 10) (4 / 25) (1 / 25)) in Hinv; try lra.
  - rewrite z00_batch, total25 in Hinv. cbn in Hinv. apply Rabs_upper in Hinv. lra.
  - unfold co_dlmc_P. rewrite (co_tau2 (1 / 10) 0 0 dlmc_log_z), co_w0, co_nu0 by (auto; lra). rewrite Rmin_left; [field|]. replace (1 / 10 * 2 / (2 + 2) * 2) with (1 / 10) by field. lra.
  - unfold co_dlmc_P. rewrite (co_tau2 (1 / 10) 1 1 dlmc_log_z), co_w1, co_nu1 by (auto; lra). rewrite Rmin_left; [field|]. replace (1 / 10 * 2 / (/ 2 + / 2) * / 2) with (1 / 10) by field. lra.
  - unfold co_dlmc_P. rewrite (co_tau2 (1 / 10) 0 1 dlmc_log_z), co_w0, co_w1, co_nu0 by (auto; lra). rewrite Rmin_left; [field|]. replace (1 / 10 * 2 / (2 + / 2) * 2) with (4 / 25) by field. lra.
  - unfold co_dlmc_P. rewrite (co_tau2 (1 / 10) 1 0 dlmc_log_z), co_w0, co_w1, co_nu0 by (auto; lra). rewrite Rmin_left; [field|]. replace (1 / 10 * 2 / (/ 2 + 2) * 2) with (4 / 25) by field. lra.
  - unfold co_dlmc_P. rewrite (co_tau2 (1 / 10) 0 1 dlmc_log_z), co_w0, co_w1, co_nu1 by (auto; lra). rewrite Rmin_left; [field|]. replace (1 / 10 * 2 / (2 + / 2) * / 2) with (1 / 25) by field. lra.
  - unfold co_dlmc_P. rewrite (co_tau2 (1 / 10) 1 0 dlmc_log_z), co_w0, co_w1, co_nu1 by (auto; lra). rewrite Rmin_left; [field|]. replace (1 / 10 * 2 / (/ 2 + 2) * / 2) with (1 / 25) by field. lra.
  - unfold co_fw. cbn. ring.
  - unfold co_fw. cbn. ring.
Qed.

Lemma co_dmala_influence c s : lc_co_opt c = true ->
  let step := fun xs => dmap fst (bin_batch_step 0 0 co_fw (dmala_pfun co_wf co_lr) (chain_rates co_wf co_lr) dmala_log_z 3 c s xs) in
  E (step [[0%nat]; [0%nat]]) (fun xs => INR (nth 0 (nth 0 xs []) 0%nat)) = 3 / 4 /\
  E (step [[0%nat]; [1%nat]]) (fun xs => INR (nth 0 (nth 0 xs []) 0%nat)) = 24 / 29.
Proof.
  intros Hc step.
  assert (HH := two_marginal co_fw (fun lt x => dmala_p lt (co_wf (co_lr [x] 0))) (chain_rates co_wf co_lr) dmala_log_z 3 c s (dmala_pfun co_wf co_lr) Hc
             ltac:(intros; reflexivity) ltac:(intros; apply dmala_p_range) (3 / 4) (3 / 4) (24 / 29) (6 / 11)).
  assert (K : forall x2, (x2 < 2)%nat -> E (step [[0%nat]; [x2]]) (fun xs => INR (nth 0 (nth 0 xs []) 0%nat)) = if Nat.eqb x2 0 then 3 / 4 else 24 / 29).
  { apply HH; try lra.
    - rewrite dmala_p_eq, (co_tau2 3 0 0 dmala_log_z), co_w0 by (auto; lra). field.
    - rewrite dmala_p_eq, (co_tau2 3 1 1 dmala_log_z), co_w1 by (auto; lra). field.
    - rewrite dmala_p_eq, (co_tau2 3 0 1 dmala_log_z), co_w0, co_w1 by (auto; lra). field.
    - rewrite dmala_p_eq, (co_tau2 3 0 1 dmala_log_z), co_w0, co_w1 by (auto; lra). field.
    - rewrite dmala_p_eq, (co_tau2 3 1 0 dmala_log_z), co_w0, co_w1 by (auto; lra). field.
    - unfold co_fw. cbn. ring.
    - unfold co_fw. cbn. ring. }
  split; [exact (K 0%nat ltac:(lia))|exact (K 1%nat ltac:(lia))].
Qed.

Lemma co_lr_exact x i : In x (states 1 2) -> (i < 1)%nat -> co_lr x i = co_fw (upd i (1 - nth i x 0)%nat x) - co_fw x.
Proof.
  intros Hx Hi. change (states 1 2) with [[0%nat]; [1%nat]] in Hx. replace i with 0%nat by lia.
  destruct Hx as [<-|[<-|[]]]; unfold co_lr, co_fw; cbn; ring.
Qed.

Lemma co_single_dlmc guard dg fw wf lr lz n c s d x f solver : known_solver solver -> lc_co_opt c = true -> In x (states d 2) ->
  E (bin_batch_step guard dg fw (dlmc_pfun solver wf lr) (chain_rates wf lr) lz n c s [x]) (fun o => f (fst o))
  = E (batch_step (dlmc_bin_step guard dg fw solver (fun z => local_log_tau n (lz [chain_rates wf lr z])) wf lr) [x]) f.
Proof.
  intros Hs Hc Hx. rewrite co_single by auto. unfold batch_step. cbn [map]. rewrite !E_indep_cons.
  assert (K : forall z, In z (states d 2) -> Some (dlmc_pfun solver wf lr (local_log_tau n (lz [chain_rates wf lr z])) z) = dlmc_ps solver (local_log_tau n (lz [chain_rates wf lr z])) wf lr z).
  { intros z Hz. unfold dlmc_pfun. destruct (dlmc_ps_ok solver (local_log_tau n (lz [chain_rates wf lr z])) wf lr d z Hs Hz) as (p & -> & _). reflexivity. }
  unfold dlmc_bin_step, bern_step. rewrite <- K by auto. rewrite !E_bind. apply E_ext_in. intros fl w Hfl. apply in_indep_len in Hfl. rewrite map_length in Hfl.
  rewrite <- K; [reflexivity|]. apply flip_bits_states; auto. rewrite Hfl.
  destruct (dlmc_ps_ok solver (local_log_tau n (lz [chain_rates wf lr x])) wf lr d x Hs Hx) as (p & Hp & Hl & _). unfold dlmc_pfun. rewrite Hp. exact Hl.
Qed.
