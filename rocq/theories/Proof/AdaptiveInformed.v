(** Runs of the adaptive informed samplers from equilibrium: three steps of Gibbs-with-gradients and of the path-auxiliary sampler
    on two sites, one step of the Langevin samplers on one site. *)
From Coq Require Import String Reals List Lra Lia Arith ZArith.
From Verif.Base Require Import RSum Cube Dist XFloat MH.
From Verif.Spec Require Import Chain Ergodic SamplerRun ProposalSpec.
From Verif.Model Require Import MathUtil Gibbs RandomWalk GWG LocallyBalanced PathAux Langevin FullRun AdaptiveRun.
From Verif.Proof Require Import MathUtilProof MHKernel ChainProof GWGProof NoReplProof PathAuxProof LangevinProof FullRunProof AdaptiveRunProof GuardRun.
Import ListNotations.
Local Open Scope R_scope.

(** ** One chain *)
Lemma E_mh_single {P S} g (prop : list nat -> dist P) app la (new : list (P * list nat) -> list R -> S) x F :
  E (mh_batch g prop app la new [x]) F
  = E (prop x) (fun p => match la [(p, x)] x p with
                         | None => 0
                         | Some l => accept_prob g l * F ([app x p], new [(p, x)] [l]) + (1 - accept_prob g l) * F ([x], new [(p, x)] [l])
                         end).
Proof.
  unfold mh_batch. cbn [map indep]. rewrite !E_bind. apply E_ext. intros p. rewrite E_dmap, E_ret. cbn [combine map all_some fst snd].
  destruct (la [(p, x)] x p) as [l|]; [|reflexivity]. cbn [combine map fst snd indep]. rewrite E_dmap, E_bind, E_mh_law, !E_dmap, !E_ret. reflexivity.
Qed.

(** ** The model: two sites, log-odds ln 4 for the first, the second even; its gradient. *)
Definition pair_fw (x : list nat) : R := INR (nth 0 x 0%nat) * ln 4.
Definition pair_grad (x : list nat) (i : nat) : R := if Nat.eqb i 0 then ln 4 else 0.
Definition pair_target (d : nat) : target :=
  {| t_fw := pair_fw; t_grad := pair_grad; t_lr := fun _ _ => 0; t_sig := None; t_mask := None; t_dim := d; t_C := 2 |}.

Lemma pair_first_order d : first_order pair_fw pair_grad d.
Proof.
  intros x i v Hx Hi Hv. unfold pair_fw, pair_grad. apply in_states in Hx. destruct Hx as [Hl _]. destruct x as [|a x]; [cbn in Hl; lia|].
  destruct i as [|i]; cbn [upd nth Nat.eqb]; ring.
Qed.

Lemma ln4 : ln 4 = 2 * ln 2.
Proof. replace 4 with (2 * 2) by ring. rewrite ln_mult by lra. ring. Qed.
Lemma ln2_pos : 0 < ln 2.
Proof. rewrite <- ln_1. apply ln_increasing; lra. Qed.
Lemma exp_ln2 : exp (ln 2) = 2.
Proof. apply exp_ln. lra. Qed.
Lemma exp_ln3' : exp (ln 3) = 3.
Proof. apply exp_ln. lra. Qed.

(** Log-probabilities of the two sites. *)
Definition site_lps (a : nat) : list R := if Nat.eqb a 0 then [ln 2 - ln 3; - ln 3] else [- ln 3; ln 2 - ln 3].
Lemma softmax_pair u v : log_softmax [u; v] = [u - ln (exp u + exp v); v - ln (exp u + exp v)].
Proof. unfold log_softmax, sumexp. cbn [map rsum]. rewrite Rplus_0_r. reflexivity. Qed.
Lemma pair_dist a b : (a < 2)%nat -> (b < 2)%nat ->
  gwg_dist_at (fun t => t / 2) pair_grad None [a; b] = site_lps a.
Proof.
  intros Ha Hb. unfold gwg_dist_at. cbn [length seq map mask_score nth]. unfold pair_grad. cbn [Nat.eqb].
  replace ((1 - 2 * INR b) * 0 / 2) with 0 by field. rewrite softmax_pair, exp_0, ln4.
  destruct a as [|[|a]]; [| |lia]; cbn [INR]; unfold site_lps; cbn [Nat.eqb].
  - replace ((1 - 2 * 0) * (2 * ln 2) / 2) with (ln 2) by field. rewrite exp_ln2. replace (2 + 1) with 3 by ring. f_equal. f_equal. ring.
  - replace ((1 - 2 * 1) * (2 * ln 2) / 2) with (- ln 2) by field. rewrite exp_Ropp, exp_ln2.
    assert (E : ln (/ 2 + 1) = ln 3 - ln 2). { replace (/ 2 + 1) with (3 * / 2) by field. rewrite ln_mult, ln_Rinv by lra. ring. }
    rewrite E. f_equal; [ring|]. f_equal. ring.
Qed.

(** Acceptance for log-ratios that are multiples of ln 2. *)
Lemma accept_up l : 0 <= l -> accept_prob 0 l = 1 /\ mean_acc [l] = 1.
Proof.
  intros H. assert (1 <= exp l) by (rewrite <- exp_0; destruct H as [H| <-]; [left; apply exp_increasing; auto|right; auto]).
  split; [rewrite accept_prob_0; apply Rmin_left; auto|]. unfold mean_acc. cbn [rsum length INR]. rewrite Rmin_right by auto. rewrite exp_0. field.
Qed.
Lemma accept_half : accept_prob 0 (- ln 2) = / 2 /\ mean_acc [- ln 2] = / 2.
Proof.
  pose proof ln2_pos. assert (E : exp (- ln 2) = / 2) by (rewrite exp_Ropp, exp_ln2; reflexivity).
  split; [rewrite accept_prob_0, E; apply Rmin_right; lra|]. unfold mean_acc. cbn [rsum length INR]. rewrite Rmin_left by lra. rewrite E. field.
Qed.
Lemma accept_quarter : accept_prob 0 (- (2 * ln 2)) = / 4.
Proof.
  assert (E : exp (- (2 * ln 2)) = / 4). { rewrite <- ln4, exp_Ropp, exp_ln by lra. reflexivity. }
  rewrite accept_prob_0, E. apply Rmin_right. lra.
Qed.

Lemma exp_lps1 : exp (ln 2 - ln 3) = 2 / 3.
Proof. unfold Rminus. rewrite exp_plus, exp_Ropp, exp_ln2, exp_ln3'. reflexivity. Qed.
Lemma exp_lps2 : exp (- ln 3) = / 3.
Proof. rewrite exp_Ropp, exp_ln3'. reflexivity. Qed.
Lemma site_lps_sum a : sumexp (site_lps a) = 1.
Proof. unfold site_lps, sumexp. destruct (Nat.eqb a 0); cbn [rsum]; rewrite exp_lps1, exp_lps2; field. Qed.

(** ** Rounding *)
Lemma sites_one r : 1 <= r < 3 / 2 -> num_sites 2 r = 1%nat.
Proof.
  intros H. pose proof (round_even_close r) as Hc. unfold num_sites. assert (Hz : (round_even r < 2)%Z).
  { apply lt_IZR. unfold Rabs in Hc. destruct (Rcase_abs _); lra. }
  assert (Hz' : (0 < round_even r)%Z). { apply lt_IZR. unfold Rabs in Hc. destruct (Rcase_abs _); lra. }
  replace (round_even r) with 1%Z by lia. reflexivity.
Qed.
Lemma sites_two r : 3 / 2 < r -> num_sites 2 r = 2%nat.
Proof.
  intros H. pose proof (round_even_close r) as Hc. unfold num_sites.
  assert (Hz' : (1 < round_even r)%Z). { apply lt_IZR. unfold Rabs in Hc. destruct (Rcase_abs _); lra. }
  replace (Z.min (Z.max (round_even r) 1) (Z.of_nat 2)) with 2%Z by lia. reflexivity.
Qed.

(** ** Three steps, for any joint step that behaves like this on the two-site model: [u2]: probability of 1 after two sites from 0, [v2] from 1. *)
Definition is_one (x : list nat) : R := if Nat.eqb (nth 0 x 0%nat) 1 then 1 else 0.
Definition site0 {S} (o : list (list nat) * S) : R := is_one (nth 0 (fst o) []).
Section Three.
  Variables (S : Type) (rad : S -> R) (step : list (list nat) * S -> dist (list (list nat) * S)) (nxt : R -> S -> S) (t u2 v2 : R).
  Hypothesis Ht : / 2 < t < 3 / 4.
  Hypothesis Hrad : forall a s, rad (nxt a s) = clip 1 2 (rad s + a - t).
  Hypothesis One0 : forall b s F, (b < 2)%nat -> num_sites 2 (rad s) = 1%nat ->
    E (step ([[0%nat; b]], s)) F = 2 / 3 * F ([[1%nat; b]], nxt 1 s) + / 3 * F ([[0; 1 - b]]%nat, nxt 1 s).
  Hypothesis One1 : forall b s F, (b < 2)%nat -> num_sites 2 (rad s) = 1%nat ->
    E (step ([[1%nat; b]], s)) F = / 3 * (/ 2 * F ([[0%nat; b]], nxt (/ 2) s) + / 2 * F ([[1%nat; b]], nxt (/ 2) s)) + 2 / 3 * F ([[1; 1 - b]]%nat, nxt 1 s).
  Hypothesis Two : forall a b s, (a < 2)%nat -> (b < 2)%nat -> num_sites 2 (rad s) = 2%nat -> E (step ([[a; b]], s)) site0 = if Nat.eqb a 0 then u2 else v2.

  Let last1 a b s : (a < 2)%nat -> (b < 2)%nat -> num_sites 2 (rad s) = 1%nat -> E (step ([[a; b]], s)) site0 = if Nat.eqb a 0 then 2 / 3 else 5 / 6.
  Proof.
    intros Ha Hb Hs. destruct a as [|[|a]]; [| |lia]; cbn [Nat.eqb].
    - rewrite One0 by auto. unfold site0, is_one. cbn. field.
    - rewrite One1 by auto. unfold site0, is_one. cbn. field.
  Qed.

  Let flip_lt b : (b < 2)%nat -> (1 - b < 2)%nat.
  Proof. lia. Qed.

  Lemma three_steps b s : (b < 2)%nat -> rad s = 1 ->
    E (bind (step ([[0%nat; b]], s)) (fun o => bind (step o) step)) site0
      = 2 / 3 * (/ 3 * (/ 2 * (2 / 3) + / 2 * (5 / 6)) + 2 / 3 * v2) + / 3 * (2 / 3 * v2 + / 3 * u2) /\
    E (bind (step ([[1%nat; b]], s)) (fun o => bind (step o) step)) site0
      = / 3 * (/ 2 * (2 / 3 * (5 / 6) + / 3 * (2 / 3)) + / 2 * (/ 3 * (/ 2 * (2 / 3) + / 2 * (5 / 6)) + 2 / 3 * (5 / 6)))
        + 2 / 3 * (/ 3 * (/ 2 * (2 / 3) + / 2 * (5 / 6)) + 2 / 3 * v2).
  Proof.
    intros Hb H1.
    assert (R1 : rad (nxt 1 s) = 2 - t) by (rewrite Hrad, H1; unfold clip; rewrite Rmax_left by lra; rewrite Rmin_left by lra; ring).
    assert (Rh : rad (nxt (/ 2) s) = 1) by (rewrite Hrad, H1; unfold clip; rewrite Rmax_right by lra; rewrite Rmin_left by lra; ring).
    assert (R11 : rad (nxt 1 (nxt 1 s)) = 3 - 2 * t) by (rewrite Hrad, R1; unfold clip; rewrite Rmax_left by lra; rewrite Rmin_left by lra; ring).
    assert (R1h : rad (nxt (/ 2) (nxt 1 s)) = 5 / 2 - 2 * t) by (rewrite Hrad, R1; unfold clip; rewrite Rmax_left by lra; rewrite Rmin_left by lra; field).
    assert (Rh1 : rad (nxt 1 (nxt (/ 2) s)) = 2 - t) by (rewrite Hrad, Rh; unfold clip; rewrite Rmax_left by lra; rewrite Rmin_left by lra; ring).
    assert (Rhh : rad (nxt (/ 2) (nxt (/ 2) s)) = 1) by (rewrite Hrad, Rh; unfold clip; rewrite Rmax_right by lra; rewrite Rmin_left by lra; ring).
    assert (N0 : num_sites 2 (rad s) = 1%nat) by (rewrite H1; apply sites_one; lra).
    assert (N1 : num_sites 2 (rad (nxt 1 s)) = 1%nat) by (rewrite R1; apply sites_one; lra).
    assert (Nh : num_sites 2 (rad (nxt (/ 2) s)) = 1%nat) by (rewrite Rh; apply sites_one; lra).
    assert (N11 : num_sites 2 (rad (nxt 1 (nxt 1 s))) = 2%nat) by (rewrite R11; apply sites_two; lra).
    assert (N1h : num_sites 2 (rad (nxt (/ 2) (nxt 1 s))) = 1%nat) by (rewrite R1h; apply sites_one; lra).
    assert (Nh1 : num_sites 2 (rad (nxt 1 (nxt (/ 2) s))) = 1%nat) by (rewrite Rh1; apply sites_one; lra).
    assert (Nhh : num_sites 2 (rad (nxt (/ 2) (nxt (/ 2) s))) = 1%nat) by (rewrite Rhh; apply sites_one; lra).
    assert (Hb' := flip_lt b Hb). assert (Hb'' := flip_lt _ Hb').
    assert (G : exists g : list (list nat) * S -> R, (forall x, E (bind (step x) (fun o => bind (step o) step)) site0 = E (step x) (fun o => E (step o) g)) /\
      (forall a b s, (a < 2)%nat -> (b < 2)%nat -> num_sites 2 (rad s) = 1%nat -> g ([[a; b]], s) = if Nat.eqb a 0 then 2 / 3 else 5 / 6) /\
      (forall a b s, (a < 2)%nat -> (b < 2)%nat -> num_sites 2 (rad s) = 2%nat -> g ([[a; b]], s) = if Nat.eqb a 0 then u2 else v2)).
    { exists (fun o => E (step o) site0). split; [|split; [exact last1|exact Two]]. intros x. rewrite E_bind. apply E_ext. intros o. apply E_bind. }
    destruct G as (g & G0 & G1 & G2).
    split; rewrite G0; [rewrite One0 by auto|rewrite One1 by auto]; rewrite ?One0, ?One1 by auto;
      repeat (rewrite G1 by (auto; lia)); repeat (rewrite G2 by (auto; lia)); cbn [Nat.eqb]; try reflexivity.
  Qed.
End Three.

(** ** Gibbs-with-gradients *)
Section Gwg.
  Variable t : R.
  Let T := pair_target 2.
  Let step := fun o : list (list nat) * gwgstate => agwg_batch 0 T (fun r => r / 2) t (snd o) (fst o).
  Let nxt := fun a (s : gwgstate) =>
    {| gwg_steps := S (gwg_steps s); gwg_calls := (gwg_calls s + 4)%nat; gwg_radius := clip 1 (INR 2) (gwg_radius s + a - t) |}.

  Let la_val a b p : (a < 2)%nat -> (b < 2)%nat -> Forall (fun i => (i < 2)%nat) p ->
    agwg_log_acc pair_fw (fun r => r / 2) pair_grad None [a; b] (counts_of 2 p)
    = pair_fw (flip_idx p [a; b]) + gwg_ll (site_lps (nth 0 (flip_idx p [a; b]) 0%nat)) p - pair_fw [a; b] - gwg_ll (site_lps a) p.
  Proof.
    intros Ha Hb Hp. assert (Hx : In [a; b] (states 2 2)) by (apply in_states; split; [reflexivity|apply Forall_cons; [lia|apply Forall_cons; [lia|constructor]]]).
    rewrite (agwg_log_acc_eq _ _ _ _ 2) by auto. unfold gwg_log_acc. rewrite pair_dist by auto.
    pose proof (flip_idx_in 2 p [a; b] Hx) as Hy. apply in_states in Hy. destruct (flip_idx p [a; b]) as [|a' [|b' [|? ?]]]; destruct Hy as [Hl HF]; try discriminate.
    inversion HF as [|? ? H1 HF1]; subst. inversion HF1; subst. rewrite pair_dist by auto. reflexivity.
  Qed.

  Let expand a b s F : (a < 2)%nat -> (b < 2)%nat -> let k := num_sites 2 (gwg_radius s) in
    E (step ([[a; b]], s)) F = rsum (lists_over [0; 1]%nat k) (fun p =>
      let y := flip_idx p [a; b] in
      let l := pair_fw y + gwg_ll (site_lps (nth 0 y 0%nat)) p - pair_fw [a; b] - gwg_ll (site_lps a) p in
      exp (rsum p (fun i => nth i (site_lps a) 0)) * (accept_prob 0 l * F ([y], nxt (mean_acc [l]) s) + (1 - accept_prob 0 l) * F ([[a; b]], nxt (mean_acc [l]) s))).
  Proof.
    intros Ha Hb k. assert (Hx : In [a; b] (states 2 2)) by (apply in_states; split; [reflexivity|apply Forall_cons; [lia|apply Forall_cons; [lia|constructor]]]).
    unfold step, agwg_batch. cbn [fst snd]. rewrite E_mh_single. change (t_grad T) with pair_grad. change (t_mask T) with (@None (nat -> R)). change (t_fw T) with pair_fw.
    change (length [a; b]) with 2%nat. fold k. rewrite pair_dist by auto. rewrite E_repl by apply site_lps_sum.
    replace (length (site_lps a)) with 2%nat by (unfold site_lps; destruct (Nat.eqb a 0); reflexivity). change (seq 0 2) with [0; 1]%nat.
    apply rsum_ext. intros p Hp. apply in_lists_over in Hp. destruct Hp as [Hl HF].
    assert (HF' : Forall (fun i => (i < 2)%nat) p) by (eapply Forall_impl; [|exact HF]; intros i [<-|[<-|[]]]; lia).
    rewrite agwg_counts_eq by auto. rewrite (flip_counts_eq 2), la_val by auto. reflexivity.
  Qed.

  Lemma gwg_one0 b s F : (b < 2)%nat -> num_sites 2 (gwg_radius s) = 1%nat ->
    E (step ([[0%nat; b]], s)) F = 2 / 3 * F ([[1%nat; b]], nxt 1 s) + / 3 * F ([[0; 1 - b]]%nat, nxt 1 s).
  Proof.
    intros Hb Hk. rewrite expand by auto. rewrite Hk. unfold lists_over. cbn [flat_map map app rsum flip_idx fold_left upd nth]. unfold gwg_ll, pair_fw, site_lps.
    cbn [Nat.sub Nat.eqb rsum nth INR]. pose proof ln2_pos. rewrite ln4.
    match goal with |- context [accept_prob 0 ?l] => replace l with (ln 2) by ring; destruct (accept_up (ln 2)) as [-> ->]; [lra|] end.
    match goal with |- context [accept_prob 0 ?l] => replace l with 0 by ring; destruct (accept_up 0) as [-> ->]; [lra|] end.
    rewrite !Rplus_0_r, exp_lps1, exp_lps2. ring.
  Qed.
  Lemma gwg_one1 b s F : (b < 2)%nat -> num_sites 2 (gwg_radius s) = 1%nat ->
    E (step ([[1%nat; b]], s)) F = / 3 * (/ 2 * F ([[0%nat; b]], nxt (/ 2) s) + / 2 * F ([[1%nat; b]], nxt (/ 2) s)) + 2 / 3 * F ([[1; 1 - b]]%nat, nxt 1 s).
  Proof.
    intros Hb Hk. rewrite expand by auto. rewrite Hk. unfold lists_over. cbn [flat_map map app rsum flip_idx fold_left upd nth]. unfold gwg_ll, pair_fw, site_lps.
    cbn [Nat.sub Nat.eqb rsum nth INR]. pose proof ln2_pos. rewrite ln4. destruct accept_half as [Ha Hm].
    match goal with |- context [accept_prob 0 ?l] => replace l with (- ln 2) by ring end. rewrite Ha, Hm.
    match goal with |- context [accept_prob 0 ?l] => replace l with 0 by ring; destruct (accept_up 0) as [-> ->]; [lra|] end.
    rewrite !Rplus_0_r, exp_lps1, exp_lps2. field.
  Qed.

  Lemma gwg_two a b s : (a < 2)%nat -> (b < 2)%nat -> num_sites 2 (gwg_radius s) = 2%nat -> E (step ([[a; b]], s)) site0 = if Nat.eqb a 0 then 8 / 9 else 7 / 9.
  Proof.
    intros Ha Hb Hk. rewrite expand by auto. rewrite Hk. unfold site0, is_one.
    assert (E4 : forall u v w z, exp (ln 2 - ln 3 + (ln 2 - ln 3 + 0)) = u -> exp (ln 2 - ln 3 + (- ln 3 + 0)) = v -> exp (- ln 3 + (ln 2 - ln 3 + 0)) = w -> exp (- ln 3 + (- ln 3 + 0)) = z ->
      u = 4 / 9 /\ v = 2 / 9 /\ w = 2 / 9 /\ z = 1 / 9).
    { intros u v w z <- <- <- <-. rewrite !exp_plus, exp_0, exp_lps1, exp_lps2. repeat split; field. }
    destruct (E4 _ _ _ _ eq_refl eq_refl eq_refl eq_refl) as (Eu & Ev & Ew & Ez). clear E4. pose proof ln2_pos as H2.
    destruct a as [|[|a]]; [| |lia]; unfold lists_over; cbn [flat_map map app rsum flip_idx fold_left upd nth]; unfold gwg_ll, pair_fw, site_lps;
      cbn [Nat.sub Nat.eqb rsum nth INR fst]; rewrite ln4, ?Eu, ?Ev, ?Ew, ?Ez.
    - assert (A : forall l, 0 <= l -> accept_prob 0 l = 1) by (intros l Hl; apply accept_up; auto).
      repeat match goal with |- context [accept_prob 0 ?l] => rewrite (A l) by lra end. field.
    - match goal with |- context [accept_prob 0 ?l] => replace l with 0 by ring end.
      repeat match goal with |- context [accept_prob 0 ?l] => first [replace l with (- (2 * ln 2)) by ring; rewrite accept_quarter | replace l with 0 by ring; destruct (accept_up 0) as [-> _]; [lra|]] end.
      field.
  Qed.

  Lemma gwg_three b s : / 2 < t < 3 / 4 -> (b < 2)%nat -> gwg_radius s = 1 ->
    E (bind (step ([[0%nat; b]], s)) (fun o => bind (step o) step)) site0 = 2 / 3 * (/ 3 * (3 / 4) + 2 / 3 * (7 / 9)) + / 3 * (2 / 3 * (7 / 9) + / 3 * (8 / 9)) /\
    E (bind (step ([[1%nat; b]], s)) (fun o => bind (step o) step)) site0
      = / 3 * (/ 2 * (7 / 9) + / 2 * (/ 3 * (3 / 4) + 2 / 3 * (5 / 6))) + 2 / 3 * (/ 3 * (3 / 4) + 2 / 3 * (7 / 9)).
  Proof.
    intros Ht Hb Hs. destruct (three_steps gwgstate gwg_radius step nxt t (8 / 9) (7 / 9)) with (b := b) (s := s) as [-> ->]; auto.
    - exact gwg_one0.
    - exact gwg_one1.
    - exact gwg_two.
    - split; field.
  Qed.
End Gwg.

(** ** Path auxiliary sampler *)
Section Path.
  Variable t : R.
  Let T := pair_target 2.
  Let wf := fun r => r / 2.
  Let lr := paf_lr_grad_bin pair_grad.
  Let step := fun o : list (list nat) * pafstate => path_batch 0 T wf lr 4 1 (Some t) (snd o) (fst o).
  Let nxt := fun a (s : pafstate) =>
    {| paf_steps := S (paf_steps s); paf_calls := (paf_calls s + 4)%nat; paf_radius := clip 1 (INR 2) (paf_radius s + a - t) |}.

  Let two_ll a i j : In (i, j) [(0, 1); (1, 0)]%nat -> path_ll (fun i => nth i (site_lps a) 0) [i] = nth i (site_lps a) 0 /\
    path_ll (fun i => nth i (site_lps a) 0) [i; j] = nth i (site_lps a) 0.
  Proof.
    intros Hij. unfold path_ll. cbn [map seq_cond rsum]. rewrite Rminus_0_r. unfold Rdiv. rewrite Rinv_1, Rmult_1_r, ln_exp, !Rplus_0_r, Rplus_0_l. split; [reflexivity|].
    assert (E : exp (nth j (site_lps a) 0) = 1 - exp (nth i (site_lps a) 0)).
    { unfold site_lps. destruct Hij as [H|[H|[]]]; inversion H; subst; destruct (Nat.eqb a 0); cbn [nth]; rewrite exp_lps1, exp_lps2; field. }
    rewrite E. rewrite Rinv_r, ln_1; [ring|]. rewrite <- E. pose proof (exp_pos (nth j (site_lps a) 0)). lra.
  Qed.

  Let la_val a b k i j : (a < 2)%nat -> (b < 2)%nat -> In (i, j) [(0, 1); (1, 0)]%nat -> (1 <= k <= 2)%nat ->
    let y := mask_apply k [i; j] [a; b] (map (fun v => (1 - v)%nat) [a; b]) in
    apafs_log_acc pair_fw wf lr None k [a; b] [i; j]
    = Some (pair_fw y + nth (if Nat.eqb k 1 then i else j) (site_lps (nth 0 y 0%nat)) 0 - (pair_fw [a; b] + nth i (site_lps a) 0)).
  Proof.
    intros Ha Hb Hij Hk y. unfold apafs_log_acc. fold y.
    assert (D : forall a b, (a < 2)%nat -> (b < 2)%nat -> paf_dist wf lr None [a; b] = site_lps a) by (intros; apply pair_dist; auto).
    assert (Hy : exists a' b', y = [a'; b'] /\ (a' < 2)%nat /\ (b' < 2)%nat).
    { unfold y, mask_apply. cbn [length seq map nth]. eexists. eexists. split; [reflexivity|]. destruct (in_sel k [i; j] 0), (in_sel k [i; j] 1); lia. }
    destruct Hy as (a' & b' & Hy & Ha' & Hb'). rewrite Hy, !D by auto. cbn [nth].
    assert (Hs : forall a, rsum [0; 1]%nat (fun i => exp (nth i (site_lps a) 0)) = 1).
    { intros c. rewrite <- (site_lps_sum c). unfold site_lps, sumexp. destruct (Nat.eqb c 0); cbn [rsum nth]; reflexivity. }
    assert (Hnd : NoDup [i; j]) by (destruct Hij as [H|[H|[]]]; inversion H; subst; repeat constructor; cbn; lia).
    assert (Hi : incl [i; j] [0; 1]%nat) by (destruct Hij as [H|[H|[]]]; inversion H; subst; intros z [<-|[<-|[]]]; cbn; auto).
    assert (Hnd2 : NoDup [0; 1]%nat) by (repeat constructor; cbn; lia).
    assert (Hf : firstn k [i; j] <> []) by (destruct k; [lia|discriminate]).
    rewrite (bwd_ll_adapt_path _ k [i; j] [0; 1]%nat), (fwd_ll_adapt_path _ k [i; j] [0; 1]%nat) by (auto; discriminate). cbn [oplus osub]. f_equal.
    assert (Hji : In (j, i) [(0, 1); (1, 0)]%nat) by (destruct Hij as [H|[H|[]]]; inversion H; subst; cbn; auto).
    destruct k as [|[|[|k]]]; try lia; cbn [firstn rev app Nat.eqb].
    - rewrite !(proj1 (two_ll _ i j Hij)). reflexivity.
    - rewrite (proj2 (two_ll _ i j Hij)), (proj2 (two_ll _ j i Hji)). reflexivity.
  Qed.

  Let expand a b s F : (a < 2)%nat -> (b < 2)%nat -> let k := num_sites 2 (paf_radius s) in
    E (step ([[a; b]], s)) F = rsum [(0, 1); (1, 0)]%nat (fun p =>
      let y := mask_apply k [fst p; snd p] [a; b] [1 - a; 1 - b]%nat in
      let l := pair_fw y + nth (if Nat.eqb k 1 then fst p else snd p) (site_lps (nth 0 y 0%nat)) 0 - (pair_fw [a; b] + nth (fst p) (site_lps a) 0) in
      exp (nth (fst p) (site_lps a) 0) * (accept_prob 0 l * F ([y], nxt (mean_acc [l]) s) + (1 - accept_prob 0 l) * F ([[a; b]], nxt (mean_acc [l]) s))).
  Proof.
    intros Ha Hb k. assert (Hk : (1 <= k <= 2)%nat) by (apply num_sites_range; lia).
    unfold step, path_batch. cbn [fst snd]. change (Nat.eqb (t_C T) 2) with true. cbv iota zeta. rewrite E_mh_single.
    change (t_mask T) with (@None (nat -> R)). change (t_fw T) with pair_fw. change (length [a; b]) with 2%nat. fold k.
    assert (D : paf_dist wf lr None [a; b] = site_lps a) by (apply pair_dist; auto). rewrite D.
    assert (H2 : forall i j, In (i, j) [(0, 1); (1, 0)]%nat ->
      exp (nth i (site_lps a) 0) / (exp (nth i (site_lps a) 0) + (exp (nth j (site_lps a) 0) + 0)) = exp (nth i (site_lps a) 0)).
    { intros i j Hij. assert (Hs : exp (nth i (site_lps a) 0) + (exp (nth j (site_lps a) 0) + 0) = 1); [|rewrite Hs; field].
      unfold site_lps. destruct Hij as [H|[H|[]]]; inversion H; subst; destruct (Nat.eqb a 0); cbn [nth]; rewrite exp_lps1, exp_lps2; field. }
    assert (N : forall G, E (norepl_law (fun i => exp (nth i (site_lps a) 0)) 2 (seq 0 2)) G
       = exp (nth 0 (site_lps a) 0) * G [0; 1]%nat + exp (nth 1 (site_lps a) 0) * G [1; 0]%nat).
    { intros G. change (seq 0 2) with [0; 1]%nat. cbn [norepl_law]. rewrite E_bind, E_weighted. cbn [rsum]. rewrite !E_dmap.
      change (remove_nat 0 [0; 1]%nat) with [1%nat]. change (remove_nat 1 [0; 1]%nat) with [0%nat].
      rewrite !E_bind, !E_weighted. cbn [rsum]. rewrite !E_dmap, !E_ret. rewrite (H2 0%nat 1%nat) by (cbn; auto).
      pose proof (H2 1%nat 0%nat (or_intror (or_introl eq_refl))) as H3. rewrite (Rplus_comm (exp _)) in H3. rewrite Rplus_0_r in H3.
      replace (exp (nth 0 (site_lps a) 0) + (exp (nth 1 (site_lps a) 0) + 0)) with (exp (nth 0 (site_lps a) 0) + exp (nth 1 (site_lps a) 0)) by ring.
      rewrite H3. pose proof (exp_pos (nth 0 (site_lps a) 0)). pose proof (exp_pos (nth 1 (site_lps a) 0)). field. lra. }
    rewrite N. rewrite !la_val by (auto; cbn; auto). cbn [rsum fst snd map]. rewrite Rplus_0_r. reflexivity.
  Qed.
  Lemma path_one0 b s F : (b < 2)%nat -> num_sites 2 (paf_radius s) = 1%nat ->
    E (step ([[0%nat; b]], s)) F = 2 / 3 * F ([[1%nat; b]], nxt 1 s) + / 3 * F ([[0; 1 - b]]%nat, nxt 1 s).
  Proof.
    intros Hb Hk. rewrite expand by auto. rewrite Hk. unfold mask_apply, in_sel. cbn [rsum fst snd length seq map firstn existsb Nat.eqb orb nth]. unfold pair_fw, site_lps.
    cbn [Nat.sub Nat.eqb nth INR]. pose proof ln2_pos. rewrite ln4.
    match goal with |- context [accept_prob 0 ?l] => replace l with (ln 2) by ring; destruct (accept_up (ln 2)) as [-> ->]; [lra|] end.
    match goal with |- context [accept_prob 0 ?l] => replace l with 0 by ring; destruct (accept_up 0) as [-> ->]; [lra|] end.
    rewrite exp_lps1, exp_lps2. ring.
  Qed.
  Lemma path_one1 b s F : (b < 2)%nat -> num_sites 2 (paf_radius s) = 1%nat ->
    E (step ([[1%nat; b]], s)) F = / 3 * (/ 2 * F ([[0%nat; b]], nxt (/ 2) s) + / 2 * F ([[1%nat; b]], nxt (/ 2) s)) + 2 / 3 * F ([[1; 1 - b]]%nat, nxt 1 s).
  Proof.
    intros Hb Hk. rewrite expand by auto. rewrite Hk. unfold mask_apply, in_sel. cbn [rsum fst snd length seq map firstn existsb Nat.eqb orb nth]. unfold pair_fw, site_lps.
    cbn [Nat.sub Nat.eqb nth INR]. pose proof ln2_pos. rewrite ln4. destruct accept_half as [Ha Hm].
    match goal with |- context [accept_prob 0 ?l] => replace l with (- ln 2) by ring end. rewrite Ha, Hm.
    match goal with |- context [accept_prob 0 ?l] => replace l with 0 by ring; destruct (accept_up 0) as [-> ->]; [lra|] end.
    rewrite exp_lps1, exp_lps2. field.
  Qed.
  Lemma path_two a b s : (a < 2)%nat -> (b < 2)%nat -> num_sites 2 (paf_radius s) = 2%nat -> E (step ([[a; b]], s)) site0 = if Nat.eqb a 0 then 1 else 3 / 4.
  Proof.
    intros Ha Hb Hk. rewrite expand by auto. rewrite Hk. unfold site0, is_one, mask_apply, in_sel. pose proof ln2_pos as H2.
    destruct a as [|[|a]]; [| |lia]; cbn [rsum fst snd length seq map firstn existsb Nat.eqb orb nth]; unfold pair_fw, site_lps; cbn [Nat.sub Nat.eqb nth INR]; rewrite ln4.
    - assert (A : forall l, 0 <= l -> accept_prob 0 l = 1) by (intros l Hl; apply accept_up; auto).
      repeat match goal with |- context [accept_prob 0 ?l] => rewrite (A l) by lra end. rewrite exp_lps1, exp_lps2. field.
    - repeat match goal with |- context [accept_prob 0 ?l] => replace l with (- (2 * ln 2)) by ring; rewrite accept_quarter end.
      rewrite exp_lps1, exp_lps2. field.
  Qed.
  Lemma path_three b s : / 2 < t < 3 / 4 -> (b < 2)%nat -> paf_radius s = 1 ->
    E (bind (step ([[0%nat; b]], s)) (fun o => bind (step o) step)) site0 = 2 / 3 * (/ 3 * (3 / 4) + 2 / 3 * (3 / 4)) + / 3 * (2 / 3 * (3 / 4) + / 3 * 1) /\
    E (bind (step ([[1%nat; b]], s)) (fun o => bind (step o) step)) site0
      = / 3 * (/ 2 * (7 / 9) + / 2 * (/ 3 * (3 / 4) + 2 / 3 * (5 / 6))) + 2 / 3 * (/ 3 * (3 / 4) + 2 / 3 * (3 / 4)).
  Proof.
    intros Ht Hb Hs. destruct (three_steps pafstate paf_radius step nxt t 1 (3 / 4)) with (b := b) (s := s) as [-> ->]; auto.
    - exact path_one0.
    - exact path_one1.
    - exact path_two.
    - split; field.
  Qed.
End Path.

(** ** Runs of the sampler objects *)
Lemma E_run3 {A} (st : A -> dist A) (o : A) f : E (bind (st o) (fun o1 => bind (st o1) (fun o2 => bind (st o2) ret))) f = E (bind (st o) (fun o => bind (st o) st)) f.
Proof. rewrite !E_bind. apply E_ext. intros o1. rewrite !E_bind. apply E_ext. intros o2. rewrite E_bind. apply E_ext. intros o3. apply E_ret. Qed.

Lemma E_lift3 {S} (mk : S -> sstate) (st : list (list nat) * S -> dist (list (list nat) * S)) (st' : list (list nat) * sstate -> dist (list (list nat) * sstate)) :
  (forall xs s, st' (xs, mk s) = lift mk (st (xs, s))) -> forall xs s,
  E (bind (st' (xs, mk s)) (fun o => bind (st' o) st')) site0 = E (bind (st (xs, s)) (fun o => bind (st o) st)) site0.
Proof.
  intros H xs s. rewrite !E_bind, H. unfold lift at 1. rewrite E_dmap. apply E_ext. intros [xs1 s1]. cbn [fst snd]. rewrite !E_bind, H. unfold lift at 1. rewrite E_dmap.
  apply E_ext. intros [xs2 s2]. cbn [fst snd]. rewrite H. unfold lift. rewrite E_dmap. apply E_ext. intros [xs3 s3]. reflexivity.
Qed.

Lemma mean_pair (h : list nat -> R) u v : (forall b, (b < 2)%nat -> h [0%nat; b] = u /\ h [1%nat; b] = v) ->
  mean (states 2 2) (fun x => exp (pair_fw x)) h = (u + 4 * v) / 5.
Proof.
  intros H. destruct (H 0%nat) as [H00 H10]; [lia|]. destruct (H 1%nat) as [H01 H11]; [lia|]. unfold mean, pair_fw.
  change (states 2 2) with [[0; 0]; [0; 1]; [1; 0]; [1; 1]]%nat. cbn [rsum nth INR]. rewrite H00, H01, H10, H11, Rmult_0_l, Rmult_1_l, exp_0, exp_ln by lra. field.
Qed.

Lemma gwg_run_law dg t : / 2 < t < 3 / 4 ->
  mean (states 2 2) (fun x => exp (pair_fw x)) (fun x => E (sampler_run 0 dg (pair_target 2) (SGwgAdapt "SQRT" t) 3 ([x], TW gwg_init)) site0) = 4 / 5 - 1 / 45.
Proof.
  intros Ht. rewrite (mean_pair _ (2 / 3 * (/ 3 * (3 / 4) + 2 / 3 * (7 / 9)) + / 3 * (2 / 3 * (7 / 9) + / 3 * (8 / 9)))
    (/ 3 * (/ 2 * (7 / 9) + / 2 * (/ 3 * (3 / 4) + 2 / 3 * (5 / 6))) + 2 / 3 * (/ 3 * (3 / 4) + 2 / 3 * (7 / 9)))); [field|].
  intros b Hb. cbn [sampler_run]. rewrite !E_run3.
  rewrite !(E_lift3 TW (fun o => agwg_batch 0 (pair_target 2) (fun r => r / 2) t (snd o) (fst o))) by (intros; reflexivity). apply gwg_three; auto.
Qed.

Lemma path_run_law dg t : / 2 < t < 3 / 4 ->
  mean (states 2 2) (fun x => exp (pair_fw x)) (fun x => E (sampler_run 0 dg (pair_target 2) (SPath "SQRT" true 1 (Some t)) 3 ([x], TP (paf_init 1))) site0) = 4 / 5 - 1 / 30.
Proof.
  intros Ht. rewrite (mean_pair _ (2 / 3 * (/ 3 * (3 / 4) + 2 / 3 * (3 / 4)) + / 3 * (2 / 3 * (3 / 4) + / 3 * 1))
    (/ 3 * (/ 2 * (7 / 9) + / 2 * (/ 3 * (3 / 4) + 2 / 3 * (5 / 6))) + 2 / 3 * (/ 3 * (3 / 4) + 2 / 3 * (3 / 4)))); [field|].
  intros b Hb. cbn [sampler_run]. rewrite !E_run3.
  rewrite !(E_lift3 TP (fun o => path_batch 0 (pair_target 2) (fun r => r / 2) (paf_lr_grad_bin pair_grad) 4 1 (Some t) (snd o) (fst o))) by (intros; reflexivity). apply path_three; auto.
Qed.

(** ** Langevin samplers: the first step *)
Lemma lang_first dg (pfun : R -> list nat -> option (list R)) rates lz n c lt s a p q : 0 <= dg -> (a < 2)%nat -> 0 < p < 1 -> 0 < q < 1 ->
  lc_co_opt c = false -> pfun lt [a] = Some [p] -> pfun lt [(1 - a)%nat] = Some [q] ->
  E (lang_bin 0 dg (pair_target 1) pfun rates lz n c (Fin lt) s [[a]]) site0
  = INR a + p * Rmin 1 (exp (pair_fw [(1 - a)%nat] - pair_fw [a]) * ((q + dg) / (p + dg))) * (INR (1 - a) - INR a).
Proof.
  intros Hdg Ha Hp Hq Hc Hpx Hpy. unfold lang_bin, lang_batch. rewrite E_mh_single, Hpx, Hc, Bool.andb_false_r. cbn [map indep].
  rewrite E_bind, E_bernoulli, !E_dmap, !E_ret.
  assert (F1 : flip_bits [true] [a] = [(1 - a)%nat]) by (destruct a as [|[|a]]; [reflexivity|reflexivity|lia]).
  assert (F0 : flip_bits [false] [a] = [a]) by (destruct a as [|[|a]]; [reflexivity|reflexivity|lia]).
  rewrite F1, F0, Hpx, Hpy. unfold bern_log_acc. rewrite F1, F0. change (t_fw (pair_target 1)) with pair_fw.
  unfold bern_ll. cbn [combine rsum fst snd].
  assert (L1 : exp (pair_fw [(1 - a)%nat] + (ln (q + dg) * 1 + ln (1 - q + dg) * (1 - 1) + 0) - pair_fw [a] - (ln (p + dg) * 1 + ln (1 - p + dg) * (1 - 1) + 0))
     = exp (pair_fw [(1 - a)%nat] - pair_fw [a]) * ((q + dg) / (p + dg))).
  { match goal with |- exp ?u = _ => replace u with ((pair_fw [(1 - a)%nat] - pair_fw [a]) + (ln (q + dg) + - ln (p + dg))) by ring end.
    rewrite !exp_plus, exp_Ropp, !exp_ln by lra. reflexivity. }
  rewrite accept_prob_0, L1. unfold site0, is_one. cbn [fst nth]. destruct a as [|[|a]]; [| |lia]; cbn [Nat.eqb Nat.sub INR]; ring.
Qed.

Lemma mean_one (h : list nat -> R) : mean (states 1 2) (fun x => exp (pair_fw x)) h = (h [0%nat] + 4 * h [1%nat]) / 5.
Proof.
  unfold mean, pair_fw. change (states 1 2) with [[0]; [1]]%nat. cbn [rsum nth INR]. rewrite Rmult_0_l, Rmult_1_l, exp_0, exp_ln by lra. field.
Qed.

Lemma one_w a : (a < 2)%nat -> exp (paf_lr_grad_bin pair_grad [a] 0 / 2) = if Nat.eqb a 0 then 2 else / 2.
Proof.
  intros Ha. unfold paf_lr_grad_bin, pair_grad. cbn [nth Nat.eqb]. rewrite ln4. destruct a as [|[|a]]; [| |lia]; cbn [INR Nat.eqb].
  - replace ((1 - 2 * 0) * (2 * ln 2) / 2) with (ln 2) by field. apply exp_ln2.
  - replace ((1 - 2 * 1) * (2 * ln 2) / 2) with (- ln 2) by field. rewrite exp_Ropp, exp_ln2. reflexivity.
Qed.
Lemma one_up : exp (pair_fw [(1 - 0)%nat] - pair_fw [0%nat]) = 4 /\ exp (pair_fw [(1 - 1)%nat] - pair_fw [1%nat]) = / 4.
Proof.
  unfold pair_fw. cbn [nth Nat.sub INR]. rewrite Rmult_0_l, Rmult_1_l, Rminus_0_r, exp_ln by lra. split; [reflexivity|].
  unfold Rminus. rewrite Rplus_0_l, exp_Ropp, exp_ln by lra. reflexivity.
Qed.
Lemma one_tau lz w : lz = dmala_log_z \/ lz = dlmc_log_z -> lz [[w]] = w.
Proof.
  intros [-> | ->]; unfold dmala_log_z, dlmc_log_z, sumexp; cbn [rsum length INR concat app]; rewrite !Rplus_0_r.
  - replace (exp w / 1) with (exp w) by field. apply ln_exp.
  - rewrite ln_exp, ln_1. ring.
Qed.
Lemma tau3 w : exp (ln 3 - w) = 3 / exp w.
Proof. unfold Rminus. rewrite exp_plus, exp_Ropp, exp_ln by lra. reflexivity. Qed.

Lemma E_run1 {A} (st : A -> dist A) (o : A) f : E (bind (st o) ret) f = E (st o) f.
Proof. rewrite E_bind. apply E_ext. intros a. apply E_ret. Qed.

Lemma dmala_run_law dg c sz : 0 <= dg <= / 100 -> lc_adaptive c = true -> lc_co_opt c = false ->
  let m := mean (states 1 2) (fun x => exp (pair_fw x)) (fun x => E (sampler_run 0 dg (pair_target 1) (SDmala "SQRT" c sz) 1 ([x], TL l_init)) site0) in
  m <= 4 / 5 - 3 / 100 /\ (dg = 0 -> m = 4 / 5 - 9 / 260).
Proof.
  intros Hdg Hc Hco.
  assert (H : forall a, (a < 2)%nat -> E (sampler_run 0 dg (pair_target 1) (SDmala "SQRT" c sz) 1 ([[a]], TL l_init)) site0
    = INR a + 3 / 4 * Rmin 1 (exp (pair_fw [(1 - a)%nat] - pair_fw [a]) * (((if Nat.eqb a 0 then 3 / 7 else 12 / 13) + dg) / (3 / 4 + dg))) * (INR (1 - a) - INR a)).
  { intros a Ha. cbn [sampler_run]. rewrite E_run1. unfold sampler_step. cbn [fst snd]. unfold with_wf. cbn [wf_of apply_weight_function_logscale String.eqb Ascii.eqb Bool.eqb].
    unfold lift. rewrite E_dmap. unfold dmala_batch. rewrite Hc. change (Nat.eqb (t_C (pair_target 1)) 2) with true. cbv iota.
    unfold l_used_log_tau. rewrite Hco. cbn [l_steps l_init Nat.eqb]. unfold rates_of. change (Nat.eqb (t_C (pair_target 1)) 2) with true. cbv iota.
    unfold chain_rates. cbn [map length seq]. change (lr_of (pair_target 1)) with (paf_lr_grad_bin pair_grad).
    rewrite one_tau by auto. cbn [xsub xadd xneg].
    change (fun a0 : list (list nat) * lstate => site0 (fst a0, TL (snd a0))) with (fun a0 : list (list nat) * lstate => @site0 lstate a0).
    pose proof (one_w a Ha) as W. pose proof (one_w (1 - a) ltac:(lia)) as W'.
    refine (lang_first dg _ _ _ _ c _ _ a (3 / 4) (if Nat.eqb a 0 then 3 / 7 else 12 / 13) _ Ha _ _ Hco _ _); try lra.
    - destruct (Nat.eqb a 0); lra.
    - unfold dmala_ps. cbn [length seq map]. do 2 f_equal. rewrite dmala_p_eq. change (ln 3 + - ?w) with (ln 3 - w). rewrite tau3, W.
      destruct a as [|[|a]]; [| |lia]; cbn [Nat.eqb]; field.
    - unfold dmala_ps. cbn [length seq map]. do 2 f_equal. rewrite dmala_p_eq. rewrite (tau3 (paf_lr_grad_bin pair_grad [a] 0 / 2) : exp (ln 3 + - (paf_lr_grad_bin pair_grad [a] 0 / 2)) = _), W, W'.
      destruct a as [|[|a]]; [| |lia]; cbn [Nat.eqb Nat.sub]; field. }
  cbv zeta. rewrite mean_one, !H by lia. cbn [Nat.eqb]. destruct one_up as [-> ->]. cbn [Nat.sub INR].
  assert (A0 : Rmin 1 (4 * ((3 / 7 + dg) / (3 / 4 + dg))) <= 1) by apply Rmin_l.
  assert (A1 : 3 / 10 <= Rmin 1 (/ 4 * ((12 / 13 + dg) / (3 / 4 + dg)))).
  { apply Rmin_glb; [lra|]. apply Rmult_le_reg_r with (3 / 4 + dg); [lra|]. unfold Rdiv. rewrite !Rmult_assoc, Rinv_l by lra. lra. }
  split; [lra|]. intros ->. rewrite (Rmin_left 1) by lra. rewrite Rmin_right by lra. field.
Qed.

Lemma one_nu a : (a < 2)%nat -> / (1 + exp (- paf_lr_grad_bin pair_grad [a] 0)) = if Nat.eqb a 0 then 4 / 5 else / 5.
Proof.
  intros Ha. unfold paf_lr_grad_bin, pair_grad. cbn [nth Nat.eqb]. destruct a as [|[|a]]; [| |lia]; cbn [INR Nat.eqb].
  - replace ((1 - 2 * 0) * ln 4) with (ln 4) by ring. rewrite exp_Ropp, exp_ln by lra. field.
  - replace (- ((1 - 2 * 1) * ln 4)) with (ln 4) by ring. rewrite exp_ln by lra. field.
Qed.

Definition dlmc_flip (a : nat) : R := if Nat.eqb a 0 then 4 / 5 * (1 - exp (- (15 / 4))) else / 5 * (1 - exp (Ropp 15)).
Definition dlmc_back (a : nat) : R := if Nat.eqb a 0 then / 5 * (1 - exp (- (15 / 4))) else 4 / 5 * (1 - exp (Ropp 15)).
Lemma exp_small u : 0 < u -> 0 < exp (- u) < 1.
Proof. intros H. split; [apply exp_pos|]. rewrite <- exp_0. apply exp_increasing. lra. Qed.

Lemma dlmc_run_law dg c : 0 <= dg <= / 10000 -> lc_adaptive c = true -> lc_co_opt c = false ->
  let m := mean (states 1 2) (fun x => exp (pair_fw x)) (fun x => E (sampler_run 0 dg (pair_target 1) (SDlmc "SQRT" c 3 "interpolate") 1 ([x], TL l_init)) site0) in
  m <= 4 / 5 - / 600 /\ (dg = 0 -> m = 4 / 5 - 4 / 25 * (exp (- (15 / 4)) - exp (Ropp 15))).
Proof.
  intros Hdg Hc Hco. destruct (exp_small (15 / 4)) as [Ea Eb]; [lra|]. destruct (exp_small 15) as [Ec Ed]; [lra|].
  assert (H : forall a, (a < 2)%nat -> E (sampler_run 0 dg (pair_target 1) (SDlmc "SQRT" c 3 "interpolate") 1 ([[a]], TL l_init)) site0
    = INR a + dlmc_flip a * Rmin 1 (exp (pair_fw [(1 - a)%nat] - pair_fw [a]) * ((dlmc_back a + dg) / (dlmc_flip a + dg))) * (INR (1 - a) - INR a)).
  { intros a Ha. cbn [sampler_run]. rewrite E_run1. unfold sampler_step. cbn [fst snd]. unfold with_wf. cbn [wf_of apply_weight_function_logscale String.eqb Ascii.eqb Bool.eqb].
    unfold lift. rewrite E_dmap. unfold dlmc_batch. rewrite Hc. change (Nat.eqb (t_C (pair_target 1)) 2) with true. cbv iota.
    unfold l_used_log_tau. rewrite Hco. cbn [l_steps l_init Nat.eqb]. unfold rates_of. change (Nat.eqb (t_C (pair_target 1)) 2) with true. cbv iota.
    unfold chain_rates. cbn [map length seq]. change (lr_of (pair_target 1)) with (paf_lr_grad_bin pair_grad).
    rewrite one_tau by auto. cbn [xsub xadd xneg].
    change (fun a0 : list (list nat) * lstate => site0 (fst a0, TL (snd a0))) with (fun a0 : list (list nat) * lstate => @site0 lstate a0).
    pose proof (one_w a Ha) as W. pose proof (one_w (1 - a) ltac:(lia)) as W'. pose proof (one_nu a Ha) as V. pose proof (one_nu (1 - a) ltac:(lia)) as V'.
    refine (lang_first dg _ _ _ _ c _ _ a (dlmc_flip a) (dlmc_back a) _ Ha _ _ Hco _ _); try lra.
    - unfold dlmc_flip. destruct (Nat.eqb a 0); lra.
    - unfold dlmc_back. destruct (Nat.eqb a 0); lra.
    - unfold dlmc_ps. cbn [length seq map]. rewrite dlmc_p_interp, V.
      rewrite (tau3 (paf_lr_grad_bin pair_grad [a] 0 / 2) : exp (ln 3 + - (paf_lr_grad_bin pair_grad [a] 0 / 2)) = _), W. cbn [all_some]. unfold dlmc_flip.
      destruct a as [|[|a]]; [| |lia]; cbn [Nat.eqb]; do 6 f_equal; field.
    - unfold dlmc_ps. cbn [length seq map]. rewrite dlmc_p_interp, V'.
      rewrite (tau3 (paf_lr_grad_bin pair_grad [a] 0 / 2) : exp (ln 3 + - (paf_lr_grad_bin pair_grad [a] 0 / 2)) = _), W, W'. cbn [all_some]. unfold dlmc_back.
      destruct a as [|[|a]]; [| |lia]; cbn [Nat.eqb Nat.sub]; do 6 f_equal; field. }
  cbv zeta. rewrite mean_one, !H by lia. unfold dlmc_flip, dlmc_back. cbn [Nat.eqb]. destruct one_up as [-> ->]. cbn [Nat.sub INR].
  set (u := exp (- (15 / 4))) in *. set (v := exp (Ropp 15)) in *.
  assert (A0 : Rmin 1 (4 * ((/ 5 * (1 - u) + dg) / (4 / 5 * (1 - u) + dg))) = 1).
  { apply Rmin_left. apply Rmult_le_reg_r with (4 / 5 * (1 - u) + dg); [lra|]. unfold Rdiv. rewrite !Rmult_assoc, Rinv_l by lra. lra. }
  assert (Hp : 0 < / 5 * (1 - v)) by lra.
  assert (A1 : / 5 * (1 - v) - dg <= / 5 * (1 - v) * Rmin 1 (/ 4 * ((4 / 5 * (1 - v) + dg) / (/ 5 * (1 - v) + dg)))).
  { set (p := / 5 * (1 - v)) in *. replace (4 / 5 * (1 - v)) with (4 * p) by (unfold p; field).
    assert (p / (p + dg) <= Rmin 1 (/ 4 * ((4 * p + dg) / (p + dg)))).
    { apply Rmin_glb; apply Rmult_le_reg_r with (p + dg); try lra; unfold Rdiv; rewrite ?Rmult_assoc, Rinv_l by lra; lra. }
    apply Rle_trans with (p * (p / (p + dg))); [|apply Rmult_le_compat_l; lra].
    apply Rmult_le_reg_r with (p + dg); [lra|]. replace (p * (p / (p + dg)) * (p + dg)) with (p * p) by (field; lra). nra. }
  assert (Hu : / 81 <= u).
  { unfold u. rewrite exp_Ropp. apply Rinv_le_contravar; [apply exp_pos|]. pose proof exp_le_3 as E3.
    apply Rle_trans with (exp (1 + 1 + 1 + 1)); [left; apply exp_increasing; lra|]. rewrite !exp_plus. pose proof (exp_pos 1).
    assert (exp 1 * exp 1 <= 9) by nra. nra. }
  assert (Hv : v <= / 1000).
  { unfold v. rewrite exp_Ropp. apply Rinv_le_contravar; [lra|]. pose proof (exp_ineq1 1 ltac:(lra)) as E2.
    apply Rle_trans with (exp (1 + 1 + 1 + 1 + 1 + (1 + 1 + 1 + 1 + 1))); [|left; apply exp_increasing; lra]. rewrite !exp_plus.
    set (e := exp 1) in *. clearbody e. assert (H4 : 4 <= e * e) by nra. assert (H16 : 16 <= e * e * (e * e)) by nra. assert (H32 : 32 <= e * e * (e * e) * e) by nra.
    replace (e * e * e * e * e) with (e * e * (e * e) * e) by ring. set (k := e * e * (e * e) * e) in *. clearbody k. nra. }
  rewrite A0. split; [lra|]. intros ->.
  replace (/ 4 * ((4 / 5 * (1 - v) + 0) / (/ 5 * (1 - v) + 0))) with 1 by (field; lra). rewrite Rmin_left by lra. field.
Qed.

(** ** Random walk *)
Definition walk_target : target :=
  {| t_fw := fw3; t_grad := fun _ i => if Nat.eqb i 0 then ln 3 else 0; t_lr := fun _ _ => 0; t_sig := None; t_mask := None; t_dim := 2; t_C := 2 |}.
Lemma walk_first_order : first_order (t_fw walk_target) (t_grad walk_target) 2.
Proof.
  intros x i v Hx Hi Hv. apply in_states in Hx. destruct Hx as [Hl HF]. destruct x as [|a [|b [|? ?]]]; try discriminate. inversion HF as [|? ? Ha HF']; subst. cbn [t_fw t_grad walk_target]. unfold fw3.
  destruct i as [|[|i]]; [| |lia]; cbn [upd nth Nat.eqb]; [|ring]. destruct a as [|[|a]], v as [|[|v]]; try lia; cbn; ring.
Qed.

Lemma walk_as_arw T t s x (F : list (list nat) * rwstate -> R) G : (forall y s, F ([y], s) = G (rw_radius s, [y])) ->
  E (walk_batch 0 T (Some t) s [x]) F = E (arw_step 0 (t_fw T) (t_dim T) (t_C T) t (rw_radius s, [x])) G.
Proof.
  intros H. unfold walk_batch. rewrite E_mh_single. unfold arw_step. cbn [fst snd length repeat indep]. cbv zeta. rewrite !E_bind. apply E_ext. intros p. rewrite E_dmap, E_ret.
  cbn [combine map fst snd indep]. rewrite !E_bind, E_mh_law, !E_dmap, !E_ret, !H. reflexivity.
Qed.

Definition flag (s : R * list (list nat)) : R := is_one (nth 0 (snd s) []).
Lemma flag_first t r a b F F' : (forall r a b, F (r, [st a b]) = F' (r, [st a b])) -> E (arw_step 0 fw3 2 2 t (r, [st a b])) F = E (arw_step 0 fw3 2 2 t (r, [st a b])) F'.
Proof. intros H. rewrite !E_arw_st. unfold outcome. destruct a, b; cbn; rewrite !H; reflexivity. Qed.

Lemma walk_run_law dg t : 0 <= t <= / 3 ->
  mean (states 2 2) (fun x => exp (fw3 x)) (fun x => E (sampler_run 0 dg walk_target (SWalk (Some t)) 2 ([x], TR rw_init)) site0) = 3 / 4 - 1 / 72.
Proof.
  intros Ht. rewrite <- (two_steps_law t Ht). unfold mean. f_equal. apply rsum_ext. intros x Hx. f_equal.
  assert (Hst : exists a b, x = st a b).
  { change (states 2 2) with [st false false; st false true; st true false; st true true] in Hx. destruct Hx as [<-|[<-|[<-|[<-|[]]]]]; eauto. }
  destruct Hst as (a & b & ->). cbn [sampler_run run_seq]. rewrite !E_bind. cbn [sampler_step fst snd]. unfold lift. rewrite E_dmap.
  rewrite (walk_as_arw walk_target t rw_init (st a b) _ (fun s => E (arw_step 0 fw3 2 2 t s) (fun o => flag o))).
  - cbn [t_fw t_dim t_C walk_target rw_radius rw_init]. apply flag_first. intros r a' b'.
    rewrite E_bind. rewrite (E_ext _ (fun a0 => E (ret a0) first_site) first_site) by (intros; apply E_ret).
    apply flag_first. intros r' a'' b''. unfold flag, first_site, is_one. cbn. destruct a''; reflexivity.
  - intros y s. cbn [fst snd]. rewrite E_bind. cbn [sampler_step fst snd]. unfold lift. rewrite E_dmap.
    rewrite (walk_as_arw walk_target t s y _ flag); [reflexivity|].
    intros z s'. cbn [fst snd]. rewrite E_ret. reflexivity.
Qed.

(** ** With the constants of the code *)
Lemma is_one_bound x : Rabs (is_one x) <= 1.
Proof. unfold is_one. destruct (Nat.eqb _ 1); rewrite ?Rabs_R0, ?Rabs_R1; lra. Qed.

Lemma mean_shift S (pi : list nat -> R) f g e : (forall x, In x S -> 0 < pi x) -> S <> [] -> (forall x, In x S -> f x <= g x + e) ->
  mean S pi f <= mean S pi g + e.
Proof.
  intros Hpi HS H. unfold mean.
  assert (Hp : 0 < rsum S pi) by (apply rsum_pos; auto).
  apply Rmult_le_reg_r with (rsum S pi); [assumption|]. unfold Rdiv. rewrite Rmult_plus_distr_r, !Rmult_assoc, Rinv_l, !Rmult_1_r by lra.
  rewrite <- rsum_scal, <- rsum_plus. apply rsum_le. intros x Hx. pose proof (Hpi x Hx). pose proof (H x Hx). nra.
Qed.

Lemma states_nonempty d C : (1 <= C)%nat -> states d C <> [].
Proof.
  intros H E. assert (In (repeat 0%nat d) (states d C)) as Hi.
  { apply in_states. split; [apply repeat_length|]. apply Forall_forall. intros v Hv. apply repeat_spec in Hv. lia. }
  rewrite E in Hi. exact Hi.
Qed.

Lemma code_constants dg T k n m e : (0 < t_dim T)%nat -> (2 <= t_C T)%nat -> usable T k -> (n <= 3)%nat -> / 10 ^ 20 <= e ->
  mean (states (t_dim T) (t_C T)) (fun x => exp (t_fw T x)) (fun x => E (sampler_run 0 dg T k n ([x], init_state k)) site0) <= m ->
  mean (states (t_dim T) (t_C T)) (fun x => exp (t_fw T x)) (fun x => E (sampler_run acc_guard dg T k n ([x], init_state k)) site0) <= m + e.
Proof.
  intros Hd HC Hu Hn He Hm. eapply Rle_trans; [|apply Rplus_le_compat_r; exact Hm]. apply mean_shift.
  - intros; apply exp_pos.
  - apply states_nonempty. lia.
  - intros x Hx. apply in_states in Hx.
    assert (Hl : legal (t_dim T) (t_C T) 1 [x]) by (split; [reflexivity|apply Forall_cons; [exact Hx|apply Forall_nil]]).
    pose proof (proj2 (near_run_from acc_guard dg T k 1 (Rlt_le _ _ acc_guard_pos) Hd HC Hu n 0 [x] _ (init_at T k Hd Hu) Hl) site0 1 ltac:(lra) (fun o _ _ => is_one_bound _)) as H.
    assert (HA : INR n <= 3) by (change 3 with (IZR (Z.of_nat 3)); rewrite <- INR_IZR_INZ; apply le_INR; exact Hn).
    assert (Hn0 := pos_INR n). change (INR 1) with 1 in H. assert (HB : INR n * (1 * (2 * acc_guard)) * 1 <= e).
    { unfold acc_guard. apply Rle_trans with (/ 10 ^ 20); [|exact He]. replace (10 ^ 24) with (10 ^ 20 * 10000) by ring. rewrite Rinv_mult.
      assert (0 < / 10 ^ 20) by (apply Rinv_0_lt_compat, pow_lt; lra). set (q := / 10 ^ 20) in *. clearbody q. nra. }
    pose proof (Rle_abs (E (sampler_run acc_guard dg T k n ([x], init_state k)) site0 - E (sampler_run 0 dg T k n ([x], init_state k)) site0)). lra.
Qed.

(** The shipped adaptive configurations on binary data, with the constants of the code. *)
Lemma shipped_biased c : In c (shipped false) -> sc_adaptive c = Some true ->
  exists T k n f, build_sampler c (t_C T) = Some k /\ usable T k /\ (0 < t_dim T)%nat /\ t_C T = 2%nat /\ first_order (t_fw T) (t_grad T) (t_dim T) /\
    (forall x, 0 <= f x <= 1) /\
    mean (states (t_dim T) (t_C T)) (fun x => exp (t_fw T x)) (fun x => E (sampler_run acc_guard (/ 10 ^ 32) T k n ([x], init_state k)) (fun o => f (nth 0 (fst o) [])))
    <= mean (states (t_dim T) (t_C T)) (fun x => exp (t_fw T x)) f - / 700.
Proof.
  assert (F : forall x, 0 <= is_one x <= 1) by (intros x; unfold is_one; destruct (Nat.eqb _ 1); lra).
  assert (Hdg : 0 <= / 10 ^ 32 <= / 10000).
  { split; [apply Rlt_le, Rinv_0_lt_compat, pow_lt; lra|]. apply Rinv_le_contravar; [lra|]. lra. }
  assert (He : / 10 ^ 20 <= / 10000) by (apply Rinv_le_contravar; lra).
  assert (He' : / 10 ^ 20 <= / 10 ^ 20) by lra.
  assert (Hs : / 10 ^ 20 <= / 10 ^ 7) by (apply Rinv_le_contravar; lra).
  assert (M2 : mean (states 2 2) (fun x => exp (pair_fw x)) is_one = 4 / 5) by (rewrite (mean_pair is_one 0 1); [lra|intros [|[|b]] Hb; cbn; lra || lia]).
  assert (M1 : mean (states 1 2) (fun x => exp (pair_fw x)) is_one = 4 / 5) by (rewrite mean_one; cbn; lra).
  assert (M3 : mean (states 2 2) (fun x => exp (fw3 x)) is_one = 3 / 4).
  { rewrite <- mean_first. unfold mean. f_equal. }
  intros Hc Ha. cbn [shipped In] in Hc. destruct Hc as [<-|[<-|[<-|[<-|[<-|[<-|[<-|[<-|[<-|[]]]]]]]]]]; try discriminate Ha.
  - exists walk_target, (SWalk (Some (237 / 1000))), 2%nat, is_one. split; [reflexivity|]. split; [exact I|]. split; [apply Nat.lt_0_succ|]. split; [reflexivity|]. split; [exact walk_first_order|]. split; [exact F|].
    refine (Rle_trans _ _ _ (code_constants _ walk_target _ 2 (3 / 4 - 1 / 72) _ _ _ _ _ He' _) _); try exact I; try (cbn [t_dim t_C walk_target]; lia).
    + apply Req_le. exact (walk_run_law _ (237 / 1000) ltac:(lra)).
    + cbn [t_dim t_C t_fw walk_target]. rewrite M3. lra.
  - exists (pair_target 2), (SGwgAdapt "SQRT" (574 / 1000)), 3%nat, is_one.
    assert (U : usable (pair_target 2) (SGwgAdapt "SQRT" (574 / 1000))) by (split; [left; reflexivity|reflexivity]).
    split; [reflexivity|]. split; [exact U|]. split; [apply Nat.lt_0_succ|]. split; [reflexivity|]. split; [exact (pair_first_order 2)|]. split; [exact F|].
    refine (Rle_trans _ _ _ (code_constants _ (pair_target 2) _ 3 (4 / 5 - 1 / 45) _ _ _ U _ He' _) _); try (cbn [t_dim t_C pair_target]; lia).
    + apply Req_le. exact (gwg_run_law _ (574 / 1000) ltac:(lra)).
    + cbn [t_dim t_C t_fw pair_target]. rewrite M2. lra.
  - exists (pair_target 2), (SPath "SQRT" true 1 (Some (574 / 1000))), 3%nat, is_one.
    assert (U : usable (pair_target 2) (SPath "SQRT" true 1 (Some (574 / 1000)))) by (split; [left; reflexivity|split; discriminate]).
    split; [reflexivity|]. split; [exact U|]. split; [apply Nat.lt_0_succ|]. split; [reflexivity|]. split; [exact (pair_first_order 2)|]. split; [exact F|].
    refine (Rle_trans _ _ _ (code_constants _ (pair_target 2) _ 3 (4 / 5 - 1 / 30) _ _ _ U _ He' _) _); try (cbn [t_dim t_C pair_target]; lia).
    + apply Req_le. exact (path_run_law _ (574 / 1000) ltac:(lra)).
    + cbn [t_dim t_C t_fw pair_target]. rewrite M2. lra.
  - eexists (pair_target 1), _, 1%nat, is_one. split; [reflexivity|].
    match goal with |- usable _ ?k /\ _ => set (K := k) end.
    assert (U : usable (pair_target 1) K) by (left; reflexivity).
    split; [exact U|]. split; [apply Nat.lt_0_succ|]. split; [reflexivity|]. split; [exact (pair_first_order 1)|]. split; [exact F|].
    refine (Rle_trans _ _ _ (code_constants _ (pair_target 1) K 1 (4 / 5 - 3 / 100) _ _ _ U _ He' _) _); try (cbn [t_dim t_C pair_target]; lia).
    + unfold K. match goal with |- context [SDmala _ ?c ?z] => exact (proj1 (dmala_run_law (/ 10 ^ 32) c z ltac:(lra) eq_refl eq_refl)) end.
    + cbn [t_dim t_C t_fw pair_target]. rewrite M1. lra.
  - eexists (pair_target 1), _, 1%nat, is_one. split; [reflexivity|].
    match goal with |- usable _ ?k /\ _ => set (K := k) end.
    assert (U : usable (pair_target 1) K) by (split; left; reflexivity).
    split; [exact U|]. split; [apply Nat.lt_0_succ|]. split; [reflexivity|]. split; [exact (pair_first_order 1)|]. split; [exact F|].
    refine (Rle_trans _ _ _ (code_constants _ (pair_target 1) K 1 (4 / 5 - / 600) _ _ _ U _ He' _) _); try (cbn [t_dim t_C pair_target]; lia).
    + unfold K. match goal with |- context [SDlmc _ ?c _ _] => exact (proj1 (dlmc_run_law (/ 10 ^ 32) c ltac:(lra) eq_refl eq_refl)) end.
    + cbn [t_dim t_C t_fw pair_target]. rewrite M1. lra.
Qed.
