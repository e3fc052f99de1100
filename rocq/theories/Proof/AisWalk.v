(** The adaptive random walk as sampler of an annealing run: the third of three values is too small on average. *)
From Coq Require Import String Reals List Arith ZArith Lra Lia.
From Verif.Base Require Import RSum Cube Dist.
From Verif.Spec Require Import Chain SamplerRun EvalSpec AisRunSpec.
From Verif.Model Require Import MathUtil Gibbs RandomWalk BernEval FullRun Experiment GraphRun AisRun.
From Verif.Proof Require Import MHKernel AdaptiveRunProof AdaptiveInformed ChainProof LangevinProof LangevinAdapt BernEvalProof CoOptProof FullRunProof FullRunInvar GuardRun PaddingProof ErgodicProof
  ExperimentProof GraphProof GraphRunProof AisProduct AisChains AisBias AisRunProof AisExperiment AisAny AisRefute.
Import ListNotations.
Local Open Scope R_scope.

(** The third value of one chain, any usable sampler object. *)
Lemma third_value g dg lg net m grad d L k M : image_mean d m -> bounded_by d net M -> (3 <= L)%nat -> (0 < d)%nat ->
  usable (ais_target lg net (Some m) grad d L 0) k ->
  E (ais_experiment g dg lg net (Some m) grad d k None 1 L) (fun zs => exp (nth 2 zs 0)) =
  E (init_samples m) (fun x => E (sampler_step g dg (ais_target lg net (Some m) grad d L 1) k ([x], init_state k)) (fun o =>
    E (sampler_step g dg (ais_target lg net (Some m) grad d L 2) k o) (fun o' =>
      exp (net x / INR L) * (exp (net (nth 0 (fst o) []) / INR L) * exp (net (nth 0 (fst o') []) / INR L))))).
Proof.
  intros Hm Hb HL Hd Hu. set (T := ais_target lg net (Some m) grad d L) in *.
  assert (Hu' : forall t, usable (T t) k) by (intros t; revert Hu; unfold usable, T; destruct k; auto).
  assert (HL0 : (0 < L)%nat) by lia. assert (HLr : INR L <> 0) by (apply not_0_INR; lia).
  pose proof (any_c net d L M Hb HL0 Hd) as Hc0. set (c := M / INR L) in *.
  assert (Hst : forall t x, In x (states d 2) -> Rabs (t_fw (T (S t)) x - t_fw (T t) x) <= c) by (intros t x Hx; exact (f_step lg net m grad d L M Hb HL0 t x Hx)).
  assert (Hinc : forall t x w, w + t_fw (T (S t)) x - t_fw (T t) x = w + net x / INR L).
  { intros t x w. unfold T. rewrite !(f_eq lg net m grad d L), S_INR. field. exact HLr. }
  assert (Hone : forall t x s w, dev_weights (T t) (T (S t)) (([x], s), [w]) = [w + net x / INR L]) by (intros; unfold dev_weights; cbn [combine map fst snd]; rewrite Hinc; reflexivity).
  assert (Hstep : forall t x s, In x (states d 2) -> state_at d 2 k t s -> forall o v, In (o, v) (sampler_step g dg (T (S t)) k ([x], s)) -> exists y, fst o = [y] /\ In y (states d 2) /\ state_at d 2 k (S t) (snd o)).
  { intros t x s Hx Hs [ys s'] v Hin. pose proof (step_good g dg (T (S t)) k t s [x]) as G.
    destruct (G Hd (le_n 2) (Hu' (S t)) Hs) as [_ G2]; [intros z [<-|[]]; exact Hx|]. destruct (G2 _ _ Hin) as (G3 & G4 & G5). cbn [fst snd length] in *.
    destruct ys as [|y [|? ?]]; try discriminate. exists y. split; [reflexivity|]. split; [apply G4; left; reflexivity|exact G5]. }
  unfold ais_experiment. fold T. rewrite E_bind. cbn [ais_start]. unfold init_batch. cbn [repeat]. rewrite E_indep_1. apply E_ext_in. intros x w Hx.
  assert (Hxs : In x (states d 2)) by (destruct (start_law m (proj2 Hm)) as (_ & P2 & _); rewrite (proj1 Hm) in P2; exact (P2 x w Hx)).
  cbn [deal repeat]. destruct L as [|[|[|L']]]; [lia|lia|lia|].
  assert (Hs0 : state_at d 2 k 0 (init_state k)) by (pose proof (init_at (T 0%nat) k) as H; apply H; auto).
  change (ais_values g dg T k (S (S (S L'))) 0 [(([x], init_state k), [0])]) with
    (bind (indep (map (dev_step g dg (T 0%nat) (T 1%nat) k) [(([x], init_state k), [0])])) (fun ds' => dmap (cons (logz (concat (map snd ds')))) (ais_values g dg T k (S (S L')) 1 ds'))).
  rewrite E_bind. cbn [map]. rewrite E_indep_1. unfold dev_step. rewrite E_dmap. cbn [fst]. apply E_ext_in. intros [ys s1] v1 Hin1.
  destruct (Hstep 0%nat x _ Hxs Hs0 _ _ Hin1) as (y & Ey & Hy & Hs1). cbn [fst snd] in Ey, Hs1. subst ys.
  rewrite E_dmap. cbn [nth fst snd]. rewrite (Hone 0%nat).
  change (ais_values g dg T k (S (S L')) 1 [(([y], s1), [0 + net x / INR (S (S (S L')))])]) with
    (bind (indep (map (dev_step g dg (T 1%nat) (T 2%nat) k) [(([y], s1), [0 + net x / INR (S (S (S L')))])])) (fun ds' => dmap (cons (logz (concat (map snd ds')))) (ais_values g dg T k (S L') 2 ds'))).
  rewrite E_bind. cbn [map]. rewrite E_indep_1. unfold dev_step. rewrite E_dmap. cbn [fst]. apply E_ext_in. intros [zs s2] v2 Hin2.
  destruct (Hstep 1%nat y _ Hy Hs1 _ _ Hin2) as (z & Ez & Hz & Hs2). cbn [fst snd] in Ez, Hs2. subst zs.
  rewrite E_dmap. cbn [nth fst snd]. rewrite (Hone 1%nat). set (w2 := _ + net y / _).
  assert (Hst2 : forall t x, In x (states d 2) -> Rabs (t_fw (T (S t)) x - t_fw (T t) x) <= Rabs w2 + c) by (intros t u Hu1; pose proof (Rabs_pos w2); specialize (Hst t u Hu1); lra).
  rewrite (any_first g dg T k d (Rabs w2 + c) (fun _ => eq_refl) (fun _ => eq_refl) Hd Hu' Hst2 L' 2 _ exp).
  - unfold all_chains. cbn [map concat combine fst snd app]. unfold new_w. cbn [fst snd]. rewrite Hinc. rewrite logz_mean by discriminate. cbn [rsum length]. change (INR 1) with 1.
    replace ((exp (w2 + net z / INR (S (S (S L')))) + 0) / 1) with (exp (w2 + net z / INR (S (S (S L'))))) by field. unfold w2. rewrite !exp_plus, exp_0. ring.
  - intros o [<-|[]]. split; [exact Hs2|]. split; [intros u [<-|[]]; exact Hz|]. split; [reflexivity|]. cbn [snd]. intros u [<-|[]]. cbn [INR]. pose proof (Rabs_pos w2). nra.
  - eexists. split; [left; reflexivity|discriminate].
Qed.

(** One step of one chain of two pixels, the first of which matters. *)
Lemma walk_first g dg T t s a b K c F (G : bool -> R -> R) : t_dim T = 2%nat -> t_C T = 2%nat -> (forall a b, t_fw T (st a b) = K + (if a then c else 0)) -> 0 < c -> 0 <= g <= exp (- c) -> g <= exp c - 1 ->
  (forall a b s, F ([st a b], TR s) = G a (rw_radius s)) ->
  let q := rw_radius s / 2 in
  let r0 := clip 1 2 (rw_radius s + 1 - t) in
  let r1 := clip 1 2 (rw_radius s + exp (- c) - t) in
  let beta := exp (- c) - g in
  E (sampler_step g dg T (SWalk (Some t)) ([st a b], TR s)) F =
  if a then q * (beta * G false r1 + (1 - beta) * G true r1) + (1 - q) * G true r0 else q * G true r0 + (1 - q) * G false r0.
Proof.
  intros Hdim HC Hfw Hc Hg Hg2 HF. cbv zeta. cbn [sampler_step fst snd]. unfold lift, walk_batch. rewrite E_dmap, E_mh_single, Hdim, HC.
  rewrite E_draws2. cbv zeta. set (q := rw_radius s / 2). cbn [fst snd].
  assert (Ho : forall u v, accept_prob g (t_fw T (st (xorb a u) (xorb b v)) - t_fw T (st a b)) * F ([st (xorb a u) (xorb b v)], TR (rw_adapt_state 2 t [t_fw T (st (xorb a u) (xorb b v)) - t_fw T (st a b)] s))
     + (1 - accept_prob g (t_fw T (st (xorb a u) (xorb b v)) - t_fw T (st a b))) * F ([st a b], TR (rw_adapt_state 2 t [t_fw T (st (xorb a u) (xorb b v)) - t_fw T (st a b)] s)) =
     if u then if a then (exp (- c) - g) * G false (clip 1 2 (rw_radius s + exp (- c) - t)) + (1 - (exp (- c) - g)) * G true (clip 1 2 (rw_radius s + exp (- c) - t))
               else G true (clip 1 2 (rw_radius s + 1 - t)) else G a (clip 1 2 (rw_radius s + 1 - t))).
  { intros u v. rewrite !HF, !Hfw. unfold rw_adapt_state, mean_acc. cbn [rw_radius rsum length]. change (INR 1) with 1. change (INR 2) with 2.
    pose proof (exp_pos (- c)) as He. assert (He1 : exp (- c) < 1) by (rewrite <- exp_0; apply exp_increasing; lra).
    destruct u; [destruct a|]; cbn [xorb].
    - replace (K + 0 - (K + c)) with (- c) by ring. rewrite Rmin_left by lra. unfold accept_prob. rewrite (Rmin_right 1) by lra. rewrite Rmax_right by lra.
      rewrite Rplus_0_r. replace (exp (- c) / 1) with (exp (- c)) by field. reflexivity.
    - replace (K + c - (K + 0)) with c by ring. rewrite Rmin_right by lra. unfold accept_prob. rewrite (Rmin_left 1) by lra. rewrite Rmax_right by lra. rewrite exp_0, Rplus_0_r. replace (1 / 1) with 1 by field. ring.
    - rewrite Bool.xorb_false_r. rewrite Rminus_diag_eq by reflexivity. rewrite Rmin_left by lra. rewrite exp_0, Rplus_0_r. replace (1 / 1) with 1 by field. ring. }
  rewrite !rw_apply_st. rewrite !Ho. destruct a; ring.
Qed.

Definition white_net (x : list nat) : R := if Nat.eqb (nth 0 x 0%nat) 1 then 3 * ln 2 else 0.
Lemma white_third a b : exp (white_net (st a b) / INR 3) = if a then 2 else 1.
Proof.
  unfold white_net. destruct a; cbn [st bit nth Nat.eqb].
  - replace (3 * ln 2 / INR 3) with (ln 2) by (cbn [INR]; field). apply exp_ln. lra.
  - unfold Rdiv. rewrite Rmult_0_l. apply exp_0.
Qed.
Lemma white_bounded : bounded_by 2 white_net (3 * ln 2).
Proof.
  intros x _. unfold white_net. assert (0 < ln 2) by (rewrite <- ln_1; apply ln_increasing; lra). destruct (Nat.eqb _ _); [rewrite Rabs_right; lra|rewrite Rabs_R0; lra].
Qed.

Theorem walk_biased g dg lg grad t : 0 <= g <= 1 / 1000 -> 0 <= lg -> 0 <= t <= 1 / 2 ->
  E (ais_experiment g dg lg white_net (Some (half_mean 2)) grad 2 (SWalk (Some t)) None 1 3) (fun zs => exp (nth 2 zs 0)) <= partition (half_mean 2) white_net 1 - 1 / 40.
Proof.
  intros Hg Hlg Ht. rewrite (third_value g dg lg white_net (half_mean 2) grad 2 3 (SWalk (Some t)) (3 * ln 2)); auto using half_image, white_bounded; try lia; [|exact I].
  set (T := ais_target lg white_net (Some (half_mean 2)) grad 2 3). destruct (start_law (half_mean 2) (proj2 (half_image 2))) as (P1 & P2 & P3). rewrite (proj1 (half_image 2)) in P2, P3. rewrite P3. clear P1 P2 P3.
  set (K := INR 2 * ln (/ 2 + lg)). assert (Hl2 : 0 < ln 2) by (rewrite <- ln_1; apply ln_increasing; lra).
  assert (Hin : forall a b, In (st a b) (states 2 2)) by (intros [] []; cbn; tauto).
  assert (Hfw : forall n a b, t_fw (T n) (st a b) = K + (if a then INR n * ln 2 else 0)).
  { intros n a b. unfold T. rewrite (f_eq lg white_net (half_mean 2) grad 2 3), half_base by apply Hin. fold K. f_equal. unfold white_net. destruct a; cbn [st bit nth Nat.eqb]; [cbn [INR]; field|ring]. }
  assert (He1 : exp (- (INR 1 * ln 2)) = / 2) by (change (INR 1) with 1; rewrite Rmult_1_l, exp_Ropp, exp_ln by lra; reflexivity).
  assert (He2 : exp (- (INR 2 * ln 2)) = / 4).
  { replace (- (INR 2 * ln 2)) with (- ln 2 + - ln 2) by (cbn [INR]; ring). rewrite exp_plus, exp_Ropp, exp_ln by lra. field. }
  assert (Hu1 : g <= exp (INR 1 * ln 2) - 1) by (change (INR 1) with 1; rewrite Rmult_1_l, exp_ln by lra; lra).
  assert (Hu2 : g <= exp (INR 2 * ln 2) - 1).
  { replace (INR 2 * ln 2) with (ln 2 + ln 2) by (cbn [INR]; ring). rewrite exp_plus, exp_ln by lra. lra. }
  assert (Hp1 : 0 < INR 1 * ln 2) by (change (INR 1) with 1; lra). assert (Hp2 : 0 < INR 2 * ln 2) by (cbn [INR]; lra).
  set (h := fun (a : bool) (r : R) => if a then 2 - r / 2 * (/ 4 - g) else 1 + r / 2).
  assert (Hsecond : forall c0 a b s, E (sampler_step g dg (T 2%nat) (SWalk (Some t)) ([st a b], TR s)) (fun o' => c0 * (exp (white_net (nth 0 [st a b] []) / INR 3) * exp (white_net (nth 0 (fst o') []) / INR 3)))
     = c0 * ((if a then 2 else 1) * h a (rw_radius s))).
  { intros c0 a b s. rewrite (walk_first g dg (T 2%nat) t s a b K (INR 2 * ln 2) _ (fun a' _ => c0 * ((if a then 2 else 1) * (if a' then 2 else 1)))); auto; try (rewrite He2; lra).
    - rewrite He2. unfold h. destruct a; field.
    - intros a' b' s'. cbn [fst nth]. rewrite !white_third. reflexivity. }
  assert (Hfirst : forall a b, E (sampler_step g dg (T 1%nat) (SWalk (Some t)) ([st a b], init_state (SWalk (Some t)))) (fun o =>
      E (sampler_step g dg (T 2%nat) (SWalk (Some t)) o) (fun o' => exp (white_net (st a b) / INR 3) * (exp (white_net (nth 0 (fst o) []) / INR 3) * exp (white_net (nth 0 (fst o') []) / INR 3))))
     = if a then 2 * (/ 2 * ((/ 2 - g) * h false (3 / 2 - t) + (1 - (/ 2 - g)) * (2 * h true (3 / 2 - t))) + / 2 * (2 * h true (2 - t)))
       else / 2 * (2 * h true (2 - t)) + / 2 * h false (2 - t)).
  { intros a b. cbn [init_state]. rewrite (walk_first g dg (T 1%nat) t rw_init a b K (INR 1 * ln 2) _ (fun a' r => (if a then 2 else 1) * ((if a' then 2 else 1) * h a' r))); auto; try (rewrite He1; lra).
    - rewrite He1. cbn [rw_init rw_radius]. replace (clip 1 2 (1 + 1 - t)) with (2 - t) by (unfold clip; rewrite Rmax_left, Rmin_left by lra; ring).
      replace (clip 1 2 (1 + / 2 - t)) with (3 / 2 - t) by (unfold clip; rewrite Rmax_left, Rmin_left by lra; field). destruct a; field.
    - intros a' b' s'. cbn [fst]. rewrite Hsecond, white_third. reflexivity. }
  change (states 2 2) with [st false false; st false true; st true false; st true true]. cbn [rsum]. rewrite !Hfirst. rewrite !half_pixels by reflexivity.
  unfold partition. change (length (half_mean 2)) with 2%nat. change (states 2 2) with [st false false; st false true; st true false; st true true]. cbn [rsum]. rewrite !half_pixels by reflexivity.
  assert (Hw : forall a b, exp (1 * white_net (st a b)) = if a then 8 else 1).
  { intros a b. replace (1 * white_net (st a b)) with (white_net (st a b) / INR 3 + (white_net (st a b) / INR 3 + white_net (st a b) / INR 3)) by (cbn [INR]; field). rewrite !exp_plus, !white_third. destruct a; ring. }
  rewrite !Hw. unfold h. cbn [pow]. nra.
Qed.
