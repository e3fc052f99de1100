(** Proofs for C75: the adaptive random walk as a chain on samples and radius. *)
From Coq Require Import Reals List Lra Lia Arith Bool.
From Verif.Base Require Import RSum Cube Dist.
From Verif.Spec Require Import Chain Ergodic.
From Verif.Model Require Import MathUtil RandomWalk AdaptiveRun.
From Verif.Proof Require Import ChainProof RandomWalkProof ErgodicProof ErgodicSamplers.
Import ListNotations.
Local Open Scope R_scope.

(** ** One step, samples only *)
Lemma arw_marginal guard fw dim C target r xs : forall f,
  E (arw_step guard fw dim C target (r, xs)) (fun s => f (snd s)) = E (batch_step (rw_step guard fw r dim C) xs) f.
Proof.
  intros f. unfold arw_step. cbn [fst snd]. rewrite E_bind.
  rewrite (E_ext _ _ (fun drs => E (indep (map (fun p => mh_law guard (fw (snd p) - fw (fst p)) (fst p) (snd p))
    (combine xs (map (fun p => rw_apply C (fst p) (snd p)) (combine xs drs))))) f))
    by (intros drs; rewrite E_bind; apply E_ext; intros; rewrite E_ret; reflexivity).
  revert f. induction xs as [|x xs IH]; intros f; unfold batch_step; simpl; [rewrite !E_ret; reflexivity|].
  rewrite !E_bind. unfold rw_step at 1. rewrite E_bind. apply E_ext. intros dr. rewrite E_dmap.
  rewrite (E_ext _ _ (fun l => E (indep (map (fun p => mh_law guard (fw (snd p) - fw (fst p)) (fst p) (snd p))
    (combine xs (map (fun p => rw_apply C (fst p) (snd p)) (combine xs l)))))
      (fun l' => E (mh_law guard (fw (rw_apply C x dr) - fw x) x (rw_apply C x dr)) (fun a => f (a :: l'))))).
  - rewrite IH. unfold batch_step. set (D := indep (map (rw_step guard fw r dim C) xs)). set (y := rw_apply C x dr).
    transitivity (E D (fun l => accept_prob guard (fw y - fw x) * f (y :: l) + (1 - accept_prob guard (fw y - fw x)) * f (x :: l))).
    + apply E_ext. intros l. unfold mh_law. rewrite E_bind, E_bernoulli, !E_ret. reflexivity.
    + rewrite E_plus, !E_scal. unfold mh_law. rewrite E_bind, E_bernoulli, !E_ret, !E_dmap. reflexivity.
  - intros l. cbn [combine map indep fst snd length repeat]. rewrite E_bind. set (D := indep _). set (y := rw_apply C x dr).
    transitivity (E D (fun l => accept_prob guard (fw y - fw x) * f (y :: l) + (1 - accept_prob guard (fw y - fw x)) * f (x :: l))).
    + rewrite E_plus, !E_scal. unfold mh_law. rewrite E_bind, E_bernoulli, !E_ret, !E_dmap. reflexivity.
    + apply E_ext. intros l'. unfold mh_law. rewrite E_bind, E_bernoulli, !E_ret. reflexivity.
Qed.

(** ** Flat targets: the radius does not depend on the samples *)
Definition flat_radius (dim : nat) (target : R) (n : nat) (r : R) : R :=
  rw_radius (rw_adapt_state dim target (repeat 0 n) {| rw_steps := 0; rw_ll := 0; rw_radius := r |}).

Lemma in_indep {A} (ds : list (dist A)) : forall l w, In (l, w) (indep ds) -> length l = length ds.
Proof.
  induction ds as [|d ds IH]; intros l w H; simpl in H.
  - destruct H as [H|[]]. inversion H. reflexivity.
  - unfold bind in H. apply in_flat_map in H. destruct H as ([a v] & _ & H). apply in_map_iff in H.
    destruct H as ([l' v'] & E0 & H). inversion E0; subst. unfold dmap in H. apply in_map_iff in H.
    destruct H as ([l'' v''] & E1 & H). inversion E1; subst. simpl. rewrite (IH _ _ H). reflexivity.
Qed.

Lemma arw_flat guard c dim C target r xs F :
  E (arw_step guard (fun _ => c) dim C target (r, xs)) F
  = E (batch_step (rw_step guard (fun _ => c) r dim C) xs) (fun xs' => F (flat_radius dim target (length xs) r, xs')).
Proof.
  rewrite <- (arw_marginal guard (fun _ => c) dim C target r xs). unfold arw_step. cbn [fst snd]. rewrite !E_bind.
  apply E_ext_in. intros drs w Hin. apply in_indep in Hin. rewrite repeat_length in Hin.
  rewrite !E_bind. apply E_ext. intros xs'. rewrite !E_ret. cbn [snd]. do 2 f_equal. unfold flat_radius. do 2 f_equal.
  clear -Hin. revert drs Hin. induction xs as [|x xs IH]; intros [|d drs] H; simpl in *; try discriminate; [reflexivity|].
  f_equal; [ring|]. apply IH. lia.
Qed.

Lemma flat_radius_range dim target n r : (0 < dim)%nat -> 1 <= flat_radius dim target n r <= INR dim.
Proof.
  intros Hd. unfold flat_radius, rw_adapt_state, clip. cbn [rw_radius].
  assert (1 <= INR dim) by (apply (le_INR 1); lia).
  unfold Rmin, Rmax. destruct (Rle_dec _ 1); destruct (Rle_dec _ (INR dim)); lra.
Qed.

Lemma arw_flat_run c dim C target B : (0 < dim)%nat -> (2 <= C)%nat -> forall n t r f, 0 <= r <= INR dim ->
  rsum (lists_over (states dim C) B) (fun xs => batch_pi (fun _ => exp c) xs * E (run_seq (fun _ => arw_step 0 (fun _ => c) dim C target) n t (r, xs)) (fun s => f (snd s)))
  = rsum (lists_over (states dim C) B) (fun xs => batch_pi (fun _ => exp c) xs * f xs).
Proof.
  intros Hd HC. induction n as [|n IH]; intros t r f Hr.
  - apply rsum_ext. intros xs _. simpl. rewrite E_ret. reflexivity.
  - set (r' := flat_radius dim target B r).
    rewrite <- (IH (S t) r' f) by (pose proof (flat_radius_range dim target B r Hd); unfold r'; lra).
    set (G := fun xs' => E (run_seq (fun _ => arw_step 0 (fun _ => c) dim C target) n (S t) (r', xs')) (fun s => f (snd s))).
    assert (Hinv : invariant (lists_over (states dim C) B) (batch_pi (fun _ => exp c)) (batch_step (rw_step 0 (fun _ => c) r dim C))).
    { apply batch_invariant. apply (rw_invariant (fun _ => c) dim C r); assumption. }
    refine (eq_trans _ (Hinv G)). apply rsum_ext. intros xs Hxs. f_equal. cbn [run_seq]. rewrite E_bind, arw_flat.
    apply in_lists_over in Hxs. destruct Hxs as [Hl _]. rewrite Hl. reflexivity.
Qed.

(** ** Witness: two binary sites, the first three times as likely to be 1 as 0, the second fair *)
Definition fw3 (x : list nat) : R := if Nat.eqb (nth 0 x 0%nat) 1 then ln 3 else 0.
Definition bit (b : bool) : nat := if b then 1%nat else 0%nat.
Definition st (a b : bool) : list nat := [bit a; bit b].

Lemma exp_ln3 : exp (ln 3) = 3. Proof. apply exp_ln. lra. Qed.
Lemma ln3_pos : 0 < ln 3. Proof. rewrite <- ln_1. apply ln_increasing; lra. Qed.

Lemma rw_apply_st a b u v : rw_apply 2 (st a b) [(u, 1%nat); (v, 1%nat)] = st (xorb a u) (xorb b v).
Proof. destruct a, b, u, v; reflexivity. Qed.

(** One step from sites (a, b) at radius r. *)
Definition new_r (target r acc : R) : R := clip 1 2 (r + acc - target).
Definition outcome (target r : R) (a b u v : bool) (F : R * list (list nat) -> R) : R :=
  if andb a u then / 3 * F (new_r target r (/ 3), [st (xorb a u) (xorb b v)]) + (1 - / 3) * F (new_r target r (/ 3), [st a b])
  else F (new_r target r 1, [st (xorb a u) (xorb b v)]).

Lemma E_site p (f : bool * nat -> R) : E (rw_site p 2) f = p * f (true, 1%nat) + (1 - p) * f (false, 1%nat).
Proof. rewrite rw_site_eq. rewrite E_weighted. unfold rw_vals, rw_w. cbn. field. Qed.

Lemma E_draws2 r (f : list (bool * nat) -> R) : E (rw_draws r 2 2) f =
  let q := r / 2 in
  q * (q * f [(true, 1%nat); (true, 1%nat)] + (1 - q) * f [(true, 1%nat); (false, 1%nat)])
  + (1 - q) * (q * f [(false, 1%nat); (true, 1%nat)] + (1 - q) * f [(false, 1%nat); (false, 1%nat)]).
Proof.
  unfold rw_draws. cbn [repeat indep]. rewrite E_bind, E_site, !E_dmap, !E_bind, !E_site, !E_dmap, !E_ret. reflexivity.
Qed.

Lemma E_arw_st target r a b F : E (arw_step 0 fw3 2 2 target (r, [st a b])) F =
  let q := r / 2 in
  q * (q * outcome target r a b true true F + (1 - q) * outcome target r a b true false F)
  + (1 - q) * (q * outcome target r a b false true F + (1 - q) * outcome target r a b false false F).
Proof.
  assert (Ho : forall u v, E (let ys := map (fun p => rw_apply 2 (fst p) (snd p)) (combine [st a b] [[(u, 1%nat); (v, 1%nat)]]) in
    bind (indep (map (fun p => mh_law 0 (fw3 (snd p) - fw3 (fst p)) (fst p) (snd p)) (combine [st a b] ys))) (fun xs' =>
      ret (rw_radius (rw_adapt_state 2 target (map (fun p => fw3 (snd p) - fw3 (fst p)) (combine [st a b] ys))
        {| rw_steps := 0; rw_ll := 0; rw_radius := r |}), xs'))) F = outcome target r a b u v F).
  { intros u v. cbn [map combine fst snd]. rewrite rw_apply_st. cbn [map combine fst snd indep]. cbv zeta.
    rewrite !E_bind. unfold mh_law. rewrite E_bind, E_bernoulli, !E_ret, !E_dmap, !E_ret.
    unfold rw_adapt_state, mean_acc, outcome, new_r. cbn [rw_radius rsum length]. change (INR 1) with 1. change (INR 2) with 2.
    assert (K0 : fw3 (st (xorb a u) (xorb b v)) - fw3 (st a b) =
                 if andb a u then - ln 3 else if u then ln 3 else 0).
    { destruct a, u; unfold fw3, st; simpl; ring. }
    rewrite K0. pose proof ln3_pos as Hp. pose proof exp_ln3 as He.
    destruct (andb a u) eqn:Eau.
    - assert (E1 : exp (- ln 3) = / 3) by (rewrite exp_Ropp, He; reflexivity).
      rewrite Rmin_left by lra. unfold accept_prob. rewrite E1, Rminus_0_r, (Rmin_right 1) by lra. rewrite Rmax_right by lra.
      rewrite Rplus_0_r. replace (/ 3 / 1) with (/ 3) by field. ring.
    - assert (Ha : exists la, 0 <= la /\ (if u then ln 3 else 0) = la) by (eexists; split; [|reflexivity]; destruct u; lra).
      destruct Ha as (la & Hla & ->). rewrite Rmin_right by lra. rewrite exp_0.
      unfold accept_prob. assert (1 <= exp la) by (rewrite <- exp_0; destruct (Req_dec la 0) as [->|]; [lra|left; apply exp_increasing; lra]).
      rewrite Rminus_0_r, (Rmin_left 1) by lra. rewrite Rmax_right by lra.
      rewrite Rplus_0_r. replace (1 / 1) with 1 by field. ring. }
  unfold arw_step. cbn [fst snd length repeat]. cbv zeta. rewrite E_bind. cbn [indep]. rewrite E_bind, E_draws2. cbv zeta.
  rewrite !E_dmap, !E_ret. cbv zeta in Ho. rewrite !Ho. reflexivity.
Qed.

(** ** Two steps from equilibrium with the default acceptance target *)
Definition first_site (s : R * list (list nat)) : R := INR (nth 0 (nth 0 (snd s) []) 0%nat).

Lemma mean_first : mean (states 2 2) (fun x => exp (fw3 x)) (fun x => INR (nth 0 x 0%nat)) = 3 / 4.
Proof. unfold mean, fw3. cbn. rewrite exp_ln3, exp_0. field. Qed.

Lemma new_r_mid target r acc : 1 <= r + acc - target <= 2 -> new_r target r acc = r + acc - target.
Proof. intros H. unfold new_r, clip. rewrite Rmax_left by lra. apply Rmin_left. lra. Qed.
Lemma new_r_low target r acc : r + acc - target <= 1 -> new_r target r acc = 1.
Proof. intros H. unfold new_r, clip. rewrite Rmax_right by lra. apply Rmin_left. lra. Qed.
Lemma new_r_high target r acc : 2 <= r + acc - target -> new_r target r acc = 2.
Proof. intros H. unfold new_r, clip. rewrite Rmax_left by lra. apply Rmin_right. lra. Qed.

Lemma E_arw_first target r a b : E (arw_step 0 fw3 2 2 target (r, [st a b])) first_site
  = if a then 1 - r / 6 else r / 2.
Proof. rewrite E_arw_st. unfold outcome, first_site. destruct a, b; cbn; field. Qed.

Lemma two_steps_st target a b : 0 <= target <= / 3 ->
  E (run_seq (fun _ => arw_step 0 fw3 2 2 target) 2 0 (1, [st a b])) first_site
  = if a then / 2 * (/ 3 * ((4 / 3 - target) / 2) + (1 - / 3) * (1 - (4 / 3 - target) / 6)) + (1 - / 2) * (1 - (2 - target) / 6)
    else / 2 * (1 - (2 - target) / 6) + (1 - / 2) * ((2 - target) / 2).
Proof.
  intros Ht. cbn [run_seq]. rewrite E_bind, E_arw_st. cbv zeta. unfold outcome.
  rewrite (new_r_mid target 1 1), (new_r_mid target 1 (/ 3)) by lra.
  assert (K : forall r a b, E (bind (arw_step 0 fw3 2 2 target (r, [st a b])) ret) first_site = if a then 1 - r / 6 else r / 2).
  { intros r a' b'. rewrite E_bind. rewrite (E_ext _ _ first_site) by (intros; apply E_ret). apply E_arw_first. }
  rewrite !K. destruct a, b; cbn [andb xorb]; field.
Qed.

Lemma two_steps_law target : 0 <= target <= / 3 ->
  mean (states 2 2) (fun x => exp (fw3 x)) (fun x => E (run_seq (fun _ => arw_step 0 fw3 2 2 target) 2 0 (1, [x])) first_site)
  = 3 / 4 - 1 / 72.
Proof.
  intros Ht. unfold mean.
  change (states 2 2) with [st false false; st false true; st true false; st true true]. cbn [rsum].
  rewrite !two_steps_st by exact Ht. unfold fw3, st. cbn. rewrite exp_ln3, exp_0. field.
Qed.

(** ** The long run at acceptance target 2/3: a finite chain of radius levels 1, 4/3, 5/3, 2 *)
Definition fstate := (nat * (bool * bool))%type.
Definition embed (s : fstate) : R * list (list nat) := (1 + INR (fst s) / 3, [st (fst (snd s)) (snd (snd s))]).
Definition kq (k : nat) : R := (INR k + 3) / 6.
Definition kstep (s : fstate) : dist fstate :=
  let k := fst s in let a := fst (snd s) in let b := snd (snd s) in
  bind (bernoulli (kq k)) (fun u => bind (bernoulli (kq k)) (fun v =>
    if andb a u then bind (bernoulli (/ 3)) (fun acc => ret ((k - 1)%nat, if acc : bool then (xorb a u, xorb b v) else (a, b)))
    else ret (Nat.min (k + 1) 3, (xorb a u, xorb b v)))).
Definition fspace : list fstate := list_prod (seq 0 4) (list_prod [false; true] [false; true]).

Lemma in_fspace s : In s fspace <-> (fst s < 4)%nat.
Proof.
  destruct s as [k [a b]]. unfold fspace. split; intros H.
  - apply in_prod_iff in H. destruct H as [H _]. apply in_seq in H. simpl. lia.
  - apply in_prod; [apply in_seq; simpl in H; lia|]. destruct a, b; simpl; tauto.
Qed.

Lemma level_up k : (k < 4)%nat -> new_r (2 / 3) (1 + INR k / 3) 1 = 1 + INR (Nat.min (k + 1) 3) / 3.
Proof.
  intros H. destruct k as [|[|[|[|k]]]]; [| | | |lia]; cbn [Nat.add Nat.min INR].
  - rewrite new_r_mid by lra. lra.
  - rewrite new_r_mid by lra. lra.
  - rewrite new_r_mid by lra. lra.
  - rewrite new_r_high by lra. lra.
Qed.
Lemma level_down k : (k < 4)%nat -> new_r (2 / 3) (1 + INR k / 3) (/ 3) = 1 + INR (k - 1) / 3.
Proof.
  intros H. destruct k as [|[|[|[|k]]]]; [| | | |lia]; cbn [Nat.sub INR].
  - rewrite new_r_low by lra. lra.
  - rewrite new_r_mid by lra. lra.
  - rewrite new_r_mid by lra. lra.
  - rewrite new_r_mid by lra. lra.
Qed.

Lemma E_embed s F : In s fspace -> E (arw_step 0 fw3 2 2 (2 / 3) (embed s)) F = E (kstep s) (fun s' => F (embed s')).
Proof.
  intros Hs. apply in_fspace in Hs. destruct s as [k [a b]]. unfold embed at 1. cbn [fst snd]. rewrite E_arw_st. cbv zeta.
  unfold kstep. cbn [fst snd]. rewrite !E_bind, !E_bernoulli, !E_bind, !E_bernoulli.
  assert (Ho : forall u v, outcome (2 / 3) (1 + INR k / 3) a b u v F =
    E (if andb a u then bind (bernoulli (/ 3)) (fun acc => ret ((k - 1)%nat, if acc : bool then (xorb a u, xorb b v) else (a, b)))
       else ret (Nat.min (k + 1) 3, (xorb a u, xorb b v))) (fun s' => F (embed s'))).
  { intros u v. unfold outcome. rewrite level_up, level_down by exact Hs. destruct (andb a u).
    - rewrite E_bind, E_bernoulli, !E_ret. reflexivity.
    - rewrite E_ret. reflexivity. }
  rewrite !Ho. replace ((1 + INR k / 3) / 2) with (kq k) by (unfold kq; field). reflexivity.
Qed.

Lemma kq_range k : (k < 4)%nat -> 0 < kq k <= 1.
Proof. intros H. unfold kq. destruct k as [|[|[|[|k]]]]; [| | | |lia]; simpl; lra. Qed.

Lemma kstep_prob s : In s fspace -> is_prob (kstep s).
Proof.
  intros Hs. apply in_fspace in Hs. destruct s as [k [a b]]. unfold kstep. cbn [fst snd].
  assert (is_prob (bernoulli (kq k))) by (apply is_prob_bernoulli; pose proof (kq_range k Hs); lra).
  apply is_prob_bind; [assumption|]. intros u _ _. apply is_prob_bind; [assumption|]. intros v _ _.
  destruct (andb a u); [|apply is_prob_ret]. apply is_prob_bind; [apply is_prob_bernoulli; lra|]. intros. apply is_prob_ret.
Qed.

Lemma in_bind {A B} (d : dist A) (k : A -> dist B) y w : In (y, w) (bind d k) -> exists a v v', In (a, v) d /\ In (y, v') (k a).
Proof.
  unfold bind. intros H. apply in_flat_map in H. destruct H as ([a v] & Ha & H). apply in_map_iff in H.
  destruct H as ([b v'] & E0 & H). inversion E0; subst. exists a, v, v'. split; assumption.
Qed.

Lemma kstep_proper : proper fspace kstep.
Proof.
  intros s Hs. split; [apply kstep_prob; exact Hs|]. intros y w H. apply in_fspace in Hs. destruct s as [k [a b]]. unfold kstep in H. cbn [fst snd] in *.
  apply in_bind in H. destruct H as (u & ? & ? & _ & H). apply in_bind in H. destruct H as (v & ? & ? & _ & H).
  apply in_fspace. destruct (andb a u).
  - apply in_bind in H. destruct H as (acc & ? & ? & _ & H). destruct H as [H|[]]. inversion H. simpl. lia.
  - destruct H as [H|[]]. inversion H. cbn [fst]. lia.
Qed.

Lemma embed_run F : forall n t s, In s fspace ->
  E (run_seq (fun _ => arw_step 0 fw3 2 2 (2 / 3)) n t (embed s)) F = E (run_seq (fun _ => kstep) n t s) (fun s' => F (embed s')).
Proof.
  induction n as [|n IH]; intros t s Hs; cbn [run_seq]; [rewrite !E_ret; reflexivity|].
  rewrite !E_bind, E_embed by exact Hs. apply E_ext_in. intros y w Hy. apply IH. exact (proj2 (kstep_proper s Hs) y w Hy).
Qed.

(** The stationary weights of samples and radius together (times 1469 and 2). *)
Definition kmu (s : fstate) : R :=
  match fst s, fst (snd s) with
  | 0%nat, false => 120 | 1%nat, false => 150 | 2%nat, false => 102 | 3%nat, false => 17
  | 0%nat, true => 240 | 1%nat, true => 360 | 2%nat, true => 324 | 3%nat, true => 156
  | _, _ => 0
  end.

Lemma kmu_invariant : invariant fspace kmu kstep.
Proof.
  intros f. unfold fspace. cbn [seq list_prod map app rsum]. unfold kmu, kstep, kq. cbn [fst snd].
  repeat (rewrite ?E_bind, ?E_bernoulli, ?E_ret; cbn [andb xorb]). cbn [Nat.add Nat.sub Nat.min INR]. lra.
Qed.

(** Reachability, decided by computation. *)
Definition feqb (s s' : fstate) : bool := andb (Nat.eqb (fst s) (fst s')) (andb (Bool.eqb (fst (snd s)) (fst (snd s'))) (Bool.eqb (snd (snd s)) (snd (snd s')))).
Definition fdec (s s' : fstate) : {s = s'} + {s <> s'}.
Proof. decide equality; [decide equality; apply bool_dec|apply Nat.eq_dec]. Defined.
Definition fsucc (s : fstate) : list fstate :=
  let k := fst s in let a := fst (snd s) in let b := snd (snd s) in
  flat_map (fun u => flat_map (fun v =>
    if andb a u then [((k - 1)%nat, (xorb a u, xorb b v)); ((k - 1)%nat, (a, b))] else [(Nat.min (k + 1) 3, (xorb a u, xorb b v))])
    (if Nat.ltb k 3 then [true; false] else [true])) (if Nat.ltb k 3 then [true; false] else [true]).

Lemma E_pos_bind {A B} (d : dist A) (k : A -> dist B) (f : B -> R) a : is_prob d -> (forall b, 0 <= f b) -> (forall a v, In (a, v) d -> is_prob (k a)) ->
  (exists v, 0 < v /\ In (a, v) d) -> 0 < E (k a) f -> 0 < E (bind d k) f.
Proof.
  intros [Hd _] Hf Hk (v & Hv & Hin) Hp. rewrite E_bind. unfold E at 1.
  apply Rlt_le_trans with (v * E (k a) f); [apply Rmult_lt_0_compat; assumption|].
  apply (rsum_ge_term d (fun p => snd p * E (k (fst p)) f) (a, v) Hin). intros [a' v'] Ha'. cbn [fst snd].
  apply Rmult_le_pos; [apply (Hd _ Ha')|]. destruct (Hk a' v' Ha') as [Hk' _]. unfold E. apply rsum_nonneg. intros q Hq.
  apply Rmult_le_pos; [apply Hk'; exact Hq|apply Hf].
Qed.

Lemma fsucc_move s s' : In s fspace -> In s' (fsucc s) -> can_move fdec kstep s s'.
Proof.
  intros Hs H. apply in_fspace in Hs. destruct s as [k [a b]]. cbn [fst] in Hs. unfold fsucc in H. cbn [fst snd] in H.
  pose proof (kq_range k Hs) as Hq. pose proof (is_prob_bernoulli (kq k) ltac:(lra)) as HB.
  assert (Hu : forall u, In u (if Nat.ltb k 3 then [true; false] else [true]) -> exists v, 0 < v /\ In (u, v) (bernoulli (kq k))).
  { intros u Hu. destruct (Nat.ltb_spec k 3) as [Hk|Hk].
    - assert (kq k < 1) by (unfold kq; destruct k as [|[|[|k]]]; [| | |lia]; simpl; lra).
      destruct u; [exists (kq k)|exists (1 - kq k)]; (split; [lra|simpl; tauto]).
    - destruct Hu as [<-|[]]. exists (kq k). split; [lra|simpl; tauto]. }
  apply in_flat_map in H. destruct H as (u & Hu1 & H). apply in_flat_map in H. destruct H as (v & Hv1 & H).
  assert (Hnn : forall z, 0 <= (if fdec z s' then 1 else 0)) by (intros z; destruct (fdec z s'); lra).
  unfold can_move, kstep. cbn [fst snd].
  apply (E_pos_bind _ _ _ u HB Hnn); [|apply Hu; exact Hu1|].
  { intros. apply is_prob_bind; [exact HB|]. intros. destruct (andb a a0); [|apply is_prob_ret].
    apply is_prob_bind; [apply is_prob_bernoulli; lra|]. intros. apply is_prob_ret. }
  apply (E_pos_bind _ _ _ v HB Hnn); [|apply Hu; exact Hv1|].
  { intros. destruct (andb a u); [|apply is_prob_ret].
    apply is_prob_bind; [apply is_prob_bernoulli; lra|]. intros. apply is_prob_ret. }
  destruct (andb a u).
  - rewrite E_bind, E_bernoulli, !E_ret.
    destruct H as [<-|[<-|[]]].
    + destruct (fdec _ _) as [_|n]; [|congruence]. destruct (fdec _ _); lra.
    + destruct (fdec ((k - 1)%nat, (a, b)) _) as [_|n]; [|congruence]. destruct (fdec _ _); lra.
  - rewrite E_ret. destruct H as [<-|[]]. destruct (fdec _ _); [lra|congruence].
Qed.

Fixpoint freach (n : nat) (s : fstate) : list fstate :=
  match n with O => [s] | S n' => nodup fdec (flat_map fsucc (freach n' s)) end.

Lemma fsucc_in s s' : In s fspace -> In s' (fsucc s) -> In s' fspace.
Proof.
  rewrite !in_fspace. destruct s as [k [a b]]. unfold fsucc. cbn [fst snd]. intros Hs H.
  apply in_flat_map in H. destruct H as (u & _ & H). apply in_flat_map in H. destruct H as (v & _ & H).
  destruct (andb a u); [destruct H as [<-|[<-|[]]]|destruct H as [<-|[]]]; cbn [fst]; lia.
Qed.

Lemma freach_move n s : In s fspace -> forall s', In s' (freach n s) -> In s' fspace /\ can_move fdec (run_seq (fun _ => kstep) n 0) s s'.
Proof.
  intros Hs. induction n as [|n IH]; intros s' H.
  - destruct H as [<-|[]]. split; [exact Hs|]. apply move_ret.
  - cbn [freach] in H. apply nodup_In in H. apply in_flat_map in H. destruct H as (z & Hz & H). destruct (IH z Hz) as [I1 I2].
    split; [eapply fsucc_in; eassumption|].
    apply (move_snoc fdec fspace (fun _ => kstep) (fun _ => kstep_proper) n 0 s z); [exact Hs|exact I2|]. apply fsucc_move; assumption.
Qed.

Lemma freach_all : forallb (fun s => forallb (fun s' => existsb (feqb s') (freach 10 s)) fspace) fspace = true.
Proof. vm_compute. reflexivity. Qed.

Lemma kstep_converges : converges fspace kmu (fun _ => kstep).
Proof.
  apply (periodic_converges fdec fspace kmu (fun _ => kstep)) with (m := 10%nat); auto.
  - apply NoDup_list_prod; [apply seq_NoDup|]. apply NoDup_list_prod; repeat constructor; simpl; intuition discriminate.
  - intros _. exact kstep_proper.
  - lia.
  - intros _. exact kmu_invariant.
  - intros [k [a b]] _. unfold kmu. cbn [fst snd]. destruct k as [|[|[|[|k]]]], a; lra.
  - unfold fspace, kmu. cbn. lra.
  - intros x y Hx Hy. pose proof freach_all as HF. rewrite forallb_forall in HF. specialize (HF x Hx). rewrite forallb_forall in HF.
    specialize (HF y Hy). apply existsb_exists in HF. destruct HF as (z & Hz & Ez).
    assert (y = z) as ->; [|apply freach_move; assumption].
    unfold feqb in Ez. apply andb_prop in Ez. destruct Ez as [E1 E2]. apply andb_prop in E2. destruct E2 as [E2 E3].
    apply Nat.eqb_eq in E1. apply eqb_prop in E2. apply eqb_prop in E3. destruct y as [? [? ?]], z as [? [? ?]]. cbn [fst snd] in *. congruence.
Qed.

Lemma arw_limit a b : Un_cv (fun n => E (run_seq (fun _ => arw_step 0 fw3 2 2 (2 / 3)) n 0 (1, [st a b])) first_site) (1080 / 1469).
Proof.
  assert (Hin : In (0%nat, (a, b)) fspace) by (apply in_fspace; simpl; lia).
  assert (Hm : mean fspace kmu (fun s => INR (bit (fst (snd s)))) = 1080 / 1469).
  { unfold mean, fspace, kmu. cbn. field. }
  intros eps He. destruct (kstep_converges (eps / 2)) as [N HN]; [lra|]. exists N. intros n Hn. unfold R_dist.
  replace (1, [st a b]) with (embed (0%nat, (a, b))) by (unfold embed; cbn; f_equal; field).
  rewrite embed_run by exact Hin. rewrite <- Hm.
  erewrite (E_ext (run_seq (fun _ => kstep) n 0 (0%nat, (a, b))) _ (fun s : fstate => INR (bit (fst (snd s))))) by (intros [k [a' b']]; reflexivity).
  eapply Rle_lt_trans; [apply HN; [lia|exact Hin|]|lra].
  intros [k [a' b']] _. cbn [fst snd]. destruct a'; simpl; rewrite ?Rabs_R0, ?Rabs_R1; lra.
Qed.
