(** Proofs for C74: which target each sampler family converges to. *)
From Coq Require Import Reals List Lra Lia Arith ZArith Bool.
From Verif.Base Require Import RSum Cube Dist.
From Verif.Spec Require Import Chain Ergodic Grid.
From Verif.Model Require Import Lattice LatticeRun.
From Verif.Proof Require Import LatticeProof ErgodicProof ErgodicSamplers.
Import ListNotations.
Local Open Scope R_scope.

Lemma converges_limit {A} (S : list A) pi k x (f : A -> R) : converges S pi k -> In x S ->
  (forall y, In y S -> Rabs (f y) <= 1) -> Un_cv (fun n => E (run_seq k n 0 x) f) (mean S pi f).
Proof.
  intros H Hx Hf eps He. destruct (H (eps / 2)) as [N HN]; [lra|]. exists N. intros n Hn.
  unfold R_dist. eapply Rle_lt_trans; [apply HN; [lia|exact Hx|exact Hf]|lra].
Qed.

Lemma mean_ind {A} (dec : forall a b : A, {a = b} + {a <> b}) (S : list A) pi x : NoDup S -> In x S ->
  mean S pi (fun y => if dec y x then 1 else 0) = pi x / rsum S pi.
Proof.
  intros HN Hx. unfold mean. f_equal. rewrite (rsum_single S _ x HN Hx).
  - destruct (dec x x); [ring|congruence].
  - intros y _ Hy. destruct (dec y x); [congruence|ring].
Qed.

(** Targets that are not proportional are told apart by the probability of some state. *)
Lemma not_proportional_mean {A} (dec : forall a b : A, {a = b} + {a <> b}) (S : list A) p1 p2 : NoDup S ->
  0 < rsum S p1 -> 0 < rsum S p2 ->
  ~ (exists c, forall x, In x S -> p1 x = c * p2 x) ->
  exists x, In x S /\ mean S p1 (fun y => if dec y x then 1 else 0) <> mean S p2 (fun y => if dec y x then 1 else 0).
Proof.
  intros HN H1 H2 Hnp.
  destruct (Exists_dec (fun x => p1 x / rsum S p1 <> p2 x / rsum S p2) S) as [He|He].
  - intros x. destruct (Req_EM_T (p1 x / rsum S p1) (p2 x / rsum S p2)); [right; tauto|left; exact n].
  - apply Exists_exists in He. destruct He as (x & Hx & Hne). exists x. split; [exact Hx|].
    rewrite !mean_ind by assumption. exact Hne.
  - exfalso. apply Hnp. exists (rsum S p1 / rsum S p2). intros x Hx.
    destruct (Req_EM_T (p1 x / rsum S p1) (p2 x / rsum S p2)) as [E0|E0].
    + replace (p1 x) with (p1 x / rsum S p1 * rsum S p1) by (field; lra). rewrite E0. field; lra.
    + exfalso. apply He. apply Exists_exists. exists x. tauto.
Qed.

Section Mixed.
  Variables (h w : nat).
  Definition idx (p : nat * nat) : nat := (fst p * w + snd p)%nat.
  Variables (a c : nat * nat).
  Hypothesis Ha : In a (cells h w).
  Hypothesis Hc : In c (cells h w).
  Hypothesis Hac : a <> c.

  (** All sites 0 except [a] and [c]. *)
  Definition two_sites (u v : nat) : list nat :=
    map (fun k => if Nat.eqb k (idx a) then u else if Nat.eqb k (idx c) then v else 0%nat) (seq 0 (h * w)).

  Lemma in_cells p : In p (cells h w) <-> (fst p < h /\ snd p < w)%nat.
  Proof. destruct p as [i j]. unfold cells. rewrite in_prod_iff, !in_seq. simpl. lia. Qed.

  Lemma idx_lt p : In p (cells h w) -> (idx p < h * w)%nat.
  Proof. rewrite in_cells. unfold idx. intros [H1 H2]. nia. Qed.

  Lemma idx_inj p q : In p (cells h w) -> In q (cells h w) -> idx p = idx q -> p = q.
  Proof.
    rewrite !in_cells. unfold idx. destruct p as [i j], q as [i' j']. simpl. intros [? Hj] [? Hj'] E0.
    assert (i = i' /\ j = j') as [-> ->]; [|reflexivity].
    apply (Nat.div_mod_unique w); lia.
  Qed.

  Lemma two_sites_in u v : (u < 2)%nat -> (v < 2)%nat -> In (two_sites u v) (states (h * w) 2).
  Proof.
    intros Hu Hv. apply in_states. unfold two_sites. rewrite map_length, seq_length. split; [reflexivity|].
    apply Forall_forall. intros y Hy. apply in_map_iff in Hy. destruct Hy as (k & <- & _).
    destruct (k =? idx a)%nat; [lia|]. destruct (k =? idx c)%nat; lia.
  Qed.

  Lemma two_sites_nth u v p : In p (cells h w) ->
    unflat w (two_sites u v) (fst p) (snd p) = if Nat.eqb (idx p) (idx a) then u else if Nat.eqb (idx p) (idx c) then v else 0%nat.
  Proof.
    intros Hp. unfold unflat, two_sites. change (fst p * w + snd p)%nat with (idx p).
    rewrite (nth_indep _ 0%nat ((fun k => if Nat.eqb k (idx a) then u else if Nat.eqb k (idx c) then v else 0%nat) 0%nat))
      by (rewrite map_length, seq_length; apply idx_lt; exact Hp).
    rewrite (map_nth (fun k => if Nat.eqb k (idx a) then u else if Nat.eqb k (idx c) then v else 0%nat) (seq 0 (h * w)) 0%nat (idx p)). rewrite seq_nth by (apply idx_lt; exact Hp). reflexivity.
  Qed.

  Definition spin (x : list nat) (p : nat * nat) : R := 2 * INR (unflat w x (fst p) (snd p)) - 1.
  Definition mixed (F : list nat -> R) : R :=
    F (two_sites 1 1) - F (two_sites 1 0) - F (two_sites 0 1) + F (two_sites 0 0).

  Lemma mixed_pair p q : In p (cells h w) -> In q (cells h w) -> p <> q ->
    ((p = a /\ q = c) \/ (p = c /\ q = a) -> mixed (fun x => spin x p * spin x q) = 4) /\
    (~ ((p = a /\ q = c) \/ (p = c /\ q = a)) -> mixed (fun x => spin x p * spin x q) = 0).
  Proof.
    intros Hp Hq Hpq. unfold mixed, spin. rewrite !two_sites_nth by assumption.
    assert (Hia : idx a <> idx c) by (intros E0; apply Hac, idx_inj; assumption).
    split.
    - intros [[-> ->]|[-> ->]]; rewrite !Nat.eqb_refl;
        (destruct (Nat.eqb_spec (idx c) (idx a)); [congruence|]); simpl; ring.
    - intros Hn.
      destruct (Nat.eqb_spec (idx p) (idx a)) as [E1|E1]; [apply idx_inj in E1; try assumption; subst p|];
      (destruct (Nat.eqb_spec (idx q) (idx a)) as [E2|E2]; [apply idx_inj in E2; try assumption; subst q|]);
      try congruence; simpl.
      + destruct (Nat.eqb_spec (idx q) (idx c)) as [E3|E3]; [apply idx_inj in E3; try assumption; subst q; tauto|]. simpl. ring.
      + destruct (Nat.eqb_spec (idx p) (idx c)) as [E3|E3]; [apply idx_inj in E3; try assumption; subst p; tauto|]. simpl. ring.
      + destruct (Nat.eqb_spec (idx p) (idx c)); destruct (Nat.eqb_spec (idx q) (idx c)); simpl; ring.
  Qed.

  Lemma mixed_rsum {B} (L : list B) (F : B -> list nat -> R) : mixed (fun x => rsum L (fun e => F e x)) = rsum L (fun e => mixed (F e)).
  Proof. unfold mixed. rewrite !rsum_plus, !rsum_minus. reflexivity. Qed.

  Lemma mixed_scal k F : mixed (fun x => k * F x) = k * mixed F.
  Proof. unfold mixed. ring. Qed.
End Mixed.

Lemma NoDup_cells h w : NoDup (cells h w).
Proof. apply NoDup_list_prod; apply seq_NoDup. Qed.

Lemma in_h_edges h w e : In e (h_edges h w) -> In (fst e) (cells h w) /\ In (snd e) (cells h w) /\ fst (snd e) = fst (fst e) /\ snd (snd e) = S (snd (fst e)).
Proof.
  unfold h_edges. rewrite filter_In. intros [H1 H2]. destruct e as [p q]. apply in_prod_iff in H1. unfold right_of in H2. simpl in *.
  apply andb_prop in H2. destruct H2 as [H2 H3]. apply Nat.eqb_eq in H2. apply Nat.eqb_eq in H3. tauto.
Qed.
Lemma in_v_edges h w e : In e (v_edges h w) -> In (fst e) (cells h w) /\ In (snd e) (cells h w) /\ fst (snd e) = S (fst (fst e)) /\ snd (snd e) = snd (fst e).
Proof.
  unfold v_edges. rewrite filter_In. intros [H1 H2]. destruct e as [p q]. apply in_prod_iff in H1. unfold below in H2. simpl in *.
  apply andb_prop in H2. destruct H2 as [H2 H3]. apply Nat.eqb_eq in H2. apply Nat.eqb_eq in H3. tauto.
Qed.

(** The coupling part of the energy. *)
Definition coupling h w (wh wv : nat -> nat -> R) (x : list nat) : R :=
  rsum (v_edges h w) (fun e => wv (fst (fst e)) (snd (fst e)) * (spin w x (fst e) * spin w x (snd e)))
  + rsum (h_edges h w) (fun e => wh (fst (fst e)) (snd (fst e)) * (spin w x (fst e) * spin w x (snd e))).

Lemma mixed_plus h w a c F G : mixed h w a c (fun x => F x + G x) = mixed h w a c F + mixed h w a c G.
Proof. unfold mixed. ring. Qed.

Lemma mixed_coupling_h h w wh wv e : In e (h_edges h w) ->
  mixed h w (fst e) (snd e) (coupling h w wh wv) = 4 * wh (fst (fst e)) (snd (fst e)).
Proof.
  intros He. destruct (in_h_edges _ _ _ He) as (Ha & Hc & E1 & E2).
  assert (Hac : fst e <> snd e) by (intros E0; rewrite <- E0 in E2; lia).
  unfold coupling. rewrite mixed_plus, !mixed_rsum.
  rewrite rsum_const0, (rsum_single _ _ e).
  - rewrite mixed_scal. rewrite (proj1 (mixed_pair h w _ _ Ha Hc Hac _ _ Ha Hc Hac)); [ring|tauto].
  - apply NoDup_filter, NoDup_list_prod; apply NoDup_cells.
  - exact He.
  - intros e' He' Hne. destruct (in_h_edges _ _ _ He') as (Hp & Hq & E3 & E4).
    assert (Hpq : fst e' <> snd e') by (intros E0; rewrite <- E0 in E4; lia).
    rewrite mixed_scal. rewrite (proj2 (mixed_pair h w _ _ Ha Hc Hac _ _ Hp Hq Hpq)); [ring|].
    intros [[E5 E6]|[E5 E6]].
    + apply Hne. destruct e, e'. simpl in *. congruence.
    + rewrite E5, E6 in E4. lia.
  - intros e' He'. destruct (in_v_edges _ _ _ He') as (Hp & Hq & E3 & E4).
    assert (Hpq : fst e' <> snd e') by (intros E0; rewrite <- E0 in E3; lia).
    rewrite mixed_scal. rewrite (proj2 (mixed_pair h w _ _ Ha Hc Hac _ _ Hp Hq Hpq)); [ring|].
    intros [[E5 E6]|[E5 E6]]; rewrite E5, E6 in E3; lia.
Qed.

Lemma mixed_coupling_v h w wh wv e : In e (v_edges h w) ->
  mixed h w (fst e) (snd e) (coupling h w wh wv) = 4 * wv (fst (fst e)) (snd (fst e)).
Proof.
  intros He. destruct (in_v_edges _ _ _ He) as (Ha & Hc & E1 & E2).
  assert (Hac : fst e <> snd e) by (intros E0; rewrite <- E0 in E1; lia).
  unfold coupling. rewrite mixed_plus, !mixed_rsum.
  rewrite (rsum_single _ _ e), rsum_const0.
  - rewrite mixed_scal. rewrite (proj1 (mixed_pair h w _ _ Ha Hc Hac _ _ Ha Hc Hac)); [ring|tauto].
  - intros e' He'. destruct (in_h_edges _ _ _ He') as (Hp & Hq & E3 & E4).
    assert (Hpq : fst e' <> snd e') by (intros E0; rewrite <- E0 in E4; lia).
    rewrite mixed_scal. rewrite (proj2 (mixed_pair h w _ _ Ha Hc Hac _ _ Hp Hq Hpq)); [ring|].
    intros [[E5 E6]|[E5 E6]]; rewrite E5, E6 in E3; lia.
  - apply NoDup_filter, NoDup_list_prod; apply NoDup_cells.
  - exact He.
  - intros e' He' Hne. destruct (in_v_edges _ _ _ He') as (Hp & Hq & E3 & E4).
    assert (Hpq : fst e' <> snd e') by (intros E0; rewrite <- E0 in E3; lia).
    rewrite mixed_scal. rewrite (proj2 (mixed_pair h w _ _ Ha Hc Hac _ _ Hp Hq Hpq)); [ring|].
    intros [[E5 E6]|[E5 E6]].
    + apply Hne. destruct e, e'. simpl in *. congruence.
    + rewrite E5, E6 in E3. lia.
Qed.

Lemma binary_unflat w x d : In x (states d 2) -> binary (unflat w x).
Proof.
  intros Hx i j. unfold unflat. apply in_states in Hx. destruct Hx as [Hl Hf].
  destruct (Nat.lt_ge_cases (i * w + j) (length x)) as [H|H].
  - rewrite Forall_forall in Hf. apply Hf, nth_In. exact H.
  - rewrite nth_overflow by exact H. lia.
Qed.

Lemma ll_float_split h w wh wv b x :
  ising_ll_value_and_grad h w wh wv b x
  = - rsum (cells h w) (fun p => b (fst p) (snd p) * (2 * INR (unflat w x (fst p) (snd p)) - 1)) - coupling h w wh wv x.
Proof.
  unfold ising_ll_value_and_grad. rewrite ising_float_spec. cbv zeta. unfold grid_energy, coupling, spin, of_bits. ring.
Qed.

Lemma ll_int_field h w wh wv b x d : In x (states d 2) -> (forall i j, Rabs (wh i j) < 1) -> (forall i j, Rabs (wv i j) < 1) ->
  ising_ll_forward h w wh wv b x
  = - rsum (cells h w) (fun p => b (fst p) (snd p) * (2 * INR (unflat w x (fst p) (snd p)) - 1)).
Proof.
  intros Hx H1 H2. unfold ising_ll_forward. rewrite ising_int_spec by (try assumption; eapply binary_unflat; exact Hx).
  unfold grid_energy. rewrite (rsum_const0 (v_edges h w)), (rsum_const0 (h_edges h w)) by reflexivity. ring.
Qed.

Lemma states_weight_pos d C (f : list nat -> R) : (0 < C)%nat -> 0 < rsum (states d C) (fun x => exp (f x)).
Proof.
  intros HC. assert (Hin : In (repeat 0%nat d) (states d C)).
  { apply in_states. rewrite repeat_length. split; [reflexivity|]. apply Forall_forall. intros y Hy. apply repeat_spec in Hy. lia. }
  eapply Rlt_le_trans; [apply (exp_pos (f (repeat 0%nat d)))|].
  apply (rsum_ge_term (states d C) (fun x => exp (f x)) _ Hin). intros y _. left. apply exp_pos.
Qed.

(** No constant relates the two targets as soon as one edge has a non-zero coupling of modulus below one. *)
Lemma ising_not_proportional h w wh wv b :
  (forall i j, Rabs (wh i j) < 1) -> (forall i j, Rabs (wv i j) < 1) ->
  (exists e, (In e (h_edges h w) /\ wh (fst (fst e)) (snd (fst e)) <> 0) \/ (In e (v_edges h w) /\ wv (fst (fst e)) (snd (fst e)) <> 0)) ->
  ~ exists c, forall x, In x (states (h * w) 2) -> exp (ising_ll_forward h w wh wv b x) = c * exp (ising_ll_value_and_grad h w wh wv b x).
Proof.
  intros H1 H2 [e He] [k Hk].
  assert (Hcells : In (fst e) (cells h w) /\ In (snd e) (cells h w)).
  { destruct He as [[He _]|[He _]]; [apply in_h_edges in He|apply in_v_edges in He]; tauto. }
  assert (Hx : forall u v, (u < 2)%nat -> (v < 2)%nat -> coupling h w wh wv (two_sites h w (fst e) (snd e) u v) = ln k).
  { intros u v Hu Hv. set (x := two_sites h w (fst e) (snd e) u v).
    assert (Hin : In x (states (h * w) 2)) by (apply two_sites_in; assumption).
    pose proof (Hk x Hin) as E0. rewrite ll_float_split, (ll_int_field h w wh wv b x (h * w) Hin H1 H2) in E0.
    set (A := - rsum (cells h w) _) in E0. replace (A - coupling h w wh wv x) with (A + - coupling h w wh wv x) in E0 by ring.
    rewrite exp_plus in E0. pose proof (exp_pos A) as HA. pose proof (exp_pos (- coupling h w wh wv x)) as HB.
    assert (E1 : k * exp (- coupling h w wh wv x) = 1).
    { apply (Rmult_eq_reg_l (exp A)); [|lra]. lra. }
    assert (E2 : k = exp (coupling h w wh wv x)).
    { rewrite exp_Ropp in E1. pose proof (exp_pos (coupling h w wh wv x)).
      replace k with (k * / exp (coupling h w wh wv x) * exp (coupling h w wh wv x)) by (field; lra). rewrite E1. ring. }
    rewrite E2, ln_exp. reflexivity. }
  assert (Hm : mixed h w (fst e) (snd e) (coupling h w wh wv) = 0).
  { unfold mixed. rewrite !Hx by lia. ring. }
  destruct He as [[He Hn]|[He Hn]]; [rewrite (mixed_coupling_h _ _ _ _ _ He) in Hm|rewrite (mixed_coupling_v _ _ _ _ _ He) in Hm]; lra.
Qed.

(** Two convergent runs with non-proportional targets: the long-run frequency of some state differs. *)
Lemma different_limits d C f1 f2 k1 k2 : (0 < C)%nat ->
  converges (states d C) (fun x => exp (f1 x)) k1 -> converges (states d C) (fun x => exp (f2 x)) k2 ->
  ~ (exists c, forall x, In x (states d C) -> exp (f1 x) = c * exp (f2 x)) ->
  exists z, In z (states d C) /\ exists l1 l2, l1 <> l2 /\ forall x, In x (states d C) ->
    Un_cv (fun n => E (run_seq k1 n 0 x) (fun y => if list_eq_dec Nat.eq_dec y z then 1 else 0)) l1 /\
    Un_cv (fun n => E (run_seq k2 n 0 x) (fun y => if list_eq_dec Nat.eq_dec y z then 1 else 0)) l2.
Proof.
  intros HC H1 H2 Hnp.
  destruct (not_proportional_mean (list_eq_dec Nat.eq_dec) (states d C) _ _ (NoDup_states d C) (states_weight_pos d C f1 HC) (states_weight_pos d C f2 HC) Hnp) as (z & Hz & Hne).
  exists z. split; [exact Hz|]. eexists. eexists. split; [exact Hne|]. intros x Hx.
  split; apply converges_limit; try assumption; intros y _; destruct (list_eq_dec Nat.eq_dec y z); rewrite ?Rabs_R1, ?Rabs_R0; lra.
Qed.

Lemma same_limits {A} (S : list A) p1 p2 k1 k2 : (forall x, In x S -> p1 x = p2 x) -> converges S p1 k1 -> converges S p2 k2 ->
  forall f, (forall y, In y S -> Rabs (f y) <= 1) -> exists l, forall x, In x S ->
  Un_cv (fun n => E (run_seq k1 n 0 x) f) l /\ Un_cv (fun n => E (run_seq k2 n 0 x) f) l.
Proof.
  intros He H1 H2 f Hf. exists (mean S p1 f). intros x Hx. split; [apply converges_limit; assumption|].
  replace (mean S p1 f) with (mean S p2 f); [apply converges_limit; assumption|].
  unfold mean. rewrite (rsum_ext S p2 p1) by (intros y Hy; symmetry; apply He, Hy). f_equal. apply rsum_ext. intros y Hy. rewrite (He y Hy). reflexivity.
Qed.

Lemma mean_ext {A} (S : list A) p1 p2 f : (forall x, In x S -> p1 x = p2 x) -> mean S p1 f = mean S p2 f.
Proof.
  intros He. unfold mean. rewrite (rsum_ext S p1 p2 He). f_equal. apply rsum_ext. intros y Hy. rewrite (He y Hy). reflexivity.
Qed.

Lemma converges_target {A} (S : list A) p1 p2 k : (forall x, In x S -> p1 x = p2 x) -> converges S p1 k -> converges S p2 k.
Proof.
  intros He H eps Heps. destruct (H eps Heps) as [N HN]. exists N. intros n x f Hn Hx Hf.
  rewrite <- (mean_ext S p1 p2 f He). apply HN; assumption.
Qed.

Lemma potts_same h w C wh wv b x : potts_ll_forward h w C wh wv b x = potts_ll_value_and_grad h w C wh wv b x.
Proof. reflexivity. Qed.

Lemma ising_same_integral h w (zh zv : nat -> nat -> Z) b x d : In x (states d 2) ->
  ising_ll_forward h w (fun i j => IZR (zh i j)) (fun i j => IZR (zv i j)) b x
  = ising_ll_value_and_grad h w (fun i j => IZR (zh i j)) (fun i j => IZR (zv i j)) b x.
Proof. intros Hx. apply ising_int_integral. eapply binary_unflat; exact Hx. Qed.

Lemma ising_same_zero h w b x d : In x (states d 2) ->
  ising_ll_forward h w (fun _ _ => 0) (fun _ _ => 0) b x = ising_ll_value_and_grad h w (fun _ _ => 0) (fun _ _ => 0) b x.
Proof. exact (ising_same_integral h w (fun _ _ => 0%Z) (fun _ _ => 0%Z) b x d). Qed.

(** The two-site lattice, zero field. *)
Definition aligned (x : list nat) : R := if Nat.eqb (nth 0 x 0%nat) (nth 1 x 0%nat) then 1 else 0.

Lemma aligned_bound y : Rabs (aligned y) <= 1.
Proof. unfold aligned. destruct (_ =? _)%nat; rewrite ?Rabs_R1, ?Rabs_R0; lra. Qed.

Lemma two_site_int lambdaa x : Rabs lambdaa < 1 -> In x (states 2 2) ->
  ising_ll_forward 1 2 (ising_wh lambdaa) (ising_wh lambdaa) (fun _ _ => 0) x = 0.
Proof.
  intros Hl Hx. assert (Hw : forall i j, Rabs (ising_wh lambdaa i j) < 1).
  { intros i j. unfold ising_wh. rewrite Rmult_1_r, Rabs_Ropp. exact Hl. }
  rewrite (ll_int_field _ _ _ _ _ x 2 Hx Hw Hw). rewrite rsum_const0; [ring|]. intros; ring.
Qed.

Lemma two_site_float lambdaa x : In x (states 2 2) ->
  ising_ll_value_and_grad 1 2 (ising_wh lambdaa) (ising_wh lambdaa) (fun _ _ => 0) x = lambdaa * (2 * aligned x - 1).
Proof.
  intros Hx. rewrite ll_float_split. unfold coupling, cells, v_edges, h_edges, spin, ising_wh, unflat, aligned. simpl in Hx.
  repeat (destruct Hx as [<-|Hx]; [cbn; ring|]). destruct Hx.
Qed.

Lemma two_site_means lambdaa : Rabs lambdaa < 1 ->
  mean (states 2 2) (fun x => exp (ising_ll_forward 1 2 (ising_wh lambdaa) (ising_wh lambdaa) (fun _ _ => 0) x)) aligned = / 2 /\
  mean (states 2 2) (fun x => exp (ising_ll_value_and_grad 1 2 (ising_wh lambdaa) (ising_wh lambdaa) (fun _ _ => 0) x)) aligned
  = exp lambdaa / (exp lambdaa + exp (- lambdaa)).
Proof.
  intros Hl. split.
  - rewrite (mean_ext _ _ (fun _ => 1)) by (intros x Hx; rewrite two_site_int by assumption; apply exp_0).
    unfold mean, aligned. cbn. field.
  - rewrite (mean_ext _ _ (fun x => exp (lambdaa * (2 * aligned x - 1)))) by (intros x Hx; rewrite two_site_float by assumption; reflexivity).
    unfold mean, aligned. cbn.
    replace (lambdaa * (2 * 1 - 1)) with lambdaa by ring. replace (lambdaa * (2 * 0 - 1)) with (- lambdaa) by ring.
    pose proof (exp_pos lambdaa). pose proof (exp_pos (- lambdaa)). field. split; lra.
Qed.
