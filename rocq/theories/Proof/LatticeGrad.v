(** Gradient scores of the lattice models. *)
From Coq Require Import Reals List Lra Lia Arith.
From Verif.Base Require Import RSum.
From Verif.Spec Require Import Grid.
From Verif.Model Require Import Lattice.
From Verif.Proof Require Import LatticeProof AffineProof.
Import ListNotations.
Local Open Scope R_scope.

Lemma affine_put2 x i j i' j' : affine (fun t => put2 x i j t i' j').
Proof. unfold put2. destruct (andb _ _); [apply affine_id|apply affine_const]. Qed.

Lemma put2_pair x i j a a' : a <> a' ->
  (forall t t', put2 x i j t (fst a) (snd a) = put2 x i j t' (fst a) (snd a)) \/
  (forall t t', put2 x i j t (fst a') (snd a') = put2 x i j t' (fst a') (snd a')).
Proof.
  intros Hne. unfold put2. destruct (andb (Nat.eqb (fst a) i) (Nat.eqb (snd a) j)) eqn:E; [|left; reflexivity].
  destruct (andb (Nat.eqb (fst a') i) (Nat.eqb (snd a') j)) eqn:E'; [|right; reflexivity].
  apply andb_prop in E, E'. rewrite !Nat.eqb_eq in E, E'. destruct a, a'. simpl in *. exfalso. apply Hne. f_equal; lia.
Qed.

Lemma affine_grid h w (field : nat * nat -> R -> R) (vert horiz : nat * nat -> nat * nat -> R -> R) :
  (forall a, affine (field a)) -> (forall a a', a <> a' -> affine (vert a a')) -> (forall a a', a <> a' -> affine (horiz a a')) ->
  affine (fun t => grid_energy h w (fun a => field a t) (fun a a' => vert a a' t) (fun a a' => horiz a a' t)).
Proof.
  intros Hf Hv Hh. unfold grid_energy. apply affine_opp. apply affine_plus; [apply affine_plus|].
  - apply affine_rsum. auto.
  - apply (affine_rsum _ (fun e t => vert (fst e) (snd e) t)). intros [a a'] He. apply Hv. apply filter_In in He. destruct He as [_ He].
    unfold below in He. cbn [fst snd] in *. intros ->. apply andb_prop in He. rewrite !Nat.eqb_eq in He. lia.
  - apply (affine_rsum _ (fun e t => horiz (fst e) (snd e) t)). intros [a a'] He. apply Hh. apply filter_In in He. destruct He as [_ He].
    unfold right_of in He. cbn [fst snd] in *. intros ->. apply andb_prop in He. rewrite !Nat.eqb_eq in He. lia.
Qed.

Lemma ising_affine h w wh wv b x i j : affine (fun t => ising_forward as_float h w wh wv b (put2 x i j t)).
Proof.
  eapply affine_ext; [intros t; symmetry; apply ising_float_spec|]. cbv zeta.
  assert (Hs : forall a : nat * nat, affine (fun t => 2 * put2 x i j t (fst a) (snd a) - 1)).
  { intros a. apply affine_minus; [|apply affine_const]. apply affine_scal, affine_put2. }
  assert (He : forall (W : R) (a a' : nat * nat), a <> a' ->
     affine (fun t => W * ((2 * put2 x i j t (fst a) (snd a) - 1) * (2 * put2 x i j t (fst a') (snd a') - 1)))).
  { intros W a a' Hne. apply affine_scal. destruct (put2_pair x i j a a' Hne) as [H|H].
    - apply affine_mult_l; auto. intros t t'. rewrite (H t t'). reflexivity.
    - apply affine_mult_r; auto. intros t t'. rewrite (H t t'). reflexivity. }
  apply (affine_grid h w (fun a t => b (fst a) (snd a) * (2 * put2 x i j t (fst a) (snd a) - 1))
           (fun a a' t => wv (fst a) (snd a) * ((2 * put2 x i j t (fst a) (snd a) - 1) * (2 * put2 x i j t (fst a') (snd a') - 1)))
           (fun a a' t => wh (fst a) (snd a) * ((2 * put2 x i j t (fst a) (snd a) - 1) * (2 * put2 x i j t (fst a') (snd a') - 1)))); auto.
  intros a. apply affine_scal, Hs.
Qed.

Lemma ising_ext cast h w wh wv b x y : (forall i j, x i j = y i j) -> ising_forward cast h w wh wv b x = ising_forward cast h w wh wv b y.
Proof.
  intros H. unfold ising_forward. f_equal. apply sum2_ext. intros i j _ _. rewrite H. f_equal. f_equal. f_equal.
  unfold ising_message, set_at. rewrite !H. reflexivity.
Qed.

Theorem ising_grad_exact h w wh wv b x i j g : binary x ->
  derivable_pt_lim (fun t => ising_forward as_float h w wh wv b (put2 (of_bits x) i j t)) (of_bits x i j) g ->
  (1 - 2 * of_bits x i j) * g
  = ising_forward as_float h w wh wv b (of_bits (flip2 x i j)) - ising_forward as_float h w wh wv b (of_bits x).
Proof.
  intros Hx Hd. pose proof (affine_derivative _ _ _ (ising_affine h w wh wv b (of_bits x) i j) Hd (of_bits x i j) (1 - of_bits x i j)) as H.
  cbv beta in H.
  rewrite (ising_ext _ _ _ _ _ _ (put2 (of_bits x) i j (1 - of_bits x i j)) (of_bits (flip2 x i j))) in H.
  - rewrite (ising_ext _ _ _ _ _ _ (put2 (of_bits x) i j (of_bits x i j)) (of_bits x)) in H.
    + rewrite H. ring.
    + intros i' j'. unfold put2. destruct (andb _ _) eqn:E; auto. apply andb_prop in E. rewrite !Nat.eqb_eq in E. destruct E; subst; auto.
  - intros i' j'. unfold put2, of_bits, flip2. destruct (andb _ _) eqn:E; auto. apply andb_prop in E. rewrite !Nat.eqb_eq in E.
    destruct E; subst. specialize (Hx i j). rewrite minus_INR by lia. reflexivity.
Qed.

(** Potts: difference of two gradient entries of one site. *)
Lemma potts_ext cast h w C wh wv b x y : (forall i j c, x i j c = y i j c) ->
  potts_forward_onehot cast h w C wh wv b x = potts_forward_onehot cast h w C wh wv b y.
Proof.
  intros H. unfold potts_forward_onehot. f_equal. apply rsum_ext. intros i _. apply rsum_ext. intros j _. apply rsum_ext. intros c _.
  rewrite H. f_equal. f_equal. f_equal. unfold potts_message, set_at3. rewrite !H. reflexivity.
Qed.

Lemma affine_put3 x i j c i' j' c' : affine (fun t => put3 x i j c t i' j' c').
Proof. unfold put3. destruct (andb _ _); [apply affine_id|apply affine_const]. Qed.

Lemma put3_pair x i j c a a' c' : a <> a' ->
  (forall t t', put3 x i j c t (fst a) (snd a) c' = put3 x i j c t' (fst a) (snd a) c') \/
  (forall t t', put3 x i j c t (fst a') (snd a') c' = put3 x i j c t' (fst a') (snd a') c').
Proof.
  intros Hne. unfold put3. destruct (andb (Nat.eqb (fst a) i) (Nat.eqb (snd a) j)) eqn:E; [|left; reflexivity].
  destruct (andb (Nat.eqb (fst a') i) (Nat.eqb (snd a') j)) eqn:E'; [|right; reflexivity].
  apply andb_prop in E, E'. rewrite !Nat.eqb_eq in E, E'. destruct a, a'. simpl in *. exfalso. apply Hne. f_equal; lia.
Qed.

Lemma potts_affine h w C wh wv b x i j c : affine (fun t => potts_forward_onehot as_float h w C wh wv b (put3 x i j c t)).
Proof.
  eapply affine_ext; [intros t; symmetry; apply potts_onehot_spec|].
  assert (He : forall (W : nat -> R) (a a' : nat * nat), a <> a' ->
     affine (fun t => rsum (seq 0 C) (fun c' => W c' * (put3 x i j c t (fst a) (snd a) c' * put3 x i j c t (fst a') (snd a') c')))).
  { intros W a a' Hne. apply (affine_rsum _ (fun c' t => W c' * (put3 x i j c t (fst a) (snd a) c' * put3 x i j c t (fst a') (snd a') c'))).
    intros c' _. apply affine_scal. destruct (put3_pair x i j c a a' c' Hne) as [H|H].
    - apply affine_mult_l; auto. apply affine_put3.
    - apply affine_mult_r; auto. apply affine_put3. }
  apply (affine_grid h w (fun a t => rsum (seq 0 C) (fun c' => b (fst a) (snd a) c' * put3 x i j c t (fst a) (snd a) c'))
     (fun a a' t => rsum (seq 0 C) (fun c' => wv (fst a) (snd a) c' * (put3 x i j c t (fst a) (snd a) c' * put3 x i j c t (fst a') (snd a') c')))
     (fun a a' t => rsum (seq 0 C) (fun c' => wh (fst a) (snd a) c' * (put3 x i j c t (fst a) (snd a) c' * put3 x i j c t (fst a') (snd a') c')))); auto.
  intros a. apply (affine_rsum _ (fun c' t => b (fst a) (snd a) c' * put3 x i j c t (fst a) (snd a) c')).
  intros c' _. apply affine_scal, affine_put3.
Qed.

(** Moving the unit of a site from one category to another: the two coordinates do not interact. *)
Lemma potts_cross h w C wh wv b (x : arr3) i j c c' t t' : c <> c' ->
  potts_forward_onehot as_float h w C wh wv b (put3 (put3 x i j c t) i j c' t')
  = potts_forward_onehot as_float h w C wh wv b (put3 x i j c t) + potts_forward_onehot as_float h w C wh wv b (put3 x i j c' t')
    - potts_forward_onehot as_float h w C wh wv b x.
Proof.
  intros Hne. rewrite !potts_onehot_spec. unfold grid_energy.
  assert (Hp : forall i' j' k, put3 (put3 x i j c t) i j c' t' i' j' k = put3 x i j c t i' j' k + put3 x i j c' t' i' j' k - x i' j' k).
  { intros i' j' k. unfold put3. destruct (andb (Nat.eqb i' i) (Nat.eqb j' j)); cbn [andb]; [|ring].
    destruct (Nat.eqb_spec k c); destruct (Nat.eqb_spec k c'); subst; try congruence; ring. }
  assert (Hq : forall (a a' : nat * nat) k, a <> a' ->
     put3 (put3 x i j c t) i j c' t' (fst a) (snd a) k * put3 (put3 x i j c t) i j c' t' (fst a') (snd a') k
     = put3 x i j c t (fst a) (snd a) k * put3 x i j c t (fst a') (snd a') k
       + put3 x i j c' t' (fst a) (snd a) k * put3 x i j c' t' (fst a') (snd a') k - x (fst a) (snd a) k * x (fst a') (snd a') k).
  { intros [p q] [p' q'] k Hn. cbn [fst snd]. unfold put3.
    destruct (andb (Nat.eqb p i) (Nat.eqb q j)) eqn:E; destruct (andb (Nat.eqb p' i) (Nat.eqb q' j)) eqn:E'; cbn [andb].
    - apply andb_prop in E, E'. rewrite !Nat.eqb_eq in E, E'. exfalso. apply Hn. f_equal; lia.
    - destruct (Nat.eqb_spec k c); destruct (Nat.eqb_spec k c'); subst; try congruence; ring.
    - destruct (Nat.eqb_spec k c); destruct (Nat.eqb_spec k c'); subst; try congruence; ring.
    - ring. }
  assert (Hs : forall (l : list nat) (W A B D F : nat -> R), (forall k, A k = B k + D k - F k) ->
     rsum l (fun k => W k * A k) = rsum l (fun k => W k * B k) + rsum l (fun k => W k * D k) - rsum l (fun k => W k * F k)).
  { intros l W A B D F HA. rewrite <- rsum_plus, <- rsum_minus. apply rsum_ext. intros k _. rewrite HA. ring. }
  assert (Hl : forall {X} (l : list X) (A B D F : X -> R), (forall a, In a l -> A a = B a + D a - F a) -> rsum l A = rsum l B + rsum l D - rsum l F).
  { intros X l A B D F HA. rewrite <- rsum_plus, <- rsum_minus. apply rsum_ext. auto. }
  set (y1 := put3 x i j c t) in *. set (y2 := put3 x i j c' t') in *. set (y3 := put3 y1 i j c' t') in *.
  pose (FC := fun (y : arr3) (a : nat * nat) => rsum (seq 0 C) (fun k => b (fst a) (snd a) k * y (fst a) (snd a) k)).
  pose (FE := fun (W : arr3) (y : arr3) (e : (nat * nat) * (nat * nat)) => rsum (seq 0 C) (fun k => W (fst (fst e)) (snd (fst e)) k * (y (fst (fst e)) (snd (fst e)) k * y (fst (snd e)) (snd (snd e)) k))).
  assert (H1 : rsum (cells h w) (FC y3) = rsum (cells h w) (FC y1) + rsum (cells h w) (FC y2) - rsum (cells h w) (FC x)).
  { apply Hl. intros a _. unfold FC. apply Hs. intros k. apply Hp. }
  assert (H2 : rsum (v_edges h w) (FE wv y3) = rsum (v_edges h w) (FE wv y1) + rsum (v_edges h w) (FE wv y2) - rsum (v_edges h w) (FE wv x)).
  { apply Hl. intros [a a'] He. unfold FE. cbn [fst snd]. apply Hs. intros k. apply Hq. apply filter_In in He. destruct He as [_ He].
    unfold below in He. cbn [fst snd] in *. intros ->. apply andb_prop in He. rewrite !Nat.eqb_eq in He. lia. }
  assert (H3 : rsum (h_edges h w) (FE wh y3) = rsum (h_edges h w) (FE wh y1) + rsum (h_edges h w) (FE wh y2) - rsum (h_edges h w) (FE wh x)).
  { apply Hl. intros [a a'] He. unfold FE. cbn [fst snd]. apply Hs. intros k. apply Hq. apply filter_In in He. destruct He as [_ He].
    unfold right_of in He. cbn [fst snd] in *. intros ->. apply andb_prop in He. rewrite !Nat.eqb_eq in He. lia. }
  change (- (rsum (cells h w) (FC y3) + rsum (v_edges h w) (FE wv y3) + rsum (h_edges h w) (FE wh y3))
          = - (rsum (cells h w) (FC y1) + rsum (v_edges h w) (FE wv y1) + rsum (h_edges h w) (FE wh y1))
            + - (rsum (cells h w) (FC y2) + rsum (v_edges h w) (FE wv y2) + rsum (h_edges h w) (FE wh y2))
            - - (rsum (cells h w) (FC x) + rsum (v_edges h w) (FE wv x) + rsum (h_edges h w) (FE wh x))).
  rewrite H1, H2, H3. ring.
Qed.

Theorem potts_grad_exact h w C wh wv b x i j v g g' : 
  derivable_pt_lim (fun t => potts_forward_onehot as_float h w C wh wv b (put3 (one_hot2 x) i j v t)) (one_hot2 x i j v) g ->
  derivable_pt_lim (fun t => potts_forward_onehot as_float h w C wh wv b (put3 (one_hot2 x) i j (x i j) t)) (one_hot2 x i j (x i j)) g' ->
  g - g' = potts_forward h w C wh wv b (set2 x i j v) - potts_forward h w C wh wv b x.
Proof.
  intros Hg Hg'. unfold potts_forward.
  destruct (Nat.eq_dec v (x i j)) as [->|Hne].
  - rewrite (uniqueness_limite _ _ _ _ Hg Hg').
    rewrite (potts_ext as_float h w C wh wv b (one_hot2 (set2 x i j (x i j))) (one_hot2 x)); [ring|].
    intros i' j' c'. unfold one_hot2, set2. destruct (andb _ _) eqn:E; auto. apply andb_prop in E. rewrite !Nat.eqb_eq in E. destruct E; subst; auto.
  - pose proof (affine_derivative _ _ _ (potts_affine h w C wh wv b (one_hot2 x) i j v) Hg (one_hot2 x i j v) 1) as H1.
    pose proof (affine_derivative _ _ _ (potts_affine h w C wh wv b (one_hot2 x) i j (x i j)) Hg' (one_hot2 x i j (x i j)) 0) as H2.
    cbv beta in H1, H2.
    assert (Hsame : forall k, potts_forward_onehot as_float h w C wh wv b (put3 (one_hot2 x) i j k (one_hot2 x i j k))
                              = potts_forward_onehot as_float h w C wh wv b (one_hot2 x)).
    { intros k. apply potts_ext. intros i' j' c'. unfold put3. destruct (andb (andb _ _) _) eqn:E; auto.
      apply andb_prop in E. destruct E as [E E3]. apply andb_prop in E. rewrite !Nat.eqb_eq in *. destruct E; subst; auto. }
    rewrite !Hsame in H1, H2.
    assert (Hv : one_hot2 x i j v = 0) by (unfold one_hot2; destruct (Nat.eqb_spec (x i j) v); congruence).
    assert (Hc : one_hot2 x i j (x i j) = 1) by (unfold one_hot2; rewrite Nat.eqb_refl; auto).
    rewrite Hv in H1. rewrite Hc in H2.
    rewrite (potts_ext as_float h w C wh wv b (one_hot2 (set2 x i j v)) (put3 (put3 (one_hot2 x) i j (x i j) 0) i j v 1)).
    + rewrite potts_cross by auto. lra.
    + intros i' j' c'. unfold one_hot2, set2, put3. destruct (andb (Nat.eqb i' i) (Nat.eqb j' j)) eqn:E; cbn [andb]; auto.
      apply andb_prop in E. rewrite !Nat.eqb_eq in E. destruct E; subst.
      rewrite (Nat.eqb_sym c' v), (Nat.eqb_sym c' (x i j)). destruct (Nat.eqb_spec v c'); auto.
      destruct (Nat.eqb_spec (x i j) c'); auto.
Qed.
